(** Specification of fillWithGrid (C04): the grid of bin centres as mixed-radix numbers. *)
From Coq Require Import List ZArith Bool Arith.
From Verif Require Import F64 VariableModel DataSetModel.
Import ListNotations.

(** Bin count of an observable. *)
Definition nbins (hp : heap) (o : handle) : nat := Z.to_nat (get_n hp o FNumBins).

Definition product (l : list nat) : nat := fold_right Nat.mul 1 l.

(** The observables that span the grid: all but the event numbers. *)
Definition spanning (obs : list handle) : list handle := filter (fun o => negb (isEventNumber o)) obs.

(** Number of grid points, and the stride of the j-th observable (product of the earlier bin counts). *)
Definition grid_size (hp : heap) (obs : list handle) : nat := product (map (nbins hp) (spanning obs)).
Definition stride (hp : heap) (obs : list handle) (j : nat) : nat := grid_size hp (firstn j obs).

(** The value x, x+1, x+1+1, ... (in double arithmetic). *)
Definition count_from (x : f64) (k : nat) : f64 := Nat.iter k (fun y => fadd y fone) x.

(** Coordinate of grid event k along observable o, which is the j-th one. *)
Definition grid_coordinate (hp : heap) (obs : list handle) (k j : nat) (o : handle) : f64 :=
  if isEventNumber o
  then match last_event_number obs with
       | Some e => if handle_eqb e o then count_from (get_f hp o FValue) k else get_f hp o FValue
       | None => get_f hp o FValue
       end
  else grid_point (get_f hp o FLower) (get_f hp o FUpper) (get_n hp o FNumBins)
                  ((k / stride hp obs j) mod nbins hp o).

Definition grid_event (hp : heap) (obs : list handle) (k : nat) : list f64 :=
  map (fun p => grid_coordinate hp obs k (fst p) (snd p)) (combine (seq 0 (length obs)) obs).

(** Different observables are different quantities, each stored in its own cells. *)
Definition separated (hp : heap) (obs : list handle) : Prop :=
  NoDup (map h_value obs) /\
  (forall o, In o obs -> (exists v, get_field hp o FValue = Some (CF v)) /\
                         (exists lo, get_field hp o FLower = Some (CF lo)) /\
                         (exists up, get_field hp o FUpper = Some (CF up)) /\
                         (exists nb, get_field hp o FNumBins = Some (CN nb))) /\
  (forall o o' f, In o obs -> In o' obs -> f <> FValue -> ptr_of o' f <> Some (h_value o)).
