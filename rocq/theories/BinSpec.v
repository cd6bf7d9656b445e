(** Specification of binned data sets (C06-C11). *)
From Coq Require Import List ZArith Bool Reals.
From Verif Require Import F64 VariableModel DataSetModel BinModel.
Import ListNotations.
Open Scope Z_scope.

(** ** Numbering of bins: mixed-radix numbers, first observable fastest. *)
Definition zproduct (l : list Z) : Z := fold_right Z.mul 1 l.
(** Local bin along observable i of the global bin g. *)
Definition local_of (sizes : list Z) (g : Z) (i : nat) : Z :=
  (g / zproduct (firstn i sizes)) mod (nth i sizes 1).
(** Global bin of a list of local bins: the sum of local bin times the product of the earlier bin counts. *)
Definition global_of (sizes locals : list Z) : Z :=
  fold_right Z.add 0 (map (fun i => nth i locals 0 * zproduct (firstn i sizes)) (seq 0 (length locals))).

(** ** Histories through the API only. *)
Definition bafter (hp : heap) (obs : list handle) (ops : list bop) : heap * binned :=
  fst (brun (hp, new_binned hp obs) ops).
Definition ask (st : heap * binned) (q : bop) : bout := snd (bstep st q).

(** What a history did to the contents: an event of weight w went to bin k, or bin k was overwritten.  The bin of an
    event is what getBinNumber() answers when asked right after the event was added. *)
Inductive entry : Type := Fill (k : Z) (w : f64) | Put (k : Z) (x : f64).
Definition entry_of (st : heap * binned) (o : bop) : list entry :=
  match ask st o with
  | BROk =>
      match o with
      | BAddEvent | BAddEventValues _ =>
          match ask (fst (bstep st o)) BGetBinNumber with BRNum k => [Fill k fone] | _ => [] end
      | BAddWeighted w =>
          match ask (fst (bstep st o)) BGetBinNumber with BRNum k => [Fill k w] | _ => [] end
      | BSetContent k x => [Put (Z.of_nat k) x]
      | _ => []
      end
  | _ => []
  end.
Fixpoint entries (st : heap * binned) (ops : list bop) : list entry :=
  match ops with
  | [] => []
  | o :: t => entry_of st o ++ entries (fst (bstep st o)) t
  end.

(** Sum of the weights that went to bin b since it was last overwritten, in double arithmetic. *)
Definition content_of (log : list entry) (b : Z) : f64 :=
  fold_left (fun acc e => match e with
                          | Fill k w => if k =? b then fadd acc w else acc
                          | Put k x => if k =? b then x else acc end) log fzero.
Definition is_fill (e : entry) : bool := match e with Fill _ _ => true | Put _ _ => false end.
Definition fills_of (log : list entry) : nat := length (filter is_fill log).

(** Only unweighted events, nothing overwritten. *)
Definition plain (o : bop) : bool := match o with BAddWeighted _ | BSetContent _ _ => false | _ => true end.
Definition sets_error (o : bop) : bool := match o with BSetError _ _ => true | _ => false end.
Definition changes_something (o : bop) : bool :=
  match o with BAddEvent | BAddEventValues _ | BAddWeighted _ | BSetContent _ _ | BSetError _ _ => true | _ => false end.

(** ** Geometry of the bins, in real numbers. *)
Open Scope R_scope.
Definition width (lo up : R) (n : Z) : R := (up - lo) / IZR n.
Definition edge (lo up : R) (n k : Z) : R := lo + IZR k * width lo up n.
Definition midpoint (lo up : R) (n k : Z) : R := lo + (IZR k + /2) * width lo up n.

(** Limits and bin count for which the arithmetic on bins neither overflows nor underflows. *)
Definition usable (lo up : f64) (n : Z) : Prop :=
  f_isfinite lo = true /\ f_isfinite up = true /\ (1 <= n <= 2 ^ 32)%Z /\
  - 2 ^ 1021 <= f2R lo /\ f2R lo < f2R up /\ f2R up <= 2 ^ 1021 /\
  / 2 ^ 1000 <= width (f2R lo) (f2R up) n.

(** Safety margin against rounding, as a fraction of a bin: n * 2^-50. *)
Definition margin (n : Z) : R := IZR n / 2 ^ 50.

(** v lies in bin k, at least the margin away from the edges between bins. *)
Definition inside (lo up : f64) (n k : Z) (v : f64) : Prop :=
  f_isfinite v = true /\ (0 <= k < n)%Z /\
  ((k = 0%Z /\ f2R lo <= f2R v) \/
   edge (f2R lo) (f2R up) n k + margin n * width (f2R lo) (f2R up) n <= f2R v) /\
  f2R v <= edge (f2R lo) (f2R up) n (k + 1) - margin n * width (f2R lo) (f2R up) n.

(** Volume of the box spanned by the limits, and of one bin. *)
Definition box (hp : heap) (obs : list handle) : R :=
  fold_right (fun o acc => (f2R (get_f hp o FUpper) - f2R (get_f hp o FLower)) * acc) 1 obs.
Fixpoint bin_volume (hp : heap) (obs : list handle) (sizes : list Z) : R :=
  match obs, sizes with
  | o :: os, n :: ns => width (f2R (get_f hp o FLower)) (f2R (get_f hp o FUpper)) n * bin_volume hp os ns
  | _, _ => 1
  end.
Definition obs_usable (hp : heap) (o : handle) (n : Z) : Prop := usable (get_f hp o FLower) (get_f hp o FUpper) n.
Definition obs_inside (hp : heap) (o : handle) (nk : Z * Z) : Prop :=
  inside (get_f hp o FLower) (get_f hp o FUpper) (fst nk) (snd nk) (get_f hp o FValue).
(** The limits are not so large that a bin is lost in their rounding. *)
Definition resolved (lo up : f64) (n : Z) : Prop :=
  Rmax (Rabs (f2R lo)) (Rabs (f2R up)) <= 2 ^ 46 * width (f2R lo) (f2R up) n.
