(** Sums and products of densities over the real numbers: what AddPdf and ProdPdf are supposed to compute, and sums over the
    cells of a grid in any number of dimensions. *)
From Coq Require Import List Reals.
From Verif Require Import F64 Reduce.
Import ListNotations.

(** The formulas of AddPdf and ProdPdf in any arithmetic, so that the same text can be read in floating point (the code)
    and in the real numbers (the claim). *)
Record arith (T : Type) := Arith { zero : T; one : T; add : T -> T -> T; sub : T -> T -> T; mul : T -> T -> T; div : T -> T -> T }.
Arguments zero {T}. Arguments one {T}. Arguments add {T}. Arguments sub {T}. Arguments mul {T}. Arguments div {T}.
Definition f64_arith : arith f64 := Arith f64 fzero fone fadd fsub fmul fdiv.
Definition R_arith : arith R := Arith R 0%R 1%R Rplus Rminus Rmult Rdiv.

Section In.
Context {T : Type} (A : arith T).
(** Sum of weight * value * norm and sum of the weights, added from the left. *)
Fixpoint weighted_in (ws : list T) (vs : list (T * T)) (sum total : T) : T * T :=
  match ws, vs with
  | w :: ws', (v, n) :: vs' => weighted_in ws' vs' (add A sum (mul A (mul A w v) n)) (add A total w)
  | _, _ => (sum, total)
  end.
(** N components given as (value, normalisation factor).  N weights: weighted mean; N-1 weights: the last component has the
    weight 1 - (sum of the others). *)
Definition add_in (ws : list T) (vs : list (T * T)) : option T :=
  let '(sum, total) := weighted_in ws vs (zero A) (zero A) in
  if Nat.eqb (List.length ws) (List.length vs) then Some (div A sum total)
  else match nth_error vs (List.length ws) with
       | Some (v, n) => Some (add A sum (mul A (mul A (sub A (one A) total) v) n))
       | None => None
       end.
Definition prod_in (vs : list (T * T)) : T := fold_left (fun r p => mul A r (mul A (fst p) (snd p))) vs (one A).
End In.

Open Scope R_scope.
(** A point gives a value to every observable (numbered). *)
Definition point := nat -> R.
Definition set_pt (p : point) (o : nat) (c : R) : point := fun i => if Nat.eqb i o then c else p i.
(** One dimension of the grid: the observable, the width of its cells and their centres. *)
Definition axis : Type := (nat * R * list R)%type.
Definition ax_obs (a : axis) : nat := fst (fst a).
(** Sum over all cells of the grid of volume * f(centre), for the axes in turn. *)
Fixpoint grid_sum (axes : list axis) (f : point -> R) (p : point) : R :=
  match axes with
  | [] => f p
  | (o, w, cs) :: t => Rsum (map (fun c => w * grid_sum t f (set_pt p o c)) cs)
  end.
Definition origin_pt : point := fun _ => 0.
Definition integral_over (axes : list axis) (f : point -> R) : R := grid_sum axes f origin_pt.

(** A component: density and normalisation factor. *)
Definition comp : Type := ((point -> R) * R)%type.
Definition unit_over (axes : list axis) (c : comp) : Prop := integral_over axes (fun p => fst c p * snd c) = 1.
Definition at_pt (p : point) (cs : list comp) : list (R * R) := map (fun c => (fst c p, snd c)) cs.
(** AddPdf over the reals; 0 if the number of weights does not match. *)
Definition mixture (ws : list R) (cs : list comp) (p : point) : R :=
  match add_in R_arith ws (at_pt p cs) with Some v => v | None => 0 end.
Definition product (cs : list comp) (p : point) : R := prod_in R_arith (at_pt p cs).
(** f looks only at the observables of these axes. *)
Definition depends_on (axes : list axis) (f : point -> R) : Prop :=
  forall p q, (forall a, In a axes -> p (ax_obs a) = q (ax_obs a)) -> f p = f q.
Definition disjoint_axes (a b : list axis) : Prop := forall x y, In x a -> In y b -> ax_obs x <> ax_obs y.
