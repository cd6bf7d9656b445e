(** What the user of a cubic spline relies on, in exact arithmetic. *)
From Coq Require Import Reals List.
From Coquelicot Require Import Coquelicot.
From Verif Require Import FormulaSpec SplineModel.
Import ListNotations.
Open Scope R_scope.

(** Knots in increasing order. *)
Definition increasing (l : list R) : Prop := forall i j, (i < j < length l)%nat -> nth i l 0 < nth j l 0.
(** Twice continuously differentiable between a and b. *)
Definition smooth_between (f : R -> R) (a b : R) : Prop :=
  exists f1 f2 : R -> R, forall m, a < m < b -> is_derive f m (f1 m) /\ is_derive f1 m (f2 m) /\ continuous f2 m.
(** The real and the imaginary part of the spline as functions of the mass it depends on. *)
Definition re_of (t : list (R * R)) (s : spline (T := R)) (m : R) : R := match value R_ops t s m m m with Some z => fst z | None => 0 end.
Definition im_of (t : list (R * R)) (s : spline (T := R)) (m : R) : R := match value R_ops t s m m m with Some z => snd z | None => 0 end.
(** The mass a spline depends on, and the second one when it is symmetrised, by the pair of daughters. *)
Definition own_mass {T : Type} (cyc : nat) (m12 m13 m23 : T) : T := if Nat.eqb cyc 1 then m13 else if Nat.eqb cyc 2 then m23 else m12.
Definition other_mass {T : Type} (cyc : nat) (m12 m13 m23 : T) : T := if Nat.eqb cyc 1 then m12 else if Nat.eqb cyc 2 then m12 else m13.
