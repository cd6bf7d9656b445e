(** What the resolution with a spliced acceptance is for, over the real numbers. *)
From Coq Require Import List Reals.
From Coquelicot Require Import Coquelicot.
From Verif Require Import FormulaSpec ResolModel ResolSpec.
Import ListNotations.
Open Scope R_scope.

(** A cubic polynomial by its coefficients, and its slope. *)
Definition cubic : Type := (R * R * R * R)%type.
Definition c_0 (c : cubic) : R := let '(a, _, _, _) := c in a.
Definition c_1 (c : cubic) : R := let '(_, b, _, _) := c in b.
Definition c_2 (c : cubic) : R := let '(_, _, a, _) := c in a.
Definition c_3 (c : cubic) : R := let '(_, _, _, b) := c in b.
Definition value (c : cubic) (t : R) : R := c_0 c + c_1 c * t + c_2 c * t ^ 2 + c_3 c * t ^ 3.
Definition slope (c : cubic) (t : R) : R := c_1 c + 2 * c_2 c * t + 3 * c_3 c * t ^ 2.
(** The exponential with value v and slope m at the time a. *)
Definition continued (a v m t : R) : R := v * exp (m / v * (t - a)).
(** One function between every two neighbouring knots, another after the last knot. *)
Fixpoint along (ks : list R) (fs : list (R -> R)) (after : R -> R) (t : R) : R :=
  match ks, fs with
  | _ :: (k :: _) as ks', f :: fs' => if Rlt_dec t k then f t else along ks' fs' after t
  | _, _ => after t
  end.
(** The acceptance: the cubics between the knots; after the last knot the exponential that continues the last cubic smoothly. *)
Definition spliced (ks : list R) (cs : list cubic) (t : R) : R :=
  let e := last ks 0 in let c := last cs (0, 0, 0, 0) in along ks (map value cs) (continued e (value c e) (slope c e)) t.
(** Knots in their order, all after the time a; a straight last piece. *)
Fixpoint in_order (a : R) (ks : list R) : Prop := match ks with [] => True | k :: ks' => a <= k /\ in_order k ks' end.
Definition straight (c : cubic) : Prop := c_2 c = 0 /\ c_3 c = 0.

(** The three Gaussians of ThreeGaussResolutionSplice for an event with error [sigma] are those of [tg_shape]. *)

(** The rate with the series of cos and sin up to the fifth power. *)
Definition rate_quintic (c1 c2 c3 c4 tau x y t : R) : R :=
  let z := x * t / tau in
  exp (- (t / tau)) * (c1 * cosh (y * t / tau) + c2 * (1 - z ^ 2 / 2 + z ^ 4 / 24) - 2 * c3 * sinh (y * t / tau)
                       - 2 * c4 * (z - z ^ 3 / 6 + z ^ 5 / 120)).
