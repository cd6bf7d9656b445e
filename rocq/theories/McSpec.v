(** What C54 talks about. *)
From Coq Require Import List ZArith Reals.
From Verif Require Import F64 VariableModel BinSpec.
Import ListNotations.
Open Scope R_scope.

Fixpoint rsum (l : list R) : R := match l with [] => 0 | v :: t => v + rsum t end.
(** The probability of the cells before cell [k], for cells with the given values of the PDF. *)
Definition below (l : list R) (k : nat) : R := rsum (firstn k l) / rsum l.
(** The random number [r] belongs to cell [j] of a grid. *)
Definition belongs (l : list R) (r : R) (j : nat) : Prop :=
  (j < length l)%nat /\ (j = 0%nat \/ below l j < r) /\ r <= below l (S j).
(** The same up to [d]. *)
Definition nearly_belongs (l : list R) (d r : R) (j : nat) : Prop :=
  (j < length l)%nat /\ below l j - d <= r <= below l (S j) + d.

(** Random numbers: r in [0, 1); u in [-1/2, 1/2], so far from the ends that rounding cannot leave the cell. *)
Definition good_draw (lo up : f64) (n : Z) (d : f64 * f64) : Prop :=
  f_isfinite (fst d) = true /\ 0 <= f2R (fst d) < 1 /\ f_isfinite (snd d) = true /\
  Rabs (f2R (snd d)) * width (f2R lo) (f2R up) n + 24 * / 2 ^ 53 * Rmax (Rabs (f2R lo)) (Rabs (f2R up)) <= / 2 * width (f2R lo) (f2R up) n.
