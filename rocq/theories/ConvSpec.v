(** What C42 and C59 talk about. *)
From Coq Require Import List ZArith Reals.
From Flocq Require Import Core.
From Verif Require Import F64 LeafFormulas FormulaSpec ConvModel.
Import ListNotations.
Open Scope R_scope.

(** static_cast<int> of a real number. *)
Definition Rtrunc_int (x : R) : option Z :=
  let z := Ztrunc x in if ((-2147483648 <=? z)%Z && (z <=? 2147483647)%Z)%bool then Some z else None.

(** Sum over the midpoints t_i of the n cells of size s from lo on. *)
Definition midpoint_sum (f : R -> R) (lo s : R) (n : nat) : R :=
  fold_left Rplus (map (fun i => f (lo + (INR i + / 2) * s)) (seq 0 n)) 0.

(** [x] is a whole multiple of [s], of moderate size (so that int does not overflow). *)
Definition multiple (s x : R) : Prop := exists k : Z, (Z.abs k <= 2 ^ 28)%Z /\ x = IZR k * s.
(** The same in doubles: x / step rounds to a whole number. *)
Definition fmultiple (s x : f64) : Prop := f_isfinite x = true /\ exists k : Z, (Z.abs k <= 2 ^ 28)%Z /\ fdiv x s = f_of_Z k.
