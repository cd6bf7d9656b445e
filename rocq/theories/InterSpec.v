(** What InterHistPdf and compute_inverse5 are supposed to return. *)
From Coq Require Import Reals List ZArith.
From Coquelicot Require Import Coquelicot.
From Verif Require Import F64 InterModel.
Import ListNotations.

(** A value interpolated between contents of the histogram lies between the least and the largest of them, if all are finite. *)
Definition interpolates (hist : list f64) (v : got f64) : Prop :=
  exists x a b, v = Got x /\ f_isfinite x = true /\ In a hist /\ In b hist /\ (f2R a <= f2R x <= f2R b)%R.

(** Matrices of 5 rows and columns *)
Local Open Scope R_scope.
Local Open Scope C_scope.
Fixpoint total (f : nat -> C) (n : nat) : C := match n with O => 0 | S n' => total f n' + f n' end.
Definition unit (i j : nat) : C := if Nat.eqb i j then 1 else 0.
Definition is_inverse (M N : nat -> nat -> C) : Prop := forall i j, (i < 5)%nat -> (j < 5)%nat -> total (fun k => M i k * N k j) 5 = unit i j.
(** The determinant, expanded along the first row. *)
Definition without (j : nat) (M : nat -> nat -> C) (r c : nat) : C := M (S r) (if Nat.ltb c j then c else S c).
Fixpoint det (n : nat) (M : nat -> nat -> C) : C :=
  match n with O => 1 | S n' => total (fun j => (if Nat.even j then 1 else -(1)) * M O j * det n' (without j M)) (S n') end.
