(** What C36 talks about. *)
From Coq Require Import List.
From Verif Require Import F64 VariableModel PdfModel FitModel FitSpec CacheModel.
Import ListNotations.

(** Equal numbers (== of C++), or identical. *)
Definition agree (a b : f64) : Prop := a = b \/ feq a b = true.

(** A fit: the cost function is made (at any time), called with vectors of [n] numbers or at the current point, and each
    call evaluates the PDF. *)
Inductive fitting (n : nat) : list cop -> Prop :=
| fit_nil : fitting n []
| fit_new : forall os, fitting n os -> fitting n (CStep FNewFcn :: os)
| fit_call : forall m v os, length v = n -> fitting n os -> fitting n (CStep (call m v) :: CEval :: os)
| fit_here : forall os, fitting n os -> fitting n (CStep FCurrent :: CEval :: os).
