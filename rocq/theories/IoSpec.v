(** What a user expects of parameter files. *)
From Coq Require Import List Bool Ascii Arith Reals ZArith.
From Flocq Require Import Core BinarySingleNaN.
From Verif Require Import F64 F64Err IoModel.
Import ListNotations.
Open Scope nat_scope.

Section Text.
Variable show : f64 -> text.
Variable strtod : text -> option f64.
Variable numch : ascii -> bool.
Variable rr : f64 -> f64.
(** x is printed as one token that is read back as [rr x]. *)
Definition printable (x : f64) : Prop :=
  show x <> [] /\ forallb numch (show x) = true /\ strtod (show x) = Some (rr x) /\ forallb (fun c => negb (is_ws c)) (show x) = true /\ length (show x) <= 200.
(** A parameter with a name without white space and printable numbers. *)
Definition param_ok (p : param) : Prop :=
  p_name p <> [] /\ forallb (fun c => negb (is_ws c)) (p_name p) = true /\ printable (p_value p) /\ printable (p_error p) /\ printable (p_lower p) /\ printable (p_upper p).
Definition reread (n : text) (w : param) : param := mkP n (rr (p_value w)) (rr (p_error w)) (rr (p_lower w)) (rr (p_upper w)).
(** A parameter after reading a file with the lines [ws]: the numbers on the line with its name; unchanged if there is none. *)
Definition restored (ws : list param) (p : param) : param :=
  match find (fun w => text_eqb (p_name w) (p_name p)) ws with Some w => reread (p_name p) w | None => p end.
End Text.

(** ofstream << double: the decimal number of six significant digits nearest to x, C++ streams with the default precision. *)
Definition radix10 : radix := Build_radix 10 eq_refl.
Definition six_digits (x : R) : R := round radix10 (FLX_exp 6) ZnearestE x.
(** What is read back is the double nearest to that number. *)
Definition prints_six_digits (rr : f64 -> f64) : Prop := forall x, is_finite x = true -> B2R (rr x) = rnd (six_digits (B2R x)).
