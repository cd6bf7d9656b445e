(** What a user expects of the numbers returned by getValue and evaluateAtPoints. *)
From Coq Require Import List ZArith Bool.
From Verif Require Import F64 ListAux VariableModel DataSetModel LeafFormulas DeviceModel PdfModel PdfSpec NormSpec RunModel RunSpec.
Import ListNotations.
Local Open Scope nat_scope.

(** The current values of the observables. *)
Definition here (hp : heap) : env := fun h => Some (get_f hp h FValue).
(** The same with the observable [x] at [c]. *)
Definition moved (hp : heap) (x : handle) (c : f64) : env := fun h => if handle_eqb h x then Some c else Some (get_f hp h FValue).
(** The observables of the PDF are numbered 0, 1, ... in its list, as its setData leaves them. *)
Definition numbered (s : rstate) (k : nat) : Prop :=
  forall j h, nth_error (obs_of_pdf s k) j = Some h -> get_i (g_heap (r_g s)) h = Z.of_nat j.
(** getValue(Eval), getValue(Prob) and getValue(NLL) of a PDF with the density [v] and the normalisation factor [norm]. *)
Definition answer (L : libm) (fc : fitcontrol) (v norm : f64) : f64 :=
  match fc with ProbFit => fmul v norm | UnbinnedNllFit => nll_term L (fmul v norm) | _ => v end.
(** The centre of bin [i] of an observable. *)
Definition bin_centre (hp : heap) (x : handle) (i : nat) : f64 :=
  fadd (get_f hp x FLower) (fmul (fadd (f_of_nat i) fhalf) (fdiv (fsub (get_f hp x FUpper) (get_f hp x FLower)) (f_of_Z (get_n hp x FNumBins)))).
