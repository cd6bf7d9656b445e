(** Results that a PDF computes from a component and keeps as long as parametersChanged() of the component is false: the work
    spaces of ConvolutionPdf (model and resolution) and the waves and integrals of Amp3Body, Amp3Body_IS, Amp3Body_TD
    (resonances) and Amp4Body (lineshapes).

    What is kept is a function of the parameters of the component; it is represented here by the values it was computed
    from.  The tree of PDFs is that of PdfModel.v: ConvolutionPdf and the amplitude PDFs are not kinds of that model, the
    component may be any PDF of it. *)
From Coq Require Import List Bool.
From Verif Require Import F64 VariableModel DeviceModel PdfModel NormModel FitModel.
Import ListNotations.
Open Scope nat_scope.

(** Variable::getChanged, Variable.h:203 *)
Definition get_changed (hp : heap) (h : handle) : bool :=
  match get_field hp h FChanged with Some (CB b) => b | _ => false end.
(** parametersChanged, PdfBase.cpp:124-127 *)
Definition parametersChanged (st : gstate) (j : nat) : bool :=
  match nth_error (g_pdfs st) j with Some p => existsb (get_changed (g_heap st)) (p_pars p) | None => false end.
(** The values an evaluation of PDF [j] depends on. *)
Definition inputs (st : gstate) (j : nat) : list f64 := map (fun h => get_f (g_heap st) h FValue) (getParameters (g_pdfs st) j).

(** What is kept for the component; [None]: nothing yet (ConvolutionPdf.cu, workspacesFilled = false; Amp3Body.cu,
    forceRedoIntegrals = true). *)
Definition cache := option (list f64).
(** One normalize(): ConvolutionPdf.cu:330-354; Amp3Body.cu:266-275; Amp3Body_IS.cu:174-182; Amp4Body.cu:407-418. *)
Definition refill (st : gstate) (j : nat) (c : cache) : cache :=
  match c with
  | None => Some (inputs st j)
  | Some _ => if parametersChanged st j then Some (inputs st j) else c
  end.

Inductive cop : Type :=
| CStep (o : fop)     (* a call, a result or anything else, without evaluating the PDF *)
| CEval.              (* the PDF is normalised and evaluated *)
Fixpoint crun (q : params) (j : nat) (st : gstate) (c : cache) (os : list cop) : nres (gstate * cache) :=
  match os with
  | [] => NOk (st, c)
  | CStep o :: t => nbind (fstep q st o) (fun st' => crun q j st' c t)
  | CEval :: t => crun q j st (refill st j c) t
  end.
