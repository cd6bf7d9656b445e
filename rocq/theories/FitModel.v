(** Model of the layer between a minimiser and the PDFs: Params.cpp, FCN.cpp, FitManagerMinuit1.cpp, FitManagerMinuit2.cpp.

    The minimiser itself (Minuit, Minuit2) is not modelled: a fit is an arbitrary sequence of calls of the cost function
    with arbitrary vectors, followed by whatever values and errors the minimiser reports.  Exceptions leave no state. *)
From Coq Require Import List ZArith String Bool.
From Verif Require Import F64 ListAux VariableModel DeviceModel PdfModel NormModel.
Import ListNotations.
Open Scope nat_scope.

(** Variable::setChanged / setFitterIndex, Variable.h:208-218: `*member = val`. *)
Definition set_changed (hp : heap) (h : handle) (b : bool) : heap :=
  match set_field hp h FChanged (CB b) with Some hp' => hp' | None => hp end.
Definition set_fitter_index (hp : heap) (h : handle) (z : Z) : heap :=
  match set_field hp h FFitterIndex (CI z) with Some hp' => hp' | None => hp end.
(** getFitterIndex, Variable.h:206; IsFixed, Variable.h:203. *)
Definition get_fitter_index (hp : heap) (h : handle) : Z :=
  match get_field hp h FFitterIndex with Some (CI z) => z | _ => (-1)%Z end.
Definition is_fixed (hp : heap) (h : handle) : bool :=
  match get_field hp h FFixed with Some (CB b) => b | _ => false end.

(** What Params::Params tells Minuit2 about a parameter, Params.cpp:14-20: MnUserParameters::Add with two arguments
    (a constant), three (free) or five (with limits). *)
Inductive uparam : Type :=
| UConst (name : string) (v : f64)
| UFree (name : string) (v err : f64)
| ULimited (name : string) (v err lo up : f64).
Definition uname (u : uparam) : string := match u with UConst n _ | UFree n _ _ | ULimited n _ _ _ _ => n end.

(** The Params object: the PDF, its list of variables and the Minuit2 parameters. *)
Record params : Type := mkParams { q_pdf : nat; q_vars : list handle; q_user : list uparam }.

(** MnUserParameters::Index: position of the name. *)
Fixpoint name_index (us : list uparam) (n : string) : nat :=
  match us with [] => 0 | u :: t => if String.eqb (uname u) n then 0 else S (name_index t n) end.

Definition register (hp : heap) (h : handle) : uparam :=
  if is_fixed hp h then UConst (h_name h) (get_f hp h FValue)
  else if feq (get_f hp h FLower) (get_f hp h FUpper) then UFree (h_name h) (get_f hp h FValue) (get_f hp h FError)
  else ULimited (h_name h) (get_f hp h FValue) (get_f hp h FError) (get_f hp h FLower) (get_f hp h FUpper).

(** The loop of Params::Params, Params.cpp:12-26.  MnUserParameters::Add returns false for a known name. *)
Fixpoint params_loop (hp : heap) (us : list uparam) (vars : list handle) : nres (heap * list uparam) :=
  match vars with
  | [] => NOk (hp, us)
  | h :: t =>
      if existsb (fun u => String.eqb (uname u) (h_name h)) us then NThrow
      else let us' := us ++ [register hp h] in
           params_loop (set_fitter_index hp h (Z.of_nat (name_index us' (h_name h)))) us' t
  end.
Definition params_new (st : gstate) (k : nat) : nres (gstate * params) :=
  let vars := getParameters (g_pdfs st) k in
  nbind (params_loop (g_heap st) [] vars) (fun '(hp, us) =>
  NOk (mkG hp (g_hs st) (g_pdfs st) (g_arr st), mkParams k vars us)).

(** FCN::FCN, FCN.cpp:9-16; the same loop at the start of FitManagerMinuit1::fit, FitManagerMinuit1.cpp:70-71. *)
Definition set_all_changed (hp : heap) (vars : list handle) : heap := fold_left (fun hp h => set_changed hp h true) vars hp.

(** vector::at *)
Definition at_ (vs : list f64) (z : Z) : option f64 := if (z <? 0)%Z then None else nth_error vs (Z.to_nat z).

(** The loop of Params::from_minuit_vector, Params.cpp:48-51 ([first] = false), and of Minuit1::Eval,
    FitManagerMinuit1.cpp:48-58 ([first] = true: the variable is set to the minimiser's number first; [force] is false
    there).  The warning about NaN is not modelled. *)
Fixpoint update_loop (first force : bool) (ps : pdfs) (k : nat) (vs : list f64) (hp : heap) (vars : list handle) : nres heap :=
  match vars with
  | [] => NOk hp
  | h :: t =>
      match at_ vs (get_fitter_index hp h) with
      | None => NThrow
      | Some v =>
          let hp1 := set_changed hp h (if force then true else negb (feq (get_f hp h FValue) v)) in
          let hp2 := if first then set_f hp1 h FValue v else hp1 in
          let w := if first then get_f hp2 h FValue else v in
          update_loop first force ps k vs (updateVariable (S k) hp2 ps k (h_name h) (fsub w (get_f hp2 h FBlind))) t
      end
  end.
(** updateParameters of the root, PdfBase.cu:131-140 (a vector::at out of range throws). *)
Definition refresh (st : gstate) (k : nat) : nres gstate :=
  match gstep st (GCopyParams k) with (st', GDone) => NOk st' | (_, GThrow) => NThrow | _ => NUB end.
(** Params::from_minuit_vector, Params.cpp:47-57, without the optional recording of the vector. *)
Definition from_minuit (first : bool) (st : gstate) (q : params) (vs : list f64) (force : bool) : nres gstate :=
  nbind (update_loop first force (g_pdfs st) (q_pdf q) vs (g_heap st) (q_vars q)) (fun hp =>
  refresh (mkG hp (g_hs st) (g_pdfs st) (g_arr st)) (q_pdf q)).

(** max_fitter_index, Variable.cpp:19-25, and Params::make_minuit_vector, Params.cpp:39-45.  max_element of an empty
    list is dereferenced: undefined.  A negative index makes the vector too short for .at or its size negative:
    modelled as a throw. *)
Definition max_index (hp : heap) (vars : list handle) : Z :=
  fold_left (fun m h => Z.max m (get_fitter_index hp h)) vars (-1)%Z.
Fixpoint fill_vector (hp : heap) (vs : list f64) (vars : list handle) : nres (list f64) :=
  match vars with
  | [] => NOk vs
  | h :: t =>
      let i := get_fitter_index hp h in
      if ((0 <=? i) && (i <? Z.of_nat (List.length vs)))%Z
      then fill_vector hp (upd vs (Z.to_nat i) (get_f hp h FValue)) t else NThrow
  end.
Definition make_minuit_vector (hp : heap) (vars : list handle) : nres (list f64) :=
  match vars with
  | [] => NUB
  | _ => fill_vector hp (repeat fzero (Z.to_nat (max_index hp vars + 1))) vars
  end.

(** Params::SetGooFitParams, Params.cpp:29-37, and the loop at the end of FitManagerMinuit1::fit,
    FitManagerMinuit1.cpp:98-103.  Only the effect on the Variables; reading an entry that does not exist: NUB. *)
Fixpoint write_back (hp : heap) (vals errs : list f64) (vars : list handle) : nres heap :=
  match vars with
  | [] => NOk hp
  | h :: t =>
      match at_ vals (get_fitter_index hp h), at_ errs (get_fitter_index hp h) with
      | Some v, Some e => write_back (set_f (set_f hp h FValue v) h FError e) vals errs t
      | _, _ => NUB
      end
  end.

(** What happens during and around a fit with one Params object. *)
Inductive fop : Type :=
| FOther (o : gop)                              (* anything else the program does *)
| FNewFcn                                       (* FCN::FCN; start of FitManagerMinuit1::fit *)
| FCall (v : list f64)                          (* FCN::operator()(v), parameter part *)
| FEval1 (v : list f64)                         (* Minuit1::Eval, parameter part *)
| FCurrent                                      (* FCN::operator()(), parameter part *)
| FResult (vals errs : list f64).               (* the end of fit() *)
Definition with_heap (st : gstate) (hp : heap) : gstate := mkG hp (g_hs st) (g_pdfs st) (g_arr st).
Definition fstep (q : params) (st : gstate) (o : fop) : nres gstate :=
  match o with
  | FOther o => NOk (fst (gstep st o))
  | FNewFcn => NOk (with_heap st (set_all_changed (g_heap st) (q_vars q)))
  | FCall v => from_minuit false st q v false
  | FEval1 v => from_minuit true st q v false
  | FCurrent => nbind (make_minuit_vector (g_heap st) (q_vars q)) (fun v => from_minuit false st q v true)
  | FResult vals errs => nbind (write_back (g_heap st) vals errs (q_vars q)) (fun hp => NOk (with_heap st hp))
  end.
Fixpoint frun (q : params) (st : gstate) (os : list fop) : nres gstate :=
  match os with [] => NOk st | o :: t => nbind (fstep q st o) (fun st' => frun q st' t) end.
