(** C36: kept results and the changed flags. *)
From Coq Require Import List ZArith String Bool Lia Reals Lra.
From Verif Require Import F64 F64Lemmas ListAux VariableModel LeafFormulas DeviceModel PdfModel PdfSpec FlatProofs EvalProofs HostProofs PdfProofs PdfProofs2 PdfProofs3 PdfProps
  NormModel NormProps FitModel FitSpec FitProofs FitProofs2 FitProofs3 FitProofs4 FitProps CacheModel CacheSpec.
Import ListNotations.
Local Open Scope nat_scope.
Local Open Scope string_scope.
Local Open Scope list_scope.
Local Notation len := List.length.

Lemma xeq_trans : forall a b c, feq a b = true -> feq b c = true -> feq a c = true.
Proof. intros a b c. rewrite !feq_spec. unfold xeq. destruct (meaning a), (meaning b), (meaning c); cbn; intros [A1 A2] [B1 B2]; split; try exact I; try contradiction; lra. Qed.
Lemma agree_trans : forall a b c, agree a b -> agree b c -> agree a c.
Proof. intros a b c [->|H] [->|K]; [now left|now right|now right|right; eapply xeq_trans; eauto]. Qed.
Lemma get_changed_of : forall st h, get_changed (g_heap st) h = changed_of st h.
Proof. reflexivity. Qed.

(** ** The step *)
Section Step.
Variables (made : list handle) (q : params) (j : nat) (p : pdf).
(** The component has no components and its parameters are among those of the fit, without blinding. *)
Definition ready (st : gstate) : Prop :=
  finv made q st /\ nth_error (g_pdfs st) j = Some p /\ p_comps p = [] /\
  (forall h, In h (p_pars p) -> In h (q_vars q) /\ get_field (g_heap st) h FBlind = Some (CF fzero)).
Lemma inputs_leaf : forall st, ready st -> inputs st j = map (value_of st) (p_pars p).
Proof.
  intros st (_ & E & C & _). unfold inputs, getParameters. cbn [collect]. rewrite E, C. reflexivity.
Qed.
(** After a call: every value is that of the vector, and the flags tell. *)
Lemma step_call : forall m force v st st', ready st -> len v = len (q_vars q) -> from_minuit m st q v force = NOk st' ->
  ready st' /\ forall h, In h (p_pars p) -> if force then changed_of st' h = true else changed_of st' h = negb (feq (value_of st h) (value_of st' h)).
Proof.
  intros m force v st st' (F & E & C & B) L EV. destruct (call_ok made m force q st v st' F L EV) as (F' & EP & _ & SV & _).
  split.
  - split; [exact F'|]. split; [now rewrite EP|]. split; [exact C|]. intros h Hh. destruct (B h Hh) as [B1 B2]. split; [exact B1|].
    apply In_nth_error in B1. destruct B1 as [i Ei]. rewrite (SV i h FBlind Ei). exact B2.
  - intros h Hh. destruct (B h Hh) as [B1 B2]. apply In_nth_error in B1. destruct B1 as [i Ei].
    pose proof (SV i h FValue Ei) as V. cbn [after_call] in V. rewrite (get_f_some _ _ _ _ B2), fsub_zero in V. apply get_f_some in V.
    pose proof (SV i h FChanged Ei) as CH. cbn [after_call] in CH. apply changed_some in CH. rewrite CH. destruct force; [reflexivity|].
    unfold value_of. now rewrite V.
Qed.
Lemma step_new : forall st st', ready st -> fstep q st FNewFcn = NOk st' -> ready st' /\ forall h, In h (p_pars p) -> value_of st' h = value_of st h.
Proof.
  intros st st' (F & E & C & B) EV. pose proof (fstep_finv made q [] 0 st FNewFcn st' F I EV) as [F' _].
  cbn [fstep] in EV. injection EV as <-. pose proof F as (G & (S1 & S2 & S3) & IX).
  destruct (all_changed_ok made (q_vars q) (g_heap st) G S2) as (G' & O & _).
  assert (K : forall h f, In h (p_pars p) -> f <> FChanged -> get_field (set_all_changed (g_heap st) (q_vars q)) h f = get_field (g_heap st) h f).
  { intros h f Hh Hf. apply O; [apply S2; now apply B|now right]. }
  split.
  - split; [exact F'|]. split; [exact E|]. split; [exact C|]. intros h Hh. destruct (B h Hh) as [B1 B2]. split; [exact B1|].
    cbn [with_heap g_heap]. rewrite K by (auto; discriminate). exact B2.
  - intros h Hh. unfold value_of. cbn [with_heap g_heap]. apply get_f_eq. apply K; [exact Hh|discriminate].
Qed.
Definition current (st : gstate) (c : cache) : Prop := match c with None => True | Some vs => Forall2 agree vs (inputs st j) end.
Lemma Forall2_refl_agree : forall l, Forall2 agree l l.
Proof. induction l; constructor; [now left|assumption]. Qed.
Lemma after_call_current : forall m force v st st' c, ready st -> len v = len (q_vars q) -> from_minuit m st q v force = NOk st' -> current st c ->
  ready st' /\ current st' (refill st' j c) /\ refill st' j c <> None.
Proof.
  intros m force v st st' c R L EV HC. destruct (step_call m force v st st' R L EV) as [R' FL]. split; [exact R'|].
  unfold refill. destruct c as [vs|]; [|split; [apply Forall2_refl_agree|discriminate]].
  destruct (parametersChanged st' j) eqn:PC; [split; [apply Forall2_refl_agree|discriminate]|]. split; [|discriminate]. cbn [current] in *.
  rewrite (inputs_leaf st R) in HC. rewrite (inputs_leaf st' R').
  unfold parametersChanged in PC. destruct R' as (_ & E' & _). rewrite E' in PC.
  assert (U : forall h, In h (p_pars p) -> changed_of st' h = false).
  { intros h Hh. destruct (changed_of st' h) eqn:CH; [|reflexivity]. exfalso. rewrite <- get_changed_of in CH.
    assert (X : existsb (get_changed (g_heap st')) (p_pars p) = true) by (apply existsb_exists; now exists h). now rewrite X in PC. }
  assert (V : forall h, In h (p_pars p) -> agree (value_of st h) (value_of st' h)).
  { intros h Hh. specialize (FL h Hh). specialize (U h Hh). destruct force; rewrite U in FL; [discriminate|]. right. symmetry in FL. now apply negb_false_iff in FL. }
  clear - HC V. revert vs HC. induction (p_pars p) as [|h t IH]; intros vs HC; inversion HC; subst; constructor.
  - eapply agree_trans; [eassumption|]. apply V. now left.
  - apply IH; [intros; apply V; now right|assumption].
Qed.
Lemma fitting_current : forall os st c st' c', fitting (len (q_vars q)) os -> ready st -> current st c -> crun q j st c os = NOk (st', c') ->
  ready st' /\ current st' c' /\ (In CEval os \/ c <> None -> c' <> None).
Proof.
  intros os st c st' c' H. revert st c. induction H as [|os H IH|m v os L H IH|os H IH]; intros st c R HC E; cbn [crun] in E.
  - injection E as <- <-. split; [exact R|]. split; [exact HC|]. intros [[]|K]; exact K.
  - destruct (fstep q st FNewFcn) as [s| | |] eqn:ES; try discriminate. cbn [nbind] in E. destruct (step_new st s R ES) as [R' V].
    destruct (IH s c R') as (A1 & A2 & A3); [|exact E|].
    + destruct c as [vs|]; [|exact I]. cbn [current] in *. rewrite (inputs_leaf st R) in HC. rewrite (inputs_leaf s R').
      rewrite (map_ext_in (value_of s) (value_of st)) by exact V. exact HC.
    + split; [exact A1|]. split; [exact A2|]. intros [[K|K]|K]; [discriminate|apply A3; now left|apply A3; now right].
  - destruct (fstep q st (call m v)) as [s| | |] eqn:ES; try discriminate. cbn [nbind] in E.
    assert (ES' : from_minuit m st q v false = NOk s) by (unfold call in ES; destruct m; exact ES).
    destruct (after_call_current m false v st s c R L ES' HC) as (R' & C' & N').
    destruct (IH s _ R' C' E) as (A1 & A2 & A3). split; [exact A1|]. split; [exact A2|]. intros _. apply A3. now right.
  - destruct (fstep q st FCurrent) as [s| | |] eqn:ES; try discriminate. cbn [nbind] in E.
    cbn [fstep] in ES. destruct (make_minuit_vector (g_heap st) (q_vars q)) as [v| | |] eqn:EV; try discriminate. cbn [nbind] in ES.
    assert (L : len v = len (q_vars q)).
    { pose proof R as ((_ & _ & IX) & _). destruct (q_vars q) as [|h0 t] eqn:EQ; [discriminate|]. rewrite <- EQ in *. rewrite make_vector_ok in EV; [|exact IX|rewrite EQ; discriminate].
      injection EV as <-. apply map_length. }
    destruct (after_call_current false true v st s c R L ES HC) as (R' & C' & N').
    destruct (IH s _ R' C' E) as (A1 & A2 & A3). split; [exact A1|]. split; [exact A2|]. intros _. apply A3. now right.
Qed.
End Step.

(** ** C36 *)

(** During a fit, after any history before it: after every evaluation, what is kept for a component was computed from the
    current values of its parameters.  Partial: the component has no components of its own, its parameters have no blinding
    offset, values are changed by cost function calls only, and nothing was kept before the fit. *)
Theorem C36_during_fit_partial : forall ops k st ns st1 q fs st2 j n os st3 c,
  after ops = (st, ns) -> k < len ns -> params_new st k = NOk (st1, q) ->
  let pars := getParameters (g_pdfs st) k in
  Forall (fquiet ns k (len pars)) fs -> frun q st1 fs = NOk st2 ->
  In j (tree_ids ns k) -> nth_error ns j = Some n -> kids_of n = [] ->
  (forall h, In h (node_pars n) -> get_field (g_heap st2) h FBlind = Some (CF fzero)) ->
  fitting (len pars) (os ++ [CEval]) -> crun q j st2 None (os ++ [CEval]) = NOk (st3, c) ->
  exists vs, c = Some vs /\ Forall2 agree vs (inputs st3 j).
Proof.
  intros ops k st ns st1 q fs st2 j n os st3 c E Hk P pars QF R Hj En NC B FT RUN.
  destruct (params_new_ok _ k st ns st1 q E Hk P) as (made & F1 & G0 & IH & QP & QV & NN & QU & EP & EHS & EA & OF & TREE).
  unfold pars in *; clear pars. subst k. rewrite <- QV in *.
  destruct (frun_finv made q ns (q_pdf q) fs st1 st2 F1 QF R) as [F2 L2].
  pose proof (after_inv _ _ _ E) as (_ & HM & _). pose proof HM as [ML M].
  destruct (M j n En) as (_ & p0 & Ep0 & NM).
  assert (LL : map lens (g_pdfs st) = map lens (g_pdfs st2)) by (rewrite L2, EP; reflexivity).
  destruct (lens_nth _ _ _ _ LL Ep0) as (p & Ep & El1 & El2).
  pose proof (node_match_pars _ _ _ NM) as NP. pose proof (proj1 NM) as NK.
  assert (RD : ready made q j p st2).
  { split; [exact F2|]. split; [exact Ep|]. split; [rewrite El2, NK; exact NC|]. intros h Hh. rewrite El1, NP in Hh.
    split; [eapply TREE; eauto|now apply B]. }
  destruct (fitting_current made q j p (os ++ [CEval]) st2 None st3 c FT RD I RUN) as (_ & CU & NE).
  assert (NE' : c <> None) by (apply NE; left; apply in_or_app; right; now left).
  destruct c as [vs|]; [|contradiction]. exists vs. split; [reflexivity|exact CU].
Qed.
Print Assumptions C36_during_fit_partial.

Definition fit36_ops := ex_ops ++ [GSetIndices 6].
Local Notation new36 := (params_new (st_of fit36_ops) 6) (only parsing).
(** frac, mean, sigma, alpha *)
Definition v36 := [fhalf; num 4; num 1; num 2].
Definition w36 := [fhalf; num 4; num 1; num 3].
Definition x36 := [fhalf; num 5; num 1; num 3].
Definition cst (r : nres (gstate * cache)) : gstate := match r with NOk (s, _) => s | _ => ginit end.
Definition cca (r : nres (gstate * cache)) : list f64 := match r with NOk (_, Some c) => c | _ => [] end.
Definition is_kept (r : nres (gstate * cache)) : bool := match r with NOk (_, Some _) => true | _ => false end.
Lemma kept_ok : forall r, is_kept r = true -> r = NOk (cst r, Some (cca r)).
Proof. intros [[s [c|]]| | |] H; try discriminate. reflexivity. Qed.
Lemma not_agree : forall a b, fsame a b = false -> feq a b = false -> ~ agree a b.
Proof. intros a b H1 H2 [->|H]; [now rewrite fsame_refl in H1|congruence]. Qed.
Lemma in_listb : forall j l, existsb (Nat.eqb j) l = true -> In j l.
Proof. intros j l X. apply existsb_exists in X. destruct X as (i & Hi & Ei). apply Nat.eqb_eq in Ei. subst i. exact Hi. Qed.
Definition os36 := [CStep FNewFcn; CStep (call false v36); CEval; CStep (call true w36); CEval; CStep FCurrent].
Definition zero_blind (o : option VariableModel.cell) : bool := match o with Some (CF b) => fsame b fzero | _ => false end.
Lemma zero_blind_ok : forall o, zero_blind o = true -> o = Some (CF fzero).
Proof. intros [[b|b|b|b]|] H; try discriminate. do 2 f_equal. now apply fsame_eq. Qed.
Example C36_example : after fit36_ops = (st_of fit36_ops, ns_of fit36_ops) /\ 6 < len (ns_of fit36_ops) /\
  params_new (st_of fit36_ops) 6 = NOk (pst new36, pq new36) /\ In 0 (tree_ids (ns_of fit36_ops) 6) /\
  (exists n, nth_error (ns_of fit36_ops) 0 = Some n /\ kids_of n = [] /\ len (node_pars n) = 2 /\
             forall h, In h (node_pars n) -> get_field (g_heap (pst new36)) h FBlind = Some (CF fzero)) /\
  len (getParameters (g_pdfs (st_of fit36_ops)) 6) = 4 /\ fitting 4 (os36 ++ [CEval]) /\
  crun (pq new36) 0 (pst new36) None (os36 ++ [CEval]) = NOk (cst (crun (pq new36) 0 (pst new36) None (os36 ++ [CEval])), Some (cca (crun (pq new36) 0 (pst new36) None (os36 ++ [CEval])))).
Proof.
  split; [apply after_eq|]. split; [apply Nat.ltb_lt; vm_compute; reflexivity|]. split; [apply pst_ok; vm_compute; reflexivity|].
  split; [apply in_listb; vm_compute; reflexivity|].
  split. { exists (nth 0 (ns_of fit36_ops) (SProd [])). split; [apply nth_error_nth'; apply Nat.ltb_lt; vm_compute; reflexivity|].
    split; [vm_compute; reflexivity|]. split; [vm_compute; reflexivity|]. intros h Hh. apply zero_blind_ok.
    assert (X : forallb (fun h => zero_blind (get_field (g_heap (pst new36)) h FBlind)) (node_pars (nth 0 (ns_of fit36_ops) (SProd []))) = true) by (vm_compute; reflexivity).
    exact (proj1 (forallb_forall _ _) X h Hh). }
  split; [vm_compute; reflexivity|]. split; [|apply kept_ok; vm_compute; reflexivity].
  cbn [os36 app]. apply fit_new, fit_call; [reflexivity|]. apply fit_call; [reflexivity|]. apply fit_here. apply fit_nil.
Qed.

(** A component that is itself made of components: its own list of parameters does not contain theirs, and changes of
    theirs go unnoticed. *)
Theorem C36_combined_component_refuted : exists ops k st ns st1 q j v w st3 vs,
  after ops = (st, ns) /\ k < len ns /\ params_new st k = NOk (st1, q) /\ In j (tree_ids ns k) /\
  fitting (len (getParameters (g_pdfs st) k)) [CStep (FCall v); CEval; CStep (FCall w); CEval] /\
  crun q j st1 None [CStep (FCall v); CEval; CStep (FCall w); CEval] = NOk (st3, Some vs) /\
  exists i, ~ agree (nth i vs fzero) (nth i (inputs st3 j) fzero).
Proof.
  set (r := crun (pq new36) 2 (pst new36) None [CStep (FCall v36); CEval; CStep (FCall w36); CEval]).
  exists fit36_ops, 6, (st_of fit36_ops), (ns_of fit36_ops), (pst new36), (pq new36), 2, v36, w36, (cst r), (cca r).
  split; [apply after_eq|]. split; [apply Nat.ltb_lt; vm_compute; reflexivity|]. split; [apply pst_ok; vm_compute; reflexivity|].
  split; [apply in_listb; vm_compute; reflexivity|].
  assert (L : len (getParameters (g_pdfs (st_of fit36_ops)) 6) = 4) by (vm_compute; reflexivity). rewrite L.
  split; [apply (fit_call 4 false v36); [reflexivity|]; apply (fit_call 4 false w36); [reflexivity|]; apply fit_nil|].
  split; [apply kept_ok; vm_compute; reflexivity|]. exists 2. apply not_agree; vm_compute; reflexivity.
Qed.
Print Assumptions C36_combined_component_refuted.

(** Two fits one after the other: the first call of the second fit, at the result of the first, finds every value "unchanged"
    (the constructor of the cost function set the flags, the call clears them), and what is kept is of the last call of the
    first fit.  The component is a Gaussian without blinding. *)
Theorem C36_second_fit_refuted : exists ops k st ns st1 q j n v w r st3 vs,
  after ops = (st, ns) /\ k < len ns /\ params_new st k = NOk (st1, q) /\ In j (tree_ids ns k) /\ nth_error ns j = Some n /\ kids_of n = [] /\
  crun q j st1 None [CStep FNewFcn; CStep (FCall v); CEval; CStep (FCall w); CEval; CStep (FResult r r);
                     CStep FNewFcn; CStep (FCall r); CEval] = NOk (st3, Some vs) /\
  exists i, ~ agree (nth i vs fzero) (nth i (inputs st3 j) fzero).
Proof.
  set (r := crun (pq new36) 0 (pst new36) None [CStep FNewFcn; CStep (FCall v36); CEval; CStep (FCall w36); CEval; CStep (FResult x36 x36);
                     CStep FNewFcn; CStep (FCall x36); CEval]).
  exists fit36_ops, 6, (st_of fit36_ops), (ns_of fit36_ops), (pst new36), (pq new36), 0, (nth 0 (ns_of fit36_ops) (SProd [])), v36, w36, x36, (cst r), (cca r).
  split; [apply after_eq|]. split; [apply Nat.ltb_lt; vm_compute; reflexivity|]. split; [apply pst_ok; vm_compute; reflexivity|].
  split; [apply in_listb; vm_compute; reflexivity|].
  split; [apply nth_error_nth'; apply Nat.ltb_lt; vm_compute; reflexivity|]. split; [vm_compute; reflexivity|].
  split; [apply kept_ok; vm_compute; reflexivity|]. exists 0. apply not_agree; vm_compute; reflexivity.
Qed.
Print Assumptions C36_second_fit_refuted.

(** Evaluating (plotting) after a fit, or after assigning a value: the flags are those of the last call. *)
Theorem C36_after_fit_refuted : exists ops k st ns st1 q j n v w r st3 vs,
  after ops = (st, ns) /\ k < len ns /\ params_new st k = NOk (st1, q) /\ In j (tree_ids ns k) /\ nth_error ns j = Some n /\ kids_of n = [] /\
  crun q j st1 None [CStep FNewFcn; CStep (FCall v); CEval; CStep (FCall w); CEval; CStep (FResult r r); CEval] = NOk (st3, Some vs) /\
  exists i, ~ agree (nth i vs fzero) (nth i (inputs st3 j) fzero).
Proof.
  set (r := crun (pq new36) 0 (pst new36) None [CStep FNewFcn; CStep (FCall v36); CEval; CStep (FCall w36); CEval; CStep (FResult x36 x36); CEval]).
  exists fit36_ops, 6, (st_of fit36_ops), (ns_of fit36_ops), (pst new36), (pq new36), 0, (nth 0 (ns_of fit36_ops) (SProd [])), v36, w36, x36, (cst r), (cca r).
  split; [apply after_eq|]. split; [apply Nat.ltb_lt; vm_compute; reflexivity|]. split; [apply pst_ok; vm_compute; reflexivity|].
  split; [apply in_listb; vm_compute; reflexivity|].
  split; [apply nth_error_nth'; apply Nat.ltb_lt; vm_compute; reflexivity|]. split; [vm_compute; reflexivity|].
  split; [apply kept_ok; vm_compute; reflexivity|]. exists 0. apply not_agree; vm_compute; reflexivity.
Qed.
Print Assumptions C36_after_fit_refuted.
