(** The values returned by evaluateAtPoints. *)
From Coq Require Import List ZArith Bool Lia.
From Verif Require Import F64 F64Lemmas ListAux VariableModel DataSetModel BinModel LeafFormulas DeviceModel PdfModel PdfSpec
  FlatProofs EvalProofs HostProofs PdfProofs PdfProofs2 PdfProofs3 NormModel NormSpec NormProofs NormProofs2 RunModel RunSpec RunProofs RunProofs2 RunProofs3 RunProofs4 RunProofs5 RunProofs6
  FitProofs FitProofs2 AskSpec AskProofs.
Import ListNotations.
Local Open Scope nat_scope.
Local Notation len := List.length.

(** ** A density reads only the values of its parameters *)
Lemma leaf_pars_val : forall L hp1 hp2 hp0 en l, (forall h, In h (leaf_pars l) -> val hp1 h = val hp2 h) -> leaf_value L hp1 hp0 en l = leaf_value L hp2 hp0 en l.
Proof.
  intros L hp1 hp2 hp0 en l H. rewrite !leaf_value64_eq.
  assert (M : forall ws, incl ws (leaf_pars l) -> map (val hp1) ws = map (val hp2) ws) by (intros ws I; apply map_ext_in; intros h Hh; apply H, I, Hh).
  destruct l; cbn [leaf_value64 leaf_pars] in *;
    repeat match goal with |- context [val hp1 ?m] => rewrite (H m) by (cbn; tauto) end;
    try reflexivity;
    try (rewrite (M _ (incl_refl _)); reflexivity).
  - rewrite (M weights) by (intros h Hh; now right). reflexivity.
  - rewrite (M offsets) by (apply incl_appl, incl_refl). rewrite (M coeffs) by (apply incl_appr, incl_refl). reflexivity.
  - assert (X : map (fun v => (snd v, val hp1 (fst (fst v)), val hp1 (snd (fst v)))) vetos = map (fun v => (snd v, val hp2 (fst (fst v)), val hp2 (snd (fst v)))) vetos); [|now rewrite X].
    apply map_ext_in. intros v Hv. rewrite (H (fst (fst v))), (H (snd (fst v))); [reflexivity| |].
    + do 4 right. apply in_flat_map. exists v. split; [exact Hv|cbn; tauto].
    + do 4 right. apply in_flat_map. exists v. split; [exact Hv|cbn; tauto].
Qed.
Lemma value_pars : forall L hp1 hp2 norms fo ns, (forall n h, In n ns -> In h (node_pars n) -> val hp1 h = val hp2 h) -> forall f en id,
  value L hp1 norms fo f ns en id = value L hp2 norms fo f ns en id.
Proof.
  intros L hp1 hp2 norms fo ns H. induction f as [|f IH]; intros en id; [reflexivity|]. cbn [value]. destruct (nth_error ns id) as [n|] eqn:En; [|reflexivity].
  assert (HP : forall h, In h (node_pars n) -> val hp1 h = val hp2 h) by (intros h; apply H; eapply nth_error_In; eauto).
  assert (KS : forall e ks, omap (fun k => obind (value L hp1 norms fo f ns e k) (fun v => Some (v, norms k))) ks = omap (fun k => obind (value L hp2 norms fo f ns e k) (fun v => Some (v, norms k))) ks) by (intros e ks; apply omap_ext; intros k _; now rewrite IH).
  destruct n; cbn [node_pars] in *.
  - now apply leaf_pars_val.
  - rewrite KS, (map_ext_in _ _ ws HP). reflexivity.
  - now rewrite KS.
  - now rewrite KS.
  - rewrite IH. destruct (value L hp2 norms fo f ns en m); [|reflexivity]. cbn [obind]. destruct (floor_int (fadd fhalf f0)); [|reflexivity]. cbn [obind]. destruct (Z.ltb z 0); [reflexivity|].
    destruct (nth_error ts (Z.to_nat z)) as [k|]; [|reflexivity]. cbn [obind]. now rewrite IH.
  - rewrite IH. destruct (value L hp2 norms fo f ns en core); [|reflexivity]. cbn [obind]. destruct (fo shell); [|reflexivity]. cbn [obind]. apply IH.
Qed.

(** ** Writing the value of an observable *)
Lemma upd_upd : forall {A} (l : list A) i a b, upd (upd l i a) i b = upd l i b.
Proof. induction l as [|x l IH]; intros [|i] a b; cbn; try reflexivity. now rewrite IH. Qed.
Section Move.
Variables (hp : heap) (x : handle) (old : f64).
Hypothesis OLD : nth_error hp (h_value x) = Some (CF old).
Definition at_ (c : f64) : heap := upd hp (h_value x) (CF c).
Lemma at_old : at_ old = hp. Proof. unfold at_. now apply AskProofs.upd_same. Qed.
Lemma at_set : forall c c', set_field (at_ c) x FValue (CF c') = Some (at_ c').
Proof. intros c c'. unfold set_field, at_. cbn [ptr_of]. rewrite nth_error_upd_same by (eapply nth_error_Some_lt; eauto). cbn [same_cell_type]. now rewrite upd_upd. Qed.
Lemma at_value : forall c, moved hp x c x = Some (get_f (at_ c) x FValue).
Proof. intro c. unfold moved, handle_eqb, get_f, get_field, at_. rewrite Nat.eqb_refl. cbn [ptr_of]. now rewrite nth_error_upd_same by (eapply nth_error_Some_lt; eauto). Qed.
Lemma at_moved : forall c h, moved hp x c h = Some (get_f (at_ c) h FValue).
Proof.
  intros c h. unfold moved. destruct (handle_eqb h x) eqn:E.
  - apply Nat.eqb_eq in E. unfold get_f, get_field, at_. cbn [ptr_of]. rewrite E. now rewrite nth_error_upd_same by (eapply nth_error_Some_lt; eauto).
  - apply Nat.eqb_neq in E. unfold get_f, get_field, at_. cbn [ptr_of]. now rewrite nth_error_upd_other by congruence.
Qed.
Lemma at_get : forall c p, p <> h_value x -> nth_error (at_ c) p = nth_error hp p.
Proof. intros c p N. unfold at_. apply nth_error_upd_other; congruence. Qed.
Lemma at_i : forall c h, get_i (at_ c) h = get_i hp h.
Proof.
  intros c h. unfold get_i, get_field. cbn [ptr_of]. destruct (Nat.eq_dec (h_index h) (h_value x)) as [E|N]; [|now rewrite at_get].
  rewrite E, OLD. unfold at_. now rewrite nth_error_upd_same by (eapply nth_error_Some_lt; eauto).
Qed.
End Move.

(** ** The loop that fills the data set *)
Section Loop.
Variables (s0 : rstate) (v : nat) (x : handle) (old : f64).
Let g := r_g s0.
Let hp := g_heap g.
Hypothesis OLD : nth_error hp (h_value x) = Some (CF old).
Hypothesis VX : nth_error (g_hs g) v = Some x.
Hypothesis SELF : forall f p, f <> FValue -> ptr_of x f = Some p -> p <> h_value x.
Definition put (c : f64) : rstate := with_g s0 (mkG (at_ hp x c) (g_hs g) (g_pdfs g) (g_arr g)).
Lemma put_old : put old = s0.
Proof. clear VX SELF. unfold put. rewrite (at_old hp x old OLD). unfold hp, g. destruct s0 as [[? ? ? ?] ? ? ? ?]. reflexivity. Qed.
Lemma put_call : forall c c', gcall (put c) (GVar (Set_ v FValue (CF c'))) = NOk (put c').
Proof. intros c c'. unfold gcall, put. cbn [with_g r_g gstep g_heap g_hs g_pdfs g_arr vstep]. rewrite VX, (at_set hp x old OLD). reflexivity. Qed.
Lemma put_field : forall c f, f <> FValue -> get_field (at_ hp x c) x f = get_field hp x f.
Proof. intros c f N. unfold get_field. destruct (ptr_of x f) as [p|] eqn:E; [|reflexivity]. apply at_get. eapply SELF; eauto. Qed.
Lemma put_centre : forall c i, step_point (at_ hp x c) x i = bin_centre hp x i.
Proof. intros c i. unfold step_point, bin_centre, bin_size, get_f, get_n. now rewrite !put_field by discriminate. Qed.
Lemma loop_ok : forall obs m a c d s' d', filled obs d -> d_num d = a ->
  nfold (fun st i => s1 <~ gcall (fst st) (GVar (Set_ v FValue (CF (step_point (g_heap (r_g (fst st))) x i)))) ;;
                     let '(d, r) := addEvent (g_heap (r_g s1)) (snd st) in _ <~ of_res r ;; NOk (s1, d)) (seq a m) (put c, d) = NOk (s', d') ->
  s' = put (match m with 0 => c | S m' => bin_centre hp x (a + m') end) /\ filled obs d' /\ d_num d' = a + m /\
  (forall i h, i < a -> data_env d' i h = data_env d i h) /\
  forall i h b, i < m -> In b obs -> handle_eqb h b = true -> data_env d' (a + i) h = moved hp x (bin_centre hp x (a + i)) h.
Proof.
  intros obs. induction m as [|m IH]; intros a c d s' d' F N E.
  - cbn [seq nfold] in E. apply ok_inj in E. injection E as <- <-. split; [reflexivity|]. split; [exact F|]. split; [lia|]. split; [reflexivity|]. intros; lia.
  - cbn [seq nfold] in E. peel E sd ED. cbn [fst snd] in ED. change (g_heap (r_g (put c))) with (at_ hp x c) in ED. rewrite put_centre, put_call in ED. cbn [nbind] in ED.
    change (g_heap (r_g (put (bin_centre hp x a)))) with (at_ hp x (bin_centre hp x a)) in ED.
    destruct (addEvent (at_ hp x (bin_centre hp x a)) d) as [d1 r] eqn:EA. destruct r as [[]|]; [|discriminate]. cbn [of_res nbind] in ED. apply ok_inj in ED. subst sd.
    destruct (add_one _ _ _ _ F EA) as (F1 & N1 & P1 & Q1). rewrite N in *.
    destruct (IH (S a) _ _ _ _ F1 N1 E) as (S' & F' & N' & P' & Q'). split; [|split; [exact F'|split; [lia|split]]].
    + rewrite S'. destruct m; [now rewrite Nat.add_0_r|]. do 2 f_equal. lia.
    + intros i h Hi. rewrite P' by lia. now apply P1.
    + intros i h b Hi Hb Eb. destruct i as [|i].
      * rewrite Nat.add_0_r, P' by lia. rewrite (Q1 h b Hb Eb). symmetry. now apply (at_moved hp x old).
      * replace (a + S i) with (S a + i) by lia. eapply Q'; eauto. lia.
Qed.
End Loop.

(** ** Flattening again keeps what normalisation and evaluation depend on *)
Definition keep (p : pdf) := (lists p, p_fit p, p_bins p, p_overlap p, p_common p).
Lemma skel_keep : forall ps ps', map skel ps' = map skel ps -> map keep ps' = map keep ps.
Proof. intros ps ps' H. apply (f_equal (map keep)) in H. rewrite !map_map in H. exact H. Qed.
Lemma keep_lists : forall ps ps', map keep ps' = map keep ps -> map lists ps' = map lists ps.
Proof. intros ps ps' H. apply (f_equal (map (fun c : (list handle * list f64 * list handle) * option fitcontrol * Z * bool * bool => fst (fst (fst (fst c)))))) in H. rewrite !map_map in H. exact H. Qed.
Lemma keep_nth : forall ps ps' i p', map keep ps' = map keep ps -> nth_error ps' i = Some p' -> exists p, nth_error ps i = Some p /\ keep p = keep p'.
Proof. intros ps ps' i p' H E. apply (map_nth_error keep) in E. rewrite H in E. apply nth_error_map_iff in E. destruct E as (p & E & X). exists p. now split. Qed.
Lemma keep_none : forall ps ps' i, map keep ps' = map keep ps -> nth_error ps' i = None -> nth_error ps i = None.
Proof. intros ps ps' i H E. apply nth_error_None in E. apply nth_error_None. apply (f_equal (@len _)) in H. rewrite !map_length in H. lia. Qed.

Lemma set_data_keeps : forall s ns k ref d s' fc, reach (r_g s) ns -> k < len ns -> fit_of s k = Some fc -> set_data s k ref (Some (DUn d)) = NOk s' ->
  map keep (g_pdfs (r_g s')) = map keep (g_pdfs (r_g s)) /\ forall j, In j (tree_ids ns k) -> ranged (g_heap (r_g s')) (g_pdfs (r_g s')) j.
Proof.
  intros s ns k ref d s' fc R Hk FC E. unfold set_data in E. peel E sa EA. peel E sb EB. peel E b EF. apply ok_inj in E.
  assert (G : r_g s' = r_g sb) by (rewrite <- E; reflexivity). rewrite G. clear E EF.
  pose proof (reach_wf _ _ R) as (_ & MA & _). pose proof MA as [ML _]. pose proof (match_kids_match _ _ MA) as KM.
  assert (PA : g_pdfs (r_g sa) = g_pdfs (r_g s)).
  { apply gcall_ok in EA. subst sa. cbn [with_g with_buf r_g gstep]. destruct (Nat.ltb _ _); reflexivity. }
  apply gcall_ok in EB. subst sb. cbn [with_g r_g gstep]. rewrite PA. replace (Nat.ltb k (len (g_pdfs (r_g s)))) with true by (symmetry; apply Nat.ltb_lt; lia).
  pose proof (si_good ns (g_heap (r_g sa)) (g_pdfs (r_g s)) (g_arr (r_g sa)) k KM ltac:(lia)) as SG.
  assert (MK : map keep (fst (setIndices (g_heap (r_g sa)) (g_pdfs (r_g s)) (g_arr (r_g sa)) k)) = map keep (g_pdfs (r_g s))).
  { unfold setIndices. unfold fit_of in FC. destruct (nth_error (g_pdfs (r_g s)) k) as [p|]; [|reflexivity]. rewrite FC. apply fc_map; reflexivity. }
  destruct (setIndices _ _ _ _) as [ps' A']. cbn [fst g_pdfs g_heap] in *. split; [exact MK|]. intros j Hj. now apply SG.
Qed.

Lemma map_ext_fun : forall g g' ns ns', ginv g ns -> ginv g' ns' -> map keep (g_pdfs g') = map keep (g_pdfs g) -> g_heap g' = g_heap g ->
  first_obs_of g' = first_obs_of g /\ obs_list g' = obs_list g /\ cell_count g' = cell_count g /\ shares_observables g' = shares_observables g.
Proof.
  intros g g' ns ns' I I' K H. pose proof (lists_obs _ _ (keep_lists _ _ K)) as O. split; [eapply first_obs_eq; eauto|]. split; [|split].
  - destruct I as (_ & _ & C), I' as (_ & _ & C'). apply FunctionalExtensionality.functional_extensionality. intro i. unfold obs_list. rewrite !getObservables_obs_of by assumption. now apply map_obs_of.
  - apply FunctionalExtensionality.functional_extensionality. intro i. apply FunctionalExtensionality.functional_extensionality. intro h. unfold cell_count. rewrite H. destruct (nth_error (g_pdfs g') i) as [p'|] eqn:E.
    + destruct (keep_nth _ _ _ _ K E) as (p & -> & X). unfold bins_of. unfold keep in X. injection X as _ _ _ _ X _ _. now rewrite X.
    + now rewrite (keep_none _ _ _ K E).
  - apply FunctionalExtensionality.functional_extensionality. intro i. unfold shares_observables. destruct (nth_error (g_pdfs g') i) as [p'|] eqn:E.
    + destruct (keep_nth _ _ _ _ K E) as (p & -> & X). unfold keep in X. injection X as _ _ _ _ _ X _. now rewrite X.
    + now rewrite (keep_none _ _ _ K E).
Qed.
Lemma evaluable_keep : forall L g g' ns k, ginv g ns -> ginv g' ns -> map keep (g_pdfs g') = map keep (g_pdfs g) -> g_heap g' = g_heap g ->
  (forall j, In j (tree_ids ns k) -> ranged (g_heap g') (g_pdfs g') j) -> evaluable L g ns k -> evaluable L g' ns k.
Proof.
  intros L g g' ns k I I' K H RG (ND & TO & _ & DE & HI). destruct (map_ext_fun _ _ _ _ I I' K H) as (F & O & C & S).
  split; [exact ND|]. split; [exact (tree_ok_eq _ _ _ _ (keep_lists _ _ K) H F TO)|]. split; [intros i p Hi Ep; exact (RG i Hi p Ep)|]. split.
  - intros i p' Hi Ep. destruct (keep_nth _ _ _ _ K Ep) as (p & E & X). unfold keep in X. injection X as _ _ _ XF _ _ XC. destruct (DE i p Hi E) as [(fc & A & B) D]. split; [exists fc; split; congruence|congruence].
  - rewrite S, F, O, C, H. exact HI.
Qed.
Lemma normalised_keep : forall L red g g' ns k norms, ginv g ns -> ginv g' ns -> map keep (g_pdfs g') = map keep (g_pdfs g) -> g_heap g' = g_heap g ->
  normalised L red g' ns k norms -> normalised L red g ns k norms.
Proof. intros L red g g' ns k norms I I' K H N. destruct (map_ext_fun _ _ _ _ I I' K H) as (F & O & C & S). unfold normalised in *. now rewrite F, O, C, S, H in N. Qed.

(** ** evaluateAtPoints *)
Lemma of_obs_nth : forall hs v x, nth_error hs v = Some x -> is_obs hs v = true -> isvar x = false.
Proof. intros hs v x E H. unfold is_obs in H. rewrite E in H. unfold isvar. destruct (h_ext x); congruence. Qed.
Lemma omap_nth_all : forall {A} (l : list A), omap (nth_error l) (seq 0 (len l)) = Some l.
Proof.
  intros A l. assert (G : forall l p : list A, omap (nth_error (p ++ l)) (seq (len p) (len l)) = Some l); [|exact (G l [])].
  clear. induction l as [|a l IH]; intros p; [reflexivity|]. cbn [len seq omap]. rewrite nth_error_app2, Nat.sub_diag by lia. cbn [nth_error obind].
  specialize (IH (p ++ [a])). rewrite app_length, Nat.add_1_r, <- app_assoc in IH. cbn [app len] in IH. now rewrite IH.
Qed.
Lemma points : forall L red s ns k v x n s1 t w xs s', reach (r_g s) ns -> k < len ns -> numbered s k ->
  nth_error (g_hs (r_g s)) v = Some x -> is_obs (g_hs (r_g s)) v = true -> get_n (g_heap (r_g s)) x FNumBins = Z.of_nat (S n) ->
  gcall s (GSetFitControl k EvalFit) = NOk s1 -> gcall s1 (GSetIndices k) = NOk t -> evaluable L (r_g t) ns k ->
  gcall t (GVar (Set_ v FValue (CF (bin_centre (g_heap (r_g s)) x n)))) = NOk w -> evaluable L (r_g w) ns k ->
  (forall norms i, i <= n -> exists d, value L (g_heap (r_g s)) norms (first_obs_of (r_g s)) (S k) ns (moved (g_heap (r_g s)) x (bin_centre (g_heap (r_g s)) x i)) k = Some d) ->
  run_points L red s k v = NOk (xs, s') ->
  exists norms ds, normalised L red (r_g w) ns k norms /\
    omap (fun i => value L (g_heap (r_g s)) norms (first_obs_of (r_g s)) (S k) ns (moved (g_heap (r_g s)) x (bin_centre (g_heap (r_g s)) x i)) k) (seq 0 (S n)) = Some ds /\
    xs = map (fun d => fmul d (norms k)) ds.
Proof.
  intros L red s ns k v x n s1 t w xs s' R Hk NU VX OX NB E1 E2 EVB EW EVW DEF E. unfold run_points in E. rewrite E1 in E. cbn [nbind] in E. rewrite E2 in E. cbn [nbind] in E.
  peel E s3 E3. peel E x' EX. peel E st EL. destruct st as [s4 temp]. peel E s5 E5. peel E s6 E6. peel E results ER. peel E norm EN. peel E rl ES. peel E s7 E7. apply ok_inj in E. injection E as <- _.
  destruct (selected s ns k EvalFit s1 t R Hk E1 E2) as ((ops & HO) & FT & HT & ST & HST). pose proof EVB as (ND & TO & RC & DE & HI).
  assert (Rt : reach (r_g t) ns) by (eexists; exact HO). pose proof (si_ready ops k _ ns HO Hk ND) as RD.
  destruct (normalize_full ops [] k _ ns L red RD Hk ND ltac:(constructor) TO RC DE HI) as [[EQ _]|(rr & ps' & A' & EQ & SK & _)].
  { unfold run_normalize in E3. rewrite EQ in E3. discriminate. }
  assert (RN := E3). unfold run_normalize in E3. rewrite EQ in E3. cbn [nbind] in E3. apply ok_inj in E3.
  assert (G3 : g_heap (r_g s3) = g_heap (r_g t) /\ g_pdfs (r_g s3) = ps' /\ g_hs (r_g s3) = g_hs (r_g t)) by (subst s3; repeat split; reflexivity). destruct G3 as (H3 & P3 & HS3).
  destruct (run_normalize_inv L red t ns k s3 Rt RN) as (R3 & _). rewrite <- P3 in SK. clear EQ E3 P3.
  rewrite HS3, HST, VX in EX. apply ok_inj in EX. subst x'.
  assert (HP : g_heap (r_g s3) = g_heap (r_g s)) by congruence. rewrite HP in EL.
  assert (VX3 : nth_error (g_hs (r_g s3)) v = Some x) by congruence.
  destruct (hinv_good _ _ _ (let 'ex_intro _ o3 HO3 := R3 in after_hinv o3 _ _ HO3)) as (made & GM & IH & PI).
  assert (MX : In x made) by (apply IH; eapply nth_error_In; eauto).
  assert (OLD : exists old, nth_error (g_heap (r_g s3)) (h_value x) = Some (CF old)).
  { destruct GM as [_ B]. rewrite Forall_forall in B. destruct (B x MX) as [_ T]. destruct (T FValue (h_value x) eq_refl) as (c & Ec & Rc). destruct c; try discriminate Rc. eauto. }
  destruct OLD as [old OLD].
  assert (SELF : forall f p, f <> FValue -> ptr_of x f = Some p -> p <> h_value x).
  { intros f p NF Ef Ep. subst p. destruct (cell_inj made _ x x f FValue _ GM MX MX Ef eq_refl) as [_ X]. contradiction. }
  assert (NN : Z.to_nat (get_n (g_heap (r_g s)) x FNumBins) = S n) by (rewrite NB; apply Nat2Z.id). rewrite NN in *.
  assert (EL0 := EL). rewrite <- (put_old s3 x old OLD) in EL0 at 1.
  change (obs_of_pdf s3 k) with (obs_of_pdf s3 k) in EL0.
  destruct (loop_ok s3 v x old OLD VX3 SELF (obs_of_pdf s3 k) (S n) 0 old (new_dataset (obs_of_pdf s3 k)) s4 temp (filled_new _) eq_refl EL0) as (S4 & FI & NUM & _ & ENV). cbn [Nat.add] in S4, NUM, ENV.
  rewrite HP in S4, ENV. set (hp := g_heap (r_g s)) in *. set (c := bin_centre hp x n) in *. clear EL EL0.
  assert (C4 : gcall s3 (GVar (Set_ v FValue (CF c))) = NOk s4) by (rewrite S4; rewrite <- (put_old s3 x old OLD) at 1; now apply (put_call s3 v x old)).
  assert (OLDt : nth_error (g_heap (r_g t)) (h_value x) = Some (CF old)) by (rewrite <- H3; exact OLD).
  assert (W : w = put t x c).
  { rewrite <- (put_old t x old OLDt) in EW at 1. rewrite (put_call t v x old OLDt) in EW by congruence. symmetry. exact (ok_inj _ _ EW). }
  assert (R4 : reach (r_g s4) ns) by (eapply reach_gcall; [apply silent_var|exact R3|exact C4]).
  assert (Rw : reach (r_g w) ns) by (eapply reach_gcall; [apply silent_var|exact Rt|exact EW]).
  assert (P4 : g_pdfs (r_g s4) = g_pdfs (r_g s3)) by (rewrite S4; reflexivity). assert (Pw : g_pdfs (r_g w) = g_pdfs (r_g t)) by (rewrite W; reflexivity).
  assert (H4 : g_heap (r_g s4) = at_ hp x c) by (rewrite S4; unfold put; cbn [with_g r_g g_heap]; now rewrite HP). assert (Hw : g_heap (r_g w) = at_ hp x c) by (rewrite W; unfold put; cbn [with_g r_g g_heap]; now rewrite HT).
  rewrite HP in OLD.
  assert (OB4 : obs_of_pdf s4 k = obs_of_pdf s3 k) by (unfold obs_of_pdf; now rewrite P4).
  assert (O3 : map p_obs (g_pdfs (r_g s3)) = map p_obs (g_pdfs (r_g s))) by (rewrite (lists_obs _ _ (skel_lists _ _ SK)); now apply core_obs).
  assert (OB3 : obs_of_pdf s3 k = obs_of_pdf s k) by (rewrite !obs_of_pdf_eq; now apply map_obs_of).
  assert (N4 : numbered s4 k).
  { unfold numbered. rewrite OB4, OB3, H4. intros j h Hj. rewrite (at_i hp x old OLD). exact (NU j h Hj). }
  destruct (attached s4 ns k None temp s5 R4 Hk N4 E5) as ((ops5 & HO5) & H5 & S5 & OB5 & ME5 & CO5 & VD5 & VB5).
  assert (FC4 : fit_of s4 k = Some EvalFit) by (unfold fit_of; rewrite P4; change (fit_of s3 k = Some EvalFit); rewrite (fit_normalize L red t k s3 RN SK); exact FT).
  destruct (set_data_keeps s4 ns k None temp s5 EvalFit R4 Hk FC4 E5) as [K5 RG5]. pose proof (fit_setData s4 ns k None temp s5 EvalFit R4 Hk FC4 E5) as FC5.
  assert (R5 : reach (r_g s5) ns) by (eexists; exact HO5). pose proof (reach_wf _ _ R5) as I5. pose proof (reach_wf _ _ Rw) as Iw. pose proof (reach_wf _ _ R) as I0.
  assert (KW : map keep (g_pdfs (r_g s5)) = map keep (g_pdfs (r_g w))) by (rewrite K5, P4, Pw; now apply skel_keep).
  assert (HW : g_heap (r_g s5) = g_heap (r_g w)) by congruence.
  pose proof (evaluable_keep L _ _ ns k Iw I5 KW HW RG5 EVW) as EV5.
  assert (O5 : map p_obs (g_pdfs (r_g s5)) = map p_obs (g_pdfs (r_g s))) by (rewrite (lists_obs _ _ (keep_lists _ _ K5)), P4; exact O3).
  assert (F5 : first_obs_of (r_g s5) = first_obs_of (r_g s)) by (eapply first_obs_eq; eauto).
  assert (PARS : forall nd h, In nd ns -> In h (node_pars nd) -> val (at_ hp x c) h = val hp h).
  { intros nd h Hn Hh. destruct (PI nd h Hn Hh) as [Mh Vh]. unfold val, get_f, get_field. cbn [ptr_of]. rewrite (at_get hp x c); [reflexivity|]. intro EQ.
    destruct (cell_inj made _ h x FValue FValue (h_value x) GM Mh MX) as [EQ' _]; [cbn; now rewrite EQ|reflexivity|]. subst h. pose proof (of_obs_nth _ _ _ VX OX). congruence. }
  assert (VE : forall norms i, i < S n -> value L (g_heap (r_g s5)) norms (first_obs_of (r_g s5)) (S k) ns (data_env temp i) k = value L hp norms (first_obs_of (r_g s)) (S k) ns (moved hp x (bin_centre hp x i)) k).
  { intros norms i Hi. rewrite F5, H5, H4. rewrite (value_pars L (at_ hp x c) hp norms _ ns PARS). apply value_env. apply tree_obs_env. intros h Hh. destruct CO5 as [_ CT]. destruct (CT h Hh) as (j & b & Ej & Eb & _).
    eapply ENV; [exact Hi|rewrite <- OB4, <- OB5; eapply nth_error_In; exact Ej|]. apply Nat.eqb_eq in Eb. unfold handle_eqb. now rewrite Eb, Nat.eqb_refl. }
  assert (SM : small (len (obs_of_pdf s5 k))).
  { destruct EV5 as (_ & [_ F] & _). rewrite Forall_forall in F. assert (In k (tree_ids ns k)) as IK. { unfold tree_ids. cbn [subtree]. destruct (nth_error ns k) eqn:En; [now left|]. apply nth_error_None in En. lia. }
    specialize (F k IK). destruct F as [F _]. unfold sizes_ok in F. rewrite obs_of_pdf_eq. unfold obs_of. destruct (nth_error (g_pdfs (r_g s5)) k); [apply F|reflexivity]. }
  rewrite NUM in *.
  destruct (evaluated L red ops5 [] s5 ns k (len (obs_of_pdf s5 k)) (data_env temp) (si_ready ops5 k _ ns HO5 Hk ND) Hk ltac:(constructor) EV5) as [[EQ _]|(s6' & ds & EQ & SK6 & H6 & M6 & B6 & T6 & NM6 & HN6 & DS & AE)].
  - intros i Hi h Hh. rewrite ME5 in Hi. eapply row_env; [exact CO5|exact SM| | | |exact Hh].
    + intros j b y Hj Hy. eapply VB5; eauto.
    + intros b Hb. apply VD5; [exact Hi|exact Hb].
    + apply data_env_eq.
  - intro norms. rewrite ME5. assert (X : exists vs, omap (fun i => value L hp norms (first_obs_of (r_g s)) (S k) ns (moved hp x (bin_centre hp x i)) k) (seq 0 (S n)) = Some vs).
    { assert (A : forall l, (forall i, In i l -> i <= n) -> exists vs, omap (fun i => value L hp norms (first_obs_of (r_g s)) (S k) ns (moved hp x (bin_centre hp x i)) k) l = Some vs).
      { induction l as [|i l IHl]; intro Hl; [eexists; reflexivity|]. cbn [omap]. destruct (DEF norms i (Hl i (or_introl eq_refl))) as [d ->]. destruct (IHl (fun j Hj => Hl j (or_intror Hj))) as [vs ->]. eexists. reflexivity. }
      apply A. intros i Hi. apply in_seq in Hi. lia. }
    destruct X as [vs X]. exists vs. rewrite <- X. apply omap_ext. intros i Hi. apply VE. apply in_seq in Hi. lia.
  - rewrite E6 in EQ. discriminate.
  - rewrite E6 in EQ. apply ok_inj in EQ. subst s6'. exists (norm_of (r_g s6)), ds. split; [eapply normalised_keep; [exact Iw|exact I5|exact KW|exact HW|exact NM6]|].
    rewrite ME5 in DS, AE. split; [rewrite <- DS; apply omap_ext; intros i Hi; symmetry; apply VE; apply in_seq in Hi; lia|].
    rewrite HN6 in EN. apply ok_inj in EN. subst norm. 
    assert (OB6 : obs_of_pdf s6 k = obs_of_pdf s5 k) by (rewrite !obs_of_pdf_eq; apply map_obs_of; exact (lists_obs _ _ (skel_lists _ _ SK6))).
    destruct (omap_nth _ _ _ DS) as [LD _]. rewrite seq_length in LD.
    unfold evaluate_with_metric in ER. rewrite OB6, AE in ER.
    assert (MT : metric_of (r_g s5) k = getMetric EvalFit) by (unfold metric_of, fit_of in *; destruct (nth_error (g_pdfs (r_g s5)) k); [now rewrite FC5|discriminate]).
    rewrite MT in ER. rewrite <- LD in ER at 1.
    rewrite (dmap_answer L EvalFit (f_of_nat (r_total s5)) (fun i => skipn (len (obs_of_pdf s5 k) - 2) (skipn (i * len (obs_of_pdf s5 k)) (buffer s5))) (norm_of (r_g s6) k) ds 0 eq_refl) in ER.
    cbn [of_dres answer] in ER. apply ok_inj in ER. rewrite map_id in ER. subst results. rewrite HP, NN, <- LD, omap_nth_all in ES. apply ok_inj in ES. now subst rl.
Qed.
