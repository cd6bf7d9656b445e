(** setData as a whole; what calculateNLL leaves unchanged. *)
From Coq Require Import List ZArith Bool Lia.
From Verif Require Import F64 F64Lemmas ListAux VariableModel DataSetModel BinModel LeafFormulas DeviceModel PdfModel PdfSpec
  FlatProofs EvalProofs HostProofs PdfProofs PdfProofs2 PdfProofs3 NormModel NormSpec NormProofs NormProofs2 RunModel RunSpec RunProofs RunProofs2 RunProofs3 RunProofs4 RunProofs5.
Import ListNotations.
Local Open Scope nat_scope.
Local Notation len := List.length.

Lemma unbinned_total : forall hp obs d, positioned hp obs ->
  (exists b, fill_unbinned hp obs d = NOk b) \/ (fill_unbinned hp obs d = NThrow /\ exists i h, i < d_num d /\ In h obs /\ forall x, getValue d h i <> Ok x).
Proof.
  intros hp obs d P. unfold fill_unbinned.
  assert (G : forall cnt a b, len b = (a + cnt) * len obs ->
    (exists b', nfold (fun b i => nfold (put_one hp (fun v => of_res (getValue d v i)) (i * len obs)) obs b) (seq a cnt) b = NOk b') \/
    (nfold (fun b i => nfold (put_one hp (fun v => of_res (getValue d v i)) (i * len obs)) obs b) (seq a cnt) b = NThrow /\ exists i h, a <= i < a + cnt /\ In h obs /\ forall x, getValue d h i <> Ok x)).
  { induction cnt as [|cnt IH]; intros a b LB; cbn [seq nfold]; [left; now exists b|]. pose proof (mul_le a (a + S cnt) (len obs) ltac:(lia)) as ML.
    destruct (row_total hp (fun v => of_res (getValue d v a)) (a * len obs) obs 0 b) as [[b1 E1]|[E1 (h & Hh & Gh)]].
    - intros j h Hj. exact (P j h Hj).
    - lia.
    - intros h _. destruct (getValue d h a); cbn; [left; eauto|now right].
    - rewrite E1. cbn [nbind]. assert (L1 : len b1 = len b).
      { destruct (row_fill hp (fun v => of_res (getValue d v a)) (a * len obs) obs 0 b) as (b' & E' & L' & _).
        - intros j h Hj. exact (P j h Hj).
        - lia.
        - intros h Hh. exact (row_fail hp _ _ obs b b1 E1 h Hh).
        - rewrite E1 in E'. apply ok_inj in E'. now subst. }
      destruct (IH (S a) b1) as [H|(H & i & h & Hi & X)]; [rewrite L1, LB; f_equal; lia|now left|]. right. split; [exact H|]. exists i, h. split; [lia|exact X].
    - rewrite E1. right. split; [reflexivity|]. exists a, h. split; [lia|]. split; [exact Hh|]. intros x X. rewrite X in Gh. discriminate. }
  destruct (G (d_num d) 0 (repeat None (d_num d * len obs))) as [H|(H & i & h & Hi & X)]; [now rewrite repeat_length|now left|]. right. split; [exact H|]. exists i, h. split; [lia|exact X].
Qed.

Lemma gcall_so : forall s ns k, reach (r_g s) ns -> k < len ns -> exists s1, gcall (with_buf s None) (GSetupObservables k) = NOk s1.
Proof.
  intros s ns k R Hk. unfold gcall. cbn [with_buf r_g gstep]. pose proof (reach_wf _ _ R) as (_ & [ML _] & _). replace (Nat.ltb k (len (g_pdfs (r_g s)))) with true by (symmetry; apply Nat.ltb_lt; lia). eauto.
Qed.
Lemma gcall_si : forall s ns k, reach (r_g s) ns -> k < len ns -> exists s1, gcall s (GSetIndices k) = NOk s1.
Proof.
  intros s ns k R Hk. unfold gcall. cbn [gstep]. pose proof (reach_wf _ _ R) as (_ & [ML _] & _). replace (Nat.ltb k (len (g_pdfs (r_g s)))) with true by (symmetry; apply Nat.ltb_lt; lia).
  destruct (setIndices _ _ _ _). eauto.
Qed.
Lemma gcall_fc : forall s ns k fc, reach (r_g s) ns -> k < len ns -> exists s1, gcall s (GSetFitControl k fc) = NOk s1 /\ fit_of s1 k = Some fc /\ obs_of_pdf s1 k = obs_of_pdf s k /\ g_heap (r_g s1) = g_heap (r_g s) /\ r_mem s1 = r_mem s.
Proof.
  intros s ns k fc R Hk. unfold gcall. cbn [gstep]. pose proof (reach_wf _ _ R) as (_ & [ML _] & _). replace (Nat.ltb k (len (g_pdfs (r_g s)))) with true by (symmetry; apply Nat.ltb_lt; lia).
  pose proof (sfc_map p_obs (fun _ _ _ _ _ _ => eq_refl) (fun _ _ => eq_refl) (fun _ _ => eq_refl) (S k) (g_heap (r_g s)) (g_pdfs (r_g s)) (g_arr (r_g s)) k fc) as OM.
  assert (FF : fit_of (with_g s (mkG (g_heap (r_g s)) (g_hs (r_g s)) (fst (setFitControl (S k) (g_heap (r_g s)) (g_pdfs (r_g s)) (g_arr (r_g s)) k fc)) no_arrays)) k = Some fc).
  { unfold fit_of. cbn [with_g r_g g_pdfs]. cbn [setFitControl]. destruct (nth_error (g_pdfs (r_g s)) k) as [p|] eqn:Ep; [|apply nth_error_None in Ep; lia].
    assert (LF : forall cs st, len (fst (fold_left (fun s0 c => setFitControl k (g_heap (r_g s)) (fst s0) (snd s0) c fc) cs st)) = len (fst st)).
    { induction cs as [|c cs IHc]; intro st; [reflexivity|]. cbn [fold_left]. rewrite IHc. pose proof (sfc_map p_obs (fun _ _ _ _ _ _ => eq_refl) (fun _ _ => eq_refl) (fun _ _ => eq_refl) k (g_heap (r_g s)) (fst st) (snd st) c fc) as X. apply (f_equal (@len _)) in X. now rewrite !map_length in X. }
    specialize (LF (p_comps p) (g_pdfs (r_g s), g_arr (r_g s))). cbn [fst] in LF. destruct (fold_left _ (p_comps p) (g_pdfs (r_g s), g_arr (r_g s))) as [ps1 A1]. cbn [fst] in LF.
    assert (Hp : exists q, nth_error ps1 k = Some q) by (destruct (nth_error ps1 k) eqn:E; [eauto|apply nth_error_None in E; lia]). destruct Hp as [q Eq].
    pose proof (p_fit_fc (g_heap (r_g s)) (set_pdf ps1 k (fun q => with_fit q fc)) k fc) as PF.
    assert (X : option_map p_fit (nth_error (set_pdf ps1 k (fun q => with_fit q fc)) k) = Some (Some fc)).
    { unfold set_pdf. rewrite Eq. rewrite nth_error_upd_same; [reflexivity|]. now apply nth_error_Some_lt in Eq. }
    rewrite <- nth_error_map, <- PF, nth_error_map in X. revert X. generalize (nth_error (fst (setIndices_fc (g_heap (r_g s)) (set_pdf ps1 k (fun q => with_fit q fc)) k fc)) k). intros [w|] X; cbn [option_map] in X; [exact (f_equal (fun o => match o with Some y => y | None => None end) X)|discriminate]. }
  destruct (setFitControl (S k) (g_heap (r_g s)) (g_pdfs (r_g s)) (g_arr (r_g s)) k fc) as [ps' A']. cbn [fst] in *. eexists. split; [reflexivity|]. split; [exact FF|]. cbn [with_g r_g g_heap r_mem]. split; [|split; reflexivity].
  rewrite !obs_of_pdf_eq. cbn [with_g r_g g_pdfs]. now apply map_obs_of.
Qed.

(** C25 *)
Lemma setData_unbinned : forall s ns k ref d, reach (r_g s) ns -> k < len ns ->
  (set_data s k ref (Some (DUn d)) = NThrow /\ exists i h, i < d_num d /\ In h (obs_of_pdf s k) /\ forall x, getValue d h i <> Ok x) \/
  exists s', set_data s k ref (Some (DUn d)) = NOk s' /\ obs_of_pdf s' k = obs_of_pdf s k /\ len (buffer s') = d_num d * len (obs_of_pdf s k) /\
    m_entries (r_mem s' k) = d_num d /\
    (forall i j h, i < d_num d -> nth_error (obs_of_pdf s k) j = Some h -> exists x, getValue d h i = Ok x /\ nth_error (buffer s') (i * len (obs_of_pdf s k) + j) = Some (Some x)) /\
    (forall h, tree_observable ns k h -> exists j g, nth_error (obs_of_pdf s k) j = Some g /\ handle_eqb g h = true /\ get_i (g_heap (r_g s')) h = Z.of_nat j).
Proof.
  intros s ns k ref d R Hk. destruct (gcall_so s ns k R Hk) as (s1 & E1).
  assert (R1 : reach (r_g s1) ns) by (eapply reach_gcall; [apply silent_so| |exact E1]; exact R). destruct (gcall_si s1 ns k R1 Hk) as (s2 & E2).
  destruct (attach_prefix s ns k s1 s2 R Hk E1 E2) as (_ & CO & _ & M2).
  assert (OB : obs_of_pdf s2 k = obs_of_pdf s k).
  { apply gcall_ok in E1. apply gcall_ok in E2. subst s2 s1. rewrite !obs_of_pdf_eq. cbn [with_g with_buf r_g gstep]. pose proof (reach_wf _ _ R) as (_ & [ML _] & _).
    assert (LN : Nat.ltb k (len (g_pdfs (r_g s))) = true) by (apply Nat.ltb_lt; lia). rewrite LN. cbn [fst g_heap g_hs g_pdfs g_arr]. rewrite LN.
    pose proof (si_map p_obs (fun _ _ _ _ _ _ => eq_refl) (fun _ _ => eq_refl) (fun _ _ => eq_refl) (setupObservables (g_heap (r_g s)) (g_pdfs (r_g s)) k) (g_pdfs (r_g s)) (g_arr (r_g s)) k) as SM.
    destruct (setIndices _ _ _ _) as [ps' A']. cbn [fst g_pdfs] in *. now apply map_obs_of. }
  unfold set_data. rewrite E1. cbn [nbind]. rewrite E2. cbn [nbind]. destruct CO as [PO CT].
  destruct (unbinned_total _ _ d PO) as [[b EB]|(EB & i & h & Hi & Hh & NV)].
  - right. rewrite EB. cbn [nbind]. eexists. split; [reflexivity|]. unfold buffer. cbn [with_total with_buf with_mem r_g r_mem r_buf]. rewrite Nat.eqb_refl. cbn [m_entries].
    pose proof (unbinned_values _ _ _ _ EB) as UV. destruct (unbinned_ok _ _ d PO UV) as (b' & EB' & LB & VB). rewrite EB in EB'. apply ok_inj in EB'. subst b'.
    change (obs_of_pdf (with_total (with_buf (with_mem s2 k (mkMem ref (d_num d) (f_of_nat (d_num d)))) (Some b)) (d_num d)) k) with (obs_of_pdf s2 k). rewrite OB in *.
    split; [reflexivity|]. split; [exact LB|]. split; [reflexivity|]. split; [|exact CT]. intros i j h Hi Hj. destruct (UV i h Hi (nth_error_In _ _ Hj)) as [x X]. exists x. split; [exact X|]. eapply VB; eauto.
  - left. rewrite EB. split; [reflexivity|]. exists i, h. rewrite OB in Hh. now repeat split.
Qed.

(** C26 *)
Definition binned_control (fc : option fitcontrol) : fitcontrol := match fc with Some fc => if binnedFit fc then fc else BinnedNllFit | None => BinnedNllFit end.
Lemma setData_binned : forall s ns k ref d, reach (r_g s) ns -> k < len ns -> 
  let fc := binned_control (fit_of s k) in let hp1 := g_heap (fst (gstep (r_g s) (GSetupObservables k))) in
  (forall i h, i < bin_count d -> In h (obs_of_pdf s k) -> exists x, bin_env hp1 d i h = Some x) ->
  (forall i, i < bin_count d -> exists r, bin_row hp1 (binErrors fc) d i = Some r) ->
  exists s', set_data s k ref (Some (DBin d)) = NOk s' /\ obs_of_pdf s' k = obs_of_pdf s k /\ fit_of s' k = Some fc /\ len (buffer s') = bin_count d * (len (obs_of_pdf s k) + 2) /\
    m_entries (r_mem s' k) = bin_count d /\ r_total s' = bin_count d /\
    (forall i j h x, i < bin_count d -> nth_error (obs_of_pdf s k) j = Some h -> bin_env hp1 d i h = Some x -> nth_error (buffer s') (i * (len (obs_of_pdf s k) + 2) + j) = Some (Some x)) /\
    (forall i c w, i < bin_count d -> bin_row hp1 (binErrors fc) d i = Some (c, w) ->
       nth_error (buffer s') (i * (len (obs_of_pdf s k) + 2) + len (obs_of_pdf s k)) = Some (Some c) /\
       nth_error (buffer s') (i * (len (obs_of_pdf s k) + 2) + len (obs_of_pdf s k) + 1) = Some (Some w)) /\
    (forall h, tree_observable ns k h -> exists j g, nth_error (obs_of_pdf s k) j = Some g /\ handle_eqb g h = true /\ get_i (g_heap (r_g s')) h = Z.of_nat j).
Proof.
  intros s ns k ref d R Hk fc hp1 VD RD. destruct (gcall_so s ns k R Hk) as (s1 & E1).
  assert (R1 : reach (r_g s1) ns) by (eapply reach_gcall; [apply silent_so| |exact E1]; exact R). destruct (gcall_si s1 ns k R1 Hk) as (s2 & E2).
  assert (R2 : reach (r_g s2) ns) by (eapply reach_gcall; [apply silent_si| |exact E2]; exact R1).
  destruct (attach_prefix s ns k s1 s2 R Hk E1 E2) as (_ & CO & _ & M2).
  assert (OB : obs_of_pdf s2 k = obs_of_pdf s k /\ g_heap (r_g s2) = hp1 /\ exists f2, fit_of s2 k = Some f2 /\ f2 = match fit_of s k with Some f => f | None => UnbinnedNllFit end).
  { apply gcall_ok in E1. apply gcall_ok in E2. subst s2 s1. rewrite !obs_of_pdf_eq. unfold hp1, fit_of. cbn [with_g with_buf r_g gstep]. pose proof (reach_wf _ _ R) as (_ & [ML _] & _).
    assert (LN : Nat.ltb k (len (g_pdfs (r_g s))) = true) by (apply Nat.ltb_lt; lia). rewrite LN. cbn [fst g_heap g_hs g_pdfs g_arr]. rewrite LN.
    pose proof (si_map p_obs (fun _ _ _ _ _ _ => eq_refl) (fun _ _ => eq_refl) (fun _ _ => eq_refl) (setupObservables (g_heap (r_g s)) (g_pdfs (r_g s)) k) (g_pdfs (r_g s)) (g_arr (r_g s)) k) as SM.
    destruct (nth_error (g_pdfs (r_g s)) k) as [p|] eqn:Ep; [|apply nth_error_None in Ep; lia].
    destruct (setIndices_ok (setupObservables (g_heap (r_g s)) (g_pdfs (r_g s)) k) (g_pdfs (r_g s)) (g_arr (r_g s)) k p Ep) as (fc' & p' & _ & Ep' & EF & EFC).
    destruct (setIndices _ _ _ _) as [ps' A']. cbn [fst g_pdfs g_heap] in *. split; [now apply map_obs_of|]. split; [reflexivity|]. exists fc'. rewrite Ep', EF, EFC. now split. }
  destruct OB as (OB & HP & f2 & F2 & F2E).
  assert (S3 : exists s3, (if binnedFit f2 then NOk s2 else gcall s2 (GSetFitControl k BinnedNllFit)) = NOk s3 /\ fit_of s3 k = Some fc /\ obs_of_pdf s3 k = obs_of_pdf s k /\ g_heap (r_g s3) = hp1).
  { unfold fc, binned_control. destruct (fit_of s k) as [f|]; subst f2.
    - destruct (binnedFit f) eqn:BF; [exists s2; now repeat split|]. destruct (gcall_fc s2 ns k BinnedNllFit R2 Hk) as (s3 & E3 & F3 & O3 & H3 & _). exists s3. split; [exact E3|]. split; [exact F3|]. split; congruence.
    - cbn [binnedFit]. destruct (gcall_fc s2 ns k BinnedNllFit R2 Hk) as (s3 & E3 & F3 & O3 & H3 & _). exists s3. split; [exact E3|]. split; [exact F3|]. split; congruence. }
  destruct S3 as (s3 & E3 & F3 & O3 & H3). unfold set_data. rewrite E1. cbn [nbind]. rewrite E2. cbn [nbind]. rewrite F2. cbn [of_opt nbind]. rewrite E3. cbn [nbind]. rewrite F3. cbn [of_opt nbind]. rewrite H3, O3.
  destruct CO as [PO CT]. rewrite HP, OB in *. destruct (binned_ok hp1 (obs_of_pdf s k) (binErrors fc) d PO VD RD) as (b & ev & EB & LB & VB & RB & EV). rewrite EB. cbn [nbind].
  eexists. split; [reflexivity|]. unfold buffer. cbn [with_total with_buf with_mem r_g r_mem r_buf r_total]. rewrite Nat.eqb_refl. cbn [m_entries].
  rewrite !(Nat.add_comm (len (obs_of_pdf s k)) 2). unfold obs_of_pdf, fit_of in *. cbn [with_total with_buf with_mem r_g]. split; [exact O3|]. split; [exact F3|]. split; [exact LB|]. split; [reflexivity|]. split; [reflexivity|].
  split; [exact VB|]. split; [exact RB|]. rewrite H3. exact CT.
Qed.

(** C28: calculateNLL *)
Lemma norm_history : forall ns ids qs st st', Forall (stores ids) qs -> history st ns qs = (st', ns) ->
  g_heap st' = g_heap st /\ g_hs st' = g_hs st /\ map skel (g_pdfs st') = map skel (g_pdfs st).
Proof.
  intros ns ids. induction qs as [|q qs IH]; intros st st' F E; cbn [history] in E; [injection E as <-; now repeat split|]. inversion F as [|? ? (j & x & -> & _) F']; subst.
  assert (X : g_heap (fst (gstep st (GSetNormalization j x))) = g_heap st /\ g_hs (fst (gstep st (GSetNormalization j x))) = g_hs st /\ map skel (g_pdfs (fst (gstep st (GSetNormalization j x)))) = map skel (g_pdfs st)).
  { cbn [gstep]. destruct (nth_error (g_pdfs st) j) as [p|] eqn:Ep; [|now repeat split]. destruct (Nat.ltb _ _); [|now repeat split]. split; [reflexivity|]. split; [reflexivity|]. cbn [fst g_pdfs]. eapply map_upd_same; [exact Ep|reflexivity]. }
  destruct (gstep st (GSetNormalization j x)) as [st1 out]. cbn [fst] in X. rewrite (silent_norm j x) in E. destruct (IH st1 st' F' E) as (I1 & I2 & I3). destruct X as (X1 & X2 & X3). repeat split; congruence.
Qed.
Lemma nll_keeps : forall L red s ns k r s', reach (r_g s) ns -> calculateNLL L red s k = NOk (r, s') ->
  g_heap (r_g s') = g_heap (r_g s) /\ g_hs (r_g s') = g_hs (r_g s) /\ map skel (g_pdfs (r_g s')) = map skel (g_pdfs (r_g s)) /\
  r_sets s' = r_sets s /\ r_mem s' = r_mem s /\ r_buf s' = r_buf s /\ r_total s' = r_total s.
Proof.
  intros L red s ns k r s' R E. apply calculateNLL_state in E. destruct (run_normalize_inv L red s ns k s' R E) as (_ & S & M & B & T & _ & qs & F & H).
  destruct (norm_history ns _ qs _ _ F H) as (H1 & H2 & H3). repeat split; assumption.
Qed.

(** C28: getCompProbsAtDataPoints *)
Lemma fc_call_keeps : forall s o s1 k, resets o = Some k -> gcall s o = NOk s1 -> g_heap (r_g s1) = g_heap (r_g s) /\ g_hs (r_g s1) = g_hs (r_g s) /\ r_sets s1 = r_sets s /\ r_mem s1 = r_mem s /\ r_buf s1 = r_buf s /\ r_total s1 = r_total s.
Proof.
  intros s o s1 k HO E. apply gcall_ok in E. subst s1. cbn [with_g r_g r_sets r_mem r_buf r_total]. destruct o; try discriminate; cbn [gstep].
  - destruct (Nat.ltb _ _); [|now repeat split]. destruct (setIndices _ _ _ _). now repeat split.
  - destruct (Nat.ltb _ _); [|now repeat split]. destruct (setFitControl _ _ _ _ _ _). now repeat split.
Qed.
Lemma normalize_heap : forall L red s k s1, run_normalize L red s k = NOk s1 -> g_heap (r_g s1) = g_heap (r_g s) /\ g_hs (r_g s1) = g_hs (r_g s) /\ r_sets s1 = r_sets s /\ r_mem s1 = r_mem s /\ r_buf s1 = r_buf s /\ r_total s1 = r_total s.
Proof. intros L red s k s1 E. unfold run_normalize in E. peel E rpa EN. destruct rpa as [r [ps A]]. apply ok_inj in E. subst s1. now repeat split. Qed.
Definition same_model (s s1 : rstate) : Prop := g_heap (r_g s1) = g_heap (r_g s) /\ g_hs (r_g s1) = g_hs (r_g s) /\ r_sets s1 = r_sets s /\ r_mem s1 = r_mem s /\ r_buf s1 = r_buf s /\ r_total s1 = r_total s.
Lemma same_trans : forall a b c, same_model a b -> same_model b c -> same_model a c.
Proof. intros a b c (A1 & A2 & A3 & A4 & A5 & A6) (B1 & B2 & B3 & B4 & B5 & B6). repeat split; congruence. Qed.
Lemma comp_probs_keeps : forall L red s ns k r s', reach (r_g s) ns -> k < len ns -> run_comp_probs L red s k = NOk (r, s') -> same_model s s' /\ fit_of s' k = fit_of s k.
Proof.
  intros L red s ns k r s' R Hk E. unfold run_comp_probs in E. peel E s1 E1. peel E s2 E2. peel E fst0 E3. peel E p Ep. peel E sv E4. destruct sv as [s3 vals]. peel E fc Efc. peel E s4 E5. apply ok_inj in E. injection E as _ <-.
  assert (S1 : same_model s s1) by exact (fc_call_keeps s (GSetFitControl k ProbFit) s1 k eq_refl E1). pose proof (normalize_heap L red s1 k s2 E2) as S2.
  assert (S3 : same_model s2 (fst (s3, vals))).
  { eapply (nfold_inv _ (fun st => same_model s2 (fst st)) (fun _ => True)); [|apply all_true| |exact E4].
    - intros [sa va] c [sb vb] Sa _ Es. cbn [fst snd] in *. peel Es sc Ec. peel Es sd Ed. peel Es se Ee. peel Es rr Er. apply ok_inj in Es. injection Es as <- <-.
      eapply same_trans; [exact Sa|]. eapply same_trans; [exact (fc_call_keeps sa (GSetIndices c) sc c eq_refl Ec)|]. eapply same_trans; [exact (normalize_heap L red sc c sd Ed)|].
      unfold push_metric in Ee. peel Ee f Ef. apply ok_inj in Ee. subst se. now repeat split.
    - now repeat split. }
  cbn [fst] in S3. pose proof (fc_call_keeps s3 (GSetFitControl k fc) s4 k eq_refl E5) as S4. split; [eapply same_trans; [exact S1|]; eapply same_trans; [exact S2|]; eapply same_trans; [exact S3|exact S4]|].
  destruct (fit_of s k) as [f|] eqn:EF; [|discriminate]. cbn in Efc. apply ok_inj in Efc. subst f.
  assert (N4 : exists g, reach g ns /\ g_heap g = g_heap (r_g s3) /\ g_hs g = g_hs (r_g s3) /\ g_pdfs g = g_pdfs (r_g s3)).
  { assert (R1 : reach (r_g s1) ns) by (eapply reach_gcall; [apply silent_fc|exact R|exact E1]). assert (R2 : reach (r_g s2) ns) by (eapply run_normalize_inv; [exact R1|exact E2]).
    pose proof (reach_wf _ _ R) as (_ & [ML _] & _).
    assert (N : nearly (fst (s3, vals)) ns).
    { eapply (nfold_inv _ (fun st => nearly (fst st) ns) (fun c => c < len ns)); [| | |exact E4].
      - intros [sa va] c [sb vb] Na Hc Es. cbn [fst snd] in *. peel Es sc Ec. peel Es sd Ed. peel Es se Ee. peel Es rr Er. apply ok_inj in Es. injection Es as <- <-.
        assert (Rc : reach (r_g sc) ns) by (eapply (nearly_reset sa ns (GSetIndices c) c); eauto; try reflexivity; apply silent_si).
        assert (Rd : reach (r_g sd) ns) by (eapply run_normalize_inv; [exact Rc|exact Ed]).
        unfold push_metric in Ee. peel Ee fc' Efc'. apply ok_inj in Ee. subst se. exists (g_arr (r_g sd)). cbn [with_g r_g g_heap g_hs g_pdfs]. destruct (r_g sd). exact Rd.
      - destruct (nth_error (g_pdfs (r_g s2)) k) as [q|] eqn:Eq; [|discriminate]. cbn in Ep. apply ok_inj in Ep. subst q. pose proof (reach_wf _ _ R2) as (_ & MA2 & CL2). destruct MA2 as [ML2 MM2]. destruct (CL2 k p Eq) as (_ & _ & HK & _). eapply Forall_impl; [|exact HK]. intros c Hc. cbn in Hc. lia.
      - apply reach_nearly. exact R2. }
    destruct N as [A RA]. eexists. split; [exact RA|]. now repeat split. }
  destruct N4 as (g & Rg & G1 & G2 & G3). destruct (gcall_fc (with_g s3 g) ns k fc Rg Hk) as (s5 & E6 & F5 & _). 
  assert (LN : k < len (g_pdfs (r_g s3))). { pose proof (reach_wf _ _ Rg) as (_ & [ML2 _] & _). rewrite G3 in ML2. lia. }
  apply gcall_ok in E6. apply gcall_ok in E5. subst s5 s4. unfold fit_of in *. cbn [with_g r_g] in *. destruct g as [gh ghs gp ga]. cbn [g_heap g_hs g_pdfs] in *. subst gh ghs gp.
  rewrite (reset_arr _ _ _ ga (g_arr (r_g s3)) (GSetFitControl k fc) k eq_refl LN) in F5. destruct (r_g s3). exact F5.
Qed.
