(** Binned data. *)
From Coq Require Import List ZArith Bool Lia.
From Verif Require Import F64 F64Lemmas ListAux VariableModel DataSetModel BinModel LeafFormulas DeviceModel PdfModel PdfSpec
  FlatProofs EvalProofs HostProofs PdfProofs PdfProofs2 PdfProofs3 NormModel NormSpec NormProofs NormProofs2 RunModel RunSpec RunProofs RunProofs2 RunProofs3 RunProofs4.
Import ListNotations.
Local Open Scope nat_scope.
Local Notation len := List.length.

(** The calls after setData, for either kind of data. *)
Lemma after_attach : forall L red ns k ops s1 mid s ns', after (ops ++ [GSetupObservables k; GSetIndices k]) = (r_g s1, ns) -> Forall (rquiet ns k) mid ->
  rrun L red s1 ns (mid ++ [RG (GCopyParams k)]) = NOk (s, ns') ->
  ns' = ns /\ (exists qs, after (ready (ops ++ [GSetupObservables k]) qs k) = (r_g s, ns) /\ Forall (quiet ns k) qs) /\
  r_mem s = r_mem s1 /\ r_buf s = r_buf s1 /\ r_total s = r_total s1 /\ (forall h, get_i (g_heap (r_g s)) h = get_i (g_heap (r_g s1)) h) /\ obs_of_pdf s k = obs_of_pdf s1 k /\ fit_of s k = fit_of s1 k.
Proof.
  intros L red ns k ops s1 mid s ns' HO Q E. assert (R1 : reach (r_g s1) ns) by (eexists; exact HO). rewrite rrun_app in E. peel E sn EM. destruct sn as [s2 ns2]. cbn [fst snd] in E.
  destruct (quiet_session L red ns k mid s1 s2 ns2 R1 Q EM) as (-> & M2 & B2 & T2 & qs & FQ & HQ).
  cbn [rrun] in E. peel E so E3. destruct so as [s3 out3]. cbn [rrun] in E. apply ok_inj in E. injection E as <- <-. unfold rstep in E3.
  assert (EG : s3 = with_g s2 (fst (gstep (r_g s2) (GCopyParams k))) /\ rnote s2 (RG (GCopyParams k)) out3 ns = ns).
  { pose proof (quiet_note ns k (r_g s2) (GCopyParams k) (snd (gstep (r_g s2) (GCopyParams k))) ns eq_refl) as NN. destruct (gstep (r_g s2) (GCopyParams k)) as [g go]. cbn [snd] in NN.
    assert (X : (with_g s2 g, OGot go) = (s3, out3)) by (destruct go; try discriminate; exact (ok_inj _ _ E3)). injection X as <- <-. split; [reflexivity|exact NN]. }
  destruct EG as [-> NN]. split; [exact NN|].
  assert (HR : history (r_g s1) ns (qs ++ [GCopyParams k]) = (fst (gstep (r_g s2) (GCopyParams k)), ns)).
  { rewrite history_app, HQ. cbn [fst snd history]. destruct (gstep (r_g s2) (GCopyParams k)) as [g go] eqn:EG. cbn [fst]. f_equal. exact (quiet_note ns k (r_g s2) (GCopyParams k) go ns eq_refl). }
  split. { exists qs. split; [|exact FQ]. unfold ready. rewrite <- app_assoc. cbn [app].
    change (ops ++ GSetupObservables k :: GSetIndices k :: qs ++ [GCopyParams k]) with (ops ++ [GSetupObservables k; GSetIndices k] ++ (qs ++ [GCopyParams k])). rewrite app_assoc. unfold after in *. rewrite history_app, HO. cbn [fst snd with_g r_g]. exact HR. }
  assert (FQ' : Forall (quiet ns k) (qs ++ [GCopyParams k])) by (apply Forall_app; split; [exact FQ|repeat constructor]).
  destruct (quiet_keeps_all ns k _ _ _ _ FQ' HR) as (_ & KI & KO & KF). cbn [with_g r_g r_mem r_buf r_total].
  split; [exact M2|]. split; [exact B2|]. split; [exact T2|]. split; [exact KI|]. split.
  - rewrite !obs_of_pdf_eq. cbn [with_g r_g]. now apply map_obs_of.
  - unfold fit_of. cbn [with_g r_g]. assert (X : option_map p_fit (nth_error (g_pdfs (fst (gstep (r_g s2) (GCopyParams k)))) k) = option_map p_fit (nth_error (g_pdfs (r_g s1)) k)) by (rewrite <- !nth_error_map; now rewrite KF).
    destruct (nth_error (g_pdfs (fst (gstep (r_g s2) (GCopyParams k)))) k), (nth_error (g_pdfs (r_g s1)) k); cbn in X; try discriminate; [now injection X|reflexivity].
Qed.

Lemma fit_si : forall s ns k fc s1 s2, reach (r_g s) ns -> k < len ns -> fit_of s k = Some fc ->
  gcall (with_buf s None) (GSetupObservables k) = NOk s1 -> gcall s1 (GSetIndices k) = NOk s2 -> fit_of s2 k = Some fc.
Proof.
  intros s ns k fc s1 s2 R Hk HF E1 E2. apply gcall_ok in E1. apply gcall_ok in E2. subst s1 s2. cbn [with_buf with_g r_g]. unfold fit_of in *. cbn [with_g with_buf r_g].
  pose proof (reach_wf _ _ R) as (_ & [ML _] & _). assert (LN : Nat.ltb k (len (g_pdfs (r_g s))) = true) by (apply Nat.ltb_lt; lia).
  cbn [gstep]. rewrite LN. cbn [fst g_pdfs g_heap g_hs g_arr]. rewrite LN.
  destruct (nth_error (g_pdfs (r_g s)) k) as [p|] eqn:Ep; [|discriminate].
  destruct (setIndices_ok (setupObservables (g_heap (r_g s)) (g_pdfs (r_g s)) k) (g_pdfs (r_g s)) (g_arr (r_g s)) k p Ep) as (fc' & p' & _ & Ep' & EF & EFC).
  destruct (setIndices _ _ _ _) as [ps' A']. cbn [fst g_pdfs] in *. rewrite Ep', EF, EFC, HF. reflexivity.
Qed.

(** setData with a binned data set, for a PDF that has a binned fit control. *)
Lemma binned_attached : forall s0 ns k ref d fc s1, reach (r_g s0) ns -> k < len ns -> fit_of s0 k = Some fc -> binnedFit fc = true -> set_data s0 k ref (Some (DBin d)) = NOk s1 ->
  (exists ops, after (ops ++ [GSetupObservables k; GSetIndices k]) = (r_g s1, ns)) /\ fit_of s1 k = Some fc /\
  columned (g_heap (r_g s1)) (obs_of_pdf s1 k) ns k /\ m_entries (r_mem s1 k) = bin_count d /\ r_total s1 = bin_count d /\ m_data (r_mem s1 k) = ref /\
  len (buffer s1) = bin_count d * (2 + len (obs_of_pdf s1 k)) /\
  (forall i h, i < bin_count d -> In h (obs_of_pdf s1 k) -> exists x, bin_env (g_heap (r_g s1)) d i h = Some x) /\
  (exists rows, bin_rows (g_heap (r_g s1)) (binErrors fc) d = Some rows /\ m_events (r_mem s1 k) = fold_left fadd (map fst rows) fzero) /\
  (forall i j h x, i < bin_count d -> nth_error (obs_of_pdf s1 k) j = Some h -> bin_env (g_heap (r_g s1)) d i h = Some x -> nth_error (buffer s1) (i * (2 + len (obs_of_pdf s1 k)) + j) = Some (Some x)) /\
  (forall i c w, i < bin_count d -> bin_row (g_heap (r_g s1)) (binErrors fc) d i = Some (c, w) ->
     nth_error (buffer s1) (i * (2 + len (obs_of_pdf s1 k)) + len (obs_of_pdf s1 k)) = Some (Some c) /\
     nth_error (buffer s1) (i * (2 + len (obs_of_pdf s1 k)) + len (obs_of_pdf s1 k) + 1) = Some (Some w)).
Proof.
  intros s0 ns k ref d fc s1 R Hk HF BF ES. unfold set_data in ES. peel ES sa EA. peel ES sb EB. pose proof (fit_si _ _ _ _ _ _ R Hk HF EA EB) as FB. rewrite FB in ES. cbn [of_opt nbind] in ES. rewrite BF in ES. cbn [nbind] in ES. rewrite FB in ES. cbn [of_opt nbind] in ES.
  peel ES be EF. destruct be as [b ev]. apply ok_inj in ES. destruct (attach_prefix s0 ns k sa sb R Hk EA EB) as (HO & CO & _ & _).
  destruct (binned_values _ _ _ _ _ _ EF) as [UV UR]. destruct CO as [PO CT]. destruct (binned_ok _ _ _ _ PO UV UR) as (b' & ev' & EF' & LB & VB & RB & EV). rewrite EF in EF'. apply ok_inj in EF'. injection EF' as <- <-.
  subst s1. unfold buffer, fit_of, obs_of_pdf in *. cbn [with_total with_buf with_mem r_g r_mem r_total r_buf]. rewrite Nat.eqb_refl. cbn [m_entries m_events m_data].
  split; [exact HO|]. split; [exact FB|]. split; [split; assumption|]. repeat (split; [reflexivity|]). split; [exact LB|]. split; [exact UV|]. split.
  - assert (T : forall l, (forall i, In i l -> i < bin_count d) -> exists rows, omap (bin_row (g_heap (r_g sb)) (binErrors fc) d) l = Some rows /\ omap (fun i => option_map fst (bin_row (g_heap (r_g sb)) (binErrors fc) d i)) l = Some (map fst rows)).
    { induction l as [|a l IH]; intro H; [exists []; now split|]. destruct (UR a (H a (or_introl eq_refl))) as [r Er]. destruct IH as (rows & I1 & I2); [intros; apply H; now right|]. exists (r :: rows). cbn [omap]. rewrite Er. cbn [obind option_map]. now rewrite I1, I2. }
    destruct (T (seq 0 (bin_count d))) as (rows & T1 & T2); [intros i Hi; apply in_seq in Hi; lia|]. exists rows. split; [exact T1|]. now apply EV.
  - split; [exact VB|exact RB].
Qed.

Lemma dmap_bins : forall L fc total norm (rest : nat -> event) vs rows a, (fc = BinnedNllFit \/ fc = BinnedChisqFit) -> len rows = len vs ->
  (forall i c w, nth_error rows i = Some (c, w) -> nth_error (rest (a + i)) 0 = Some (Some c) /\ nth_error (rest (a + i)) 1 = Some (Some w)) ->
  dmap (fun iv => metric_value L (getMetric fc) total (snd iv) (rest (fst iv)) norm) (combine (seq a (len vs)) vs) = DOk (bin_terms L fc total norm vs rows).
Proof.
  intros L fc total norm rest. induction vs as [|v vs IH]; intros rows a HF LR RR; [destruct rows; [reflexivity|discriminate]|]. destruct rows as [|[c w] rows]; [discriminate|]. cbn [len] in LR. injection LR as LR.
  cbn [len seq combine dmap fst snd bin_terms map]. rewrite (IH rows (S a) HF LR).
  - destruct (RR 0 c w eq_refl) as [R0 R1]. rewrite Nat.add_0_r in R0, R1. destruct HF as [-> | ->]; cbn [getMetric metric_value bin_term]; unfold ev; rewrite R0, R1; cbn [dbind fst snd].
    + destruct (flt fzero (fmul (fmul v norm) w)); reflexivity.
    + reflexivity.
  - intros i c' w' Hi. replace (S a + i) with (a + S i) by lia. now apply RR.
Qed.

Lemma binned_fit : forall L red s0 ns k d fc ref s1 mid s ns', reach (r_g s0) ns -> k < len ns -> fit_of s0 k = Some fc -> (fc = BinnedNllFit \/ fc = BinnedChisqFit) ->
  set_data s0 k ref (Some (DBin d)) = NOk s1 -> Forall (rquiet ns k) mid -> rrun L red s1 ns (mid ++ [RG (GCopyParams k)]) = NOk (s, ns') ->
  evaluable L (r_g s) ns k -> (forall norms, exists vs, bin_values L (r_g s) ns norms k (g_heap (r_g s1)) d = Some vs) ->
  (calculateNLL L red s k = NThrow /\ unnormalisable L red (r_g s) ns k) \/
  exists s' vs rows, let norm := norm_of (r_g s') k in let sum := red (bin_terms L fc (f_of_nat (bin_count d)) norm vs rows) in
    normalised L red (r_g s) ns k (norm_of (r_g s')) /\ bin_values L (r_g s) ns (norm_of (r_g s')) k (g_heap (r_g s1)) d = Some vs /\
    bin_rows (g_heap (r_g s1)) false d = Some rows /\
    calculateNLL L red s k = if fle norm fzero || feq fzero sum then NThrow
                             else NOk (with_extended L (g_heap (r_g s)) ns k (fold_left fadd (map fst rows) fzero) sum, s').
Proof.
  intros L red s0 ns k d fc ref s1 mid s ns' R Hk HF FF ES Q E EVB DEF. assert (BF : binnedFit fc = true /\ binErrors fc = false) by (destruct FF as [-> | ->]; now split). destruct BF as [BF BE].
  destruct (binned_attached s0 ns k ref d fc s1 R Hk HF BF ES) as ((ops & HO) & F1 & CO & ME & TT & _ & LB & VD & (rows & RW & MV) & VB & RB). rewrite BE in *.
  destruct (after_attach L red ns k ops s1 mid s ns' HO Q E) as (_ & (qs & HT & FQ) & EM & EBf & ET & KI & KO & KF).
  pose proof EVB as (ND & TO & _). destruct (ready_state _ qs k _ ns HT Hk ND FQ) as ((HW & MA & CL) & PL & _).
  assert (SM : small (len (obs_of_pdf s k))).
  { destruct TO as [_ F]. rewrite Forall_forall in F. assert (In k (tree_ids ns k)) as IK. { unfold tree_ids. cbn [subtree]. destruct (nth_error ns k) eqn:En; [now left|]. apply nth_error_None in En. lia. }
    specialize (F k IK). destruct F as [F _]. unfold sizes_ok in F. rewrite obs_of_pdf_eq. unfold obs_of. destruct (nth_error (g_pdfs (r_g s)) k); [apply F|reflexivity]. }
  assert (FS : fit_of s k = Some fc) by congruence.
  assert (MT : metric_of (r_g s) k = getMetric fc). { unfold metric_of. unfold fit_of in FS. destruct (nth_error (g_pdfs (r_g s)) k); [|discriminate]. now rewrite FS. }
  assert (BU : buffer s = buffer s1) by (unfold buffer; now rewrite EBf). set (size := len (obs_of_pdf s k) + 2).
  assert (SZ : 2 + len (obs_of_pdf s1 k) = size) by (unfold size; rewrite KO; lia). rewrite SZ in *.
  destruct (evaluated L red _ qs s ns k size (bin_env (g_heap (r_g s1)) d) HT Hk FQ EVB) as [[E1 X]|(s' & vs & E1 & SK & HH & M' & B' & T' & NM & HN & EV & AE)].
  - rewrite EM, ME. intros i0 Hi h Hh. eapply row_env; [eapply columned_keep; [exact KI|exact CO]|rewrite <- KO; exact SM| | | |exact Hh].
    + intros j g x Hj Hx. rewrite BU. exact (VB i0 j g x Hi Hj Hx).
    + intros g Hg. exact (VD i0 g Hi Hg).
    + apply bin_env_eq.
  - rewrite EM, ME. exact DEF.
  - left. split; [|exact X]. unfold calculateNLL, base_nll. now rewrite E1.
  - right. exists s', vs, rows. cbv zeta. rewrite EM, ME in EV, AE. split; [exact NM|]. split; [exact EV|]. split; [exact RW|].
    destruct (omap_nth _ _ _ EV) as [LV _]. rewrite seq_length in LV. destruct (omap_nth _ _ _ RW) as [LR NR]. rewrite seq_length in LR.
    assert (FC' : fit_of s' k = Some fc /\ obs_of_pdf s' k = obs_of_pdf s k /\ exists p p', nth_error (g_pdfs (r_g s)) k = Some p /\ nth_error (g_pdfs (r_g s')) k = Some p' /\ skel p' = skel p).
    { unfold fit_of in FS |- *. destruct (nth_error (g_pdfs (r_g s)) k) as [p|] eqn:Ep; [|discriminate]. pose proof Ep as Ep1. apply (map_nth_error skel) in Ep. rewrite <- SK in Ep. apply nth_error_map_iff in Ep. destruct Ep as (p' & Ep & X).
      rewrite Ep. symmetry in X. pose proof X as X0. apply skel_fields in X. split; [rewrite <- FS; apply X|]. split; [unfold obs_of_pdf; rewrite Ep, Ep1; apply X|]. exists p, p'. now repeat split. }
    destruct FC' as (FC' & OB' & p & p' & Ep & Ep' & XP).
    assert (BN : base_nll L red s k = if fle (norm_of (r_g s') k) fzero || feq fzero (red (bin_terms L fc (f_of_nat (bin_count d)) (norm_of (r_g s') k) vs rows)) then NThrow else NOk (red (bin_terms L fc (f_of_nat (bin_count d)) (norm_of (r_g s') k) vs rows), s')).
    { unfold base_nll. rewrite E1. cbn [nbind]. rewrite HN. cbn [nbind]. destruct (fle (norm_of (r_g s') k) fzero); [reflexivity|]. cbn [orb].
      unfold reduce_with_metric, event_size. rewrite FC'. cbn [of_opt nbind]. rewrite BF, OB'. fold size. rewrite AE, MT, ET, TT.
      rewrite <- LV at 1. rewrite (dmap_bins L fc (f_of_nat (bin_count d)) (norm_of (r_g s') k) (fun i => skipn (size - 2) (skipn (i * size) (buffer s))) vs rows 0 FF); [|lia|].
      - cbn [of_dres nbind]. destruct (feq fzero _); reflexivity.
      - intros i c w Hi. rewrite !nth_error_skipn. cbn [Nat.add]. pose proof (nth_error_Some_lt _ _ _ Hi) as LI. destruct (NR i i) as (r & Hr & Er); [apply nth_seq0; lia|]. rewrite Hi in Hr. injection Hr as <-.
        destruct (RB i c w ltac:(lia) Er) as [R0 R1]. rewrite BU. rewrite <- KO in R0, R1. split; [rewrite <- R0|rewrite <- R1]; f_equal; unfold size; lia. }
    unfold calculateNLL. rewrite BN. destruct (fle _ _ || feq _ _); [reflexivity|]. cbn [nbind]. rewrite Ep'. cbn [of_opt nbind].
    pose proof (expected_add (r_g s) ns k p MA Ep Hk) as EX. apply skel_fields in XP. destruct XP as (XK & XP & _ & _ & XC & _). rewrite XK, XP, XC. unfold with_extended.
    rewrite M', EM, MV, HH. destruct (p_kind p); try (rewrite EX; reflexivity). destruct EX as (ws & -> & ->). reflexivity.
Qed.
