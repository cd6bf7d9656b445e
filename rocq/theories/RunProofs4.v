(** The likelihood on attached data. *)
From Coq Require Import List ZArith Bool Lia.
From Verif Require Import F64 F64Lemmas ListAux VariableModel DataSetModel BinModel LeafFormulas DeviceModel PdfModel PdfSpec
  FlatProofs EvalProofs HostProofs PdfProofs PdfProofs2 PdfProofs3 NormModel NormSpec NormProofs NormProofs2 RunModel RunSpec RunProofs RunProofs2 RunProofs3.
Import ListNotations.
Local Open Scope nat_scope.
Local Notation len := List.length.

Lemma rrun_app : forall L red a b s ns, rrun L red s ns (a ++ b) = nbind (rrun L red s ns a) (fun r => rrun L red (fst r) (snd r) b).
Proof.
  intros L red. induction a as [|o a IH]; intros b s ns; [reflexivity|]. cbn [app rrun]. rewrite nbind_assoc. destruct (rstep L red s o) as [[s1 out]| | |]; [|reflexivity..]. cbn [nbind]. apply IH.
Qed.
Lemma norms_first_obs : forall st ps' A', closed (g_pdfs st) -> map skel ps' = map skel (g_pdfs st) ->
  first_obs_of (mkG (g_heap st) (g_hs st) ps' A') = first_obs_of st.
Proof.
  intros st ps' A' C SK. apply FunctionalExtensionality.functional_extensionality. intro x. unfold first_obs_of. cbn [g_pdfs].
  rewrite !getObservables_obs_of; [|exact C|eapply closed_skel; eauto]. now rewrite (obs_skel _ _ x SK).
Qed.
Lemma nth_seq : forall n a i, i < n -> nth_error (seq a n) i = Some (a + i).
Proof. induction n as [|n IH]; intros a i H; [lia|]. destruct i as [|i]; cbn [seq nth_error]; [now rewrite Nat.add_0_r|]. rewrite IH by lia. f_equal. lia. Qed.
Lemma nth_seq0 : forall n i, i < n -> nth_error (seq 0 n) i = Some i.
Proof. intros n i H. now rewrite nth_seq. Qed.
Lemma omap_nth : forall {A B} (f : A -> option B) l vs, omap f l = Some vs -> len vs = len l /\ forall i a, nth_error l i = Some a -> exists v, nth_error vs i = Some v /\ f a = Some v.
Proof.
  intros A B f. induction l as [|a l IH]; intros vs E; cbn [omap] in E; [injection E as <-; split; [reflexivity|intros [|i] a X; discriminate]|].
  destruct (f a) as [v|] eqn:Ef; [|discriminate]. cbn in E. destruct (omap f l) as [ws|]; [|discriminate]. cbn in E. injection E as <-. destruct (IH ws eq_refl) as [H1 H2].
  split; [cbn; now rewrite H1|]. intros [|i] b Hb; cbn in *; [injection Hb as <-; eauto|now apply H2].
Qed.

Lemma tree_obs_env : forall ns k (en1 en2 : env), (forall h, tree_observable ns k h -> en1 h = en2 h) ->
  forall i n h, In i (subtree (S k) ns k) -> nth_error ns i = Some n -> In h (node_obs n) -> en1 h = en2 h.
Proof. intros ns k en1 en2 H i n h Hi En Hh. apply H. now exists i, n. Qed.

Lemma evaluated : forall L red ops qs s ns k size (en : nat -> env),
  after (ready ops qs k) = (r_g s, ns) -> k < len ns -> Forall (quiet ns k) qs -> evaluable L (r_g s) ns k ->
  (forall i, i < m_entries (r_mem s k) -> forall h, tree_observable ns k h -> event_env (g_heap (r_g s)) (skipn (i * size) (buffer s)) h = en i h) ->
  (forall norms, exists vs, omap (fun i => value L (g_heap (r_g s)) norms (first_obs_of (r_g s)) (S k) ns (en i) k) (seq 0 (m_entries (r_mem s k))) = Some vs) ->
  (run_normalize L red s k = NThrow /\ unnormalisable L red (r_g s) ns k) \/
  exists s' vs, run_normalize L red s k = NOk s' /\ map skel (g_pdfs (r_g s')) = map skel (g_pdfs (r_g s)) /\ g_heap (r_g s') = g_heap (r_g s) /\
    r_mem s' = r_mem s /\ r_buf s' = r_buf s /\ r_total s' = r_total s /\
    normalised L red (r_g s) ns k (norm_of (r_g s')) /\ host_norm s' k = NOk (norm_of (r_g s') k) /\
    omap (fun i => value L (g_heap (r_g s)) (norm_of (r_g s')) (first_obs_of (r_g s)) (S k) ns (en i) k) (seq 0 (m_entries (r_mem s k))) = Some vs /\
    all_events L s' k size = of_dres (dmap (fun iv => metric_value L (metric_of (r_g s) k) (f_of_nat (r_total s)) (snd iv) (skipn (size - 2) (skipn (fst iv * size) (buffer s))) (norm_of (r_g s') k)) (combine (seq 0 (m_entries (r_mem s k))) vs)).
Proof.
  intros L red ops qs s ns k size en HT Hk Q (ND & TO & RC & DE & HI) ROWS DEF. set (st := r_g s) in *.
  destruct (ready_state ops qs k st ns HT Hk ND Q) as ((HW & MA & CL) & PL & _ & _ & _).
  destruct (normalize_full ops qs k st ns L red HT Hk ND Q TO RC DE HI) as [[E X]|(r & ps' & A' & E' & SK & N' & R' & V' & G')].
  - left. split; [|exact X]. unfold run_normalize. fold st. now rewrite E.
  - right. set (st' := mkG (g_heap st) (g_hs st) ps' A') in *. destruct (DEF (norm_of st')) as [vs Evs]. exists (with_g s st'), vs.
    split. { unfold run_normalize. fold st. rewrite E'. reflexivity. }
    cbn [with_g r_g r_mem r_buf r_total]. split; [exact SK|]. repeat (split; [reflexivity|]). split; [exact N'|]. split.
    { unfold host_norm. cbn [with_g r_g st' g_pdfs g_arr]. destruct (nth_error ps' k) as [p'|] eqn:Ep.
      - cbn [of_opt nbind]. pose proof Ep as Ep0. apply (map_nth_error skel) in Ep. rewrite SK in Ep. apply nth_error_map_iff in Ep. destruct Ep as (p & Ep & X). apply skel_fields in X.
        cbn [placed] in PL. rewrite Ep in PL. assert (NI : p_ni p' = 0). { replace (p_ni p') with (p_ni p) by (symmetry; apply X). apply PL. }
        rewrite NI. unfold getNormalization, rd in G'. cbn [cur0 c_nor] in G'. change (0 + 0 + 1) with 1 in G'. change (0 + 1) with 1. destruct (nth_error (a_nor A') 1); [|discriminate]. cbn. now injection G' as ->.
      - exfalso. apply nth_error_None in Ep. apply (f_equal (@len _)) in SK. rewrite !map_length in SK. destruct MA as [ML _]. lia. }
    split; [exact Evs|]. unfold all_events. cbn [with_g r_mem]. f_equal.
    assert (LP : len ps' = len (g_pdfs st)) by (apply (f_equal (@len _)) in SK; now rewrite !map_length in SK).
    assert (FO : first_obs_of st' = first_obs_of st) by (apply norms_first_obs; assumption).
    destruct (omap_nth _ _ _ Evs) as [LV NV]. rewrite seq_length in LV.
    assert (EV : forall i v, i < m_entries (r_mem s k) -> nth_error vs i = Some v ->
      event_value L (with_g s st') size i = metric_value L (metric_of st k) (f_of_nat (r_total s)) v (skipn (size - 2) (skipn (i * size) (buffer s))) (norm_of st' k)).
    { intros i v Hi Hv. destruct (NV i i) as (v' & Hv' & Ev); [now apply nth_seq0|]. rewrite Hv in Hv'. injection Hv' as <-.
      assert (PV : pdf_value L st' ns (skipn (i * size) (buffer s)) k = Some v).
      { unfold pdf_value. rewrite FO. cbn [st' g_heap]. rewrite <- Ev. apply value_env. apply tree_obs_env. intros h Hh. now apply ROWS. }
      unfold event_value. cbn [with_g r_g r_total st' g_pdfs g_arr]. change (buffer (with_g s st')) with (buffer s).
      destruct (V' _ _ (S (len ps')) ltac:(destruct MA as [ML _]; lia) PV) as (c & C1 & C2). unfold metric_taker. rewrite G'. cbn [dbind]. rewrite C1. cbn [dbind]. now rewrite C2. }
    clear - EV LV. revert EV LV. generalize (m_entries (r_mem s k)). intro n. 
    assert (GEN : forall n a vs, len vs = n -> (forall i v, i < n -> nth_error vs i = Some v -> event_value L (with_g s st') size (a + i) = metric_value L (metric_of st k) (f_of_nat (r_total s)) v (skipn (size - 2) (skipn ((a + i) * size) (buffer s))) (norm_of st' k)) ->
      dmap (event_value L (with_g s st') size) (seq a n) = dmap (fun iv => metric_value L (metric_of st k) (f_of_nat (r_total s)) (snd iv) (skipn (size - 2) (skipn (fst iv * size) (buffer s))) (norm_of st' k)) (combine (seq a n) vs)).
    { clear. induction n as [|n IH]; intros a vs LV EV; [reflexivity|]. destruct vs as [|v vs]; [discriminate|]. cbn [seq combine dmap fst snd].
      pose proof (EV 0 v ltac:(lia) eq_refl) as E0. rewrite Nat.add_0_r in E0. rewrite E0. rewrite (IH (S a) vs); [reflexivity|cbn in LV; lia|].
      intros i w Hi Hw. replace (S a + i) with (a + S i) by lia. apply EV; [lia|exact Hw]. }
    intros EV LV. apply GEN; [exact LV|]. exact EV.
Qed.

Lemma expected_add : forall st ns k p, match_all ns (g_pdfs st) -> nth_error (g_pdfs st) k = Some p -> k < len ns ->
  match p_kind p with
  | KAddExt => exists ws, omap (fun i => nth_error (p_pars p) i) (seq 0 (len (p_comps p))) = Some ws /\
                 expected (g_heap st) ns k = Some (fold_left (fun a w => fadd a (get_f (g_heap st) w FValue)) ws fzero)
  | _ => expected (g_heap st) ns k = None
  end.
Proof.
  intros st ns k p [ML M] Ep Hk. destruct (nth_error ns k) as [n|] eqn:En; [|apply nth_error_None in En; lia]. destruct (M k n En) as (_ & p' & Ep' & NC & NM). rewrite Ep in Ep'. injection Ep' as <-.
  unfold expected. rewrite En. destruct n as [l hp0|ws ks|ks|ws ks|mm ts|aa bb].
  - destruct NM as [K _]. rewrite K. destruct l; cbn [leaf_kind]; try reflexivity. all: destruct upper; reflexivity.
  - destruct NM as (K & P & _ & LL). cbn [kids_of] in NC. rewrite K. destruct (Nat.ltb (len ws) (len ks)) eqn:EL.
    + apply Nat.ltb_lt in EL. replace (Nat.eqb (len ws) (len ks)) with false by (symmetry; apply Nat.eqb_neq; lia). reflexivity.
    + apply Nat.ltb_ge in EL. assert (LE : len ws = len ks) by lia. rewrite LE, Nat.eqb_refl. exists ws. split; [|reflexivity]. rewrite P, NC, <- LE. clear.
      assert (G : forall us l : list handle, omap (fun i => nth_error (l ++ us) i) (seq (len l) (len us)) = Some us).
      { induction us as [|w us IH]; intro l; [reflexivity|]. cbn [len seq omap]. rewrite nth_error_app2, Nat.sub_diag by lia. cbn [nth_error obind].
        specialize (IH (l ++ [w])). rewrite <- app_assoc in IH. cbn [app] in IH. rewrite app_length in IH. cbn [len] in IH. rewrite Nat.add_1_r in IH. now rewrite IH. }
      exact (G ws []).
  - destruct NM as (K & _). now rewrite K.
  - destruct NM as (K & _). rewrite K. destruct (Nat.ltb (len ws) (len ks)); reflexivity.
  - destruct NM as (K & _). now rewrite K.
  - destruct NM as (K & _). now rewrite K.
Qed.

Lemma dmap_nll : forall L norm total (rest : nat -> event) vs a, dmap (fun iv => metric_value L MNLL total (snd iv) (rest (fst iv)) norm) (combine (seq a (len vs)) vs) = DOk (event_terms L norm vs).
Proof. intros L norm total rest. induction vs as [|v vs IH]; intro a; [reflexivity|]. cbn [len seq combine dmap fst snd]. cbn [metric_value]. cbv zeta. cbn [dbind]. rewrite IH. reflexivity. Qed.

(** ** Unbinned data *)
Lemma unbinned_state : forall L red s0 ns i d k mid s ns', reach (r_g s0) ns -> nth_error (r_sets s0) i = Some (DUn d) -> k < len ns -> Forall (rquiet ns k) mid ->
  rrun L red s0 ns (RSetData k (Some i) :: mid ++ [RG (GCopyParams k)]) = NOk (s, ns') ->
  ns' = ns /\ (exists ops qs, after (ready ops qs k) = (r_g s, ns) /\ Forall (quiet ns k) qs) /\
  m_entries (r_mem s k) = d_num d /\ m_events (r_mem s k) = f_of_nat (d_num d) /\ m_data (r_mem s k) = Some i /\ r_total s = d_num d /\
  columned (g_heap (r_g s)) (obs_of_pdf s k) ns k /\ len (buffer s) = d_num d * len (obs_of_pdf s k) /\
  (forall i h, i < d_num d -> In h (obs_of_pdf s k) -> exists x, data_env d i h = Some x) /\
  (forall i j h x, i < d_num d -> nth_error (obs_of_pdf s k) j = Some h -> data_env d i h = Some x -> nth_error (buffer s) (i * len (obs_of_pdf s k) + j) = Some (Some x)).
Proof.
  intros L red s0 ns i d k mid s ns' R HD Hk Q E. cbn [rrun] in E. peel E so E1. destruct so as [s1 out]. cbn [rstep] in E1. rewrite HD in E1.
  assert (LN : Nat.ltb k (len (g_pdfs (r_g s0))) = true) by (apply Nat.ltb_lt; pose proof (reach_wf _ _ R) as (_ & [ML _] & _); lia). rewrite LN in E1.
  peel E1 s1' ES. apply ok_inj in E1. injection E1 as -> <-. cbn [rnote] in E. pose proof (reach_setData s0 ns k (Some i) (Some (DUn d)) s1 R ES) as R1.
  unfold set_data in ES. peel ES sa EA. peel ES sb EB. peel ES b EF. apply ok_inj in ES.
  destruct (attach_prefix s0 ns k sa sb R Hk EA EB) as ((ops & HO) & CO & _ & _).
  assert (Q2 : Forall (rquiet ns k) (mid ++ [RG (GCopyParams k)])) by (apply Forall_app; split; [exact Q|constructor; [reflexivity|constructor]]).
  rewrite rrun_app in E. peel E sn EM. destruct sn as [s2 ns2]. cbn [fst snd] in E. destruct (quiet_session L red ns k mid s1 s2 ns2 R1 Q EM) as (-> & M2 & B2 & T2 & qs & FQ & HQ).
  cbn [rrun] in E. peel E so E3. destruct so as [s3 out3]. cbn [rrun] in E. apply ok_inj in E. injection E as <- <-. unfold rstep in E3.
  assert (EG : s3 = with_g s2 (fst (gstep (r_g s2) (GCopyParams k))) /\ rnote s2 (RG (GCopyParams k)) out3 ns = ns).
  { pose proof (quiet_note ns k (r_g s2) (GCopyParams k) (snd (gstep (r_g s2) (GCopyParams k))) ns eq_refl) as NN. destruct (gstep (r_g s2) (GCopyParams k)) as [g go]. cbn [snd] in NN.
    assert (X : (with_g s2 g, OGot go) = (s3, out3)) by (destruct go; try discriminate; exact (ok_inj _ _ E3)). injection X as <- <-. split; [reflexivity|exact NN]. }
  destruct EG as [-> NN]. split; [exact NN|].
  assert (E1 : r_g s1 = r_g sb) by (rewrite <- ES; reflexivity).
  assert (HR : history (r_g sb) ns (qs ++ [GCopyParams k]) = (fst (gstep (r_g s2) (GCopyParams k)), ns)).
  { rewrite history_app, <- E1, HQ. cbn [fst snd history]. destruct (gstep (r_g s2) (GCopyParams k)) as [g go] eqn:EG. cbn [fst]. f_equal. exact (quiet_note ns k (r_g s2) (GCopyParams k) go ns eq_refl). }
  split. { exists (ops ++ [GSetupObservables k]), qs. split; [|exact FQ]. unfold ready. rewrite <- app_assoc. cbn [app]. 
    change (ops ++ GSetupObservables k :: GSetIndices k :: qs ++ [GCopyParams k]) with (ops ++ [GSetupObservables k; GSetIndices k] ++ (qs ++ [GCopyParams k])). rewrite app_assoc. unfold after in *. rewrite history_app, HO. cbn [fst snd with_g r_g]. exact HR. }
  assert (FQ' : Forall (quiet ns k) (qs ++ [GCopyParams k])) by (apply Forall_app; split; [exact FQ|repeat constructor]).
  destruct (quiet_keeps_all ns k _ _ _ _ FQ' HR) as (_ & KI & KO & _).
  assert (OB : obs_of_pdf (with_g s2 (fst (gstep (r_g s2) (GCopyParams k)))) k = obs_of_pdf sb k) by (rewrite !obs_of_pdf_eq; cbn [with_g r_g]; now apply map_obs_of).
  rewrite OB. cbn [with_g r_g r_mem r_total buffer r_buf]. unfold buffer. cbn [with_g r_buf]. rewrite M2, B2, T2. rewrite <- ES. cbn [with_total with_buf with_mem r_mem r_total r_buf]. rewrite Nat.eqb_refl. cbn [m_entries m_events m_data].
  repeat (split; [reflexivity|]). split; [eapply columned_keep; eauto|].
  destruct CO as [PO _]. pose proof (unbinned_values _ _ _ _ EF) as UV. destruct (unbinned_ok _ _ d PO UV) as (b' & EF' & LB & VB).
  rewrite EF in EF'. apply ok_inj in EF'. subst b'. split; [exact LB|]. split.
  - intros i0 h Hi Hh. destruct (UV i0 h Hi Hh) as [x X]. exists x. unfold data_env. now rewrite X.
  - intros i0 j h x Hi Hj Hx. eapply VB; eauto. unfold data_env in Hx. destruct (getValue d h i0); [now injection Hx as ->|discriminate].
Qed.

Lemma unbinned_nll : forall L red s0 ns i d k mid s ns', reach (r_g s0) ns -> nth_error (r_sets s0) i = Some (DUn d) -> k < len ns -> Forall (rquiet ns k) mid ->
  rrun L red s0 ns (RSetData k (Some i) :: mid ++ [RG (GCopyParams k)]) = NOk (s, ns') ->
  evaluable L (r_g s) ns k -> fit_of s k = Some UnbinnedNllFit -> (forall norms, exists vs, event_values L (r_g s) ns norms k d = Some vs) ->
  (calculateNLL L red s k = NThrow /\ unnormalisable L red (r_g s) ns k) \/
  exists s' vs, let norm := norm_of (r_g s') k in let sum := red (event_terms L norm vs) in
    normalised L red (r_g s) ns k (norm_of (r_g s')) /\ event_values L (r_g s) ns (norm_of (r_g s')) k d = Some vs /\
    calculateNLL L red s k = if fle norm fzero || feq fzero sum then NThrow
                             else NOk (with_extended L (g_heap (r_g s)) ns k (f_of_nat (d_num d)) sum, s').
Proof.
  intros L red s0 ns i d k mid s ns' R HD Hk Q E EVB FC DEF. destruct (unbinned_state L red s0 ns i d k mid s ns' R HD Hk Q E) as (_ & (ops & qs & HT & FQ) & ME & MV & _ & TT & CO & LB & VD & VB).
  pose proof EVB as (ND & TO & _). destruct (ready_state ops qs k _ ns HT Hk ND FQ) as ((HW & MA & CL) & PL & _).
  assert (SM : small (len (obs_of_pdf s k))).
  { destruct TO as [_ F]. rewrite Forall_forall in F. assert (In k (tree_ids ns k)) as IK. { unfold tree_ids. cbn [subtree]. destruct (nth_error ns k) eqn:En; [now left|]. apply nth_error_None in En. lia. }
    specialize (F k IK). destruct F as [F _]. unfold sizes_ok in F. rewrite obs_of_pdf_eq. unfold obs_of. destruct (nth_error (g_pdfs (r_g s)) k); [apply F|reflexivity]. }
  assert (MT : metric_of (r_g s) k = MNLL).
  { unfold metric_of. unfold fit_of in FC. destruct (nth_error (g_pdfs (r_g s)) k); [|discriminate]. now rewrite FC. }
  destruct (evaluated L red ops qs s ns k (len (obs_of_pdf s k)) (data_env d) HT Hk FQ EVB) as [[E1 X]|(s' & vs & E1 & SK & HH & M' & B' & T' & NM & HN & EV & AE)].
  - rewrite ME. intros i0 Hi h Hh. eapply row_env; [exact CO|exact SM| | | |exact Hh].
    + intros j g x Hj Hx. exact (VB i0 j g x Hi Hj Hx).
    + intros g Hg. exact (VD i0 g Hi Hg).
    + apply data_env_eq.
  - rewrite ME. exact DEF.
  - left. split; [|exact X]. unfold calculateNLL, base_nll. now rewrite E1.
  - right. exists s', vs. cbv zeta. rewrite ME in EV, AE. split; [exact NM|]. split; [exact EV|].
    destruct (omap_nth _ _ _ EV) as [LV _]. rewrite seq_length in LV.
    assert (FC' : fit_of s' k = Some UnbinnedNllFit /\ obs_of_pdf s' k = obs_of_pdf s k /\ exists p p', nth_error (g_pdfs (r_g s)) k = Some p /\ nth_error (g_pdfs (r_g s')) k = Some p' /\ skel p' = skel p).
    { unfold fit_of in *. destruct (nth_error (g_pdfs (r_g s)) k) as [p|] eqn:Ep; [|discriminate]. pose proof Ep as Ep1. apply (map_nth_error skel) in Ep. rewrite <- SK in Ep. apply nth_error_map_iff in Ep. destruct Ep as (p' & Ep & X).
      rewrite Ep. symmetry in X. pose proof X as X0. apply skel_fields in X. split; [rewrite <- FC; apply X|]. split; [unfold obs_of_pdf; rewrite Ep, Ep1; apply X|]. exists p, p'. now repeat split. }
    destruct FC' as (FC' & OB' & p & p' & Ep & Ep' & XP).
    assert (BN : base_nll L red s k = if fle (norm_of (r_g s') k) fzero || feq fzero (red (event_terms L (norm_of (r_g s') k) vs)) then NThrow else NOk (red (event_terms L (norm_of (r_g s') k) vs), s')).
    { unfold base_nll. rewrite E1. cbn [nbind]. rewrite HN. cbn [nbind]. destruct (fle (norm_of (r_g s') k) fzero); [reflexivity|]. cbn [orb].
      unfold reduce_with_metric, event_size. rewrite FC'. cbn [of_opt nbind binnedFit]. rewrite OB', AE, MT.
      rewrite <- LV, (dmap_nll L (norm_of (r_g s') k) (f_of_nat (r_total s)) (fun i => skipn (len (obs_of_pdf s k) - 2) (skipn (i * len (obs_of_pdf s k)) (buffer s))) vs 0). cbn [of_dres nbind]. destruct (feq fzero _); reflexivity. }
    unfold calculateNLL. rewrite BN. destruct (fle _ _ || feq _ _); [reflexivity|]. cbn [nbind]. rewrite Ep'. cbn [of_opt nbind].
    pose proof (expected_add (r_g s) ns k p MA Ep Hk) as EX. apply skel_fields in XP. destruct XP as (XK & XP & _ & _ & XC & _). rewrite XK, XP, XC. unfold with_extended.
    rewrite M', MV, HH. destruct (p_kind p); try (rewrite EX; reflexivity). destruct EX as (ws & -> & ->). reflexivity.
Qed.
