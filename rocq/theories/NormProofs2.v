(** normalize() in programs. *)
From Coq Require Import List ZArith String Bool Lia.
From Verif Require Import F64 F64Lemmas ListAux VariableModel BinModel LeafFormulas DeviceModel PdfModel PdfSpec
  FlatProofs EvalProofs HostProofs PdfProofs PdfProofs2 PdfProofs3 NormModel NormSpec NormProofs.
Import ListNotations.
Local Open Scope nat_scope.
Local Notation len := List.length.

(** ** Positions and ranges after flattening *)
Definition tied (ps : pdfs) (j : nat) : Prop := forall p, nth_error ps j = Some p -> p_ni p = 2 * p_fi p.
Definition ranged (hp : heap) (ps : pdfs) (j : nat) : Prop := forall p, nth_error ps j = Some p -> p_ranges p = normRange hp p.
Definition balanced (A : arrays) : Prop := len (a_nor A) = 2 * len (a_fun A).

Lemma upd_tied : forall ps id p q j, nth_error ps id = Some p -> (p_ni p = 2 * p_fi p -> p_ni q = 2 * p_fi q) -> tied ps j -> tied (upd ps id q) j.
Proof.
  intros ps id p q j E H T r Er. destruct (Nat.eq_dec j id) as [->|Hj].
  - rewrite nth_error_upd_same in Er by (eapply nth_error_Some_lt; eauto). injection Er as <-. apply H. now apply T.
  - rewrite nth_error_upd_other in Er by congruence. now apply T.
Qed.
Lemma upd_ranged : forall hp ps id p q j, nth_error ps id = Some p -> (p_ranges p = normRange hp p -> p_ranges q = normRange hp q) -> ranged hp ps j -> ranged hp (upd ps id q) j.
Proof.
  intros hp ps id p q j E H T r Er. destruct (Nat.eq_dec j id) as [->|Hj].
  - rewrite nth_error_upd_same in Er by (eapply nth_error_Some_lt; eauto). injection Er as <-. apply H. now apply T.
  - rewrite nth_error_upd_other in Er by congruence. now apply T.
Qed.

Lemma rsi_good : forall ns n hp ps A id, kids_match ns ps -> balanced A ->
  let r := recursiveSetIndices n hp ps A id in
  balanced (snd r) /\ (forall j, tied ps j -> tied (fst r) j) /\ (forall j, ranged hp ps j -> ranged hp (fst r) j) /\
  (forall j, In j (subtree n ns id) -> tied (fst r) j /\ ranged hp (fst r) j).
Proof.
  intros ns. induction n as [|n IH]; intros hp ps A id K B; [cbn; split; [assumption|]; split; [auto|]; split; [auto|intros ? []]|]. cbn [recursiveSetIndices subtree].
  destruct (nth_error ps id) as [p|] eqn:E.
  2:{ destruct (nth_error ns id) as [nd|] eqn:En; [|cbn; split; [assumption|]; split; [auto|]; split; [auto|intros ? []]]. exfalso. apply nth_error_None in E. apply nth_error_Some_lt in En.
      unfold kids_match in K. apply (f_equal (@len _)) in K. rewrite !map_length in K. lia. }
  destruct (kids_nth _ _ _ _ K E) as (nd & En & Hk). rewrite En, Hk. cbv zeta.
  set (p1 := with_indices p (len (a_fun A)) (len (a_par A)) (len (a_con A)) (len (a_obs A)) (len (a_nor A))). set (ps1 := upd ps id p1).
  assert (T1 : tied ps1 id).
  { intros q Eq. unfold ps1 in Eq. rewrite nth_error_upd_same in Eq by (eapply nth_error_Some_lt; eauto). injection Eq as <-. exact B. }
  assert (TP : forall j, tied ps j -> tied ps1 j) by (intros j; eapply upd_tied; [exact E|intros _; exact B]).
  assert (RP : forall j, ranged hp ps j -> ranged hp ps1 j) by (intros j; eapply upd_ranged; [exact E|auto]).
  assert (K1 : kids_match ns ps1) by (eapply lens_kids; [|exact K]; symmetry; eapply map_upd_same; [exact E|reflexivity]).
  assert (B1 : balanced (push_block hp p A)) by (unfold balanced, push_block in *; cbn [a_nor a_fun]; rewrite !app_length; cbn [len]; lia).
  assert (LOOP : forall ks s, kids_match ns (fst s) -> balanced (snd s) ->
     let r := fold_left (fun s c => recursiveSetIndices n hp (fst s) (snd s) c) ks s in
     balanced (snd r) /\ (forall j, tied (fst s) j -> tied (fst r) j) /\ (forall j, ranged hp (fst s) j -> ranged hp (fst r) j) /\
     (forall j, In j (flat_map (subtree n ns) ks) -> tied (fst r) j /\ ranged hp (fst r) j)).
  { induction ks as [|c ks IHk]; intros s Ks Bs; [cbn; split; [assumption|]; split; [auto|]; split; [auto|intros ? []]|]. cbn [fold_left flat_map].
    destruct (IH hp (fst s) (snd s) c Ks Bs) as (X1 & X2 & X3 & X4). set (s1 := recursiveSetIndices n hp (fst s) (snd s) c) in *.
    assert (Ks1 : kids_match ns (fst s1)) by (eapply lens_kids; [symmetry; apply rsi_lens|exact Ks]).
    destruct (IHk s1 Ks1 X1) as (Y1 & Y2 & Y3 & Y4). cbv zeta in *. split; [exact Y1|]. split; [auto|]. split; [auto|].
    intros j Hj. apply in_app_or in Hj. destruct Hj as [Hj|Hj]; [|now apply Y4]. destruct (X4 j Hj). split; auto. }
  destruct (LOOP (kids_of nd) (ps1, push_block hp p A) K1 B1) as (L1 & L2 & L3 & L4). cbv zeta in *. clear LOOP. dfold ps2 A2 EF. cbn [fst snd] in *.
  assert (S2 : forall j, tied ps2 j -> tied (set_pdf ps2 id (fun q => with_ranges q (normRange hp q))) j).
  { intros j T. unfold set_pdf. destruct (nth_error ps2 id) as [q|] eqn:Eq; [|exact T]. eapply upd_tied; [exact Eq|auto|exact T]. }
  assert (S3 : forall j, ranged hp ps2 j -> ranged hp (set_pdf ps2 id (fun q => with_ranges q (normRange hp q))) j).
  { intros j T. unfold set_pdf. destruct (nth_error ps2 id) as [q|] eqn:Eq; [|exact T]. eapply upd_ranged; [exact Eq|reflexivity|exact T]. }
  split; [exact L1|]. split; [auto|]. split; [auto|]. intros j [<-|Hj].
  - split; [auto|]. intros q Eq. unfold set_pdf in Eq. destruct (nth_error ps2 id) as [q2|] eqn:Eq2; [|congruence].
    rewrite nth_error_upd_same in Eq by (eapply nth_error_Some_lt; eauto). injection Eq as <-. reflexivity.
  - destruct (L4 j Hj). split; auto.
Qed.
Lemma si_good : forall ns hp ps A k, kids_match ns ps -> k < len ps -> forall j, In j (tree_ids ns k) ->
  tied (fst (setIndices hp ps A k)) j /\ ranged hp (fst (setIndices hp ps A k)) j.
Proof.
  intros ns hp ps A k K Hk j Hj.
  assert (FC : forall ps fc, kids_match ns ps -> tied (fst (setIndices_fc hp ps k fc)) j /\ ranged hp (fst (setIndices_fc hp ps k fc)) j).
  { intros ps' fc K'. unfold setIndices_fc. destruct (rsi_good ns (S k) hp ps' no_arrays k K') as (_ & _ & _ & G); [reflexivity|]. cbv zeta in G.
    destruct (recursiveSetIndices (S k) hp ps' no_arrays k) as [ps2 A2]. exact (G j Hj). }
  unfold setIndices. destruct (nth_error ps k) as [p|] eqn:E; [|apply nth_error_None in E; lia]. destruct (p_fit p); [now apply FC|].
  pose proof (sfc_map lens (fun _ _ _ _ _ _ => eq_refl) (fun _ _ => eq_refl) (fun _ _ => eq_refl) (S k) hp ps A k UnbinnedNllFit) as X.
  destruct (setFitControl (S k) hp ps A k UnbinnedNllFit) as [ps1 A1]. apply FC. eapply lens_kids; [symmetry; exact X|exact K].
Qed.

Definition spots (p : pdf) := (p_fi p, p_ni p).
Lemma spot_step : forall ns k st o, quiet ns k o -> map spots (g_pdfs (fst (gstep st o))) = map spots (g_pdfs st).
Proof.
  intros ns k st o Q. destruct o; cbn [quiet] in Q; try contradiction; cbn [gstep].
  - destruct (vstep (g_heap st, g_hs st) o) as [[? ?] ?]. reflexivity.
  - destruct (Nat.ltb id (len (g_pdfs st))); [|reflexivity]. destruct (updateParameters (S id) (g_heap st) (g_pdfs st) (a_par (g_arr st)) id). reflexivity.
  - destruct (Nat.ltb id (len (g_pdfs st)) && is_var (g_hs st) v); reflexivity.
  - destruct (nth_error (g_pdfs st) id) as [p|] eqn:Ep; [|reflexivity]. destruct (Nat.ltb (p_ni p + 1) (len (a_nor (g_arr st)))); [|reflexivity].
    eapply map_upd_same; [exact Ep|reflexivity].
  - destruct (Nat.ltb id (len (g_pdfs st))); [|reflexivity]. apply map_set_pdf. reflexivity.
  - destruct (Nat.ltb id (len (g_pdfs st))); [|reflexivity]. apply map_set_pdf. reflexivity.
  - destruct (Nat.ltb id (len (g_pdfs st))); [|reflexivity]. apply map_set_pdf. reflexivity.
  - destruct (Nat.ltb id (len (g_pdfs st))); reflexivity.
  - destruct (Nat.ltb id (len (g_pdfs st))); reflexivity.
Qed.
Lemma spots_tied : forall ps ps' j, map spots ps' = map spots ps -> tied ps j -> tied ps' j.
Proof.
  intros ps ps' j H T p E. apply (map_nth_error spots) in E. rewrite H in E. apply nth_error_map_iff in E. destruct E as (q & E & X).
  pose proof (T q E). unfold spots in X. injection X as X1 X2. lia.
Qed.

(** No AddPdf is built without components. *)
Lemma sums_not_empty : forall ops st ns, after ops = (st, ns) -> forall i ws, nth_error ns i <> Some (SAdd ws []).
Proof.
  unfold after. assert (G : forall ops st ns st' ns', (forall i ws, nth_error ns i <> Some (SAdd ws [])) -> history st ns ops = (st', ns') -> forall i ws, nth_error ns' i <> Some (SAdd ws [])).
  { induction ops as [|o ops IH]; intros st ns st' ns' H E; [injection E as <- <-; exact H|]. cbn [history] in E. destruct (gstep st o) as [st1 out] eqn:EG.
    eapply IH; [|exact E]. clear E IH.
    assert (SN : forall nd, (forall ws, nd <> SAdd ws []) -> forall i ws, nth_error (ns ++ [nd]) i <> Some (SAdd ws [])).
    { intros nd Hnd i ws X. destruct (Nat.lt_ge_cases i (len ns)) as [Hi|Hi]; [rewrite nth_error_app1 in X by exact Hi; eapply H; eauto|].
      rewrite nth_error_app2 in X by exact Hi. destruct (i - len ns) as [|m]; cbn in X; [injection X as X; eapply Hnd; eauto|destruct m; discriminate]. }
    destruct out; try (destruct o; exact H). destruct o; cbn [note]; try exact H; try (apply SN; congruence).
    - destruct comps as [|c comps]; [|apply SN; congruence]. exfalso. cbn [gstep] in EG. destruct (forallb (is_var (g_hs st)) ws && exists_all (g_pdfs st) []); [|discriminate].
      destruct (Nat.eqb (len ws) (len (@nil nat)) || Nat.eqb (len ws + 1) (len (@nil nat))); discriminate.
    - destruct (nth_error ns id) as [[l hp0| | | | |]|] eqn:En; try exact H. destruct l; try exact H. intros i ws X. destruct (Nat.eq_dec i id) as [->|Hi].
      + rewrite nth_error_upd_same in X by (eapply nth_error_Some_lt; eauto). discriminate.
      + rewrite nth_error_upd_other in X by congruence. eapply H; eauto. }
  intros ops st ns E. eapply G; [|exact E]. intros i ws. destruct i; discriminate.
Qed.

(** The state in which normalize() is called: the tree of [k] was flattened, quiet steps followed, the parameters were refreshed. *)
Definition ready (ops qs : list gop) (k : nat) : list gop := ops ++ GSetIndices k :: qs ++ [GCopyParams k].
Lemma ready_state : forall ops qs k st ns, after (ready ops qs k) = (st, ns) -> k < len ns -> NoDup (tree_ids ns k) -> Forall (quiet ns k) qs ->
  ginv st ns /\ placed (S k) (g_pdfs st) 0 0 k /\ (forall j, In j (tree_ids ns k) -> tied (g_pdfs st) j) /\
  g_arr st = push_fun (extend no_arrays (flat (S k) (g_heap st) (g_pdfs st) k)) (FMetric (metric_of st k)) /\
  (forall i ws, nth_error ns i <> Some (SAdd ws [])).
Proof.
  intros ops qs k st ns E Hk ND Q. pose proof (sums_not_empty _ _ _ E) as SNE. unfold ready in E.
  change (ops ++ GSetIndices k :: qs ++ [GCopyParams k]) with (ops ++ [GSetIndices k] ++ (qs ++ [GCopyParams k])) in E. rewrite app_assoc in E. unfold after in E. rewrite history_app in E.
  destruct (history ginit [] (ops ++ [GSetIndices k])) as [st1 ns1] eqn:E1. cbn [fst snd] in E.
  assert (Q' : Forall (quiet ns k) (qs ++ [GCopyParams k])) by (apply Forall_app; split; [exact Q|repeat constructor]).
  assert (NS : ns1 = ns).
  { revert E. generalize dependent (qs ++ [GCopyParams k]). intros qs' Q'. clear - Q'. revert st1 ns1. induction qs' as [|q qs' IH]; intros st1 ns1 E; [now injection E|]. inversion Q'; subst. cbn [history] in E.
    destruct (gstep st1 q) as [st2 out] eqn:EG. specialize (IH H2 _ _ E). rewrite <- IH.
    destruct q; cbn [quiet] in H1; try contradiction; try reflexivity; destruct out; reflexivity. }
  subst ns1. destruct (g_after_setIndices ops k st1 ns E1 Hk) as (st0 & _ & I0 & I1 & EH & HS & EA).
  assert (Hp : exists p, nth_error (g_pdfs st0) k = Some p).
  { destruct I0 as (_ & [ML _] & _). destruct (nth_error (g_pdfs st0) k) eqn:N; [eauto|]. apply nth_error_None in N. lia. }
  destruct Hp as [p Ep]. destruct (setIndices_ok (g_heap st0) (g_pdfs st0) (g_arr st0) k p Ep) as (fc & p' & EA2 & Ep' & EF & EFC).
  rewrite <- EA in EA2, Ep'. cbn [fst snd] in EA2, Ep'.
  assert (K0 : kids_match ns (g_pdfs st0)) by (apply match_kids_match; apply I0).
  assert (T1 : forall j, In j (tree_ids ns k) -> tied (g_pdfs st1) j).
  { intros j Hj. pose proof (si_good ns (g_heap st0) (g_pdfs st0) (g_arr st0) k K0 ltac:(eapply nth_error_Some_lt; eauto) j Hj) as [T _]. rewrite <- EA in T. exact T. }
  assert (AL : aligned st1 ns k (FMetric (getMetric fc))).
  { split; [apply match_kids_match; apply I1|]. split.
    - apply (f_equal fst) in EA. cbn [fst] in EA. rewrite EA. unfold setIndices. rewrite Ep.
      assert (FC : forall ps x, kids_match ns ps -> placed (S k) (fst (setIndices_fc (g_heap st0) ps k x)) 0 0 k).
      { intros ps x Kp. unfold setIndices_fc. destruct (rsi_placed ns (S k) (g_heap st0) ps no_arrays k Kp ND) as [RP _].
        destruct (recursiveSetIndices (S k) (g_heap st0) ps no_arrays k) as [ps' A']. exact RP. }
      destruct (p_fit p); [now apply FC|].
      pose proof (sfc_map lens (fun _ _ _ _ _ _ => eq_refl) (fun _ _ => eq_refl) (fun _ _ => eq_refl) (S k) (g_heap st0) (g_pdfs st0) (g_arr st0) k UnbinnedNllFit) as X.
      destruct (setFitControl (S k) (g_heap st0) (g_pdfs st0) (g_arr st0) k UnbinnedNllFit) as [ps1 A1]. apply FC. eapply lens_kids; [symmetry; exact X|exact K0].
    - exists (g_heap st1). split; [reflexivity|]. rewrite EA2, EH. now rewrite (flat_sim _ _ _ _ _ HS). }
  rewrite history_app in E. destruct (quiet_run ns k _ qs st1 ND Q AL I1) as (N2 & AL2 & GI2 & FIT).
  assert (T2 : forall j, In j (tree_ids ns k) -> tied (g_pdfs (fst (history st1 ns qs))) j).
  { clear - T1 Q ND AL I1. revert st1 T1 AL I1. induction qs as [|q qs IH]; intros st1 T1 AL I1; [exact T1|]. inversion Q; subst. cbn [history].
    destruct (quiet_step ns k _ st1 q ND H1 AL I1) as [AL' NE]. pose proof (ginv_step st1 ns q I1) as GI'. pose proof (spot_step ns k st1 q H1) as SP.
    destruct (gstep st1 q) as [st' out] eqn:EG. cbn [fst snd] in *. rewrite NE in *. apply IH; try assumption. intros j Hj. eapply spots_tied; [exact SP|now apply T1]. }
  destruct (history st1 ns qs) as [st2 ns2]. cbn [fst snd] in *. subst ns2. cbn [history gstep] in E.
  destruct AL2 as (K2 & PL2 & hp0 & HI2 & HA2). assert (ML : len ns = len (g_pdfs st2)) by apply GI2.
  replace (Nat.ltb k (len (g_pdfs st2))) with true in E by (symmetry; apply Nat.ltb_lt; lia).
  pose proof (updateParameters_ok (S k) hp0 (g_heap st2) (g_pdfs st2) k [] [] 0 PL2) as U. cbn [app] in U. rewrite !app_nil_r in U.
  assert (EP : a_par (g_arr st2) = enc_par (flat (S k) hp0 (g_pdfs st2) k)) by (rewrite HA2; reflexivity). rewrite EP, U in E. cbn [note] in E. injection E as <-.
  cbn [g_pdfs g_arr g_heap]. split.
  { pose proof GI2 as (G1 & G2 & G3). split; [exact G1|]. split; [exact G2|exact G3]. }
  split; [exact PL2|]. split; [exact T2|]. split; [|exact SNE]. 
  match goal with |- context [metric_of ?x k] => set (stx := x); assert (MX : metric_of stx k = getMetric fc) end.
  { unfold metric_of, stx. cbn [g_pdfs]. rewrite Ep' in FIT. cbn [option_map] in FIT. destruct (nth_error (g_pdfs st2) k) as [q|]; [|discriminate]. cbn [option_map] in FIT.
      apply (f_equal (fun o => match o with Some x => x | None => None end)) in FIT. cbn in FIT. now rewrite FIT, EF. }
  rewrite MX, HA2.
  destruct (enc_obs_idx (S k) hp0 (g_heap st2) (g_pdfs st2) k HI2) as (E2 & E3 & E4 & E5). unfold push_fun, extend, no_arrays. cbn [a_fun a_par a_con a_obs a_nor app].
  now rewrite E2, E3, E4, E5.
Qed.

(** ** The theorem *)
Lemma closed_skel : forall ps ps', map skel ps' = map skel ps -> closed ps -> closed ps'.
Proof.
  intros ps ps' H C i p E. pose proof E as E0. apply (map_nth_error skel) in E. rewrite H in E. apply nth_error_map_iff in E. destruct E as (q & E & X). apply skel_fields in X.
  destruct X as (_ & _ & _ & XO & XM & _). destruct (C i q E) as (C1 & C2 & C3 & C4). rewrite XO, XM. split; [exact C1|]. split; [exact C2|]. split; [exact C3|].
  eapply Forall_impl; [|exact C4]. intros k Hk. assert (X : obs_of ps' k = obs_of ps k); [|now rewrite X].
  unfold obs_of. destruct (nth_error ps' k) as [a|] eqn:Ea.
  - apply (map_nth_error skel) in Ea. rewrite H in Ea. apply nth_error_map_iff in Ea. destruct Ea as (b & Eb & Y). rewrite Eb. apply skel_fields in Y. apply Y.
  - assert (nth_error ps k = None) as ->; [|reflexivity]. apply nth_error_None in Ea. apply nth_error_None. apply (f_equal (@len _)) in H. rewrite !map_length in H. lia.
Qed.
Lemma obs_skel : forall ps ps' k, map skel ps' = map skel ps -> obs_of ps' k = obs_of ps k.
Proof.
  intros ps ps' k H. unfold obs_of. destruct (nth_error ps' k) as [a|] eqn:Ea.
  - apply (map_nth_error skel) in Ea. rewrite H in Ea. apply nth_error_map_iff in Ea. destruct Ea as (b & Eb & Y). rewrite Eb. apply skel_fields in Y. apply Y.
  - assert (nth_error ps k = None) as ->; [|reflexivity]. apply nth_error_None in Ea. apply nth_error_None. apply (f_equal (@len _)) in H. rewrite !map_length in H. lia.
Qed.

Lemma normalize_full : forall ops qs k st ns L red,
  after (ready ops qs k) = (st, ns) -> k < len ns -> NoDup (tree_ids ns k) -> Forall (quiet ns k) qs ->
  tree_ok st ns k -> ranges_current st ns k -> densities st ns k ->
  (forall i, In i (integrated ns (shares_observables st) (S k) k) -> integrable L (g_heap st) ns (first_obs_of st) (obs_list st) (cell_count st) i) ->
  (normalize L red (g_heap st) (S k) (g_pdfs st, g_arr st) k = NThrow /\
     exists i nm, In i (integrated ns (shares_observables st) (S k) k) /\ no_integral L red (g_heap st) ns (first_obs_of st) (obs_list st) (cell_count st) nm i) \/
  exists r ps' A', normalize L red (g_heap st) (S k) (g_pdfs st, g_arr st) k = NOk (r, (ps', A')) /\ map skel ps' = map skel (g_pdfs st) /\
    let st' := mkG (g_heap st) (g_hs st) ps' A' in
    normed L red (g_heap st) ns (first_obs_of st) (obs_list st) (cell_count st) (shares_observables st) (S k) (norm_of st') k /\
    (In k (integrated ns (shares_observables st) (S k) k) -> integral L red (g_heap st) ns (first_obs_of st) (obs_list st) (cell_count st) (norm_of st') k r) /\
    (forall e v fuel, S k <= fuel -> pdf_value L st' ns e k = Some v ->
       exists c, callFunction fuel L A' e cur0 = DOk (v, c) /\ nth_error (a_fun A') (c_fun c) = Some (FMetric (metric_of st k))) /\
    getNormalization A' cur0 0 = DOk (norm_of st' k).
Proof.
  intros ops qs k st ns L red E Hk ND Q TO RC DE HI. destruct (ready_state ops qs k st ns E Hk ND Q) as (GI & PL & TI & HA & SNE).
  set (m := metric_of st k) in *.
  pose proof GI as (_ & MA & CL).
  assert (FO : first_obs_of st = fo (g_pdfs st)).
  { apply FunctionalExtensionality.functional_extensionality. intro i. unfold first_obs_of, fo. now rewrite getObservables_obs_of by exact CL. }
  assert (OB : obs_list st = obs_of (g_pdfs st)).
  { apply FunctionalExtensionality.functional_extensionality. intro i. unfold obs_list. now apply getObservables_obs_of. }
  assert (TIED : forall j p, In j (tree_ids ns k) -> nth_error (g_pdfs st) j = Some p -> p_ni p = 2 * p_fi p /\ p_ranges p = normRange (g_heap st) p).
  { intros j p Hj Ep. split; [now apply (TI j Hj)|]. exact (RC j p Hj Ep). }
  rewrite FO, OB in *. change (cell_count st) with (nbins (g_heap st) (g_pdfs st)) in *. change (shares_observables st) with (lap (g_pdfs st)) in *.
  assert (TREE : small (len (tree_ids ns k)) /\
    Forall (fun i => sizes_ok (g_pdfs st) i /\ match nth_error ns i with Some n => node_ok (g_heap st) (fo (g_pdfs st)) n | None => True end) (tree_ids ns k)).
  { destruct TO as [T1 T2]. rewrite FO in T2. now split. }
  assert (Hkt : In k (tree_ids ns k)).
  { unfold tree_ids. cbn [subtree]. destruct (nth_error ns k) eqn:En; [now left|]. apply nth_error_None in En. lia. }
  assert (INV : inv (g_heap st) k (FMetric m) (g_pdfs st) (g_pdfs st, g_arr st)) by (split; [reflexivity|exact HA]).
  assert (NES : no_empty_sum ns k) by (intros i ws _; apply SNE).
  destruct (normalize_ok L red (g_heap st) ns k (FMetric m) (g_pdfs st) MA CL Hk PL ND TIED DE TREE NES (S k) (g_pdfs st, g_arr st) k ltac:(lia) Hkt INV HI)
    as [D|(r & (ps', A') & E' & I' & _ & N' & R')]; [now left|].
  right. exists r, ps', A'. split; [exact E'|]. pose proof I' as (SK & EA). cbn [fst snd] in SK, EA. split; [exact SK|]. cbv zeta. split; [exact N'|]. split; [exact R'|].
  pose proof (inv_match (g_heap st) ns k (FMetric m) (g_pdfs st) MA Hk _ I') as MA'. cbn [fst] in MA'.
  pose proof (closed_skel _ _ SK CL) as CL'.
  set (bs := flat (S k) (g_heap st) ps' k) in *.
  assert (Hlen : len bs = len (tree_ids ns k)) by (unfold bs, tree_ids; now apply flat_length).
  split.
  { intros e v fuel Hf HV. unfold pdf_value in HV. cbn [g_heap] in HV.
  assert (CF : callFunction fuel L A' e cur0 = DOk (v, adv cur0 bs)).
  { eapply (eval_correct L A' (g_heap st) ns ps' MA' (norm_of (mkG (g_heap st) (g_hs st) ps' A')) (first_obs_of (mkG (g_heap st) (g_hs st) ps' A'))) with (id := k) (f := S k).
    - intros i q Eq. unfold norm_of. cbn [g_pdfs]. now rewrite Eq.
    - intros i q o Eq Eo. unfold first_obs_of in Eo. cbn [g_pdfs] in Eo. rewrite getObservables_obs_of in Eo by exact CL'. unfold obs_of in Eo. rewrite Eq in Eo.
      destruct (p_obs q) as [|o' os] eqn:Eqo; [discriminate|]. cbn in Eo. injection Eo as ->. split; [reflexivity|].
      destruct (CL' i q Eq) as (_ & W & _). rewrite Eqo in W. now inversion W.
    - exact Hf.
    - lia.
    - rewrite EA. apply stand_root.
    - apply Forall_forall. intros b Hb. unfold bs in Hb. destruct (subtree_in _ _ _ _ _ MA' b Hb) as (i & q & Hi & Eq & ->).
      destruct TREE as [_ HT2]. eapply Forall_forall in HT2; [|exact Hi]. destruct HT2 as [HT2 _]. unfold sizes_ok in HT2.
      apply (map_nth_error skel) in Eq. rewrite SK in Eq. apply nth_error_map_iff in Eq. destruct Eq as (q0 & Eq0 & X). rewrite Eq0 in HT2. apply skel_fields in X.
      eapply bsmall_in; [reflexivity|]. destruct X as (_ & X1 & X2 & X3 & _). rewrite X1, X2, X3. exact HT2.
    - fold bs. rewrite Hlen. apply TREE.
    - destruct TREE as [_ HT2]. eapply Forall_impl; [|exact HT2]. intros i [_ Hi]. unfold nok. destruct (nth_error ns i) as [n|]; [|exact Logic.I].
      replace (first_obs_of (mkG (g_heap st) (g_hs st) ps' A')) with (fo (g_pdfs st)); [exact Hi|].
      apply FunctionalExtensionality.functional_extensionality. intro x. unfold first_obs_of, fo. cbn [g_pdfs]. rewrite getObservables_obs_of by exact CL'. now rewrite (obs_skel _ _ x SK).
    - intros h w _ Hh. exact Hh.
    - exact HV. }
  exists (adv cur0 bs). split; [exact CF|].
  rewrite EA, adv_fun. unfold push_fun, extend, no_arrays. cbn [a_fun app]. fold bs. unfold enc_fun. rewrite nth_error_app2; rewrite map_length; [|cbn; lia].
  cbn [c_fun cur0]. rewrite Nat.add_0_l, Nat.sub_diag. reflexivity. }
  unfold norm_of. cbn [g_pdfs].
  destruct (nth_error ps' k) as [p'|] eqn:Ep'; [|exfalso; apply nth_error_None in Ep'; destruct MA' as [ML _]; lia].
  rewrite EA. unfold bs. cbn [flat]. rewrite Ep'.
  pose proof (stand_root (block_of (g_heap st) p' :: flat_map (flat k (g_heap st) ps') (p_comps p')) (FMetric m)) as SR.
  apply stand_cons in SR. destruct SR as [SR _]. exact (rd_nor _ _ _ SR).
Qed.

Lemma normalize_program : forall ops qs k st ns L red,
  after (ready ops qs k) = (st, ns) -> k < len ns -> NoDup (tree_ids ns k) -> Forall (quiet ns k) qs ->
  tree_ok st ns k -> ranges_current st ns k -> densities st ns k ->
  (forall i, In i (integrated ns (shares_observables st) (S k) k) -> integrable L (g_heap st) ns (first_obs_of st) (obs_list st) (cell_count st) i) ->
  (normalize L red (g_heap st) (S k) (g_pdfs st, g_arr st) k = NThrow /\
     exists i nm, In i (integrated ns (shares_observables st) (S k) k) /\ no_integral L red (g_heap st) ns (first_obs_of st) (obs_list st) (cell_count st) nm i) \/
  exists r ps' A', normalize L red (g_heap st) (S k) (g_pdfs st, g_arr st) k = NOk (r, (ps', A')) /\
    let st' := mkG (g_heap st) (g_hs st) ps' A' in
    normed L red (g_heap st) ns (first_obs_of st) (obs_list st) (cell_count st) (shares_observables st) (S k) (norm_of st') k /\
    (In k (integrated ns (shares_observables st) (S k) k) -> integral L red (g_heap st) ns (first_obs_of st) (obs_list st) (cell_count st) (norm_of st') k r) /\
    (forall e v fuel, S k <= fuel -> pdf_value L st' ns e k = Some v ->
       exists c, callFunction fuel L A' e cur0 = DOk (v, c) /\ getNormalization A' cur0 0 = DOk (norm_of st' k)).
Proof.
  intros ops qs k st ns L red E Hk ND Q TO RC DE HI. destruct (normalize_full ops qs k st ns L red E Hk ND Q TO RC DE HI) as [D|(r & ps' & A' & E' & _ & N' & R' & V' & G')]; [now left|].
  right. exists r, ps', A'. split; [exact E'|]. split; [exact N'|]. split; [exact R'|]. intros e v fuel Hf HV. destruct (V' e v fuel Hf HV) as (c & H & _). exists c. now split.
Qed.

Lemma ranges_after_setIndices : forall ops k st ns, after (ops ++ [GSetIndices k]) = (st, ns) -> k < len ns -> ranges_current st ns k.
Proof.
  intros ops k st ns E Hk i p Hi Ep. destruct (g_after_setIndices ops k st ns E Hk) as (st0 & _ & I0 & I1 & EH & HS & EA).
  assert (K0 : kids_match ns (g_pdfs st0)) by (apply match_kids_match; apply I0).
  assert (L0 : k < len (g_pdfs st0)) by (destruct I0 as (_ & [ML _] & _); lia).
  pose proof (si_good ns (g_heap st0) (g_pdfs st0) (g_arr st0) k K0 L0 i Hi) as [_ T]. rewrite <- EA in T. cbn [fst] in T. rewrite EH. now apply T.
Qed.
