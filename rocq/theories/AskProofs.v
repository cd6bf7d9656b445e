(** The values returned by getValue and evaluateAtPoints. *)
From Coq Require Import List ZArith Bool Lia.
From Verif Require Import F64 F64Lemmas ListAux VariableModel DataSetModel BinModel LeafFormulas DeviceModel PdfModel PdfSpec
  FlatProofs EvalProofs HostProofs PdfProofs PdfProofs2 PdfProofs3 NormModel NormSpec NormProofs NormProofs2 RunModel RunSpec RunProofs RunProofs2 RunProofs3 RunProofs4 RunProofs5 RunProofs6 AskSpec.
Import ListNotations.
Local Open Scope nat_scope.
Local Notation len := List.length.

(** ** Numbering the observables of a PDF again *)
Lemma upd_same : forall {A} (l : list A) i x, nth_error l i = Some x -> upd l i x = l.
Proof. induction l as [|a l IH]; intros [|i] x H; try discriminate; cbn in *; [now injection H as ->|now rewrite IH]. Qed.
Lemma set_i_same : forall hp h z, get_i hp h = z -> (0 <= z)%Z -> set_i hp h z = hp.
Proof.
  intros hp h z G P. unfold set_i, set_field. unfold get_i, get_field in G. cbn [ptr_of] in *. destruct (nth_error hp (h_index h)) as [c|] eqn:E; [|lia]. destruct c; try lia. subst z. cbn [same_cell_type].
  now apply upd_same.
Qed.
Lemma number_same : forall hp obs n, (forall j h, nth_error obs j = Some h -> get_i hp h = (Z.of_nat (n + j))%Z) -> number_from hp (Z.of_nat n) obs = hp.
Proof.
  intros hp obs. induction obs as [|h t IH]; intros n H; [reflexivity|]. cbn [number_from]. pose proof (H 0 h eq_refl) as H0. rewrite Nat.add_0_r in H0. rewrite set_i_same by (auto; lia).
  replace (Z.of_nat n + 1)%Z with (Z.of_nat (S n)) by lia. apply IH. intros j g Hj. rewrite (H (S j) g Hj). f_equal. lia.
Qed.
Lemma setup_same : forall s k, numbered s k -> setupObservables (g_heap (r_g s)) (g_pdfs (r_g s)) k = g_heap (r_g s).
Proof.
  intros s k H. unfold setupObservables. unfold numbered, obs_of_pdf in H. destruct (nth_error (g_pdfs (r_g s)) k) as [p|]; [|reflexivity]. apply (number_same _ _ 0). intros j h Hj. exact (H j h Hj).
Qed.

(** ** Refreshing right after flattening changes nothing *)
Lemma si_ready : forall ops k st ns, after (ops ++ [GSetIndices k]) = (st, ns) -> k < len ns -> NoDup (tree_ids ns k) -> after (ready ops [] k) = (st, ns).
Proof.
  intros ops k st ns E Hk ND. destruct (g_after_setIndices ops k st ns E Hk) as (st0 & _ & I0 & I1 & EH & HS & EA).
  assert (Hp : exists p, nth_error (g_pdfs st0) k = Some p). { destruct I0 as (_ & [ML _] & _). destruct (nth_error (g_pdfs st0) k) eqn:N; [eauto|]. apply nth_error_None in N. lia. }
  destruct Hp as [p Ep]. destruct (setIndices_ok (g_heap st0) (g_pdfs st0) (g_arr st0) k p Ep) as (fc & p' & EA2 & Ep' & EF & EFC).
  rewrite <- EA in EA2, Ep'. cbn [fst snd] in EA2, Ep'. rewrite (flat_sim _ _ _ _ _ HS), <- EH in EA2.
  assert (MT : metric_of st k = getMetric fc) by (unfold metric_of; now rewrite Ep', EF).
  destruct (history st ns [GCopyParams k]) as [st2 ns2] eqn:E2.
  assert (R : after (ready ops [] k) = (st2, ns2)). { unfold ready. cbn [app]. change (ops ++ [GSetIndices k; GCopyParams k]) with (ops ++ [GSetIndices k] ++ [GCopyParams k]). rewrite app_assoc. unfold after in *. rewrite history_app, E. exact E2. }
  assert (X : st2 = mkG (g_heap st) (g_hs st) (g_pdfs st) (g_arr st2) /\ ns2 = ns).
  { cbn [history gstep] in E2. assert (ML : len ns = len (g_pdfs st)) by apply I1. replace (Nat.ltb k (len (g_pdfs st))) with true in E2 by (symmetry; apply Nat.ltb_lt; lia).
    destruct (updateParameters (S k) (g_heap st) (g_pdfs st) (a_par (g_arr st)) k) as [par ok]. destruct ok; cbn [note] in E2; injection E2 as <- <-; split; reflexivity. }
  destruct X as [X ->]. destruct (ready_state ops [] k st2 ns R Hk ND ltac:(constructor)) as (_ & _ & _ & HA & _).
  rewrite R. f_equal. rewrite X in HA. cbn [g_heap g_pdfs g_arr] in HA. unfold metric_of in HA. cbn [g_pdfs] in HA. fold (metric_of st k) in HA. rewrite MT, <- EA2 in HA. rewrite X, HA. destruct st. reflexivity.
Qed.

(** ** The event of the current point *)
Definition filled (obs : list handle) (d : dataset) : Prop := d_obs d = obs /\ len (d_data d) = len obs /\ Forall (fun c => len c = d_num d) (d_data d).
Lemma filled_new : forall obs, filled obs (new_dataset obs).
Proof. intro obs. split; [reflexivity|]. cbn. split; [now rewrite map_length|]. apply Forall_forall. intros c H. apply in_map_iff in H. destruct H as (h & <- & _). reflexivity. Qed.
Lemma push_ok : forall hp obs data, len data = len obs -> push_columns hp obs data = (map (fun hc => snd hc ++ [get_f hp (fst hc) FValue]) (combine obs data), Ok tt).
Proof.
  intros hp obs. induction obs as [|h t IH]; intros [|c cs] H; try discriminate; [reflexivity|]. cbn [push_columns]. rewrite IH by (cbn in H; lia). reflexivity.
Qed.
Lemma index_ok : forall obs h i, indexOfVariable obs h = Ok i -> exists g, nth_error obs i = Some g /\ handle_eqb h g = true.
Proof.
  induction obs as [|g t IH]; intros h i H; [discriminate|]. cbn [indexOfVariable] in H. destruct (handle_eqb h g) eqn:E; [injection H as <-; now exists g|].
  destruct (indexOfVariable t h) as [j|] eqn:Ej; [|discriminate]. injection H as <-. exact (IH h j Ej).
Qed.
Lemma same_value : forall hp g h, handle_eqb g h = true -> get_f hp g FValue = get_f hp h FValue.
Proof. intros hp g h H. apply Nat.eqb_eq in H. unfold get_f, get_field. cbn [ptr_of]. now rewrite H. Qed.
Lemma add_one : forall hp obs d d', filled obs d -> addEvent hp d = (d', Ok tt) -> filled obs d' /\ d_num d' = S (d_num d) /\
  (forall i h, i < d_num d -> data_env d' i h = data_env d i h) /\
  forall h g, In g obs -> handle_eqb h g = true -> data_env d' (d_num d) h = Some (get_f hp h FValue).
Proof.
  intros hp obs d d' (F1 & F2 & F3) E. unfold addEvent in E. destruct (checkAllVars hp (d_obs d)); [|discriminate]. rewrite F1 in E. rewrite push_ok in E by exact F2. injection E as <-.
  assert (FL : forall i c, nth_error (d_data d) i = Some c -> len c = d_num d) by (intros i c H; rewrite Forall_forall in F3; apply F3; eapply nth_error_In; eauto).
  assert (NE : forall i g c, nth_error obs i = Some g -> nth_error (d_data d) i = Some c -> nth_error (map (fun hc => snd hc ++ [get_f hp (fst hc) FValue]) (combine obs (d_data d))) i = Some (c ++ [get_f hp g FValue])).
  { clear. generalize (d_data d). induction obs as [|h t IH]; intros [|c0 cs] [|i] g c H1 H2; try discriminate; cbn in *; [congruence|now apply IH]. }
  assert (EX : forall i g, nth_error obs i = Some g -> exists c, nth_error (d_data d) i = Some c).
  { intros i g H. apply nth_error_Some_lt in H. destruct (nth_error (d_data d) i) eqn:N; [eauto|]. apply nth_error_None in N. lia. }
  split. { split; [reflexivity|]. cbn [d_data d_num]. rewrite map_length, combine_length, F2, Nat.min_id. split; [reflexivity|]. apply Forall_forall. intros c H. apply in_map_iff in H. destruct H as ([g c0] & <- & H). cbn [fst snd]. rewrite app_length. cbn.
    apply in_combine_r in H. rewrite Forall_forall in F3. rewrite (F3 c0 H). lia. }
  split; [reflexivity|]. split.
  - intros i h Hi. unfold data_env, getValue. cbn [d_num d_obs d_data]. replace (Nat.leb (S (d_num d)) i) with false by (symmetry; apply Nat.leb_gt; lia). replace (Nat.leb (d_num d) i) with false by (symmetry; apply Nat.leb_gt; lia).
    rewrite F1. destruct (indexOfVariable obs h) as [j|] eqn:Ej; [|reflexivity]. destruct (index_ok _ _ _ Ej) as (g & Eg & _). destruct (EX j g Eg) as [c Ec]. rewrite (NE j g c Eg Ec), Ec. rewrite nth_error_app1; [reflexivity|]. rewrite (FL j c Ec). exact Hi.
  - intros h g Hg Eh. unfold data_env, getValue. cbn [d_num d_obs d_data]. replace (Nat.leb (S (d_num d)) (d_num d)) with false by (symmetry; apply Nat.leb_gt; lia).
    assert (IX : exists j, indexOfVariable obs h = Ok j).
    { clear - Hg Eh. induction obs as [|a t IH]; [contradiction|]. cbn [indexOfVariable]. destruct (handle_eqb h a) eqn:E; [eauto|]. destruct Hg as [->|Hg]; [congruence|]. destruct (IH Hg) as [j ->]. eauto. }
    destruct IX as [j Ej]. rewrite Ej. destruct (index_ok _ _ _ Ej) as (g' & Eg & EH). destruct (EX j g' Eg) as [c Ec]. rewrite (NE j g' c Eg Ec). rewrite <- (FL j c Ec), nth_error_app2, Nat.sub_diag by lia. cbn [nth_error]. f_equal. symmetry. now apply same_value.
Qed.

(** ** Attaching a local data set and evaluating *)
Lemma heap_fc : forall s k fc s1, gcall s (GSetFitControl k fc) = NOk s1 -> g_heap (r_g s1) = g_heap (r_g s).
Proof. intros s k fc s1 E. apply gcall_ok in E. subst s1. cbn [with_g r_g gstep]. destruct (Nat.ltb _ _); [|reflexivity]. destruct (setFitControl _ _ _ _ _ _). reflexivity. Qed.
Lemma heap_si : forall s k s1, gcall s (GSetIndices k) = NOk s1 -> g_heap (r_g s1) = g_heap (r_g s).
Proof. intros s k s1 E. apply gcall_ok in E. subst s1. cbn [with_g r_g gstep]. destruct (Nat.ltb _ _); [|reflexivity]. destruct (setIndices _ _ _ _). reflexivity. Qed.

(** After attaching: the arrays, the buffer and the positions belong to the data set; the normalisations are the same. *)
Lemma attached : forall s ns k ref d s', reach (r_g s) ns -> k < len ns -> numbered s k -> set_data s k ref (Some (DUn d)) = NOk s' ->
  (exists ops, after (ops ++ [GSetIndices k]) = (r_g s', ns)) /\ g_heap (r_g s') = g_heap (r_g s) /\ sim (g_pdfs (r_g s)) (g_pdfs (r_g s')) /\
  obs_of_pdf s' k = obs_of_pdf s k /\ m_entries (r_mem s' k) = d_num d /\
  columned (g_heap (r_g s')) (obs_of_pdf s' k) ns k /\
  (forall i h, i < d_num d -> In h (obs_of_pdf s' k) -> exists x, data_env d i h = Some x) /\
  (forall i j h x, i < d_num d -> nth_error (obs_of_pdf s' k) j = Some h -> data_env d i h = Some x -> nth_error (buffer s') (i * len (obs_of_pdf s' k) + j) = Some (Some x)).
Proof.
  intros s ns k ref d s' R Hk NU E. unfold set_data in E. peel E sa EA. peel E sb EB. peel E b EF. apply ok_inj in E.
  destruct (attach_prefix s ns k sa sb R Hk EA EB) as ((ops & HO) & CO & _ & _). destruct CO as [PO CT].
  assert (G : r_g s' = r_g sb) by (rewrite <- E; reflexivity). assert (OB : obs_of_pdf s' k = obs_of_pdf sb k) by (unfold obs_of_pdf; now rewrite G).
  change (ops ++ [GSetupObservables k; GSetIndices k]) with (ops ++ [GSetupObservables k] ++ [GSetIndices k]) in HO. rewrite app_assoc in HO.
  assert (HA : g_heap (r_g sa) = g_heap (r_g s) /\ g_pdfs (r_g sa) = g_pdfs (r_g s)).
  { apply gcall_ok in EA. subst sa. cbn [with_g with_buf r_g gstep]. destruct (Nat.ltb _ _); [|split; reflexivity]. cbn [fst g_heap g_pdfs]. split; [now apply setup_same|reflexivity]. }
  destruct HA as [HA PA]. pose proof (heap_si _ _ _ EB) as HB.
  assert (SM : sim (g_pdfs (r_g s)) (g_pdfs (r_g sb))).
  { rewrite <- PA. apply gcall_ok in EB. subst sb. cbn [with_g r_g gstep]. destruct (Nat.ltb _ _); [|reflexivity].
    pose proof (si_map core (fun _ _ _ _ _ _ => eq_refl) (fun _ _ => eq_refl) (fun _ _ => eq_refl) (g_heap (r_g sa)) (g_pdfs (r_g sa)) (g_arr (r_g sa)) k) as X. destruct (setIndices _ _ _ _) as [ps' A']. cbn [fst g_pdfs] in *. unfold sim. now symmetry. }
  rewrite OB, G. split; [exists (ops ++ [GSetupObservables k]); exact HO|]. split; [congruence|]. split; [exact SM|]. split; [rewrite !obs_of_pdf_eq; now apply sim_obs|].
  split. { rewrite <- E. cbn [with_total with_buf with_mem r_mem]. now rewrite Nat.eqb_refl. }
  split; [split; [exact PO|exact CT]|]. pose proof (unbinned_values _ _ _ _ EF) as UV. destruct (unbinned_ok _ _ d PO UV) as (b' & EF' & LB & VB). rewrite EF in EF'. apply ok_inj in EF'. subst b'. split.
  - intros i h Hi Hh. destruct (UV i h Hi Hh) as [x X]. exists x. unfold data_env. now rewrite X.
  - intros i j h x Hi Hj Hx. unfold buffer. rewrite <- E. cbn [with_total with_buf r_buf]. eapply VB; eauto. unfold data_env in Hx. destruct (getValue d h i); [now injection Hx as ->|discriminate].
Qed.

Lemma core_obs : forall ps ps', sim ps ps' -> map p_obs ps' = map p_obs ps.
Proof. intros ps ps' H. unfold sim in H. apply (f_equal (map (fun c : kind * list handle * list f64 * list handle * list nat * f64 => snd (fst (fst c))))) in H. rewrite !map_map in H. now symmetry. Qed.
Lemma first_obs_eq : forall g g' ns ns', ginv g ns -> ginv g' ns' -> map p_obs (g_pdfs g') = map p_obs (g_pdfs g) -> first_obs_of g' = first_obs_of g.
Proof.
  intros g g' ns ns' (_ & _ & C) (_ & _ & C') H. apply FunctionalExtensionality.functional_extensionality. intro i. unfold first_obs_of. rewrite !getObservables_obs_of by assumption. f_equal. now apply map_obs_of.
Qed.
Lemma norm_eq : forall g g', sim (g_pdfs g) (g_pdfs g') -> norm_of g' = norm_of g.
Proof.
  intros g g' H. apply FunctionalExtensionality.functional_extensionality. intro i. unfold norm_of. destruct (nth_error (g_pdfs g) i) as [p|] eqn:E.
  - destruct (sim_nth _ _ _ _ H E) as (p' & -> & C). exact (f_equal snd C).
  - now rewrite (sim_none _ _ _ H E).
Qed.
Definition lists (p : pdf) := (p_pars p, p_cons p, p_obs p).
Lemma tree_ok_eq : forall g g' ns k, map lists (g_pdfs g') = map lists (g_pdfs g) -> g_heap g' = g_heap g -> first_obs_of g' = first_obs_of g -> tree_ok g ns k -> tree_ok g' ns k.
Proof.
  intros g g' ns k M H F [T1 T2]. split; [exact T1|]. eapply Forall_impl; [|exact T2]. intros i [S N]. rewrite H, F. split; [|exact N]. unfold sizes_ok in *. destruct (nth_error (g_pdfs g') i) as [p'|] eqn:E; [|exact I].
  apply (map_nth_error lists) in E. rewrite M in E. apply nth_error_map_iff in E. destruct E as (p & Ep & X). rewrite Ep in S. unfold lists in X. injection X as X1 X2 X3. rewrite <- X1, <- X2, <- X3 || rewrite X1, X2, X3. exact S.
Qed.
Lemma core_lists : forall ps ps', sim ps ps' -> map lists ps' = map lists ps.
Proof. intros ps ps' H. unfold sim in H. apply (f_equal (map (fun c : kind * list handle * list f64 * list handle * list nat * f64 => (snd (fst (fst (fst (fst c)))), snd (fst (fst (fst c))), snd (fst (fst c)))))) in H. rewrite !map_map in H. now symmetry. Qed.
Lemma skel_lists : forall ps ps', map skel ps' = map skel ps -> map lists ps' = map lists ps.
Proof. intros ps ps' H. apply (f_equal (map lists)) in H. rewrite !map_map in H. exact H. Qed.
Lemma lists_obs : forall ps ps', map lists ps' = map lists ps -> map p_obs ps' = map p_obs ps.
Proof. intros ps ps' H. apply (f_equal (map snd)) in H. rewrite !map_map in H. exact H. Qed.

Lemma dmap_answer : forall L fc total (rest : nat -> event) norm vs a, getValue_fit fc = true ->
  dmap (fun iv => metric_value L (getMetric fc) total (snd iv) (rest (fst iv)) norm) (combine (seq a (len vs)) vs) = DOk (map (fun v => answer L fc v norm) vs).
Proof.
  intros L fc total rest norm vs a F. revert a. induction vs as [|v vs IH]; intro a; [reflexivity|]. cbn [len seq combine dmap fst snd map].
  destruct fc; try discriminate F; cbn [getMetric metric_value answer] in *; cbv zeta; cbn [dbind]; rewrite IH; reflexivity.
Qed.
(** Evaluation of every event of the attached data set. *)
Lemma answers : forall L s ns k fc n en vs, (exists ops, after (ops ++ [GSetIndices k]) = (r_g s, ns)) -> k < len ns -> tree_ok (r_g s) ns k -> fit_of s k = Some fc -> getValue_fit fc = true ->
  m_entries (r_mem s k) = n ->
  (forall i h, i < n -> tree_observable ns k h -> event_env (g_heap (r_g s)) (skipn (i * len (obs_of_pdf s k)) (buffer s)) h = en i h) ->
  omap (fun i => value L (g_heap (r_g s)) (norm_of (r_g s)) (first_obs_of (r_g s)) (S k) ns (en i) k) (seq 0 n) = Some vs ->
  evaluate_with_metric L s k = NOk (map (fun v => answer L fc v (norm_of (r_g s) k)) vs).
Proof.
  intros L s ns k fc n en vs (ops & HO) Hk TO FC FF ME EN EV. unfold evaluate_with_metric, all_events. rewrite ME. set (size := len (obs_of_pdf s k)) in *.
  assert (MT : metric_of (r_g s) k = getMetric fc) by (unfold metric_of, fit_of in *; destruct (nth_error (g_pdfs (r_g s)) k); [now rewrite FC|discriminate]).
  assert (ML : len ns = len (g_pdfs (r_g s))) by (pose proof (after_inv _ _ _ HO) as (_ & [X _] & _); exact X).
  destruct (omap_nth _ _ _ EV) as [LV NV]. rewrite seq_length in LV.
  assert (V : forall i v, i < n -> nth_error vs i = Some v -> event_value L s size i = metric_value L (getMetric fc) (f_of_nat (r_total s)) v (skipn (size - 2) (skipn (i * size) (buffer s))) (norm_of (r_g s) k)).
  { intros i v Hi Hv. destruct (NV i i) as (v' & Hv' & Ev); [now apply nth_seq0|]. rewrite Hv in Hv'. injection Hv' as <-. unfold event_value. rewrite <- MT. eapply metric_applied; try eassumption; [|lia].
    unfold pdf_value. rewrite <- Ev. apply value_env. apply tree_obs_env. intros h Hh. now apply EN. }
  assert (GEN : forall m a us, len us = m -> (forall i v, i < m -> nth_error us i = Some v -> event_value L s size (a + i) = metric_value L (getMetric fc) (f_of_nat (r_total s)) v (skipn (size - 2) (skipn ((a + i) * size) (buffer s))) (norm_of (r_g s) k)) ->
      dmap (event_value L s size) (seq a m) = dmap (fun iv => metric_value L (getMetric fc) (f_of_nat (r_total s)) (snd iv) (skipn (size - 2) (skipn (fst iv * size) (buffer s))) (norm_of (r_g s) k)) (combine (seq a m) us)).
  { clear. induction m as [|m IH]; intros a us LV EV; [reflexivity|]. destruct us as [|v us]; [discriminate|]. cbn [seq combine dmap fst snd].
      pose proof (EV 0 v ltac:(lia) eq_refl) as E0. rewrite Nat.add_0_r in E0. rewrite E0. rewrite (IH (S a) us); [reflexivity|cbn in LV; lia|].
      intros i w Hi Hw. replace (S a + i) with (a + S i) by lia. apply EV; [lia|exact Hw]. }
  rewrite (GEN n 0 vs LV V). rewrite <- LV at 1. rewrite (dmap_answer L fc (f_of_nat (r_total s)) (fun i => skipn (size - 2) (skipn (i * size) (buffer s))) (norm_of (r_g s) k) vs 0 FF). reflexivity.
Qed.

Lemma fit_si1 : forall s ns k fc s1, reach (r_g s) ns -> k < len ns -> fit_of s k = Some fc -> gcall s (GSetIndices k) = NOk s1 -> fit_of s1 k = Some fc.
Proof.
  intros s ns k fc s1 R Hk F E. apply gcall_ok in E. subst s1. unfold fit_of in *. cbn [with_g r_g gstep]. destruct (nth_error (g_pdfs (r_g s)) k) as [p|] eqn:Ep; [|discriminate].
  pose proof (reach_wf _ _ R) as (_ & [ML _] & _). replace (Nat.ltb k (len (g_pdfs (r_g s)))) with true by (symmetry; apply Nat.ltb_lt; lia).
  destruct (setIndices_ok (g_heap (r_g s)) (g_pdfs (r_g s)) (g_arr (r_g s)) k p Ep) as (fc' & p' & _ & Ep' & EF & EFC). destruct (setIndices _ _ _ _) as [ps' A']. cbn [fst g_pdfs] in *. rewrite Ep', EF, EFC, F. reflexivity.
Qed.
Lemma fit_setData : forall s ns k ref d s' fc, reach (r_g s) ns -> k < len ns -> fit_of s k = Some fc -> set_data s k ref (Some (DUn d)) = NOk s' -> fit_of s' k = Some fc.
Proof.
  intros s ns k ref d s' fc R Hk F E. unfold set_data in E. peel E sa EA. peel E sb EB. peel E b EF. apply ok_inj in E. subst s'. change (fit_of sb k = Some fc). eapply fit_si; eauto.
Qed.
Lemma fit_normalize : forall L red s k s' , run_normalize L red s k = NOk s' -> map skel (g_pdfs (r_g s')) = map skel (g_pdfs (r_g s)) -> fit_of s' k = fit_of s k.
Proof.
  intros L red s k s' _ SK. unfold fit_of. destruct (nth_error (g_pdfs (r_g s)) k) as [p|] eqn:Ep.
  - apply (map_nth_error skel) in Ep. rewrite <- SK in Ep. apply nth_error_map_iff in Ep. destruct Ep as (p' & -> & X). symmetry in X. apply skel_fields in X. apply X.
  - assert (nth_error (g_pdfs (r_g s')) k = None) as ->; [|reflexivity]. apply nth_error_None in Ep. apply nth_error_None. apply (f_equal (@len _)) in SK. rewrite !map_length in SK. lia.
Qed.

(** Selecting the control of the query and flattening. *)
Lemma selected : forall s ns k fc s1 t, reach (r_g s) ns -> k < len ns -> gcall s (GSetFitControl k fc) = NOk s1 -> gcall s1 (GSetIndices k) = NOk t ->
  (exists ops, after (ops ++ [GSetIndices k]) = (r_g t, ns)) /\ fit_of t k = Some fc /\ g_heap (r_g t) = g_heap (r_g s) /\ sim (g_pdfs (r_g s)) (g_pdfs (r_g t)) /\ g_hs (r_g t) = g_hs (r_g s).
Proof.
  intros s ns k fc s1 t R Hk E1 E2. destruct (gcall_fc s ns k fc R Hk) as (s1' & E1' & F1 & _). rewrite E1 in E1'. apply ok_inj in E1'. subst s1'.
  assert (R1 : reach (r_g s1) ns) by (eapply reach_gcall; [apply silent_fc|exact R|exact E1]).
  split. { destruct R1 as [ops R1]. exists ops. apply gcall_ok in E2. subst t. cbn [with_g r_g]. unfold after in *. rewrite history_app, R1. cbn [fst snd history]. destruct (gstep (r_g s1) (GSetIndices k)) as [g o]. cbn [fst]. f_equal. exact (silent_si k _ _ _). }
  split; [eapply fit_si1; eauto|]. split; [rewrite (heap_si _ _ _ E2); now apply (heap_fc _ _ _ _ E1)|].
  apply gcall_ok in E1. apply gcall_ok in E2. subst s1 t. cbn [with_g r_g] in *. cbn [gstep]. pose proof (reach_wf _ _ R) as (_ & [ML _] & _). replace (Nat.ltb k (len (g_pdfs (r_g s)))) with true by (symmetry; apply Nat.ltb_lt; lia).
  pose proof (sfc_map core (fun _ _ _ _ _ _ => eq_refl) (fun _ _ => eq_refl) (fun _ _ => eq_refl) (S k) (g_heap (r_g s)) (g_pdfs (r_g s)) (g_arr (r_g s)) k fc) as X. destruct (setFitControl _ _ _ _ _ _) as [ps1 A1]. cbn [fst g_pdfs g_heap g_hs g_arr] in *.
  destruct (Nat.ltb k (len ps1)); [|split; [unfold sim; now symmetry|reflexivity]]. pose proof (si_map core (fun _ _ _ _ _ _ => eq_refl) (fun _ _ => eq_refl) (fun _ _ => eq_refl) (g_heap (r_g s)) ps1 A1 k) as Y. destruct (setIndices _ _ _ _) as [ps2 A2]. cbn [fst g_pdfs g_hs] in *. split; [unfold sim; now rewrite Y, X|reflexivity].
Qed.

(** ** getValue *)
Lemma get_value : forall L red s ns k fc s1 t x s', reach (r_g s) ns -> k < len ns -> numbered s k ->
  gcall s (GSetFitControl k fc) = NOk s1 -> gcall s1 (GSetIndices k) = NOk t -> evaluable L (r_g t) ns k ->
  (forall norms, exists v, value L (g_heap (r_g s)) norms (first_obs_of (r_g s)) (S k) ns (here (g_heap (r_g s))) k = Some v) ->
  run_getValue L red s k fc = NOk (x, s') ->
  exists norms v, normalised L red (r_g t) ns k norms /\ value L (g_heap (r_g s)) norms (first_obs_of (r_g s)) (S k) ns (here (g_heap (r_g s))) k = Some v /\ x = answer L fc v (norms k).
Proof.
  intros L red s ns k fc s1 t x s' R Hk NU E1 E2 EVB DEF E. unfold run_getValue in E. destruct (getValue_fit fc) eqn:FF; [|discriminate]. cbn [negb] in E. rewrite E1 in E. cbn [nbind] in E. rewrite E2 in E. cbn [nbind] in E.
  peel E s3 E3. destruct (addEvent (g_heap (r_g s3)) (new_dataset (obs_of_pdf s3 k))) as [point r] eqn:EP. peel E u ER. peel E s4 E4. peel E results EV. peel E s5 E5. peel E r0 EH. apply ok_inj in E. injection E as <- <-.
  destruct (selected s ns k fc s1 t R Hk E1 E2) as ((ops & HO) & FT & HT & ST & _). pose proof EVB as (ND & TO & RC & DE & HI).
  assert (Rt : reach (r_g t) ns) by (eexists; exact HO). pose proof (si_ready ops k _ ns HO Hk ND) as RD.
  destruct (normalize_full ops [] k _ ns L red RD Hk ND ltac:(constructor) TO RC DE HI) as [[EN _]|(rr & ps' & A' & EN & SK & NM & _)].
  { unfold run_normalize in E3. rewrite EN in E3. discriminate. }
  unfold run_normalize in E3. rewrite EN in E3. cbn [nbind] in E3. apply ok_inj in E3.
  assert (G3 : g_heap (r_g s3) = g_heap (r_g t) /\ g_pdfs (r_g s3) = ps') by (subst s3; split; reflexivity). destruct G3 as [H3 P3].
  assert (RN : run_normalize L red t k = NOk s3) by (unfold run_normalize; rewrite EN; cbn [nbind]; now rewrite E3).
  destruct (run_normalize_inv L red t ns k s3 Rt RN) as (R3 & _). rewrite <- P3 in SK.
  assert (O3 : map p_obs (g_pdfs (r_g s3)) = map p_obs (g_pdfs (r_g s))) by (rewrite (lists_obs _ _ (skel_lists _ _ SK)); now apply core_obs).
  assert (OB3 : obs_of_pdf s3 k = obs_of_pdf s k) by (rewrite !obs_of_pdf_eq; now apply map_obs_of).
  assert (N3 : numbered s3 k) by (unfold numbered; rewrite OB3, H3, HT; exact NU).
  destruct (attached s3 ns k None point s4 R3 Hk N3 E4) as (HO4 & H4 & S4 & OB4 & ME4 & CO4 & VD4 & VB4).
  assert (I3 : ginv (r_g s3) ns) by now apply reach_wf. assert (R4 : reach (r_g s4) ns) by (destruct HO4 as [o4 HO4]; eexists; exact HO4). pose proof (reach_wf _ _ R4) as I4. pose proof (reach_wf _ _ R) as I0. pose proof (reach_wf _ _ Rt) as It.
  assert (O4 : map p_obs (g_pdfs (r_g s4)) = map p_obs (g_pdfs (r_g s))) by (rewrite (core_obs _ _ S4); exact O3).
  assert (F4 : first_obs_of (r_g s4) = first_obs_of (r_g s)) by (eapply first_obs_eq; eauto).
  assert (Ft : first_obs_of (r_g t) = first_obs_of (r_g s)) by (eapply first_obs_eq; eauto; now apply core_obs).
  assert (T4 : tree_ok (r_g s4) ns k).
  { eapply tree_ok_eq; [|rewrite H4, H3; reflexivity|rewrite F4, Ft; reflexivity|exact TO]. rewrite (core_lists _ _ S4). now apply skel_lists. }
  assert (N4 : norm_of (r_g s4) = norm_of (r_g s3)) by now apply norm_eq.
  destruct r as [[]|]; [|discriminate]. destruct (add_one _ _ _ _ (filled_new (obs_of_pdf s3 k)) EP) as (FI & NUM & _ & ENV). cbn [d_num new_dataset] in NUM, ENV.
  destruct (DEF (norm_of (r_g s4))) as [v EV4]. 
  assert (FC4 : fit_of s4 k = Some fc). { eapply fit_setData; [exact R3|exact Hk| |exact E4]. rewrite (fit_normalize L red t k s3 RN SK). exact FT. }
  assert (SM : small (len (obs_of_pdf s4 k))).
  { destruct T4 as [_ F]. rewrite Forall_forall in F. assert (In k (tree_ids ns k)) as IK. { unfold tree_ids. cbn [subtree]. destruct (nth_error ns k) eqn:En; [now left|]. apply nth_error_None in En. lia. }
    specialize (F k IK). destruct F as [F _]. unfold sizes_ok in F. rewrite obs_of_pdf_eq. unfold obs_of. destruct (nth_error (g_pdfs (r_g s4)) k); [apply F|reflexivity]. }
  assert (HERE : forall h, tree_observable ns k h -> data_env point 0 h = here (g_heap (r_g s)) h).
  { intros h Hh. destruct CO4 as [_ CT]. destruct (CT h Hh) as (j & g & Ej & Eg & _). rewrite OB4 in Ej. unfold here. rewrite <- HT, <- H3. eapply ENV; [eapply nth_error_In; exact Ej|]. apply Nat.eqb_eq in Eg. unfold handle_eqb. now rewrite Eg, Nat.eqb_refl. }
  rewrite (answers L s4 ns k fc 1 (data_env point) [v] HO4 Hk T4 FC4 FF) in EV.
  - apply ok_inj in EV. subst results. cbn in EH. apply ok_inj in EH. subst r0. exists (norm_of (r_g s3)), v. split.
    + unfold normalised. rewrite <- E3. exact NM.
    + rewrite <- N4. now split.
  - now rewrite ME4, NUM.
  - intros i h Hi Hh. assert (i = 0) as -> by lia. eapply row_env; [exact CO4|exact SM| | | |exact Hh].
    + intros j g y Hj Hy. eapply VB4; eauto. lia.
    + intros g Hg. apply VD4; [lia|exact Hg].
    + apply data_env_eq.
  - cbn [seq omap]. assert (X : value L (g_heap (r_g s4)) (norm_of (r_g s4)) (first_obs_of (r_g s4)) (S k) ns (data_env point 0) k = Some v); [|now rewrite X].
    rewrite <- EV4, F4, H4, H3, HT. apply value_env. apply tree_obs_env. exact HERE.
Qed.
