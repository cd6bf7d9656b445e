(** Every state of a session is one that calls on PDFs and Variables alone could have produced ([traced]); what
    normalize() does to the state is a sequence of stored normalisations. *)
From Coq Require Import List ZArith Bool Lia.
From Verif Require Import F64 F64Lemmas ListAux VariableModel DataSetModel BinModel LeafFormulas DeviceModel PdfModel PdfSpec
  FlatProofs EvalProofs HostProofs PdfProofs PdfProofs2 PdfProofs3 NormModel NormSpec NormProofs NormProofs2 RunModel.
Import ListNotations.
Local Open Scope nat_scope.
Local Notation len := List.length.

Lemma nbind_ok : forall {A B} (x : nres A) (f : A -> nres B) b, nbind x f = NOk b -> exists a, x = NOk a /\ f a = NOk b.
Proof. intros A B [a| | |] f b H; cbn in H; try discriminate. now exists a. Qed.

(** ** normalize() *)
Definition stores (ids : list nat) (o : gop) : Prop := exists j x, o = GSetNormalization j x /\ In j ids.
Section Trace.
Variables (hp : heap) (hs : list handle) (ns : list snode).
Definition gs (s : nstate) : gstate := mkG hp hs (fst s) (snd s).
Definition T (ids : list nat) (s s' : nstate) : Prop :=
  (exists qs, Forall (stores ids) qs /\ history (gs s) ns qs = (gs s', ns)) /\ map p_comps (fst s') = map p_comps (fst s).
Lemma T_refl : forall ids s, T ids s s.
Proof. intros. split; [|reflexivity]. exists []. now split. Qed.
Lemma T_trans : forall ids a b c, T ids a b -> T ids b c -> T ids a c.
Proof.
  intros ids a b c ((q1 & F1 & H1) & E1) ((q2 & F2 & H2) & E2). split; [|congruence]. exists (q1 ++ q2). split; [now apply Forall_app|].
  rewrite history_app, H1. exact H2.
Qed.
Lemma T_incl : forall ids ids' a b, incl ids ids' -> T ids a b -> T ids' a b.
Proof.
  intros ids ids' a b I ((q & F & H) & E). split; [|exact E]. exists q. split; [|exact H]. eapply Forall_impl; [|exact F].
  intros o (j & x & -> & Hj). exists j, x. split; [reflexivity|now apply I].
Qed.
Lemma T_kids : forall ids a b, T ids a b -> kids_match ns (fst a) -> kids_match ns (fst b).
Proof. intros ids a b [_ E] K. unfold kids_match in *. congruence. Qed.

Lemma put_T : forall c s id x s', put_norm c s id x = NOk s' -> T [id] s s'.
Proof.
  intros c [ps A] id x s' H. unfold put_norm in H. destruct (nth_error ps id) as [p|] eqn:E; [|discriminate].
  destruct (Nat.ltb (p_ni p + 1) (len (a_nor A))) eqn:B; [|destruct c; discriminate].
  assert (X : s' = (upd ps id (with_norm p x), mkArrays (a_fun A) (a_par A) (a_con A) (a_obs A) (upd (a_nor A) (p_ni p + 1) x)))
    by exact (f_equal (fun o => match o with NOk a => a | _ => s' end) (eq_sym H)). rewrite X. split.
  - exists [GSetNormalization id x]. split; [constructor; [|constructor]; exists id, x; split; [reflexivity|now left]|].
    unfold gs. cbn [fst snd history gstep g_pdfs g_arr g_heap g_hs]. rewrite E, B. reflexivity.
  - cbn [fst]. eapply map_upd_same; [exact E|reflexivity].
Qed.

Lemma default_T : forall L red s id r s', default_normalize L red hp s id = NOk (r, s') -> T [id] s s'.
Proof.
  intros L red s id r s' H. unfold default_normalize in H. apply nbind_ok in H. destruct H as (p & _ & H). apply nbind_ok in H. destruct H as (fc & _ & H).
  assert (P : forall c x y, (s1 <~ put_norm c s id x;; NOk (y, s1)) = NOk (r, s') -> T [id] s s').
  { intros c x y X. apply nbind_ok in X. destruct X as (s1 & X & Y). assert (s1 = s') as <- by exact (f_equal (fun o => match o with NOk a => snd a | _ => s1 end) Y).
    eapply put_T; exact X. }
  destruct (negb (metricIsPdf fc)); [eapply P; exact H|]. apply nbind_ok in H. destruct H as (an & _ & H). destruct an.
  - apply nbind_ok in H. destruct H as (v & _ & H). eapply P; exact H.
  - apply nbind_ok in H. destruct H as (sum & _ & H). destruct (f_isnan sum); [discriminate|]. destruct (fle sum fzero); [discriminate|].
    destruct (feq fzero _); [discriminate|]. eapply P; exact H.
Qed.

Lemma fold_T : forall (f : nstate -> nat -> nres nstate) (ids : list nat) (P : nat -> Prop),
  (forall s k s', P k -> kids_match ns (fst s) -> f s k = NOk s' -> T ids s s') ->
  forall ks, Forall P ks -> forall acc s', (forall s, acc = NOk s -> kids_match ns (fst s)) ->
  fold_left (fun acc c => s' <~ acc ;; f s' c) ks acc = NOk s' -> exists s, acc = NOk s /\ T ids s s'.
Proof.
  intros f ids P Hf ks. induction ks as [|k ks IH]; intros F acc s' K H; [exists s'; split; [exact H|apply T_refl]|]. inversion F; subst. cbn [fold_left] in H.
  destruct acc as [s| | |]; cbn [nbind] in H.
  - destruct (IH H3 (f s k) s') as (s1 & E1 & T1); [|exact H|].
    + intros s1 E1. eapply T_kids; [eapply Hf; [exact H2|now apply K|exact E1]|now apply K].
    + exists s. split; [reflexivity|]. eapply T_trans; [eapply Hf; [exact H2|now apply K|exact E1]|exact T1].
  - destruct (IH H3 NThrow s' ltac:(discriminate) H) as (? & X & _). discriminate.
  - destruct (IH H3 NUB s' ltac:(discriminate) H) as (? & X & _). discriminate.
  - destruct (IH H3 NFuel s' ltac:(discriminate) H) as (? & X & _). discriminate.
Qed.

Lemma kid_incl : forall n id nd c, nth_error ns id = Some nd -> In c (kids_of nd) -> incl (subtree n ns c) (subtree (S n) ns id).
Proof. intros n id nd c E H x Hx. cbn [subtree]. rewrite E. right. apply in_flat_map. exists c. now split. Qed.
Lemma root_incl : forall n id nd, nth_error ns id = Some nd -> incl [id] (subtree (S n) ns id).
Proof. intros n id nd E x [<-|[]]. cbn [subtree]. rewrite E. now left. Qed.

Lemma set_norms_T : forall n s id x s', kids_match ns (fst s) -> set_norms n s id x = NOk s' -> T (subtree n ns id) s s'.
Proof.
  induction n as [|n IH]; intros s id x s' K H; [discriminate|]. cbn [set_norms] in H. apply nbind_ok in H. destruct H as (p & Ep & H). apply nbind_ok in H. destruct H as (s1 & E1 & H).
  destruct (nth_error (fst s) id) as [q|] eqn:Eq; [|discriminate]. destruct (kids_nth ns _ _ _ K Eq) as (nd & En & Hk). assert (q = p) as <- by (cbn in Ep; exact (f_equal (fun o => match o with NOk a => a | _ => q end) Ep)).
  apply put_T in E1. destruct (fold_T (fun s' c => set_norms n s' c x) (subtree (S n) ns id) (fun c => In c (kids_of nd))) with (ks := p_comps q) (acc := NOk s1) (s' := s') as (s2 & X & T2).
  - intros s2 c s3 Hc K2 E2. eapply T_incl; [eapply kid_incl; eauto|]. eapply IH; eauto.
  - rewrite Hk. apply Forall_forall. auto.
  - intros s2 X. assert (s1 = s2) as <- by exact (f_equal (fun o => match o with NOk a => a | _ => s1 end) X). eapply T_kids; eauto.
  - exact H.
  - assert (s1 = s2) as <- by exact (f_equal (fun o => match o with NOk a => a | _ => s1 end) X). eapply T_trans; [eapply T_incl; [eapply root_incl; eauto|exact E1]|exact T2].
Qed.

Section Loops.
Variable norm : nstate -> nat -> nres (f64 * nstate).
Variable ids : list nat.
Variable P : nat -> Prop.
Hypothesis Hn : forall s k r s', P k -> kids_match ns (fst s) -> norm s k = NOk (r, s') -> T ids s s'.
Lemma norm_all_T : forall ks s sum r s', Forall P ks -> kids_match ns (fst s) -> norm_all norm s ks sum = NOk (r, s') -> T ids s s'.
Proof.
  induction ks as [|k ks IH]; intros s sum r s' F K H; cbn [norm_all] in H.
  - assert (s = s') as <- by exact (f_equal (fun o => match o with NOk a => snd a | _ => s end) H). apply T_refl.
  - inversion F; subst. apply nbind_ok in H. destruct H as ([c s1] & E & H). assert (T1 : T ids s s1) by (eapply Hn; eauto).
    eapply T_trans; [exact T1|]. eapply IH; [assumption| |exact H]. eapply T_kids; eauto.
Qed.
Lemma norm_add_T : forall ks ext s ws ret total r s', Forall P ks -> kids_match ns (fst s) -> norm_add hp norm ext s ws ks ret total = NOk (r, s') -> T ids s s'.
Proof.
  induction ks as [|k ks IH]; intros ext s ws ret total r s' F K H; [discriminate|]. inversion F; subst. cbn [norm_add] in H. destruct ks as [|k2 ks].
  - apply nbind_ok in H. destruct H as ([c s1] & E & H). assert (T1 : T ids s s1) by (eapply Hn; eauto). destruct ext.
    + apply nbind_ok in H. destruct H as (w & _ & H). assert (s1 = s') as <- by exact (f_equal (fun o => match o with NOk a => snd a | _ => s1 end) H). exact T1.
    + assert (s1 = s') as <- by exact (f_equal (fun o => match o with NOk a => snd a | _ => s1 end) H). exact T1.
  - apply nbind_ok in H. destruct H as (w & _ & H). apply nbind_ok in H. destruct H as ([c s1] & E & H). assert (T1 : T ids s s1) by (eapply Hn; eauto).
    eapply T_trans; [exact T1|]. eapply IH; [assumption| |exact H]. eapply T_kids; eauto.
Qed.
End Loops.
Lemma common_T : forall ids ks s x s', incl ks ids -> common_norm s ks x = NOk s' -> T ids s s'.
Proof.
  induction ks as [|k ks IH]; intros s x s' I H; cbn [common_norm] in H.
  - assert (s = s') as <- by exact (f_equal (fun o => match o with NOk a => a | _ => s end) H). apply T_refl.
  - apply nbind_ok in H. destruct H as (s1 & E & H). eapply T_trans; [eapply T_incl; [|eapply put_T; exact E]; intros y [<-|[]]; apply I; now left|].
    eapply IH; [|exact H]. intros y Hy. apply I. now right.
Qed.

Lemma normalize_T : forall L red n s id r s', id < n -> (forall i nd, nth_error ns i = Some nd -> Forall (fun k => k < i) (kids_of nd)) ->
  kids_match ns (fst s) -> normalize L red hp n s id = NOk (r, s') -> T (subtree n ns id) s s'.
Proof.
  intros L red n. induction n as [|n IH]; intros s id r s' Hid WF K H; [discriminate|]. cbn [normalize] in H. apply nbind_ok in H. destruct H as (p & Ep & H).
  destruct (nth_error (fst s) id) as [q|] eqn:Eq; [|discriminate]. destruct (kids_nth ns _ _ _ K Eq) as (nd & En & Hk). assert (q = p) as <- by (cbn in Ep; exact (f_equal (fun o => match o with NOk a => a | _ => q end) Ep)).
  set (ids := subtree (S n) ns id) in *.
  assert (RI : incl [id] ids) by (eapply root_incl; eauto).
  assert (FK : Forall (fun c => In c (kids_of nd)) (p_comps q)) by (rewrite Hk; apply Forall_forall; auto).
  assert (HN : forall s k r s', In k (kids_of nd) -> kids_match ns (fst s) -> normalize L red hp n s k = NOk (r, s') -> T ids s s').
  { intros s0 k r0 s0' Hin K0 E0. eapply T_incl; [eapply kid_incl; eauto|]. eapply IH; eauto. pose proof (WF id nd En) as W. eapply Forall_forall in W; [|exact Hin]. lia. }
  assert (DF : forall s r s', default_normalize L red hp s id = NOk (r, s') -> T ids s s') by (intros; eapply T_incl; [exact RI|eapply default_T; eauto]).
  assert (PT : forall c s x s', put_norm c s id x = NOk s' -> T ids s s') by (intros; eapply T_incl; [exact RI|eapply put_T; eauto]).
  assert (KI : n > 0 -> incl (p_comps q) ids).
  { intros N c Hc. rewrite Hk in Hc. eapply kid_incl; [exact En|exact Hc|]. destruct n; [lia|]. cbn [subtree]. destruct (nth_error ns c) eqn:Ec; [now left|].
    pose proof (WF id nd En) as W. eapply Forall_forall in W; [|exact Hc]. apply nth_error_None in Ec. apply nth_error_Some_lt in En. lia. }
  assert (SNT : forall x s1, set_norms (S n) s id x = NOk s1 -> T ids s s1) by (intros; now apply set_norms_T with (x := x)).
  destruct (p_kind q); try (eapply DF; exact H).
  - apply nbind_ok in H. destruct H as ([ret s1] & E1 & H). apply nbind_ok in H. destruct H as (s2 & E2 & H).
    assert (T1 : T ids s s1) by (eapply norm_add_T; [exact HN|exact FK|exact K|exact E1]). assert (T2 : T ids s s2) by (eapply T_trans; [exact T1|eapply PT; exact E2]).
    destruct (p_common q).
    + apply nbind_ok in H. destruct H as (s3 & E3 & H). assert (s3 = s') as <- by exact (f_equal (fun o => match o with NOk a => snd a | _ => s3 end) H).
      eapply T_trans; [exact T2|]. destruct (p_comps q) as [|c cs] eqn:EC; [discriminate|].
      eapply common_T; [|exact E3]. apply KI. pose proof (WF id nd En) as W. rewrite <- Hk in W. inversion W; subst. lia.
    + assert (s2 = s') as <- by exact (f_equal (fun o => match o with NOk a => snd a | _ => s2 end) H). exact T2.
  - apply nbind_ok in H. destruct H as ([ret s1] & E1 & H). apply nbind_ok in H. destruct H as (s2 & E2 & H).
    assert (T1 : T ids s s1) by (eapply norm_add_T; [exact HN|exact FK|exact K|exact E1]). assert (T2 : T ids s s2) by (eapply T_trans; [exact T1|eapply PT; exact E2]).
    destruct (p_common q).
    + apply nbind_ok in H. destruct H as (s3 & E3 & H). assert (s3 = s') as <- by exact (f_equal (fun o => match o with NOk a => snd a | _ => s3 end) H).
      eapply T_trans; [exact T2|]. destruct (p_comps q) as [|c cs] eqn:EC; [discriminate|].
      eapply common_T; [|exact E3]. apply KI. pose proof (WF id nd En) as W. rewrite <- Hk in W. inversion W; subst. lia.
    + assert (s2 = s') as <- by exact (f_equal (fun o => match o with NOk a => snd a | _ => s2 end) H). exact T2.
  - apply nbind_ok in H. destruct H as ([x s1] & E1 & H). apply nbind_ok in H. destruct H as (s2 & E2 & H).
    assert (s2 = s') as <- by exact (f_equal (fun o => match o with NOk a => snd a | _ => s2 end) H).
    eapply T_trans; [eapply norm_all_T; [exact HN|exact FK|exact K|exact E1]|eapply PT; exact E2].
  - apply nbind_ok in H. destruct H as ([x s1] & E1 & H). apply nbind_ok in H. destruct H as (s2 & E2 & H).
    assert (s2 = s') as <- by exact (f_equal (fun o => match o with NOk a => snd a | _ => s2 end) H).
    eapply T_trans; [eapply norm_all_T; [exact HN|exact FK|exact K|exact E1]|eapply PT; exact E2].
  - destruct (p_overlap q).
    + apply nbind_ok in H. destruct H as (s1 & E1 & H). eapply T_trans; [apply SNT with (x := fone); exact E1|eapply DF; exact H].
    + apply nbind_ok in H. destruct H as ([x s1] & E1 & H). apply nbind_ok in H. destruct H as (s2 & E2 & H).
      assert (s2 = s') as <- by exact (f_equal (fun o => match o with NOk a => snd a | _ => s2 end) H).
      eapply T_trans; [eapply norm_all_T; [exact HN|exact FK|exact K|exact E1]|eapply PT; exact E2].
  - apply nbind_ok in H. destruct H as ([x s1] & E1 & H). apply nbind_ok in H. destruct H as (s2 & E2 & H).
    assert (s2 = s') as <- by exact (f_equal (fun o => match o with NOk a => snd a | _ => s2 end) H).
    assert (FT : Forall (fun c => In c (kids_of nd)) (tl (p_comps q))) by (destruct (p_comps q); [constructor|now inversion FK]).
    eapply T_trans; [eapply norm_all_T; [exact HN|exact FT|exact K|exact E1]|eapply PT; exact E2].
  - apply nbind_ok in H. destruct H as (s1 & E1 & H). apply nbind_ok in H. destruct H as ([x s2] & E2 & H).
    assert (T1 : T ids s s1) by (apply SNT with (x := fone); exact E1).
    eapply T_trans; [exact T1|]. eapply T_trans; [eapply norm_all_T; [exact HN|exact FK|eapply T_kids; eauto|exact E2]|eapply DF; exact H].
Qed.
End Trace.

(** ** Sessions *)
Definition reach (g : gstate) (ns : list snode) : Prop := exists ops, after ops = (g, ns).
Definition silent (o : gop) : Prop := forall st out ns, note st o out ns = ns.
Lemma silent_si : forall k, silent (GSetIndices k). Proof. now intros k st [] ns. Qed.
Lemma silent_so : forall k, silent (GSetupObservables k). Proof. now intros k st [] ns. Qed.
Lemma silent_fc : forall k f, silent (GSetFitControl k f). Proof. now intros k f st [] ns. Qed.
Lemma silent_var : forall o, silent (GVar o). Proof. now intros o st [] ns. Qed.
Lemma silent_norm : forall k x, silent (GSetNormalization k x). Proof. now intros k x st [] ns. Qed.
Global Hint Resolve silent_si silent_so silent_fc silent_var silent_norm : core.

Lemma reach_ops : forall g ns ops g', reach g ns -> history g ns ops = (g', ns) -> reach g' ns.
Proof. intros g ns ops g' [ops0 E] H. exists (ops0 ++ ops). unfold after in *. rewrite history_app, E. exact H. Qed.
Lemma reach_step : forall g ns o, reach g ns -> reach (fst (gstep g o)) (note g o (snd (gstep g o)) ns).
Proof.
  intros g ns o [ops E]. exists (ops ++ [o]). unfold after in *. rewrite history_app, E. cbn [fst snd history]. destruct (gstep g o) as [g' out]. reflexivity.
Qed.
Lemma reach_silent : forall g ns o, silent o -> reach g ns -> reach (fst (gstep g o)) ns.
Proof. intros g ns o S R. apply (reach_step g ns o) in R. now rewrite S in R. Qed.

Lemma ok_inj : forall {A} (a b : A), NOk a = NOk b -> a = b.
Proof. intros A a b H. exact (f_equal (fun o => match o with NOk x => x | _ => a end) H). Qed.
Lemma gcall_ok : forall s o s', gcall s o = NOk s' -> s' = with_g s (fst (gstep (r_g s) o)).
Proof. intros s o s' H. unfold gcall in H. destruct (gstep (r_g s) o) as [g out]. destruct out; try discriminate; symmetry; exact (ok_inj _ _ H). Qed.
Lemma reach_gcall : forall s ns o s', silent o -> reach (r_g s) ns -> gcall s o = NOk s' -> reach (r_g s') ns.
Proof. intros s ns o s' S R H. apply gcall_ok in H. subst s'. cbn [with_g r_g]. now apply reach_silent. Qed.

Lemma reach_wf : forall g ns, reach g ns -> ginv g ns.
Proof. intros g ns [ops E]. eapply after_inv; exact E. Qed.
Lemma ginv_wf : forall g ns, ginv g ns -> forall i nd, nth_error ns i = Some nd -> Forall (fun k => k < i) (kids_of nd).
Proof. intros g ns (_ & [_ M] & _) i nd E. apply (M i nd E). Qed.

Lemma normalize_history : forall L red g ns k r ps A, reach g ns -> normalize L red (g_heap g) (S k) (g_pdfs g, g_arr g) k = NOk (r, (ps, A)) ->
  exists qs, Forall (stores (tree_ids ns k)) qs /\ history g ns qs = (mkG (g_heap g) (g_hs g) ps A, ns).
Proof.
  intros L red g ns k r ps A R H. pose proof (reach_wf _ _ R) as GI.
  destruct (normalize_T (g_heap g) (g_hs g) ns L red (S k) (g_pdfs g, g_arr g) k r (ps, A)) as [(qs & F & X) _].
  - lia.
  - eapply ginv_wf; eauto.
  - apply match_kids_match. apply GI.
  - exact H.
  - exists qs. split; [exact F|]. destruct g. exact X.
Qed.
Lemma run_normalize_inv : forall L red s ns k s', reach (r_g s) ns -> run_normalize L red s k = NOk s' ->
  reach (r_g s') ns /\ r_sets s' = r_sets s /\ r_mem s' = r_mem s /\ r_buf s' = r_buf s /\ r_total s' = r_total s /\ g_heap (r_g s') = g_heap (r_g s) /\
  exists qs, Forall (stores (tree_ids ns k)) qs /\ history (r_g s) ns qs = (r_g s', ns).
Proof.
  intros L red s ns k s' R H. unfold run_normalize in H. apply nbind_ok in H. destruct H as ([r [ps A]] & E & H). apply ok_inj in H. subst s'. cbn [with_g r_g r_sets r_mem r_buf r_total].
  destruct (normalize_history L red (r_g s) ns k r ps A R E) as (qs & F & X). split; [eapply reach_ops; eauto|]. repeat (split; [reflexivity|]). exists qs. now split.
Qed.

(** setIndices and setFitControl rebuild the arrays from nothing. *)
Lemma sfc_arr : forall n hp ps A A2 id fc, fst (setFitControl n hp ps A id fc) = fst (setFitControl n hp ps A2 id fc) /\
  (n > 0 -> id < len ps -> setFitControl n hp ps A id fc = setFitControl n hp ps A2 id fc).
Proof.
  induction n as [|n IH]; intros hp ps A A2 id fc; [split; [reflexivity|lia]|]. cbn [setFitControl]. destruct (nth_error ps id) as [p|] eqn:E.
  - assert (G : forall ks ps A A2, fst (fold_left (fun s c => setFitControl n hp (fst s) (snd s) c fc) ks (ps, A)) = fst (fold_left (fun s c => setFitControl n hp (fst s) (snd s) c fc) ks (ps, A2))).
    { induction ks as [|k ks IHk]; intros ps' B B2; [reflexivity|]. cbn [fold_left fst snd]. destruct (IH hp ps' B B2 k fc) as [X _].
      destruct (setFitControl n hp ps' B k fc) as [p1 a1], (setFitControl n hp ps' B2 k fc) as [p2 a2]. cbn [fst] in X. subst p2. apply IHk. }
    specialize (G (p_comps p) ps A A2). destruct (fold_left _ (p_comps p) (ps, A)) as [p1 a1], (fold_left _ (p_comps p) (ps, A2)) as [p2 a2]. cbn [fst] in G. subst p2. now split.
  - split; [reflexivity|]. intros _ X. apply nth_error_None in E. lia.
Qed.
Lemma si_arr : forall hp ps A A2 id, id < len ps -> setIndices hp ps A id = setIndices hp ps A2 id.
Proof.
  intros hp ps A A2 id H. unfold setIndices. destruct (nth_error ps id) as [p|] eqn:E; [|apply nth_error_None in E; lia]. destruct (p_fit p); [reflexivity|].
  destruct (sfc_arr (S id) hp ps A A2 id UnbinnedNllFit) as [_ X]. now rewrite X by lia.
Qed.
Definition resets (o : gop) : option nat := match o with GSetIndices k => Some k | GSetFitControl k _ => Some k | _ => None end.
Lemma reset_arr : forall hp hs ps A A2 o k, resets o = Some k -> k < len ps -> gstep (mkG hp hs ps A) o = gstep (mkG hp hs ps A2) o.
Proof.
  intros hp hs ps A A2 o k H Hk. apply Nat.ltb_lt in Hk as HB. destruct o; try discriminate; cbn [resets] in H; injection H as ->; cbn [gstep g_heap g_hs g_pdfs g_arr]; rewrite HB.
  - now rewrite (si_arr hp ps A A2 k Hk).
  - destruct (sfc_arr (S k) hp ps A A2 k fc) as [_ X]. now rewrite X by lia.
Qed.
(** [s] is reachable apart from metric functions appended to the function table. *)
Definition nearly (s : rstate) (ns : list snode) : Prop :=
  exists A, reach (mkG (g_heap (r_g s)) (g_hs (r_g s)) (g_pdfs (r_g s)) A) ns.
Lemma reach_nearly : forall s ns, reach (r_g s) ns -> nearly s ns.
Proof. intros s ns R. exists (g_arr (r_g s)). destruct (r_g s). exact R. Qed.
Lemma nearly_reset : forall s ns o k s', resets o = Some k -> k < len ns -> silent o -> nearly s ns -> gcall s o = NOk s' -> reach (r_g s') ns.
Proof.
  intros s ns o k s' H Hk S [A R] E. apply gcall_ok in E. subst s'. cbn [with_g r_g]. pose proof (reach_silent _ _ _ S R) as X.
  assert (LN : k < len (g_pdfs (r_g s))). { pose proof (reach_wf _ _ R) as (_ & [ML _] & _). cbn [g_pdfs] in ML. lia. }
  rewrite (reset_arr (g_heap (r_g s)) (g_hs (r_g s)) (g_pdfs (r_g s)) A (g_arr (r_g s)) o k H LN) in X. destruct (r_g s). exact X.
Qed.

Lemma reach_setData : forall s ns k ref d s', reach (r_g s) ns -> set_data s k ref d = NOk s' -> reach (r_g s') ns.
Proof.
  intros s ns k ref d s' R H. unfold set_data in H. apply nbind_ok in H. destruct H as (s1 & E1 & H). apply nbind_ok in H. destruct H as (s2 & E2 & H).
  assert (R2 : reach (r_g s2) ns) by (eapply reach_gcall; [| |exact E2]; auto; eapply reach_gcall; [| |exact E1]; auto).
  destruct d as [[d|d]|].
  - apply nbind_ok in H. destruct H as (b & _ & H). apply ok_inj in H. subst s'. exact R2.
  - apply nbind_ok in H. destruct H as (fc & _ & H). apply nbind_ok in H. destruct H as (s3 & E3 & H). apply nbind_ok in H. destruct H as (fc2 & _ & H).
    apply nbind_ok in H. destruct H as ([b ev] & _ & H). apply ok_inj in H. subst s'. cbn [with_total with_buf with_mem r_g].
    destruct (binnedFit fc); [apply ok_inj in E3; now subst s3|]. eapply reach_gcall; [| |exact E3]; auto.
  - apply ok_inj in H. subst s'. exact R2.
Qed.
Lemma nfold_inv : forall {S A} (f : S -> A -> nres S) (P : S -> Prop) (Q : A -> Prop), (forall s a s', P s -> Q a -> f s a = NOk s' -> P s') ->
  forall l s s', Forall Q l -> P s -> nfold f l s = NOk s' -> P s'.
Proof.
  intros S A f P Q H. induction l as [|a l IH]; intros s s' F HP E; cbn [nfold] in E; [apply ok_inj in E; now subst|]. inversion F; subst.
  apply nbind_ok in E. destruct E as (s1 & E1 & E). eapply IH; [assumption| |exact E]. eapply H; eauto.
Qed.
Ltac peel H x E := apply nbind_ok in H; destruct H as (x & E & H).
Lemma all_true : forall {A} (l : list A), Forall (fun _ => True) l.
Proof. intros. apply Forall_forall. auto. Qed.

Lemma reach_rstep : forall L red s ns o s' out, reach (r_g s) ns -> rstep L red s o = NOk (s', out) -> reach (r_g s') (rnote s o out ns).
Proof.
  intros L red s ns o s' out R H. unfold rstep in H. destruct o; cbn [rnote].
  - pose proof (reach_step _ _ o R) as X. destruct (gstep (r_g s) o) as [g go]. cbn [fst snd] in X.
    destruct go; try discriminate; assert (E : (with_g s g, _) = (s', out)) by exact (ok_inj _ _ H); assert (E1 := f_equal fst E); assert (E2 := f_equal snd E); cbn [fst snd] in E1, E2; subst s' out; exact X.
  - apply ok_inj in H. destruct (put_set (r_sets s) i d); injection H as <- <-; exact R.
  - destruct i as [i|].
    + destruct (nth_error (r_sets s) i) as [d|]; [|apply ok_inj in H; injection H as <- <-; exact R]. destruct (Nat.ltb k _); [|apply ok_inj in H; injection H as <- <-; exact R].
      peel H s1 E. apply ok_inj in H. injection H as <- <-. eapply reach_setData; eauto.
    + destruct (Nat.ltb k _); [|apply ok_inj in H; injection H as <- <-; exact R]. peel H s1 E. apply ok_inj in H. injection H as <- <-. eapply reach_setData; eauto.
  - destruct (Nat.ltb k _); [|apply ok_inj in H; injection H as <- <-; exact R]. unfold out_of in H. peel H as_ E. destruct as_ as [a s1]. apply ok_inj in H. injection H as <- <-.
    unfold calculateNLL in E. peel E rs EB. destruct rs as [ret s2]. unfold base_nll in EB. peel EB s3 E3. peel EB n En. destruct (fle n fzero); [discriminate|]. peel EB v Ev. destruct (feq fzero v); [discriminate|].
    apply ok_inj in EB. injection EB as <- <-. assert (s1 = s3) as ->.
    { peel E p Ep. destruct (p_kind p); try (apply ok_inj in E; injection E as _ <-; reflexivity). peel E ws Ew. apply ok_inj in E. exact (eq_sym (f_equal snd E)). }
    apply (run_normalize_inv L red s ns k s3 R E3).
  - destruct (Nat.ltb k _); [|apply ok_inj in H; injection H as <- <-; exact R]. unfold out_of in H. peel H as_ E. destruct as_ as [a s1]. apply ok_inj in H. injection H as <- <-.
    unfold run_getValue in E. destruct (negb (getValue_fit fc)); [discriminate|]. peel E s2 E2. peel E s3 E3. peel E s4 E4.
    assert (R4 : reach (r_g s4) ns). { eapply run_normalize_inv; [|exact E4]. eapply reach_gcall; [| |exact E3]; auto. eapply reach_gcall; [| |exact E2]; auto. }
    destruct (addEvent _ _) as [point r]. peel E u Eu. peel E s5 E5. peel E rs Er. peel E s6 E6. peel E r0 Er0. apply ok_inj in E. injection E as _ <-.
    eapply reach_setData; [|exact E6]. eapply reach_setData; [|exact E5]. exact R4.
  - destruct (Nat.ltb k _ && _); [|apply ok_inj in H; injection H as <- <-; exact R]. unfold out_of in H. peel H as_ E. destruct as_ as [a s1]. apply ok_inj in H. injection H as <- <-.
    unfold run_points in E. peel E s2 E2. peel E s3 E3. peel E s4 E4.
    assert (R4 : reach (r_g s4) ns). { eapply run_normalize_inv; [|exact E4]. eapply reach_gcall; [| |exact E3]; auto. eapply reach_gcall; [| |exact E2]; auto. }
    peel E h Eh. peel E st5 E5. destruct st5 as [s5 temp].
    assert (R5 : reach (r_g (fst (s5, temp))) ns).
    { eapply (nfold_inv _ (fun st => reach (r_g (fst st)) ns) (fun _ => True)); [|apply all_true| |exact E5]; [|exact R4].
      intros [sa da] i [sb db] Ra _ Es. cbn [fst snd] in *. peel Es sc Ec. destruct (addEvent _ _) as [d2 r2]. peel Es u Eu. apply ok_inj in Es. injection Es as <- <-. eapply reach_gcall; [| |exact Ec]; auto. }
    peel E s6 E6. peel E s7 E7. peel E rs Er. peel E nm En. peel E rs3 Eres. peel E s8 E8. apply ok_inj in E. assert (s8 = s1) as <- by exact (f_equal snd E).
    eapply reach_setData; [|exact E8]. eapply run_normalize_inv; [|exact E7]. eapply reach_setData; [|exact E6]. exact R5.
  - destruct (Nat.ltb k _) eqn:HK; [|apply ok_inj in H; injection H as <- <-; exact R]. unfold out_of in H. peel H as_ E. destruct as_ as [a s1]. apply ok_inj in H. injection H as <- <-.
    unfold run_comp_probs in E. peel E s2 E2. peel E s3 E3. peel E fi Ef. peel E p Ep. peel E st E4. destruct st as [s4 vals]. peel E fc Efc. peel E s5 E5. apply ok_inj in E. injection E as _ <-.
    assert (R3 : reach (r_g s3) ns). { eapply run_normalize_inv; [|exact E3]. eapply reach_gcall; [| |exact E2]; auto. }
    pose proof (reach_wf _ _ R) as (_ & [ML _] & _). apply Nat.ltb_lt in HK.
    assert (N4 : nearly (fst (s4, vals)) ns).
    { eapply (nfold_inv _ (fun st => nearly (fst st) ns) (fun c => c < len ns)); [| | |exact E4].
      - intros [sa va] c [sb vb] Na Hc Es. cbn [fst snd] in *. peel Es sc Ec. peel Es sd Ed. peel Es se Ee. peel Es r Er. apply ok_inj in Es. injection Es as <- <-.
        assert (Rc : reach (r_g sc) ns) by (eapply (nearly_reset sa ns (GSetIndices c) c); eauto; reflexivity).
        assert (Rd : reach (r_g sd) ns) by (eapply run_normalize_inv; [exact Rc|exact Ed]).
        unfold push_metric in Ee. peel Ee fc' Efc'. apply ok_inj in Ee. subst se. exists (g_arr (r_g sd)). cbn [with_g r_g g_heap g_hs g_pdfs]. destruct (r_g sd). exact Rd.
      - destruct (nth_error (g_pdfs (r_g s3)) k) as [q|] eqn:Eq; [|discriminate]. cbn in Ep. apply ok_inj in Ep. subst q.
        pose proof (reach_wf _ _ R3) as G3. destruct (kids_nth ns _ _ _ (match_kids_match _ _ (proj1 (proj2 G3))) Eq) as (nd & En & Hk).
        pose proof (ginv_wf _ _ G3 k nd En) as W. rewrite Hk. eapply Forall_impl; [|exact W]. cbn. intros. lia.
      - apply reach_nearly. exact R3. }
    eapply (nearly_reset s4 ns (GSetFitControl k fc) k); eauto; lia.
Qed.
Lemma reach_session : forall L red ops s0 ns0 s ns, reach (r_g s0) ns0 -> rrun L red s0 ns0 ops = NOk (s, ns) -> reach (r_g s) ns.
Proof.
  intros L red ops. induction ops as [|o ops IH]; intros s0 ns0 s ns R H; cbn [rrun] in H.
  - apply ok_inj in H. injection H as <- <-. exact R.
  - apply nbind_ok in H. destruct H as ([s1 out] & E & H). eapply IH; [|exact H]. eapply reach_rstep; eauto.
Qed.
Lemma session_reach : forall L red ops s ns, session L red ops = NOk (s, ns) -> reach (r_g s) ns.
Proof. intros. eapply reach_session; [|exact H]. exists []. reflexivity. Qed.
