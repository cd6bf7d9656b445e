(** C12, C13: the flattened evaluation; C15: refreshing parameters; C16: getParameters; C17: columns of observables. *)
From Coq Require Import List ZArith String Bool Lia.
From Verif Require Import F64 F64Lemmas ListAux VariableModel LeafFormulas DeviceModel PdfModel PdfSpec FlatProofs EvalProofs HostProofs.
Import ListNotations.
Local Open Scope nat_scope.
Local Notation len := List.length.

(** ** C12, C13 *)
Lemma part_whole : forall {T} (x q : list T), part (x ++ q) 0 x.
Proof. intros. exists [], q. now split. Qed.
Lemma part_all : forall {T} (x : list T), part x 0 x.
Proof. intros. exists [], []. split; [now rewrite app_nil_r|reflexivity]. Qed.
Lemma stand_root : forall bs f, stand (push_fun (extend no_arrays bs) f) cur0 bs.
Proof.
  intros bs f. unfold stand, push_fun, extend, no_arrays. cbn [a_fun a_par a_con a_obs a_nor app]. unfold cur0. cbn [c_fun c_par c_con c_obs c_nor].
  repeat split; try apply part_all. apply part_whole.
Qed.
Lemma subtree_in : forall f ns ps id hp, match_all ns ps -> forall b, In b (flat f hp ps id) ->
  exists i p, In i (subtree f ns id) /\ nth_error ps i = Some p /\ b = block_of hp p.
Proof.
  intros f ns ps id hp HM. revert id. induction f as [|f IH]; intros id b Hb; [destruct Hb|]. cbn [flat] in Hb.
  destruct (nth_error ps id) as [p|] eqn:Ep; [|destruct Hb].
  assert (Hn : exists n, nth_error ns id = Some n).
  { destruct HM as [ML _]. destruct (nth_error ns id) eqn:N; [eauto|]. apply nth_error_None in N. apply nth_error_Some_lt in Ep. lia. }
  destruct Hn as [n N]. pose proof HM as [_ M]. destruct (M id n N) as (_ & q & Eq & Hc & _). assert (q = p) by congruence. subst q.
  cbn [subtree]. rewrite N. destruct Hb as [<-|Hb].
  - exists id, p. split; [now left|]. now split.
  - rewrite Hc in Hb. apply in_flat_map in Hb. destruct Hb as (k & Hk & Hb). destruct (IH k b Hb) as (i & q & Hi & Eq' & E).
    exists i, q. split; [right; apply in_flat_map; exists k; now split|]. now split.
Qed.

Lemma g_after_setIndices : forall ops k st ns, after (ops ++ [GSetIndices k]) = (st, ns) -> k < len ns ->
  exists st0, after ops = (st0, ns) /\ ginv st0 ns /\ ginv st ns /\ g_heap st = g_heap st0 /\ sim (g_pdfs st0) (g_pdfs st) /\
    (g_pdfs st, g_arr st) = setIndices (g_heap st0) (g_pdfs st0) (g_arr st0) k.
Proof.
  intros ops k st ns E Hk. unfold after in *. rewrite history_app in E. destruct (history ginit [] ops) as [st0 ns0] eqn:E0. cbn [fst snd] in E.
  cbn [history gstep] in E. pose proof (after_inv ops st0 ns0 E0) as I0. pose proof I0 as (_ & HM & _).
  destruct (Nat.ltb k (len (g_pdfs st0))) eqn:EL.
  - pose proof (si_map core (fun _ _ _ _ _ _ => eq_refl) (fun _ _ => eq_refl) (fun _ _ => eq_refl) (g_heap st0) (g_pdfs st0) (g_arr st0) k) as X.
    destruct (setIndices (g_heap st0) (g_pdfs st0) (g_arr st0) k) as [ps' A'] eqn:ES. cbn [note] in E. injection E as <- <-.
    cbn [fst] in X. exists st0. split; [reflexivity|]. split; [exact I0|]. split; [|].
    + pose proof (ginv_step st0 ns0 (GSetIndices k) I0) as I1. cbn [gstep] in I1. rewrite EL, ES in I1. exact I1.
    + cbn [g_heap g_pdfs g_arr]. split; [reflexivity|]. split; [unfold sim; now symmetry|symmetry; exact ES].
  - exfalso. cbn [note] in E. injection E as <- <-. apply Nat.ltb_ge in EL. destruct HM as [ML _]. lia.
Qed.

Lemma flattened_evaluation : forall ops k st ns L e v fuel,
  after (ops ++ [GSetIndices k]) = (st, ns) -> k < len ns -> tree_ok st ns k -> pdf_value L st ns e k = Some v -> S k <= fuel ->
  exists c, callFunction fuel L (g_arr st) e cur0 = DOk (v, c) /\
            nth_error (a_fun (g_arr st)) (c_fun c) = Some (FMetric (metric_of st k)) /\
            getNormalization (g_arr st) cur0 0 = DOk (norm_of st k).
Proof.
  intros ops k st ns L e v fuel E Hk [HT1 HT2] HV Hf.
  destruct (g_after_setIndices ops k st ns E Hk) as (st0 & _ & I0 & (HW & HM & HC) & EH & HS & EA).
  assert (Hp : exists p, nth_error (g_pdfs st0) k = Some p).
  { destruct I0 as (_ & [ML _] & _). destruct (nth_error (g_pdfs st0) k) eqn:N; [eauto|]. apply nth_error_None in N. lia. }
  destruct Hp as [p Ep]. destruct (setIndices_ok (g_heap st0) (g_pdfs st0) (g_arr st0) k p Ep) as (fc & p' & EA2 & Ep' & EF & _).
  rewrite <- EA in EA2, Ep'. cbn [fst snd] in EA2, Ep'. rewrite (flat_sim _ _ _ _ _ HS), <- EH in EA2.
  set (bs := flat (S k) (g_heap st) (g_pdfs st) k) in *.
  assert (Hlen : len bs = len (tree_ids ns k)) by (unfold bs, tree_ids; now apply flat_length).
  assert (CF : callFunction fuel L (g_arr st) e cur0 = DOk (v, adv cur0 bs)).
  { unfold pdf_value in HV. eapply (eval_correct L (g_arr st) (g_heap st) ns (g_pdfs st) HM (norm_of st) (first_obs_of st)) with (id := k) (f := S k).
    - intros i q Eq. unfold norm_of. now rewrite Eq.
    - intros i q o Eq Eo. unfold first_obs_of in Eo. rewrite getObservables_obs_of in Eo by exact HC. unfold obs_of in Eo. rewrite Eq in Eo.
      destruct (p_obs q) as [|o' os] eqn:Eqo; [discriminate|]. cbn in Eo. injection Eo as ->. split; [reflexivity|].
      destruct (HC i q Eq) as (_ & W & _). rewrite Eqo in W. now inversion W.
    - exact Hf.
    - lia.
    - rewrite EA2. apply stand_root.
    - apply Forall_forall. intros b Hb. unfold bs in Hb. destruct (subtree_in _ _ _ _ _ HM b Hb) as (i & q & Hi & Eq & ->).
      eapply Forall_forall in HT2; [|exact Hi]. destruct HT2 as [HT2 _]. unfold sizes_ok in HT2. rewrite Eq in HT2. eapply bsmall_in; [reflexivity|exact HT2].
    - fold bs. rewrite Hlen. exact HT1.
    - eapply Forall_impl; [|exact HT2]. intros i [_ Hi]. exact Hi.
    - intros h w _ Hh. exact Hh.
    - exact HV. }
  exists (adv cur0 bs). split; [exact CF|]. split.
  - rewrite EA2, adv_fun. unfold push_fun, extend, no_arrays. cbn [a_fun app]. unfold enc_fun. rewrite nth_error_app2; rewrite map_length; [|cbn; lia].
    cbn [c_fun cur0]. rewrite Nat.add_0_l, Nat.sub_diag. cbn. unfold metric_of. rewrite Ep', EF. reflexivity.
  - unfold norm_of. rewrite Ep'. rewrite EA2. unfold bs. cbn [flat]. rewrite Ep'. unfold getNormalization.
    pose proof (stand_root (block_of (g_heap st) p' :: flat_map (flat k (g_heap st) (g_pdfs st)) (p_comps p')) (FMetric (getMetric fc))) as SR.
    apply stand_cons in SR. destruct SR as [SR _]. exact (rd_nor _ _ _ SR).
Qed.

Lemma metric_applied : forall ops k st ns L total e rest v fuel,
  after (ops ++ [GSetIndices k]) = (st, ns) -> k < len ns -> tree_ok st ns k -> pdf_value L st ns e k = Some v -> S k <= fuel ->
  metric_taker fuel L (g_arr st) total e rest = metric_value L (metric_of st k) total v rest (norm_of st k).
Proof.
  intros ops k st ns L total e rest v fuel E Hk HT HV Hf.
  destruct (flattened_evaluation ops k st ns L e v fuel E Hk HT HV Hf) as (c & H1 & H2 & H3).
  unfold metric_taker. rewrite H3. cbn [dbind]. rewrite H1. cbn [dbind]. rewrite H2. reflexivity.
Qed.

(** ** C16 *)
(** Variables an expression node uses directly. *)
Lemma collect_in : forall ns ps, match_all ns ps -> forall (get : pdf -> list handle) f id h,
  In h (collect get f ps id) -> exists i p, In i (subtree f ns id) /\ nth_error ps i = Some p /\ In h (get p).
Proof.
  intros ns ps HM get. induction f as [|f IH]; intros id h H; [destruct H|]. cbn [collect] in H.
  destruct (nth_error ps id) as [p|] eqn:Ep; [|destruct H].
  assert (Hn : exists n, nth_error ns id = Some n).
  { destruct HM as [ML _]. destruct (nth_error ns id) eqn:N; [eauto|]. apply nth_error_None in N. apply nth_error_Some_lt in Ep. lia. }
  destruct Hn as [n N]. pose proof HM as [_ M]. destruct (M id n N) as (_ & q & Eq & Hc & _). assert (q = p) by congruence. subst q.
  cbn [subtree]. rewrite N.
  assert (G : forall ks acc, In h (fold_left (fun acc c => merge_new acc (collect get f ps c)) ks acc) ->
              In h acc \/ exists k, In k ks /\ In h (collect get f ps k)).
  { clear H. induction ks as [|k ks IHk]; intros acc H; [now left|]. cbn [fold_left] in H. apply IHk in H. destruct H as [H|(k' & Hk & H)].
    - assert (X : forall sub a, In h (merge_new a sub) -> In h a \/ In h sub).
      { induction sub as [|s sub IHs]; intros a Ha; [now left|]. cbn [merge_new fold_left] in Ha. apply IHs in Ha.
        destruct Ha as [Ha|Ha]; [|right; now right]. destruct (find_in a s); [now left|]. apply in_app_or in Ha. destruct Ha as [Ha|[<-|[]]]; [now left|right; now left]. }
      apply X in H. destruct H as [H|H]; [now left|]. right. exists k. split; [now left|exact H].
    - right. exists k'. split; [now right|exact H]. }
  apply G in H. destruct H as [H|(k & Hk & H)].
  - exists id, p. split; [now left|]. now split.
  - destruct (IH k h H) as (i & q & Hi & Eq' & Hq). exists i, q. split; [|now split]. right. apply in_flat_map. exists k. rewrite <- Hc. now split.
Qed.
Lemma merge_keeps : forall sub acc h, find_in acc h = true -> find_in (merge_new acc sub) h = true.
Proof. intros. rewrite merge_new_register. now apply register_incl. Qed.
Lemma collect_all : forall ns ps, match_all ns ps -> forall (get : pdf -> list handle) f id i p h,
  In i (subtree f ns id) -> nth_error ps i = Some p -> In h (get p) -> find_in (collect get f ps id) h = true.
Proof.
  intros ns ps HM get. induction f as [|f IH]; intros id i p h Hi Ep Hh; [destruct Hi|]. cbn [subtree] in Hi.
  destruct (nth_error ns id) as [n|] eqn:N; [|destruct Hi]. pose proof HM as [_ M]. destruct (M id n N) as (_ & q & Eq & Hc & _).
  cbn [collect]. rewrite Eq.
  assert (K : forall ks acc, find_in acc h = true -> find_in (fold_left (fun acc c => merge_new acc (collect get f ps c)) ks acc) h = true).
  { induction ks as [|k ks IHk]; intros acc H; [exact H|]. cbn [fold_left]. apply IHk. now apply merge_keeps. }
  destruct Hi as [<-|Hi].
  - assert (q = p) by congruence. subst q. apply K. apply find_in_spec. now apply in_map.
  - apply in_flat_map in Hi. destruct Hi as (k & Hk & Hi). rewrite Hc.
    specialize (IH k i p h Hi Ep Hh). revert Hk. generalize (get q) as acc. generalize (kids_of n) as kids. clear - K IH. intro kids. induction kids as [|k0 ks IHk]; intros acc Hk; [destruct Hk|].
    cbn [fold_left]. destruct Hk as [->|Hk]; [|now apply IHk]. apply K. rewrite merge_new_register.
    pose proof (register_new (collect get f ps k) acc) as RN. unfold covers in RN. apply find_in_spec in IH. apply in_map_iff in IH.
    destruct IH as (g & Eg & Hg). eapply Forall_forall in RN; [|exact Hg]. apply find_in_spec in RN. apply find_in_spec. now rewrite <- Eg.
Qed.
Lemma merge_split : forall sub acc, exists r, merge_new acc sub = acc ++ r /\ distinct r /\ (forall h, In h r -> find_in acc h = false).
Proof.
  induction sub as [|s sub IH]; intro acc.
  - exists []. split; [now rewrite app_nil_r|]. split; [constructor|intros h []].
  - cbn [merge_new fold_left]. destruct (find_in acc s) eqn:F; [apply IH|]. destruct (IH (acc ++ [s])) as (r & E & D & H).
    exists (s :: r). split; [unfold merge_new in E; rewrite E, <- app_assoc; reflexivity|]. split.
    + unfold distinct. cbn [map]. constructor; [|exact D]. intro X. apply in_map_iff in X. destruct X as (x & Ex & Hx). specialize (H x Hx).
      assert (Y : find_in (acc ++ [s]) x = true) by (apply find_in_spec; rewrite map_app, in_app_iff; right; left; now symmetry). congruence.
    + intros h [<-|Hh]; [exact F|]. specialize (H h Hh). destruct (find_in acc h) eqn:Fh; [|reflexivity].
      assert (Y : find_in (acc ++ [s]) h = true) by (apply find_in_spec in Fh; apply find_in_spec; rewrite map_app, in_app_iff; now left). congruence.
Qed.
Lemma collect_split : forall (get : pdf -> list handle) f ps id p, nth_error ps id = Some p -> 
  exists r, collect get (S f) ps id = get p ++ r /\ distinct r /\ (forall h, In h r -> find_in (get p) h = false).
Proof.
  intros get f ps id p Ep. cbn [collect]. rewrite Ep. generalize (get p) as own. intro own. induction (p_comps p) as [|k ks IH] using rev_ind.
  - exists []. split; [cbn; now rewrite app_nil_r|]. split; [constructor|intros h []].
  - rewrite fold_left_app. cbn [fold_left]. destruct IH as (r & E & D & H). rewrite E.
    destruct (merge_split (collect get f ps k) (own ++ r)) as (r2 & E2 & D2 & H2). rewrite E2. exists (r ++ r2). split; [now rewrite <- app_assoc|].
    split.
    + unfold distinct in *. rewrite map_app. clear - D D2 H2. induction r as [|a r IH]; [exact D2|]. cbn [map app] in *. inversion D; subst. constructor.
      * rewrite in_app_iff. intros [X|X]; [now apply H1|]. apply in_map_iff in X. destruct X as (x & Ex & Hx). specialize (H2 x Hx).
        assert (Y : find_in (own ++ a :: r) x = true) by (apply find_in_spec; rewrite map_app, in_app_iff; right; left; now symmetry). congruence.
      * apply IH; [assumption|]. intros h Hh. specialize (H2 h Hh). destruct (find_in (own ++ r) h) eqn:Fh; [|reflexivity].
        assert (Y : find_in (own ++ a :: r) h = true).
        { apply find_in_spec in Fh. apply find_in_spec. rewrite map_app, in_app_iff in *. destruct Fh; [now left|]. right. now right. }
        congruence.
    + intros h Hh. apply in_app_or in Hh. destruct Hh as [Hh|Hh]; [now apply H|]. specialize (H2 h Hh). destruct (find_in own h) eqn:Fh; [|reflexivity].
      assert (Y : find_in (own ++ r) h = true) by (apply find_in_spec in Fh; apply find_in_spec; rewrite map_app, in_app_iff; now left). congruence.
Qed.

Lemma node_match_pars : forall ns n p, node_match ns n p -> p_pars p = node_pars n.
Proof. intros ns n p [_ H]. destruct n; cbn [node_pars]; intuition. Qed.

Lemma in_tree : forall ns f k i, In i (subtree f ns k) -> exists n, nth_error ns i = Some n.
Proof.
  intros ns. induction f as [|f IH]; intros k i H; [destruct H|]. cbn [subtree] in H. destruct (nth_error ns k) as [n|] eqn:N; [|destruct H].
  destruct H as [<-|H]; [eauto|]. apply in_flat_map in H. destruct H as (x & _ & H). eapply IH; eauto.
Qed.

Lemma getParameters_ok : forall ops k st ns, after ops = (st, ns) -> k < len ns ->
  exists l, gstep st (GGetParameters k) = (st, GHandles l) /\
    (forall h, In h l -> exists i n, In i (tree_ids ns k) /\ nth_error ns i = Some n /\ In h (node_pars n)) /\
    (forall i n h, In i (tree_ids ns k) -> nth_error ns i = Some n -> In h (node_pars n) -> exists g, In g l /\ handle_eqb g h = true) /\
    (exists n r, nth_error ns k = Some n /\ l = node_pars n ++ r /\ distinct r /\
                 forall h g, In h r -> In g (node_pars n) -> handle_eqb g h = false).
Proof.
  intros ops k st ns E Hk. pose proof (after_inv _ _ _ E) as (_ & HM & _). pose proof HM as [ML M]. exists (getParameters (g_pdfs st) k).
  split. { cbn [gstep]. replace (Nat.ltb k (len (g_pdfs st))) with true by (symmetry; apply Nat.ltb_lt; lia). reflexivity. }
  split; [|split].
  - intros h H. destruct (collect_in ns (g_pdfs st) HM p_pars (S k) k h H) as (i & p & Hi & Ep & Hh).
    destruct (in_tree _ _ _ _ Hi) as [n N]. destruct (M i n N) as (_ & q & Eq & NM). assert (q = p) by congruence. subst q.
    exists i, n. split; [exact Hi|]. split; [exact N|]. now rewrite <- (node_match_pars _ _ _ NM).
  - intros i n h Hi N Hh. destruct (M i n N) as (_ & q & Eq & NM). rewrite <- (node_match_pars _ _ _ NM) in Hh.
    pose proof (collect_all ns (g_pdfs st) HM p_pars (S k) k i q h Hi Eq Hh) as F. unfold find_in in F. apply existsb_exists in F. exact F.
  - destruct (nth_error ns k) as [n|] eqn:N; [|apply nth_error_None in N; lia]. destruct (M k n N) as (_ & q & Eq & NM).
    destruct (collect_split p_pars k (g_pdfs st) k q Eq) as (r & E1 & E2 & E3). exists n, r. split; [reflexivity|].
    rewrite <- (node_match_pars _ _ _ NM). split; [exact E1|]. split; [exact E2|]. intros h g Hh Hg. specialize (E3 h Hh).
    destruct (handle_eqb g h) eqn:Eg; [|reflexivity]. rewrite <- E3. symmetry. unfold find_in. apply existsb_exists. now exists g.
Qed.
