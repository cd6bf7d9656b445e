(** The host side: flattening a tree of objects, and what every program of constructor calls leaves behind. *)
From Coq Require Import List ZArith String Bool Lia.
From Verif Require Import F64 F64Lemmas ListAux VariableModel LeafFormulas DeviceModel PdfModel PdfSpec FlatProofs EvalProofs.
Import ListNotations.
Local Open Scope nat_scope.
Local Notation len := List.length.

(** ** What flattening does not change *)
Lemma map_upd : forall {T U} (f : T -> U) l i x, map f (upd l i x) = upd (map f l) i (f x).
Proof. induction l as [|a l IH]; intros [|i] x; cbn; [reflexivity..|]. now rewrite IH. Qed.
Lemma upd_same : forall {T} (l : list T) i x, nth_error l i = Some x -> upd l i x = l.
Proof. induction l as [|a l IH]; intros [|i] x E; cbn in *; try discriminate; [now injection E as ->|]. now rewrite IH. Qed.
Lemma map_upd_same : forall {T U} (f : T -> U) l i x y, nth_error l i = Some y -> f x = f y -> map f (upd l i x) = map f l.
Proof. intros. rewrite map_upd. apply upd_same. rewrite H0. now apply map_nth_error. Qed.
Lemma map_set_pdf : forall {U} (f : pdf -> U) ps id g, (forall p, f (g p) = f p) -> map f (set_pdf ps id g) = map f ps.
Proof. intros U f ps id g H. unfold set_pdf. destruct (nth_error ps id) as [p|] eqn:E; [|reflexivity]. eapply map_upd_same; eauto. Qed.

Ltac dfold x y E := match goal with |- context [fold_left ?g ?l ?s] => destruct (fold_left g l s) as [x y] eqn:E end.
Section Keeps.
Context {U : Type} (f : pdf -> U).
Hypothesis FI : forall p a b c d e, f (with_indices p a b c d e) = f p.
Hypothesis FR : forall p r, f (with_ranges p r) = f p.
Lemma rsi_map : forall n hp ps A id, map f (fst (recursiveSetIndices n hp ps A id)) = map f ps.
Proof.
  induction n as [|n IH]; intros hp ps A id; [reflexivity|]. cbn [recursiveSetIndices].
  destruct (nth_error ps id) as [p|] eqn:E; [|reflexivity]. cbv zeta.
  set (ps1 := upd ps id _). assert (H1 : map f ps1 = map f ps) by (eapply map_upd_same; [exact E|apply FI]).
  dfold ps2 A2 EF. cbn [fst].
  rewrite map_set_pdf by (intro; apply FR). rewrite <- H1.
  assert (G : forall cs s, map f (fst (fold_left (fun s c => recursiveSetIndices n hp (fst s) (snd s) c) cs s)) = map f (fst s)).
  { induction cs as [|c cs IHc]; intro s; [reflexivity|]. cbn [fold_left]. rewrite IHc. apply IH. }
  specialize (G (p_comps p) (ps1, push_block hp p A)). rewrite EF in G. exact G.
Qed.
Lemma fc_map : forall hp ps id fc, map f (fst (setIndices_fc hp ps id fc)) = map f ps.
Proof.
  intros. unfold setIndices_fc. pose proof (rsi_map (S id) hp ps no_arrays id) as H.
  destruct (recursiveSetIndices (S id) hp ps no_arrays id) as [ps1 A1]. exact H.
Qed.
Hypothesis FF : forall p fc, f (with_fit p fc) = f p.
Lemma sfc_map : forall n hp ps A id fc, map f (fst (setFitControl n hp ps A id fc)) = map f ps.
Proof.
  induction n as [|n IH]; intros hp ps A id fc; [reflexivity|]. cbn [setFitControl]. destruct (nth_error ps id) as [p|] eqn:E; [|reflexivity].
  dfold ps1 A1 EF.
  rewrite fc_map. rewrite map_set_pdf by (intro; apply FF).
  assert (G : forall cs s, map f (fst (fold_left (fun s c => setFitControl n hp (fst s) (snd s) c fc) cs s)) = map f (fst s)).
  { induction cs as [|c cs IHc]; intro s; [reflexivity|]. cbn [fold_left]. rewrite IHc. apply IH. }
  specialize (G (p_comps p) (ps, A)). rewrite EF in G. exact G.
Qed.
Lemma si_map : forall hp ps A id, map f (fst (setIndices hp ps A id)) = map f ps.
Proof.
  intros. unfold setIndices. destruct (nth_error ps id) as [p|]; [|reflexivity]. destruct (p_fit p); [apply fc_map|].
  pose proof (sfc_map (S id) hp ps A id UnbinnedNllFit) as H. destruct (setFitControl (S id) hp ps A id UnbinnedNllFit) as [ps1 A1].
  rewrite fc_map. exact H.
Qed.
Lemma init_map : forall hp ps A id, map f (fst (initialize hp ps A id)) = map f ps.
Proof.
  intros. unfold initialize.
  set (X := match nth_error ps id with Some p => _ | None => _ end).
  assert (HX : map f (fst X) = map f ps).
  { unfold X. destruct (nth_error ps id) as [p|]; [|reflexivity]. destruct (p_fit p); [reflexivity|apply sfc_map]. }
  destruct X as [ps1 A1]. cbn [fst] in HX. destruct (nth_error ps1 id) as [p|] eqn:E; [|exact HX]. cbn [fst]. rewrite <- HX.
  eapply map_upd_same; [exact E|apply FI].
Qed.
End Keeps.

(** Everything flattening reads. *)
Definition core (p : pdf) := (p_kind p, p_pars p, p_cons p, p_obs p, p_comps p, p_norm p).
Definition sim (ps ps' : pdfs) : Prop := map core ps = map core ps'.
Lemma sim_nth : forall ps ps' i p, sim ps ps' -> nth_error ps i = Some p -> exists p', nth_error ps' i = Some p' /\ core p' = core p.
Proof.
  intros ps ps' i p H E. apply (map_nth_error core) in E. rewrite H in E. apply nth_error_map_iff in E.
  destruct E as (p' & E & C). exists p'. now split.
Qed.
Lemma sim_none : forall ps ps' i, sim ps ps' -> nth_error ps i = None -> nth_error ps' i = None.
Proof.
  intros ps ps' i H E. apply nth_error_None in E. apply nth_error_None. apply (f_equal (@len _)) in H. rewrite !map_length in H. lia.
Qed.
Lemma sim_len : forall ps ps', sim ps ps' -> len ps = len ps'.
Proof. intros ps ps' H. apply (f_equal (@len _)) in H. now rewrite !map_length in H. Qed.
Lemma core_block : forall hp p p', core p' = core p -> block_of hp p' = block_of hp p.
Proof. intros hp p p' H. unfold core in H. injection H as K P C O _ N. unfold block_of. rewrite K, P, C, O, N. reflexivity. Qed.
Ltac core_eqs H := 
  let K := fresh "CK" in let P := fresh "CP" in let C := fresh "CC" in let O := fresh "CO" in let M := fresh "CM" in let N := fresh "CN" in
  pose proof (f_equal (fun x => fst (fst (fst (fst (fst x))))) H) as K; pose proof (f_equal (fun x => snd (fst (fst (fst (fst x))))) H) as P;
  pose proof (f_equal (fun x => snd (fst (fst (fst x)))) H) as C; pose proof (f_equal (fun x => snd (fst (fst x))) H) as O;
  pose proof (f_equal (fun x => snd (fst x)) H) as M; pose proof (f_equal (fun x => snd x) H) as N;
  unfold core in K, P, C, O, M, N; cbn [fst snd] in K, P, C, O, M, N.

Lemma flat_sim : forall n hp ps ps' id, sim ps ps' -> flat n hp ps id = flat n hp ps' id.
Proof.
  induction n as [|n IH]; intros hp ps ps' id H; [reflexivity|]. cbn [flat]. destruct (nth_error ps id) as [p|] eqn:E.
  - destruct (sim_nth _ _ _ _ H E) as (p' & E' & C). rewrite E', (core_block hp _ _ C). f_equal. core_eqs C. rewrite CM.
    apply flat_map_ext_in. intros. now apply IH.
  - rewrite (sim_none _ _ _ H E). reflexivity.
Qed.

(** ** What flattening writes *)
Definition extend (A : arrays) (bs : list block) : arrays :=
  mkArrays (a_fun A ++ enc_fun bs) (a_par A ++ enc_par bs) (a_con A ++ enc_con bs) (a_obs A ++ enc_obs bs) (a_nor A ++ enc_nor bs).
Lemma extend_nil : forall A, extend A [] = A.
Proof. intros []. unfold extend. cbn. now rewrite !app_nil_r. Qed.
Lemma extend_app : forall A a b, extend A (a ++ b) = extend (extend A a) b.
Proof.
  intros A a b. unfold extend. cbn [a_fun a_par a_con a_obs a_nor]. unfold enc_fun, enc_par, enc_con, enc_obs, enc_nor.
  rewrite map_app, !flat_map_app, !app_assoc. reflexivity.
Qed.
Lemma push_block_extend : forall hp p A, push_block hp p A = extend A [block_of hp p].
Proof.
  intros. unfold push_block, extend, enc_fun, enc_par, enc_con, enc_obs, enc_nor. cbn [map flat_map block_of b_kind b_pars b_cons b_obs b_norm].
  rewrite !app_nil_r. unfold pref. rewrite vals_length, idxs_length. reflexivity.
Qed.
Lemma rsi_arrays : forall n hp ps A id, snd (recursiveSetIndices n hp ps A id) = extend A (flat n hp ps id).
Proof.
  induction n as [|n IH]; intros hp ps A id; [cbn; now rewrite extend_nil|]. cbn [recursiveSetIndices flat].
  destruct (nth_error ps id) as [p|] eqn:E; [|cbn; now rewrite extend_nil]. cbv zeta.
  set (ps1 := upd ps id _). assert (H1 : sim ps ps1) by (unfold sim; symmetry; eapply map_upd_same; [exact E|reflexivity]).
  dfold ps2 A2 EF. cbn [snd].
  assert (G : forall cs s, snd (fold_left (fun s c => recursiveSetIndices n hp (fst s) (snd s) c) cs s)
              = extend (snd s) (flat_map (flat n hp (fst s)) cs)).
  { induction cs as [|c cs IHc]; intro s; [cbn; now rewrite extend_nil|]. cbn [fold_left flat_map]. rewrite IHc, IH, extend_app. f_equal.
    apply flat_map_ext_in. intros x _. apply flat_sim. unfold sim. apply rsi_map; reflexivity. }
  specialize (G (p_comps p) (ps1, push_block hp p A)). rewrite EF in G. cbn [fst snd] in G. rewrite G, push_block_extend.
  change (block_of hp p :: flat_map (flat n hp ps) (p_comps p)) with ([block_of hp p] ++ flat_map (flat n hp ps) (p_comps p)).
  rewrite extend_app. f_equal. apply flat_map_ext_in. intros x _. symmetry. now apply flat_sim.
Qed.
Lemma fc_arrays : forall hp ps id fc,
  snd (setIndices_fc hp ps id fc) = push_fun (extend no_arrays (flat (S id) hp ps id)) (FMetric (getMetric fc)).
Proof.
  intros. unfold setIndices_fc. pose proof (rsi_arrays (S id) hp ps no_arrays id) as H.
  destruct (recursiveSetIndices (S id) hp ps no_arrays id) as [ps1 A1]. cbn [snd] in *. now rewrite H.
Qed.
Lemma sim_sym : forall a b, sim a b -> sim b a.
Proof. intros a b. apply eq_sym. Qed.

Lemma p_fit_fc : forall hp ps id fc, map p_fit (fst (setIndices_fc hp ps id fc)) = map p_fit ps.
Proof. intros. apply fc_map; reflexivity. Qed.

Lemma setIndices_ok : forall hp ps A id p, nth_error ps id = Some p ->
  exists fc p', snd (setIndices hp ps A id) = push_fun (extend no_arrays (flat (S id) hp ps id)) (FMetric (getMetric fc)) /\
    nth_error (fst (setIndices hp ps A id)) id = Some p' /\ p_fit p' = Some fc /\
    fc = match p_fit p with Some fc => fc | None => UnbinnedNllFit end.
Proof.
  intros hp ps A id p E. unfold setIndices. rewrite E. destruct (p_fit p) as [fc|] eqn:EF.
  - exists fc. pose proof (p_fit_fc hp ps id fc) as H. apply (map_nth_error p_fit) in E. rewrite <- H in E. apply nth_error_map_iff in E.
    destruct E as (p' & E & Hp). exists p'. rewrite fc_arrays. split; [reflexivity|]. split; [exact E|]. split; [congruence|reflexivity].
  - destruct (setFitControl (S id) hp ps A id UnbinnedNllFit) as [ps1 A1] eqn:ES. exists UnbinnedNllFit.
    pose proof (p_fit_fc hp ps1 id UnbinnedNllFit) as H.
    assert (S1 : sim ps ps1).
    { unfold sim. symmetry. pose proof (sfc_map core (fun _ _ _ _ _ _ => eq_refl) (fun _ _ => eq_refl) (fun _ _ => eq_refl) (S id) hp ps A id UnbinnedNllFit) as X.
      rewrite ES in X. exact X. }
    assert (F1 : exists q, nth_error ps1 id = Some q /\ p_fit q = Some UnbinnedNllFit).
    { cbn [setFitControl] in ES. rewrite E in ES. revert ES. dfold ps0 A0 EF0. intro ES.
      pose proof (p_fit_fc hp (set_pdf ps0 id (fun q => with_fit q UnbinnedNllFit)) id UnbinnedNllFit) as X. rewrite ES in X. cbn [fst] in X.
      assert (L0 : exists q0, nth_error ps0 id = Some q0).
      { assert (X0 : len ps0 = len ps).
        { assert (G : forall cs (s : pdfs * arrays), len (fst (fold_left (fun (s : pdfs * arrays) c => setFitControl id hp (fst s) (snd s) c UnbinnedNllFit) cs s)) = len (fst s)).
          { induction cs as [|c cs IHc]; intro s; [reflexivity|]. cbn [fold_left]. rewrite IHc.
            pose proof (sfc_map core (fun _ _ _ _ _ _ => eq_refl) (fun _ _ => eq_refl) (fun _ _ => eq_refl) id hp (fst s) (snd s) c UnbinnedNllFit) as Y.
            apply (f_equal (@len _)) in Y. now rewrite !map_length in Y. }
          change ps0 with (fst (ps0, A0)). rewrite <- EF0. exact (G (p_comps p) (ps, A)). }
        destruct (nth_error ps0 id) eqn:N; [eauto|]. apply nth_error_None in N. apply nth_error_Some_lt in E. lia. }
      destruct L0 as [q0 N0]. unfold set_pdf in X. rewrite N0 in X.
      assert (N1 : nth_error (map p_fit (upd ps0 id (with_fit q0 UnbinnedNllFit))) id = Some (Some UnbinnedNllFit)).
      { rewrite (map_nth_error p_fit id _ (nth_error_upd_same ps0 id (with_fit q0 UnbinnedNllFit) (nth_error_Some_lt _ _ _ N0))). reflexivity. }
      rewrite <- X in N1. apply nth_error_map_iff in N1. destruct N1 as (q & Nq & Hq). exists q. split; [exact Nq|congruence]. }
    destruct F1 as (q & Nq & Hq). apply (map_nth_error p_fit) in Nq. rewrite <- H in Nq. apply nth_error_map_iff in Nq. destruct Nq as (p' & N' & Hp').
    exists p'. rewrite fc_arrays. split; [now rewrite (flat_sim _ _ _ _ _ S1)|]. split; [exact N'|]. split; [congruence|reflexivity].
Qed.

(** ** Registered observables *)
Definition covers (l : list handle) (sub : list handle) : Prop := Forall (fun h => find_in l h = true) sub.
Lemma find_in_spec : forall l h, find_in l h = true <-> In (h_value h) (map h_value l).
Proof.
  intros l h. unfold find_in. rewrite existsb_exists. split.
  - intros (x & Hx & E). unfold handle_eqb in E. apply Nat.eqb_eq in E. rewrite <- E. now apply in_map.
  - intro H. apply in_map_iff in H. destruct H as (x & E & Hx). exists x. split; [exact Hx|]. unfold handle_eqb. now apply Nat.eqb_eq.
Qed.
Lemma merge_new_register : forall sub acc, merge_new acc sub = registerObservables acc sub.
Proof. reflexivity. Qed.
Lemma register_covered : forall sub acc, covers acc sub -> registerObservables acc sub = acc.
Proof.
  induction sub as [|h sub IH]; intros acc H; [reflexivity|]. inversion H; subst. cbn [registerObservables fold_left]. unfold registerObservable.
  rewrite H2. now apply IH.
Qed.
Lemma register_incl : forall sub acc h, find_in acc h = true -> find_in (registerObservables acc sub) h = true.
Proof.
  induction sub as [|g sub IH]; intros acc h H; [exact H|]. cbn [registerObservables fold_left]. apply IH. unfold registerObservable.
  destruct (find_in acc g); [exact H|]. apply find_in_spec in H. apply find_in_spec. rewrite map_app, in_app_iff. now left.
Qed.
Lemma register_new : forall sub acc, covers (registerObservables acc sub) sub.
Proof.
  induction sub as [|g sub IH]; intros acc; [constructor|]. cbn [registerObservables fold_left]. constructor; [|apply IH].
  apply register_incl. unfold registerObservable. destruct (find_in acc g) eqn:E; [exact E|]. apply find_in_spec. rewrite map_app, in_app_iff. right. now left.
Qed.
Lemma NoDup_snoc : forall {T} (l : list T) a, NoDup l -> ~ In a l -> NoDup (l ++ [a]).
Proof.
  induction l as [|b l IH]; intros a H Ha; [constructor; [intros []|constructor]|]. inversion H; subst. cbn. constructor.
  - rewrite in_app_iff. intros [X|[X|[]]]; [now apply H2|]. apply Ha. left. now symmetry.
  - apply IH; [assumption|]. intro X. apply Ha. now right.
Qed.
Lemma register_distinct : forall sub acc, distinct acc -> distinct (registerObservables acc sub).
Proof.
  induction sub as [|g sub IH]; intros acc H; [exact H|]. cbn [registerObservables fold_left]. apply IH. unfold registerObservable.
  destruct (find_in acc g) eqn:E; [exact H|]. unfold distinct. rewrite map_app. cbn [map]. apply NoDup_snoc; [exact H|].
  rewrite <- find_in_spec. congruence.
Qed.
Lemma register_prefix : forall sub acc, exists r, registerObservables acc sub = acc ++ r.
Proof.
  induction sub as [|g sub IH]; intros acc; [exists []; now rewrite app_nil_r|]. cbn [registerObservables fold_left].
  destruct (IH (registerObservable acc g)) as [r E]. unfold registerObservables in E. rewrite E. unfold registerObservable.
  destruct (find_in acc g); [now exists r|]. exists (g :: r). now rewrite <- app_assoc.
Qed.
Lemma register_Forall : forall (P : handle -> Prop) sub acc, Forall P acc -> Forall P sub -> Forall P (registerObservables acc sub).
Proof.
  induction sub as [|g sub IH]; intros acc H1 H2; [exact H1|]. inversion H2; subst. cbn [registerObservables fold_left]. apply IH; [|assumption].
  unfold registerObservable. destruct (find_in acc g); [exact H1|]. apply Forall_app. split; [exact H1|]. now constructor.
Qed.

Definition obs_of (ps : pdfs) (id : nat) : list handle := match nth_error ps id with Some p => p_obs p | None => [] end.
(** Own lists contain those of the components. *)
Definition closed (ps : pdfs) : Prop := forall i p, nth_error ps i = Some p ->
  distinct (p_obs p) /\ Forall wfh (p_obs p) /\ Forall (fun k => k < i) (p_comps p) /\ Forall (fun k => covers (p_obs p) (obs_of ps k)) (p_comps p).
Lemma getObservables_own : forall ps, closed ps -> forall f i p, nth_error ps i = Some p -> i < f -> collect p_obs f ps i = p_obs p.
Proof.
  intros ps HC f. induction f as [|f IH]; intros i p E Hi; [lia|]. cbn [collect]. rewrite E.
  destruct (HC i p E) as (_ & _ & HK & HCV). clear E. induction (p_comps p) as [|k ks IHk]; [reflexivity|].
  inversion HK; subst. inversion HCV; subst. cbn [fold_left]. rewrite merge_new_register, register_covered; [now apply IHk|].
  unfold obs_of in H3. destruct (nth_error ps k) as [q|] eqn:Eq.
  - rewrite (IH k q Eq) by lia. exact H3.
  - replace (collect p_obs f ps k) with (@nil handle); [constructor|]. destruct f; cbn [collect]; [reflexivity|]. now rewrite Eq.
Qed.
Lemma getObservables_obs_of : forall ps k, closed ps -> getObservables ps k = obs_of ps k.
Proof.
  intros ps k HC. unfold getObservables, obs_of. destruct (nth_error ps k) as [q|] eqn:Eq; [|cbn; now rewrite Eq].
  apply (getObservables_own ps HC (S k) k q Eq). lia.
Qed.

Lemma gather_ok : forall ps ks own, closed ps -> Forall wfh own -> distinct own ->
  let l := gather ps own ks in
  distinct l /\ Forall wfh l /\ (exists r, l = own ++ r) /\ Forall (fun k => covers l (obs_of ps k)) ks.
Proof.
  intros ps ks. induction ks as [|k ks IH]; intros own HC HW HD.
  - cbn. repeat split; [exact HD|exact HW|exists []; now rewrite app_nil_r|constructor].
  - cbn [gather fold_left]. rewrite merge_new_register, getObservables_obs_of by exact HC.
    set (own' := registerObservables own (obs_of ps k)).
    assert (W' : Forall wfh own').
    { apply register_Forall; [exact HW|]. unfold obs_of. destruct (nth_error ps k) as [q|] eqn:Eq; [|constructor]. apply (HC k q Eq). }
    assert (D' : distinct own') by now apply register_distinct.
    destruct (IH own' HC W' D') as (H1 & H2 & (r & H3) & H4). fold (gather ps own' ks) in *.
    split; [exact H1|]. split; [exact H2|]. split.
    + destruct (register_prefix (obs_of ps k) own) as [r0 E0]. exists (r0 ++ r). rewrite app_assoc, <- E0. exact H3.
    + constructor; [|exact H4]. apply Forall_forall. intros h Hh. apply find_in_spec. rewrite H3, map_app, in_app_iff. left. apply find_in_spec.
      pose proof (register_new (obs_of ps k) own) as N. eapply Forall_forall in N; eauto.
Qed.

(** ** The invariant of every program *)
Definition ginv (st : gstate) (ns : list snode) : Prop :=
  Forall wfh (g_hs st) /\ match_all ns (g_pdfs st) /\ closed (g_pdfs st).

Lemma closed_sim : forall ps ps', sim ps ps' -> closed ps -> closed ps'.
Proof.
  intros ps ps' H HC i p' E'. destruct (sim_nth _ _ _ _ (sim_sym _ _ H) E') as (p & E & C). core_eqs C.
  destruct (HC i p E) as (A & B & D & G). rewrite <- CO, <- CM. split; [exact A|]. split; [exact B|]. split; [exact D|].
  eapply Forall_impl; [|exact G]. intros k Hk. unfold obs_of in *. destruct (nth_error ps k) as [q|] eqn:Eq.
  - destruct (sim_nth _ _ _ _ H Eq) as (q' & Eq' & Cq). core_eqs Cq. rewrite Eq', CO0. exact Hk.
  - rewrite (sim_none _ _ _ H Eq). exact Hk.
Qed.
Definition shape (p : pdf) := (p_kind p, p_pars p, p_cons p, p_obs p, p_comps p).
Lemma node_match_shape : forall ns n p p', p_kind p' = p_kind p -> p_pars p' = p_pars p -> p_cons p' = p_cons p -> p_obs p' = p_obs p ->
  p_comps p' = p_comps p -> node_match ns n p -> node_match ns n p'.
Proof. intros ns n p p' K P C O M H. unfold node_match in *. now rewrite K, P, C, O, M. Qed.
Lemma match_sim : forall ns ps ps', sim ps ps' -> match_all ns ps -> match_all ns ps'.
Proof.
  intros ns ps ps' H [ML M]. split; [rewrite ML; now apply sim_len|]. intros i n E. destruct (M i n E) as (K & p & Ep & NM). split; [exact K|].
  destruct (sim_nth _ _ _ _ H Ep) as (p' & Ep' & C). core_eqs C. exists p'. split; [exact Ep'|]. eapply node_match_shape; [..|exact NM]; assumption.
Qed.

(** Growing the list of nodes does not change the trees of the old ones. *)
Lemma subtree_app : forall ns m, (forall i n, nth_error ns i = Some n -> Forall (fun k => k < i) (kids_of n)) ->
  forall f id, id < len ns -> subtree f (ns ++ m) id = subtree f ns id.
Proof.
  intros ns m HK. induction f as [|f IH]; intros id Hid; [reflexivity|]. cbn [subtree]. rewrite nth_error_app1 by exact Hid.
  destruct (nth_error ns id) as [n|] eqn:E; [|reflexivity]. f_equal. apply flat_map_ext_in. intros k Hk. apply IH.
  specialize (HK id n E). eapply Forall_forall in HK; eauto. lia.
Qed.
Lemma tree_ids_kids : forall ns ns', map kids_of ns = map kids_of ns' -> forall f id, subtree f ns id = subtree f ns' id.
Proof.
  intros ns ns' H. induction f as [|f IH]; intro id; [reflexivity|]. cbn [subtree].
  assert (X : nth_error (map kids_of ns) id = nth_error (map kids_of ns') id) by now rewrite H. rewrite !nth_error_map in X.
  destruct (nth_error ns id) as [n|], (nth_error ns' id) as [n'|]; cbn in X; try discriminate; [|reflexivity].
  injection X as ->. f_equal. apply flat_map_ext_in. intros. apply IH.
Qed.
Lemma match_kids : forall ns ps, match_all ns ps -> forall i n, nth_error ns i = Some n -> Forall (fun k => k < i) (kids_of n).
Proof. intros ns ps [_ M] i n E. apply (M i n E). Qed.

Lemma node_match_tree : forall ns ns' n p i, (forall k, k < i -> tree_ids ns' k = tree_ids ns k) -> Forall (fun k => k < i) (kids_of n) ->
  node_match ns n p -> node_match ns' n p.
Proof.
  intros ns ns' n p i HT HK H. unfold node_match in *. destruct n; try exact H. destruct H as (A & B & C & D). repeat split; try assumption.
  rewrite D. f_equal. apply map_ext_in. intros t Ht. rewrite HT; [reflexivity|]. eapply Forall_forall in HK; [exact HK|]. now right.
Qed.

Lemma match_snoc : forall ns ps n p, match_all ns ps -> Forall (fun k => k < len ps) (kids_of n) -> node_match ns n p ->
  match_all (ns ++ [n]) (ps ++ [p]).
Proof.
  intros ns ps n p HM HK HN. pose proof (match_kids _ _ HM) as HKS. destruct HM as [ML M]. split; [rewrite !app_length; cbn; lia|].
  assert (HT : forall i, i <= len ns -> forall k, k < i -> tree_ids (ns ++ [n]) k = tree_ids ns k).
  { intros i Hi k Hk. unfold tree_ids. apply subtree_app; [exact HKS|lia]. }
  intros i m E. destruct (Nat.lt_ge_cases i (len ns)) as [Hi|Hi].
  - rewrite nth_error_app1 in E by exact Hi. destruct (M i m E) as (K & q & Eq & NM). split; [exact K|]. exists q. split.
    + rewrite nth_error_app1 by lia. exact Eq.
    + eapply node_match_tree; [apply (HT i); lia|exact K|exact NM].
  - rewrite nth_error_app2 in E by exact Hi. destruct (i - len ns) as [|j] eqn:Ej; [|destruct j; discriminate]. cbn in E. injection E as <-.
    assert (i = len ns) by lia. subst i. split; [now rewrite ML|]. exists p. split.
    + rewrite ML, nth_error_app2 by lia. now rewrite Nat.sub_diag.
    + eapply node_match_tree; [apply (HT (len ns)); lia|rewrite ML; exact HK|exact HN].
Qed.
Lemma closed_snoc : forall ps p, closed ps -> distinct (p_obs p) -> Forall wfh (p_obs p) -> Forall (fun k => k < len ps) (p_comps p) ->
  Forall (fun k => covers (p_obs p) (obs_of ps k)) (p_comps p) -> closed (ps ++ [p]).
Proof.
  intros ps p HC D W K V i q E.
  assert (HO : forall k, k < len ps -> obs_of (ps ++ [p]) k = obs_of ps k) by (intros k Hk; unfold obs_of; now rewrite nth_error_app1).
  destruct (Nat.lt_ge_cases i (len ps)) as [Hi|Hi].
  - rewrite nth_error_app1 in E by exact Hi. destruct (HC i q E) as (A & B & KK & G). repeat split; try assumption.
    apply Forall_forall. intros k Hk. rewrite HO; [eapply Forall_forall in G; eauto|]. eapply Forall_forall in KK; eauto. lia.
  - rewrite nth_error_app2 in E by exact Hi. destruct (i - len ps) as [|j] eqn:Ej; [|destruct j; discriminate]. cbn in E. injection E as <-.
    assert (i = len ps) by lia. subst i. repeat split; try assumption.
    apply Forall_forall. intros k Hk. rewrite HO; [eapply Forall_forall in V; eauto|]. eapply Forall_forall in K; eauto.
Qed.

Lemma construct_sim : forall st p b, sim (g_pdfs st ++ [p]) (g_pdfs (construct st p b)).
Proof.
  intros st p b. unfold construct. destruct b; cbn.
  - pose proof (init_map core (fun _ _ _ _ _ _ => eq_refl) (fun _ _ => eq_refl) (fun _ _ => eq_refl) (g_heap st) (g_pdfs st ++ [p]) (g_arr st) (len (g_pdfs st))) as H.
    destruct (initialize (g_heap st) (g_pdfs st ++ [p]) (g_arr st) (len (g_pdfs st))) as [ps' A']. cbn in *. unfold sim. now symmetry.
  - reflexivity.
Qed.
Lemma construct_hs : forall st p b, g_hs (construct st p b) = g_hs st.
Proof. intros st p b. unfold construct. destruct (if b then _ else _) as [ps A]. reflexivity. Qed.
Lemma construct_heap : forall st p b, g_heap (construct st p b) = g_heap st.
Proof. intros st p b. unfold construct. destruct (if b then _ else _) as [ps A]. reflexivity. Qed.

Lemma ginv_construct : forall st ns n p b, ginv st ns -> Forall (fun k => k < len (g_pdfs st)) (kids_of n) -> p_comps p = kids_of n ->
  node_match ns n p -> distinct (p_obs p) -> Forall wfh (p_obs p) ->
  Forall (fun k => covers (p_obs p) (obs_of (g_pdfs st) k)) (p_comps p) -> ginv (construct st p b) (ns ++ [n]).
Proof.
  intros st ns n p b (HW & HM & HC) HK EC HN HD HWP HV. split; [now rewrite construct_hs|]. pose proof (construct_sim st p b) as S1. split.
  - eapply match_sim; [exact S1|]. now apply match_snoc.
  - eapply closed_sim; [exact S1|]. apply closed_snoc; try assumption. now rewrite EC.
Qed.

(** vstep keeps handles well formed. *)
Lemma vstep_wfh : forall hp hs o, Forall wfh hs -> Forall wfh (snd (fst (vstep (hp, hs) o))).
Proof.
  intros hp hs o H. assert (G : forall h, wfh h -> Forall wfh (hs ++ [h])).
  { intros h Hh. apply Forall_app. split; [exact H|]. now constructor. }
  assert (N : forall i h, nth_error hs i = Some h -> wfh h) by (intros i h E; eapply Forall_forall in H; [exact H|]; eapply nth_error_In; eauto).
  destruct o; cbn [vstep]; try (apply G; reflexivity); repeat (match goal with |- context [match ?x with _ => _ end] => destruct x eqn:? end);
    cbn [fst snd]; try exact H.
  - apply G. eapply N; eauto.
  - apply Forall_forall. intros x Hx. apply In_nth_error in Hx. destruct Hx as [i Hi]. destruct (Nat.eq_dec i dst) as [->|Hd].
    + rewrite nth_error_upd_same in Hi by (eapply nth_error_Some_lt; eauto). injection Hi as <-. eapply N; eauto.
    + rewrite nth_error_upd_other in Hi by congruence. eapply N; eauto.
Qed.


Lemma leaf_map_kind : forall {V W} (f : V -> W) (l : leaf V), leaf_kind (leaf_map f l) = leaf_kind l.
Proof. intros V W f l. destruct l; reflexivity. Qed.
Lemma leaf_map_obs : forall {V W} (f : V -> W) (l : leaf V), leaf_obs (leaf_map f l) = map f (leaf_obs l).
Proof. intros V W f l. destruct l; try reflexivity. cbn. rewrite !map_map. reflexivity. Qed.
Lemma leaf_map_pars : forall {V W} (f : V -> W) (l : leaf V), leaf_pars (leaf_map f l) = map f (leaf_pars l).
Proof.
  intros V W f l. destruct l; try reflexivity; cbn; rewrite ?map_app; try reflexivity.
  do 4 f_equal. rewrite flat_map_concat_map, map_map. cbn. rewrite flat_map_concat_map, concat_map, map_map. reflexivity.
Qed.
Lemma hget_wfh : forall hs is, Forall wfh hs -> forallb (is_obs hs) is = true -> Forall wfh (map (hget hs) is).
Proof.
  intros hs is HW H. apply Forall_forall. intros h Hh. apply in_map_iff in Hh. destruct Hh as (i & <- & Hi).
  apply forallb_forall with (x := i) in H; [|exact Hi]. unfold is_obs in H. unfold hget. destruct (nth_error hs i) as [h|] eqn:E; [|discriminate].
  rewrite (nth_error_nth _ _ _ E). eapply Forall_forall in HW; [exact HW|]. eapply nth_error_In; eauto.
Qed.
Lemma exists_all_lt : forall {T} (l : list T) ids, exists_all l ids = true -> Forall (fun k => k < len l) ids.
Proof.
  intros T l ids H. apply Forall_forall. intros k Hk. unfold exists_all in H. apply forallb_forall with (x := k) in H; [|exact Hk]. now apply Nat.ltb_lt.
Qed.

(** countComponents counts the tree below an object. *)
Lemma countComponents_ok : forall ns ps, match_all ns ps -> forall f id, id < f -> id < len ps -> countComponents f ps id + 1 = len (subtree f ns id).
Proof.
  intros ns ps HM. induction f as [|f IH]; intros id Hf Hid; [lia|]. cbn [countComponents subtree].
  assert (HL : len ns = len ps) by apply HM.
  destruct (nth_error ns id) as [n|] eqn:En; [|apply nth_error_None in En; lia].
  destruct HM as [_ M]. destruct (M id n En) as (HK & p & Ep & Hc & _). rewrite Ep, Hc. cbn [len].
  assert (G : forall ks a, Forall (fun k => k < id) ks ->
            fold_left (fun acc c => acc + 1 + countComponents f ps c) ks a = a + len (flat_map (subtree f ns) ks)).
  { induction ks as [|k ks IHk]; intros a HF; [cbn; lia|]. inversion HF; subst. cbn [fold_left flat_map]. rewrite IHk by assumption.
    rewrite app_length. rewrite <- (IH k) by lia. lia. }
  rewrite G by exact HK. lia.
Qed.

Lemma upd_out : forall {T} (l : list T) i x, len l <= i -> upd l i x = l.
Proof. induction l as [|a l IH]; intros [|i] x H; cbn in *; try reflexivity; [lia|]. rewrite IH; [reflexivity|lia]. Qed.

Lemma ginv_step : forall st ns o, ginv st ns -> ginv (fst (gstep st o)) (note st o (snd (gstep st o)) ns).
Proof.
  intros st ns o HI. pose proof HI as (HW & HM & HC). destruct o; cbn [gstep].
  - (* GVar *)
    destruct (vstep (g_heap st, g_hs st) o) as [[hp' hs'] out] eqn:E. cbn [fst snd note]. pose proof (vstep_wfh (g_heap st) (g_hs st) o HW) as X.
    rewrite E in X. split; [exact X|]. now split.
  - (* GLeaf *)
    destruct (forallb (is_obs (g_hs st)) (leaf_obs l) && forallb (is_var (g_hs st)) (leaf_pars l)) eqn:E; [|exact HI].
    apply andb_prop in E. destruct E as [E1 E2]. destruct (leaf_check l) eqn:EC; try exact HI. cbn [fst snd note].
    pose proof (hget_wfh _ _ HW E1) as HO. rewrite <- leaf_map_obs in HO.
    apply ginv_construct; cbn; try (constructor; fail); try exact HI.
    + split; [reflexivity|]. repeat split. exact HO.
    + apply register_distinct. constructor.
    + apply register_Forall; [constructor|exact HO].
  - (* GAdd *)
    destruct (forallb (is_var (g_hs st)) ws && exists_all (g_pdfs st) comps) eqn:E; [|exact HI]. apply andb_prop in E. destruct E as [_ E].
    destruct (Nat.eqb (len ws) (len comps) || Nat.eqb (len ws + 1) (len comps)) eqn:EL; [|exact HI].
    destruct comps as [|c0 cs] eqn:Ecs; [exact HI|]. rewrite <- Ecs in *. clear c0 cs Ecs. cbn [fst snd note].
    destruct (gather_ok (g_pdfs st) comps [] HC (Forall_nil _) (NoDup_nil _)) as (G1 & G2 & _ & G4).
    apply ginv_construct; try assumption; try reflexivity; [now apply exists_all_lt|]. split; [reflexivity|]. cbn. rewrite map_length.
    repeat split. apply orb_prop in EL. destruct EL as [EL|EL]; apply Nat.eqb_eq in EL; [now left|now right].
  - (* GAdd2 *)
    destruct (is_var (g_hs st) frac && exists_all (g_pdfs st) [p1; p2]) eqn:E; [|exact HI]. apply andb_prop in E. destruct E as [_ E]. cbn [fst snd note].
    destruct (gather_ok (g_pdfs st) [p1; p2] [] HC (Forall_nil _) (NoDup_nil _)) as (G1 & G2 & _ & G4).
    apply ginv_construct; try assumption; try reflexivity; [now apply exists_all_lt|]. split; [reflexivity|]. cbn. repeat split. now right.
  - (* GProd *)
    destruct (exists_all (g_pdfs st) comps) eqn:E; [|exact HI]. cbn [fst snd note].
    destruct (gather_ok (g_pdfs st) comps [] HC (Forall_nil _) (NoDup_nil _)) as (G1 & G2 & _ & G4).
    apply ginv_construct; try assumption; try reflexivity; [now apply exists_all_lt|]. split; [reflexivity|]. cbn. repeat split.
  - (* GEWAdd *)
    destruct (forallb (is_obs (g_hs st)) ws && exists_all (g_pdfs st) comps) eqn:E; [|exact HI]. apply andb_prop in E. destruct E as [E0 E].
    destruct (Nat.eqb (len ws) (len comps) || Nat.eqb (len ws + 1) (len comps)) eqn:EL; [|exact HI].
    destruct comps as [|c0 cs] eqn:Ecs; [exact HI|]. rewrite <- Ecs in *. clear c0 cs Ecs. cbn [fst snd note].
    pose proof (hget_wfh _ _ HW E0) as HO.
    destruct (gather_ok (g_pdfs st) comps (registerObservables [] (map (hget (g_hs st)) ws)) HC) as (G1 & G2 & G3 & G4);
      [apply register_Forall; [constructor|exact HO]|apply register_distinct; constructor|].
    apply ginv_construct; try assumption; try reflexivity; [now apply exists_all_lt|]. split; [reflexivity|]. cbn [p_kind p_pars p_cons p_obs new_pdf kids_of].
    rewrite map_length. repeat split; try assumption.
    apply orb_prop in EL. destruct EL as [EL|EL]; apply Nat.eqb_eq in EL; [now left|now right].
  - (* GMapped *)
    destruct (exists_all (g_pdfs st) (m :: ts)) eqn:E; [|exact HI]. cbn [fst snd note]. pose proof (exists_all_lt _ _ E) as HK.
    destruct (gather_ok (g_pdfs st) (m :: ts) [] HC (Forall_nil _) (NoDup_nil _)) as (G1 & G2 & _ & G4).
    apply ginv_construct; try assumption; try reflexivity. split; [reflexivity|]. cbn [p_kind p_pars p_cons new_pdf]. repeat split. f_equal.
    apply map_ext_in. intros t Ht. f_equal. apply countComponents_ok; [exact HM|lia|]. eapply Forall_forall in HK; [exact HK|now right].
  - (* GComposite *)
    destruct (exists_all (g_pdfs st) [core0; shell]) eqn:E; [|exact HI]. cbn [fst snd note]. pose proof (exists_all_lt _ _ E) as HK.
    destruct (gather_ok (g_pdfs st) [core0; shell] [] HC (Forall_nil _) (NoDup_nil _)) as (G1 & G2 & _ & G4).
    apply ginv_construct; try assumption; try reflexivity. split; [reflexivity|]. cbn. repeat split.
  - (* GSetMasses *)
    destruct (nth_error (g_pdfs st) id) as [p|] eqn:E; [|exact HI]. destruct (p_kind p) eqn:EK; try exact HI. cbn [fst snd note].
    assert (EL : len ns = len (g_pdfs st)) by apply HM.
    assert (Hn : exists n, nth_error ns id = Some n).
    { destruct (nth_error ns id) eqn:N; [eauto|]. apply nth_error_None in N. apply nth_error_Some_lt in E. lia. }
    destruct Hn as [n N]. destruct HM as [_ M]. destruct (M id n N) as (HK & p' & Ep' & Hc & NM). assert (p' = p) by congruence. subst p'. rewrite N.
    destruct n as [l hp0|ws ks|ks|ws ks|mm ts|a b]; cbn [node_match snd] in NM; unfold node_match in Hc, NM.
    2: { destruct NM as (NM & _). destruct (Nat.ltb (len ws) (len ks)); congruence. }
    2: { destruct NM as (NM & _). congruence. }
    2: { destruct NM as (NM & _). destruct (Nat.ltb (len ws) (len ks)); congruence. }
    2,3: destruct NM as (NM & _); congruence.
    destruct NM as (K & P & C & O & W). rewrite EK in K.
    destruct l; cbn in K; try (match type of K with _ = (if ?b then _ else _) => destruct b end); try discriminate.
    split; [exact HW|]. cbn [g_pdfs]. split.
    + split; [now rewrite !upd_length|]. intros i n' N'.
      assert (HT : forall f j, subtree f (upd ns id (SLeaf (LKinLimitBW x mean width bigM smallM) hp0)) j = subtree f ns j).
      { apply tree_ids_kids. eapply map_upd_same; [exact N|reflexivity]. }
      destruct (Nat.eq_dec i id) as [->|Hi].
      * rewrite nth_error_upd_same in N' by (eapply nth_error_Some_lt; eauto). injection N' as <-. split; [constructor|].
        exists (with_cons p [bigM; smallM]). split; [apply nth_error_upd_same; eapply nth_error_Some_lt; eauto|].
        split; [exact Hc|]. cbn. rewrite EK, P, O. repeat split. exact W.
      * rewrite nth_error_upd_other in N' by congruence. destruct (M i n' N') as (HK' & q & Eq & NMq). split; [exact HK'|].
        exists q. split; [rewrite nth_error_upd_other by congruence; exact Eq|]. eapply node_match_tree with (i := i); [|exact HK'|exact NMq].
        intros k _. unfold tree_ids. apply HT.
    + intros i q Eq. assert (HO : forall k, obs_of (upd (g_pdfs st) id (with_cons p [bigM; smallM])) k = obs_of (g_pdfs st) k).
      { intro k. unfold obs_of. destruct (Nat.eq_dec k id) as [->|Hk].
        - rewrite nth_error_upd_same by (eapply nth_error_Some_lt; eauto). now rewrite E.
        - now rewrite nth_error_upd_other by congruence. }
      assert (X : exists q0, nth_error (g_pdfs st) i = Some q0 /\ p_obs q = p_obs q0 /\ p_comps q = p_comps q0).
      { destruct (Nat.eq_dec i id) as [->|Hi].
        - rewrite nth_error_upd_same in Eq by (eapply nth_error_Some_lt; eauto). injection Eq as <-. exists p. now split.
        - rewrite nth_error_upd_other in Eq by congruence. exists q. now split. }
      destruct X as (q0 & E0 & O0 & C0). destruct (HC i q0 E0) as (A1 & A2 & A3 & A4). rewrite O0, C0. repeat split; try assumption.
      eapply Forall_impl; [|exact A4]. intros k Hk. now rewrite HO.
  - (* GSetupObservables *) destruct (Nat.ltb id (len (g_pdfs st))); exact HI.
  - (* GSetIndices *)
    destruct (Nat.ltb id (len (g_pdfs st))); [|exact HI].
    pose proof (si_map core (fun _ _ _ _ _ _ => eq_refl) (fun _ _ => eq_refl) (fun _ _ => eq_refl) (g_heap st) (g_pdfs st) (g_arr st) id) as X.
    destruct (setIndices (g_heap st) (g_pdfs st) (g_arr st) id) as [ps' A']. cbn [fst snd note] in *. symmetry in X.
    split; [exact HW|]. split; [eapply match_sim; [exact X|exact HM]|eapply closed_sim; [exact X|exact HC]].
  - (* GSetFitControl *)
    destruct (Nat.ltb id (len (g_pdfs st))); [|exact HI].
    pose proof (sfc_map core (fun _ _ _ _ _ _ => eq_refl) (fun _ _ => eq_refl) (fun _ _ => eq_refl) (S id) (g_heap st) (g_pdfs st) (g_arr st) id fc) as X.
    destruct (setFitControl (S id) (g_heap st) (g_pdfs st) (g_arr st) id fc) as [ps' A']. cbn [fst snd note] in *. symmetry in X.
    split; [exact HW|]. split; [eapply match_sim; [exact X|exact HM]|eapply closed_sim; [exact X|exact HC]].
  - (* GCopyParams *)
    destruct (Nat.ltb id (len (g_pdfs st))); [|exact HI]. destruct (updateParameters (S id) (g_heap st) (g_pdfs st) (a_par (g_arr st)) id) as [par ok].
    cbn [fst snd note]. destruct ok; exact HI.
  - (* GUpdateVariable *) destruct (Nat.ltb id (len (g_pdfs st)) && is_var (g_hs st) v); exact HI.
  - (* GSetNormalization *)
    destruct (nth_error (g_pdfs st) id) as [p|] eqn:E; [|exact HI]. destruct (Nat.ltb (p_ni p + 1) (len (a_nor (g_arr st)))); [|exact HI].
    cbn [fst snd note].
    assert (Q : forall k, match nth_error (upd (g_pdfs st) id (with_norm p x)) k with
                | Some q => exists q0, nth_error (g_pdfs st) k = Some q0 /\ shape q = shape q0
                | None => nth_error (g_pdfs st) k = None end).
    { intro k. destruct (Nat.eq_dec k id) as [->|Hk].
      - rewrite nth_error_upd_same by (eapply nth_error_Some_lt; eauto). exists p. split; [exact E|reflexivity].
      - rewrite nth_error_upd_other by congruence. destruct (nth_error (g_pdfs st) k) as [q|]; [exists q; now split|reflexivity]. }
    assert (QO : forall k, obs_of (upd (g_pdfs st) id (with_norm p x)) k = obs_of (g_pdfs st) k).
    { intro k. unfold obs_of. specialize (Q k). destruct (nth_error (upd (g_pdfs st) id (with_norm p x)) k) as [q|].
      - destruct Q as (q0 & -> & H). unfold shape in H. now injection H as _ _ _ ->.
      - now rewrite Q. }
    split; [exact HW|]. cbn [g_pdfs]. split.
    + split; [rewrite upd_length; apply HM|]. intros i n N. destruct HM as [_ M]. destruct (M i n N) as (HK & q & Eq & NM). split; [exact HK|].
      destruct (Nat.eq_dec i id) as [->|Hi].
      * exists (with_norm p x). split; [apply nth_error_upd_same; eapply nth_error_Some_lt; eauto|]. assert (q = p) by congruence. subst q.
        eapply node_match_shape; [..|exact NM]; reflexivity.
      * exists q. split; [now rewrite nth_error_upd_other by congruence|exact NM].
    + intros i q Eq. pose proof (Q i) as Qi. rewrite Eq in Qi. destruct Qi as (q0 & E0 & H0). unfold shape in H0. injection H0 as _ _ _ HO HP.
      destruct (HC i q0 E0) as (A1 & A2 & A3 & A4). rewrite HO, HP. repeat split; try assumption.
      eapply Forall_impl; [|exact A4]. intros k Hk. now rewrite QO.
  - (* GSetFineness *)
    destruct (Nat.ltb id (len (g_pdfs st))); [|exact HI]. cbn [fst snd note].
    assert (X : sim (g_pdfs st) (set_pdf (g_pdfs st) id (fun p => let q := with_bins p n in with_ranges q (normRange (g_heap st) q))))
      by (unfold sim; symmetry; apply map_set_pdf; reflexivity).
    split; [exact HW|]. split; [eapply match_sim; [exact X|exact HM]|eapply closed_sim; [exact X|exact HC]].
  - (* GSetCommonNorm *)
    destruct (Nat.ltb id (len (g_pdfs st))); [|exact HI]. cbn [fst snd note].
    assert (X : sim (g_pdfs st) (set_pdf (g_pdfs st) id (fun p => with_flags p b (p_separate p))))
      by (unfold sim; symmetry; apply map_set_pdf; reflexivity).
    split; [exact HW|]. split; [eapply match_sim; [exact X|exact HM]|eapply closed_sim; [exact X|exact HC]].
  - destruct (Nat.ltb id (len (g_pdfs st))); [|exact HI]. cbn [fst snd note].
    assert (X : sim (g_pdfs st) (set_pdf (g_pdfs st) id (fun p => with_flags p (p_common p) b)))
      by (unfold sim; symmetry; apply map_set_pdf; reflexivity).
    split; [exact HW|]. split; [eapply match_sim; [exact X|exact HM]|eapply closed_sim; [exact X|exact HC]].
  - destruct (Nat.ltb id (len (g_pdfs st))); exact HI.
  - destruct (Nat.ltb id (len (g_pdfs st))); exact HI.
Qed.

Lemma history_inv : forall ops st ns, ginv st ns -> ginv (fst (history st ns ops)) (snd (history st ns ops)).
Proof.
  induction ops as [|o ops IH]; intros st ns H; [exact H|]. cbn [history]. pose proof (ginv_step st ns o H) as X.
  destruct (gstep st o) as [st' out]. now apply IH.
Qed.
Lemma after_inv : forall ops st ns, after ops = (st, ns) -> ginv st ns.
Proof.
  intros ops st ns E. pose proof (history_inv ops ginit []) as H. unfold after in E. rewrite E in H. apply H.
  split; [constructor|]. split; [split; [reflexivity|]|]; intros i n N; destruct i; discriminate.
Qed.
Lemma history_app : forall ops1 ops2 st ns, history st ns (ops1 ++ ops2) = history (fst (history st ns ops1)) (snd (history st ns ops1)) ops2.
Proof.
  induction ops1 as [|o ops1 IH]; intros ops2 st ns; [reflexivity|]. cbn [app history]. destruct (gstep st o) as [st' out]. apply IH.
Qed.
