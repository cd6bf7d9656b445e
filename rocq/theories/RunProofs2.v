(** Layout of the event buffer; the likelihood on unbinned data. *)
From Coq Require Import List ZArith Bool Lia.
From Verif Require Import F64 F64Lemmas ListAux VariableModel DataSetModel BinModel LeafFormulas DeviceModel PdfModel PdfSpec
  FlatProofs EvalProofs HostProofs PdfProofs PdfProofs2 PdfProofs3 NormModel NormSpec NormProofs NormProofs2 RunModel RunSpec RunProofs.
Import ListNotations.
Local Open Scope nat_scope.
Local Notation len := List.length.

(** ** Filling rows *)
Lemma store_ok : forall b z x n, z = Z.of_nat n -> n < len b -> store b z x = NOk (upd b n (Some x)).
Proof.
  intros b z x n -> H. unfold store. replace (Z.leb 0 (Z.of_nat n)) with true by (symmetry; apply Z.leb_le; lia).
  replace (Z.ltb (Z.of_nat n) (Z.of_nat (len b))) with true by (symmetry; apply Z.ltb_lt; lia). cbn [andb]. now rewrite Nat2Z.id.
Qed.
Section Row.
Variables (hp : heap) (get : handle -> nres f64) (base : nat).
Definition put_one (b : list (option f64)) (v : handle) : nres (list (option f64)) :=
  x <~ get v ;; store b (Z.of_nat base + get_i hp v)%Z x.
Lemma row_fill : forall l m b, (forall j h, nth_error l j = Some h -> get_i hp h = Z.of_nat (m + j)) -> base + m + len l <= len b ->
  (forall h, In h l -> exists x, get h = NOk x) ->
  exists b', nfold put_one l b = NOk b' /\ len b' = len b /\
    (forall j h x, nth_error l j = Some h -> get h = NOk x -> nth_error b' (base + m + j) = Some (Some x)) /\
    (forall q, q < base + m \/ base + m + len l <= q -> nth_error b' q = nth_error b q).
Proof.
  induction l as [|v l IH]; intros m b HI HB HG; cbn [nfold].
  - exists b. split; [reflexivity|]. split; [reflexivity|]. split; [intros j h x X; destruct j; discriminate|reflexivity].
  - destruct (HG v (or_introl eq_refl)) as (x & Ex). unfold put_one at 1. rewrite Ex. cbn [nbind].
    pose proof (HI 0 v eq_refl) as I0. rewrite (store_ok _ _ _ (base + m)) by (rewrite ?I0; cbn [len] in HB; lia). cbn [nbind].
    destruct (IH (S m) (upd b (base + m) (Some x))) as (b' & E & LB & HV & HO).
    + intros j h Hj. rewrite (HI (S j) h Hj). f_equal. lia.
    + rewrite upd_length. cbn [len] in HB. lia.
    + intros h Hh. apply HG. now right.
    + exists b'. split; [exact E|]. split; [rewrite LB; apply upd_length|]. split.
      * intros [|j] h y Hj Hy.
        -- cbn in Hj. injection Hj as ->. rewrite Ex in Hy. apply ok_inj in Hy. subst y. rewrite Nat.add_0_r, HO by lia. rewrite nth_error_upd_same; [reflexivity|]. cbn [len] in HB. lia.
        -- cbn [nth_error] in Hj. replace (base + m + S j) with (base + S m + j) by lia. eapply HV; eauto.
      * intros q Hq. cbn [len] in Hq. rewrite HO by lia. apply nth_error_upd_other. lia.
Qed.
Lemma row_total : forall l m b, (forall j h, nth_error l j = Some h -> get_i hp h = Z.of_nat (m + j)) -> base + m + len l <= len b ->
  (forall h, In h l -> (exists x, get h = NOk x) \/ get h = NThrow) ->
  (exists b', nfold put_one l b = NOk b') \/ (nfold put_one l b = NThrow /\ exists h, In h l /\ get h = NThrow).
Proof.
  induction l as [|v l IH]; intros m b HI HB HG; cbn [nfold]; [left; now exists b|]. unfold put_one at 1 3. destruct (HG v (or_introl eq_refl)) as [[x Ex]|Ex]; rewrite Ex; cbn [nbind].
  - pose proof (HI 0 v eq_refl) as I0. rewrite (store_ok _ _ _ (base + m)) by (rewrite ?I0; cbn [len] in HB; lia). cbn [nbind].
    destruct (IH (S m) (upd b (base + m) (Some x))) as [H|[H (h & Hh & Gh)]].
    + intros j h Hj. rewrite (HI (S j) h Hj). f_equal. lia.
    + rewrite upd_length. cbn [len] in HB. lia.
    + intros h Hh. apply HG. now right.
    + now left.
    + right. split; [exact H|]. exists h. split; [now right|exact Gh].
  - right. split; [reflexivity|]. exists v. split; [now left|exact Ex].
Qed.
Lemma row_fail : forall l b b', nfold put_one l b = NOk b' -> forall h, In h l -> exists x, get h = NOk x.
Proof.
  induction l as [|v l IH]; intros b b' E h Hh; [destruct Hh|]. cbn [nfold] in E. apply nbind_ok in E. destruct E as (b1 & E1 & E). destruct Hh as [<-|Hh].
  - unfold put_one in E1. apply nbind_ok in E1. destruct E1 as (x & X & _). now exists x.
  - eapply IH; eauto.
Qed.
End Row.

Definition positioned (hp : heap) (obs : list handle) : Prop := forall j h, nth_error obs j = Some h -> get_i hp h = Z.of_nat j.

(** C25 *)
Lemma mul_le : forall i n d, i < n -> i * d + d <= n * d.
Proof. intros. replace (i * d + d) with (S i * d) by lia. apply Nat.mul_le_mono_r. lia. Qed.
Lemma unbinned_rows : forall hp obs d, positioned hp obs -> forall cnt a b, len b = (a + cnt) * len obs ->
  (forall i h, a <= i < a + cnt -> In h obs -> exists x, getValue d h i = Ok x) ->
  exists b', nfold (fun b i => nfold (fun b v => x <~ of_res (getValue d v i) ;; store b (Z.of_nat (i * len obs) + get_i hp v)%Z x) obs b) (seq a cnt) b = NOk b' /\ len b' = len b /\
    (forall i j h x, a <= i < a + cnt -> nth_error obs j = Some h -> getValue d h i = Ok x -> nth_error b' (i * len obs + j) = Some (Some x)) /\
    (forall q, q < a * len obs -> nth_error b' q = nth_error b q).
Proof.
  intros hp obs d P. induction cnt as [|cnt IH]; intros a b LB HG; cbn [seq nfold].
  - exists b. split; [reflexivity|]. split; [reflexivity|]. split; [intros; lia|reflexivity].
  - destruct (row_fill hp (fun v => of_res (getValue d v a)) (a * len obs) obs 0 b) as (b1 & E1 & L1 & V1 & O1).
    + intros j h Hj. exact (P j h Hj).
    + rewrite LB. pose proof (mul_le a (a + S cnt) (len obs) ltac:(lia)). lia.
    + intros h Hh. destruct (HG a h ltac:(lia) Hh) as [x X]. exists x. now rewrite X.
    + unfold put_one in E1. rewrite E1. cbn [nbind].
      destruct (IH (S a) b1) as (b2 & E2 & L2 & V2 & O2).
      * rewrite L1, LB. f_equal. lia.
      * intros i h Hi. apply HG. lia.
      * exists b2. split; [exact E2|]. split; [congruence|]. split.
        -- intros i j h x Hi Hj Hx. destruct (Nat.eq_dec i a) as [->|N].
           ++ pose proof (nth_error_Some_lt _ _ _ Hj). rewrite O2 by (cbn [Nat.mul]; lia). rewrite <- (V1 j h x Hj ltac:(now rewrite Hx)). f_equal. lia.
           ++ eapply V2; eauto. lia.
        -- intros q Hq. rewrite O2 by (cbn [Nat.mul]; lia). apply O1. lia.
Qed.
Lemma unbinned_ok : forall hp obs d, positioned hp obs -> (forall i h, i < d_num d -> In h obs -> exists x, getValue d h i = Ok x) ->
  exists b, fill_unbinned hp obs d = NOk b /\ len b = d_num d * len obs /\
    (forall i j h x, i < d_num d -> nth_error obs j = Some h -> getValue d h i = Ok x -> nth_error b (i * len obs + j) = Some (Some x)).
Proof.
  intros hp obs d P G. destruct (unbinned_rows hp obs d P (d_num d) 0 (repeat None (d_num d * len obs))) as (b & E & LB & V & _).
  - now rewrite repeat_length.
  - intros i h Hi. apply G. lia.
  - exists b. split; [exact E|]. split; [now rewrite LB, repeat_length|]. intros i j h x Hi. apply V. lia.
Qed.
Lemma nfold_steps : forall {S A} (f : S -> A -> nres S) l s s', nfold f l s = NOk s' -> forall a, In a l -> exists s1 s2, f s1 a = NOk s2.
Proof.
  intros S A f. induction l as [|b l IH]; intros s s' E a Ha; [destruct Ha|]. cbn [nfold] in E. apply nbind_ok in E. destruct E as (s1 & E1 & E). destruct Ha as [<-|Ha]; [eauto|]. eapply IH; eauto.
Qed.
(** If it succeeds, every value was there. *)
Lemma unbinned_values : forall hp obs d b, fill_unbinned hp obs d = NOk b -> forall i h, i < d_num d -> In h obs -> exists x, getValue d h i = Ok x.
Proof.
  intros hp obs d b E i h Hi Hh. unfold fill_unbinned in E. destruct (nfold_steps _ _ _ _ E i ltac:(apply in_seq; lia)) as (s1 & s2 & E1).
  destruct (row_fail hp (fun v => of_res (getValue d v i)) (i * len obs) obs s1 s2 E1 h Hh) as (x & X). destruct (getValue d h i); [eauto|discriminate].
Qed.

(** ** Evaluation depends on the environment only through the observables of the leaves *)
Lemma leaf_env : forall L hp hp0 en1 en2 l, (forall h, In h (leaf_obs l) -> en1 h = en2 h) -> leaf_value L hp hp0 en1 l = leaf_value L hp hp0 en2 l.
Proof.
  intros L hp hp0 en1 en2 l H. rewrite !leaf_value64_eq. destruct l; cbn [leaf_value64 leaf_obs] in *; try (rewrite (H x (or_introl eq_refl)); reflexivity);
    try (rewrite (H x (or_introl eq_refl)), (H y (or_intror (or_introl eq_refl))); reflexivity).
  - assert (X : omap (fun a => obind (en1 (fst (fst (fst a)))) (fun x => Some (x, snd (fst (fst a)), snd (fst a), snd a))) axes =
                omap (fun a => obind (en2 (fst (fst (fst a)))) (fun x => Some (x, snd (fst (fst a)), snd (fst a), snd a))) axes); [|now rewrite X].
    induction axes as [|a axes IH]; [reflexivity|]. cbn [omap]. rewrite (H (fst (fst (fst a)))) by (cbn; now left). rewrite IH; [reflexivity|]. intros h Hh. apply H. cbn. now right.
  - assert (X : omap en1 obses = omap en2 obses); [|now rewrite X]. clear - H. induction obses as [|a l IH]; [reflexivity|]. cbn [omap]. rewrite (H a) by now left. rewrite IH; [reflexivity|]. intros h Hh. apply H. now right.
Qed.
Lemma omap_ext : forall {A B} (f g : A -> option B) l, (forall a, In a l -> f a = g a) -> omap f l = omap g l.
Proof. intros A B f g. induction l as [|a l IH]; intro H; [reflexivity|]. cbn [omap]. rewrite (H a (or_introl eq_refl)), IH; [reflexivity|]. intros b Hb. apply H. now right. Qed.
Lemma value_env : forall L hp norms fo ns f en1 en2 id,
  (forall i n h, In i (subtree f ns id) -> nth_error ns i = Some n -> In h (node_obs n) -> en1 h = en2 h) ->
  value L hp norms fo f ns en1 id = value L hp norms fo f ns en2 id.
Proof.
  intros L hp norms fo ns. induction f as [|f IH]; intros en1 en2 id H; [reflexivity|]. cbn [value]. cbn [subtree] in H. destruct (nth_error ns id) as [n|] eqn:En; [|reflexivity].
  assert (HO : forall h, In h (node_obs n) -> en1 h = en2 h) by (intros h; apply (H id n h (or_introl eq_refl) En)).
  assert (HK : forall k, In k (kids_of n) -> value L hp norms fo f ns en1 k = value L hp norms fo f ns en2 k).
  { intros k Hk. apply IH. intros i m h Hi. apply H. right. apply in_flat_map. now exists k. }
  destruct n; cbn [kids_of node_obs] in *.
  - now apply leaf_env.
  - rewrite (omap_ext _ (fun k => obind (value L hp norms fo f ns en2 k) (fun v => Some (v, norms k)))); [reflexivity|]. intros k Hk. now rewrite HK.
  - rewrite (omap_ext _ (fun k => obind (value L hp norms fo f ns en2 k) (fun v => Some (v, norms k)))); [reflexivity|]. intros k Hk. now rewrite HK.
  - rewrite (omap_ext en1 en2 ws HO). rewrite (omap_ext (fun k => obind (value L hp norms fo f ns en1 k) (fun v => Some (v, norms k))) (fun k => obind (value L hp norms fo f ns en2 k) (fun v => Some (v, norms k)))); [reflexivity|]. intros k Hk. now rewrite HK.
  - rewrite (HK m (or_introl eq_refl)). destruct (value L hp norms fo f ns en2 m); [|reflexivity]. cbn [obind]. destruct (floor_int (fadd fhalf f0)); [|reflexivity]. cbn [obind]. destruct (Z.ltb z 0); [reflexivity|].
    destruct (nth_error ts (Z.to_nat z)) as [k|] eqn:Ek; [|reflexivity]. cbn [obind]. rewrite HK; [reflexivity|]. right. eapply nth_error_In; eauto.
  - now rewrite (HK core (or_introl eq_refl)).
Qed.

(** ** Quiet sessions *)
Lemma stores_quiet : forall ns k qs, Forall (stores (tree_ids ns k)) qs -> Forall (quiet ns k) qs.
Proof. intros ns k qs F. eapply Forall_impl; [|exact F]. intros o (j & x & -> & Hj). exact Hj. Qed.
Lemma quiet_note : forall ns k st o out ns', quiet ns k o -> note st o out ns' = ns'.
Proof. intros ns k st o out ns' Q. destruct o; cbn [quiet] in Q; try contradiction; destruct out; reflexivity. Qed.
Lemma calculateNLL_state : forall L red s k r s', calculateNLL L red s k = NOk (r, s') -> run_normalize L red s k = NOk s'.
Proof.
  intros L red s k r s' E. unfold calculateNLL in E. peel E rs EB. destruct rs as [ret s2]. unfold base_nll in EB. peel EB s3 E3. peel EB n En.
  destruct (fle n fzero); [discriminate|]. peel EB v Ev. destruct (feq fzero v); [discriminate|]. apply ok_inj in EB. injection EB as <- <-. assert (s' = s3) as ->; [|exact E3].
  peel E p Ep. destruct (p_kind p); try (apply ok_inj in E; injection E as _ <-; reflexivity). peel E ws Ew. apply ok_inj in E. exact (eq_sym (f_equal snd E)).
Qed.
Lemma quiet_session : forall L red ns k mid s s' ns', reach (r_g s) ns -> Forall (rquiet ns k) mid -> rrun L red s ns mid = NOk (s', ns') ->
  ns' = ns /\ r_mem s' = r_mem s /\ r_buf s' = r_buf s /\ r_total s' = r_total s /\
  exists qs, Forall (quiet ns k) qs /\ history (r_g s) ns qs = (r_g s', ns).
Proof.
  intros L red ns k mid. induction mid as [|o mid IH]; intros s s' ns' R Q E; cbn [rrun] in E.
  - apply ok_inj in E. injection E as <- <-. repeat (split; [reflexivity|]). exists []. split; [constructor|reflexivity].
  - inversion Q as [|? ? Q1 Q2]; subst. apply nbind_ok in E. destruct E as ([s1 out] & E1 & E).
    pose proof (reach_rstep L red s ns o s1 out R E1) as R1.
    assert (X : rnote s o out ns = ns /\ r_mem s1 = r_mem s /\ r_buf s1 = r_buf s /\ r_total s1 = r_total s /\ exists qs, Forall (quiet ns k) qs /\ history (r_g s) ns qs = (r_g s1, ns)).
    { destruct o; cbn [rquiet] in Q1; try contradiction; unfold rstep in E1.
      - pose proof (quiet_note ns k (r_g s) o (snd (gstep (r_g s) o)) ns Q1) as NN. destruct (gstep (r_g s) o) as [g go] eqn:EG. cbn [snd] in NN.
        assert (E2 : (with_g s g, OGot go) = (s1, out)) by (destruct go; try discriminate; exact (ok_inj _ _ E1)). injection E2 as <- <-. cbn [rnote]. split; [exact NN|].
        repeat (split; [reflexivity|]). exists [o]. split; [now constructor|]. cbn [history with_g r_g]. rewrite EG. now rewrite NN.
      - apply ok_inj in E1. destruct (put_set (r_sets s) i d); injection E1 as <- <-; repeat (split; [reflexivity|]); exists []; split; try constructor; reflexivity.
      - subst k0. destruct (Nat.ltb k _); [|apply ok_inj in E1; injection E1 as <- <-; repeat (split; [reflexivity|]); exists []; split; [constructor|reflexivity]].
        unfold out_of in E1. peel E1 rr ER. destruct rr as [r s2]. apply ok_inj in E1. injection E1 as <- <-. apply calculateNLL_state in ER.
        destruct (run_normalize_inv L red s ns k s2 R ER) as (_ & _ & M & B & T & _ & qs & F & HH). split; [reflexivity|]. split; [exact M|]. split; [exact B|]. split; [exact T|].
        exists qs. split; [now apply stores_quiet|exact HH]. }
    destruct X as (XN & XM & XB & XT & qs1 & F1 & H1). rewrite XN in *. destruct (IH s1 s' ns' R1 Q2 E) as (-> & M & B & T & qs2 & F2 & H2).
    split; [reflexivity|]. split; [congruence|]. split; [congruence|]. split; [congruence|]. exists (qs1 ++ qs2). split; [now apply Forall_app|]. rewrite history_app, H1. exact H2.
Qed.
