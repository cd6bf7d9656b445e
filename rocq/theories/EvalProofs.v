(** Evaluating a flattened tree gives the value of the expression and leaves the cursor behind it. *)
From Coq Require Import List ZArith String Bool Lia.
From Verif Require Import F64 F64Lemmas ListAux VariableModel LeafFormulas DeviceModel PdfModel PdfSpec FlatProofs.
Import ListNotations.
Local Open Scope nat_scope.
Local Notation len := List.length.

Definition block_of (hp : heap) (p : pdf) : block :=
  mkBlock (p_kind p) (vals hp (p_pars p)) (p_cons p) (idxs hp (p_obs p)) (p_norm p).
Fixpoint flat (fuel : nat) (hp : heap) (ps : pdfs) (id : nat) : list block :=
  match fuel, nth_error ps id with
  | S n, Some p => block_of hp p :: flat_map (flat n hp ps) (p_comps p)
  | _, _ => []
  end.

(** The object an expression node describes. *)
Definition node_match (ns : list snode) (n : snode) (p : pdf) : Prop :=
  p_comps p = kids_of n /\
  match n with
  | SLeaf l hp0 => p_kind p = leaf_kind l /\ p_pars p = leaf_pars l /\ p_cons p = leaf_cons hp0 l /\
                   p_obs p = registerObservables [] (leaf_obs l) /\ Forall wfh (leaf_obs l)
  | SAdd ws ks => p_kind p = (if Nat.ltb (len ws) (len ks) then KAdd else KAddExt) /\ p_pars p = ws /\ p_cons p = [] /\
                  (len ws = len ks \/ len ws + 1 = len ks)
  | SProd ks => p_kind p = KProd /\ p_pars p = [] /\ p_cons p = [f_of_nat (len ks)]
  | SEWAdd ws ks => p_kind p = (if Nat.ltb (len ws) (len ks) then KEWAdd else KEWAddExt) /\ p_pars p = [] /\
                    p_cons p = [f_of_nat (len ks)] /\ (len ws = len ks \/ len ws + 1 = len ks) /\
                    (exists rest, p_obs p = registerObservables [] ws ++ rest) /\ Forall wfh ws
  | SMapped m ts => p_kind p = KMapped /\ p_pars p = [] /\
                    p_cons p = f_of_nat (len ts) :: map (fun t => f_of_nat (len (tree_ids ns t))) ts
  | SComposite _ _ => p_kind p = KComposite /\ p_pars p = [] /\ p_cons p = []
  end.
Definition match_all (ns : list snode) (ps : pdfs) : Prop :=
  len ns = len ps /\
  forall i n, nth_error ns i = Some n ->
    Forall (fun k => k < i) (kids_of n) /\ exists p, nth_error ps i = Some p /\ node_match ns n p.

Lemma registerObservables_distinct : forall hs l, NoDup (map h_value (l ++ hs)) -> registerObservables l hs = l ++ hs.
Proof.
  induction hs as [|h hs IH]; intros l H; cbn [registerObservables fold_left].
  - now rewrite app_nil_r.
  - unfold registerObservable. destruct (find_in l h) eqn:F.
    + exfalso. unfold find_in in F. apply existsb_exists in F. destruct F as (x & Hx & E). unfold handle_eqb in E.
      apply Nat.eqb_eq in E. rewrite map_app in H. cbn [map] in H. apply NoDup_remove_2 in H. apply H. apply in_or_app. left.
      rewrite <- E. now apply in_map.
    + change (l ++ h :: hs) with (l ++ [h] ++ hs) in *. rewrite app_assoc in *. apply IH. exact H.
Qed.

Section Tree.
Variables (L : libm) (A : arrays) (hp : heap) (ns : list snode) (ps : pdfs).
Hypothesis MA : match_all ns ps.
Variables (norms : nat -> f64) (first_obs : nat -> option handle).
Hypothesis NORMS : forall i p, nth_error ps i = Some p -> norms i = p_norm p.
Hypothesis FIRST : forall i p o, nth_error ps i = Some p -> first_obs i = Some o -> nth_error (p_obs p) 0 = Some o /\ wfh o.

Lemma kids_lt : forall i n, nth_error ns i = Some n -> forall k, In k (kids_of n) -> k < i.
Proof. intros i n E k Hk. destruct MA as [_ M]. destruct (M i n E) as [F _]. eapply Forall_forall in F; eauto. Qed.

Lemma flat_map_ext_in : forall {T U} (f g : T -> list U) l, (forall a, In a l -> f a = g a) -> flat_map f l = flat_map g l.
Proof. intros T U f g l H. induction l as [|a l IH]; [reflexivity|]. cbn. rewrite H, IH; [reflexivity| |now left]. intros; apply H; now right. Qed.

Lemma flat_length : forall f id, len (flat f hp ps id) = len (subtree f ns id).
Proof.
  induction f as [|f IH]; intro id; [reflexivity|]. cbn [flat subtree]. destruct MA as [ML M].
  destruct (nth_error ns id) as [n|] eqn:En.
  - destruct (M id n En) as (_ & p & Ep & Hc & _). rewrite Ep. cbn [len]. f_equal. rewrite Hc. clear - IH.
    induction (kids_of n) as [|k l IHl]; [reflexivity|]. cbn [flat_map]. rewrite !app_length, IH, IHl. reflexivity.
  - apply nth_error_None in En. assert (X : nth_error ps id = None) by (apply nth_error_None; lia). now rewrite X.
Qed.
Lemma subtree_fuel : forall f id, id < f -> subtree f ns id = subtree (S id) ns id.
Proof.
  assert (G : forall id f, id < f -> subtree f ns id = subtree (S id) ns id).
  { intro id. induction (lt_wf id) as [id _ IH]. intros f Hf. destruct f as [|f]; [lia|]. cbn [subtree].
    destruct (nth_error ns id) as [n|] eqn:En; [|reflexivity]. f_equal. apply flat_map_ext_in. intros k Hk.
    pose proof (kids_lt id n En k Hk) as Hlt. rewrite (IH k Hlt f) by lia. symmetry. apply IH; lia. }
  intros. now apply G.
Qed.
Lemma flat_fuel : forall f id, id < f -> flat f hp ps id = flat (S id) hp ps id.
Proof.
  assert (G : forall id f, id < f -> flat f hp ps id = flat (S id) hp ps id).
  { intro id. induction (lt_wf id) as [id _ IH]. intros f Hf. destruct f as [|f]; [lia|]. cbn [flat].
    destruct (nth_error ps id) as [p|] eqn:Ep; [|reflexivity]. f_equal.
    assert (Hn : exists n, nth_error ns id = Some n).
    { destruct MA as [ML M]. destruct (nth_error ns id) eqn:En; [eauto|]. apply nth_error_None in En.
      assert (nth_error ps id <> None) by congruence. apply nth_error_Some in H. lia. }
    destruct Hn as [n En]. destruct MA as [_ M]. destruct (M id n En) as (_ & p' & Ep' & Hc & _).
    assert (p' = p) by congruence. subst p'. rewrite Hc. apply flat_map_ext_in. intros k Hk.
    pose proof (kids_lt id n En k Hk) as Hlt. rewrite (IH k Hlt f) by lia. symmetry. apply IH; lia. }
  intros. now apply G.
Qed.

Definition nok (id : nat) : Prop := match nth_error ns id with Some n => node_ok hp first_obs n | None => True end.

(** ** Loops over components *)
Section Loops.
Variables (rec : event -> cursor -> dres (f64 * cursor)) (e : event) (F : nat -> list block) (V : nat -> option f64).
Hypothesis REC : forall k v c, V k = Some v -> stand A c (F k) -> rec e c = DOk (v, adv c (F k)).
Hypothesis HEAD : forall k v, V k = Some v -> exists b t, F k = b :: t /\ b_norm b = norms k.
Definition vkid (k : nat) : option (f64 * f64) := obind (V k) (fun v => Some (v, norms k)).

Lemma kid_step : forall k p c rest, vkid k = Some p -> stand A c (F k ++ rest) ->
  getNormalization A c 0 = DOk (snd p) /\ rec e c = DOk (fst p, adv c (F k)) /\ stand A (adv c (F k)) rest.
Proof.
  intros k p c rest Hk HS. unfold vkid in Hk. apply obind_some in Hk. destruct Hk as (v & Ev & E). injection E as <-. cbn [fst snd].
  apply stand_app in HS. destruct HS as [H1 H2]. split; [|split; [|exact H2]].
  - destruct (HEAD k v Ev) as (b & t & Eb & Hb). rewrite <- Hb. rewrite Eb in H1. apply stand_cons in H1. apply rd_nor. apply H1.
  - apply REC; assumption.
Qed.

Lemma add_loop_ok : forall ws ks vs c s t, omap vkid ks = Some vs -> len ws <= len ks -> stand A c (flat_map F ks) ->
  add_loop A rec e ws s t c
  = DOk (fst (weighted ws vs s t), snd (weighted ws vs s t), adv c (flat_map F (firstn (len ws) ks))).
Proof.
  induction ws as [|w ws IH]; intros ks vs c s t E Hl HS; [reflexivity|].
  destruct ks as [|k ks]; [cbn in Hl; lia|]. cbn [omap] in E. destruct (vkid k) as [p|] eqn:Ek; [|discriminate].
  destruct (omap vkid ks) as [vs'|] eqn:Eks; [|discriminate]. injection E as <-. cbn [flat_map] in HS.
  destruct (kid_step k p c _ Ek HS) as (HN & HR & HS'). cbn [add_loop]. rewrite HN. cbn [dbind]. rewrite HR. cbn [dbind].
  rewrite (IH ks vs' _ _ _ Eks); [|cbn in Hl; lia|exact HS'].
  destruct p as [v n]. cbn [weighted fst snd len firstn flat_map]. rewrite adv_app. reflexivity.
Qed.
Lemma prod_loop_ok : forall ks vs c r, omap vkid ks = Some vs -> stand A c (flat_map F ks) ->
  prod_loop A rec e (len ks) r c
  = DOk (fold_left (fun r p => fmul r (fmul (fst p) (snd p))) vs r, adv c (flat_map F ks)).
Proof.
  induction ks as [|k ks IH]; intros vs c r E HS; cbn [omap] in E.
  - injection E as <-. reflexivity.
  - destruct (vkid k) as [p|] eqn:Ek; [|discriminate]. destruct (omap vkid ks) as [vs'|] eqn:Eks; [|discriminate]. injection E as <-.
    cbn [flat_map] in HS. destruct (kid_step k p c _ Ek HS) as (HN & HR & HS'). cbn [len prod_loop]. rewrite HN. cbn [dbind].
    rewrite HR. cbn [dbind]. rewrite (IH vs' _ _ eq_refl HS'). cbn [fold_left flat_map]. rewrite adv_app. reflexivity.
Qed.
(** The tail of AddPdf: one component more than weights. *)
Lemma last_kid : forall (ws : list f64) ks vs c, omap vkid ks = Some vs -> len ws + 1 = len ks -> stand A c (flat_map F ks) ->
  exists p, nth_error vs (len ws) = Some p /\
    let c2 := adv c (flat_map F (firstn (len ws) ks)) in
    getNormalization A c2 0 = DOk (snd p) /\ rec e c2 = DOk (fst p, adv c (flat_map F ks)).
Proof.
  intros ws ks vs c E Hl HS.
  assert (Hn : exists k, skipn (len ws) ks = [k]).
  { assert (X : len (skipn (len ws) ks) = 1) by (rewrite skipn_length; lia).
    destruct (skipn (len ws) ks) as [|k [|k' r]]; cbn in X; try lia. now exists k. }
  destruct Hn as [k Hk]. assert (EK : ks = firstn (len ws) ks ++ [k]) by (rewrite <- Hk; symmetry; apply firstn_skipn).
  assert (NK : nth_error ks (len ws) = Some k).
  { rewrite EK, nth_error_app2; rewrite firstn_length_le by lia; [|lia]. now rewrite Nat.sub_diag. }
  assert (G : forall l us i a, omap vkid l = Some us -> nth_error l i = Some a -> exists p, vkid a = Some p /\ nth_error us i = Some p).
  { clear. induction l as [|b l IH]; intros us [|i] a E N; cbn in N; try discriminate; cbn [omap] in E;
    destruct (vkid b) as [q|] eqn:Eb; try discriminate; destruct (omap vkid l) as [us'|] eqn:El; try discriminate; injection E as <-.
    - injection N as ->. exists q. now split.
    - apply (IH us' i a eq_refl N). }
  destruct (G ks vs (len ws) k E NK) as (p & Ep & Np). exists p. split; [exact Np|]. cbv zeta.
  rewrite EK in HS. rewrite flat_map_app in HS. apply stand_app in HS. destruct HS as [_ HS]. cbn [flat_map] in HS.
  destruct (kid_step k p _ [] Ep HS) as (HN & HR & _). split; [exact HN|]. rewrite HR. f_equal. f_equal.
  rewrite EK at 2. rewrite flat_map_app, adv_app. cbn [flat_map]. now rewrite app_nil_r.
Qed.
Lemma kids_len : forall ks vs, omap vkid ks = Some vs -> len ks <= len (flat_map F ks).
Proof.
  induction ks as [|k ks IH]; intros vs E; [cbn; lia|]. cbn [omap] in E. destruct (vkid k) eqn:Ek; [|discriminate].
  destruct (omap vkid ks) eqn:Eks; [|discriminate]. specialize (IH _ eq_refl). cbn [flat_map len]. rewrite app_length.
  unfold vkid in Ek. apply obind_some in Ek. destruct Ek as (x & Ex & _). destruct (HEAD k x Ex) as (bb & tt & Eb & _). rewrite Eb. cbn [len]. lia.
Qed.
End Loops.

(** ** Constants of a MappedPdf *)
Lemma sum_constants_ok : forall c b ls off, stand A c [b] ->
  (forall i n, nth_error ls i = Some n -> nth_error (b_cons b) (off + i) = Some (f_of_nat n)) -> Forall small ls ->
  forall k is, k + len is <= len ls -> is = map (fun i => off + i) (seq k (len is)) ->
  sum_constants A c is = DOk (list_sum (firstn (len is) (skipn k ls))).
Proof.
  intros c b ls off HS HC HF k is. revert k. induction is as [|i is IH]; intros k Hk Hi; [reflexivity|].
  cbn [len seq map] in Hi. injection Hi as Hi1 Hi2. cbn [sum_constants].
  assert (Hn : exists n, nth_error ls k = Some n).
  { destruct (nth_error ls k) eqn:E; [eauto|]. apply nth_error_None in E. cbn in Hk. lia. }
  destruct Hn as [n Hn]. rewrite Hi1, (rd_con _ _ _ HS (off + k) _ (HC k n Hn)). cbn [dbind].
  rewrite to_index_nat by (eapply Forall_forall in HF; [exact HF|eapply nth_error_In; eauto]). cbn [dbind].
  rewrite (IH (S k)); [|cbn in Hk; lia|exact Hi2]. cbn [dbind len].
  f_equal. clear - Hn. revert k Hn. generalize (len is). intros m k Hn.
  assert (E : skipn k ls = n :: skipn (S k) ls).
  { revert k Hn. induction ls as [|a ls IH]; intros [|k] Hn; cbn in Hn; try discriminate; [now injection Hn as ->|]. cbn [skipn]. rewrite (IH k Hn). reflexivity. }
  rewrite E. reflexivity.
Qed.
Lemma map_S_seq : forall k n, map S (seq k n) = map (fun i => 1 + i) (seq k n).
Proof. reflexivity. Qed.

Lemma list_sum_flat : forall (F : nat -> list block) ks, list_sum (map (fun k => len (F k)) ks) = len (flat_map F ks).
Proof. induction ks as [|k ks IH]; [reflexivity|]. cbn. rewrite app_length. unfold list_sum in IH. now rewrite IH. Qed.

Lemma flat_map_firstn_skipn : forall (F : nat -> list block) n ks, flat_map F ks = flat_map F (firstn n ks) ++ flat_map F (skipn n ks).
Proof. intros. rewrite <- flat_map_app. now rewrite firstn_skipn. Qed.

Lemma bsmall_in : forall b p, b = block_of hp p ->
  small (len (p_pars p)) /\ small (len (p_cons p)) /\ small (len (p_obs p)) -> bsmall b.
Proof. intros b p -> H. unfold bsmall, block_of. cbn. now rewrite vals_length, idxs_length. Qed.

Lemma event_fake : forall h o v, wfh h -> wfh o -> handle_eqb h o = true -> (0 <= get_i hp o < 10)%Z ->
  event_env hp (upd (repeat None 10) (Z.to_nat (get_i hp o)) (Some v)) h = Some v.
Proof.
  intros h o v Wh Wo E R. unfold handle_eqb in E. apply Nat.eqb_eq in E.
  assert (X : get_i hp h = get_i hp o). { unfold get_i, get_field. cbn [ptr_of]. rewrite Wh, Wo, E. reflexivity. }
  unfold event_env. rewrite X. cbv zeta.
  replace ((0 <=? get_i hp o)%Z && (get_i hp o <? 2 ^ 31)%Z) with true.
  2:{ symmetry. apply andb_true_intro. split; [apply Z.leb_le|apply Z.ltb_lt]; lia. }
  rewrite nth_error_upd_same; [reflexivity|]. rewrite repeat_length. lia.
Qed.

Lemma eval_correct : forall f m, f <= m -> forall id e en v c,
  id < f -> stand A c (flat f hp ps id) -> Forall bsmall (flat f hp ps id) ->
  small (len (flat f hp ps id)) -> Forall nok (subtree f ns id) -> agrees hp e en ->
  value L hp norms first_obs f ns en id = Some v ->
  callFunction m L A e c = DOk (v, adv c (flat f hp ps id)).
Proof.
  induction f as [|f IH]; intros m Hm id e en v c Hid HS HB HZ HN HA HV; [discriminate|].
  destruct m as [|m]; [lia|]. cbn [value] in HV. destruct (nth_error ns id) as [n|] eqn:En; [|discriminate].
  destruct MA as [ML M]. destruct (M id n En) as (HK & p & Ep & Hc & Hm1).
  cbn [flat] in *. rewrite Ep in *. cbn [subtree] in HN. rewrite En in HN.
  pose proof HS as HS0. apply stand_cons in HS. destruct HS as [HSb HSk].
  inversion HB as [|b0 l0 HBb HBk]; subst b0 l0. inversion HN as [|n0 l0 HNb HNk]; subst n0 l0.
  unfold nok in HNb. rewrite En in HNb.
  cbn [callFunction]. rewrite (stand_kind _ _ _ HSb). cbn [block_of b_kind].
  set (b := block_of hp p) in *.
  (* evaluation of a component *)
  assert (REC : forall k, In k (kids_of n) -> forall e en v c, agrees hp e en ->
            value L hp norms first_obs f ns en k = Some v -> stand A c (flat f hp ps k) ->
            callFunction m L A e c = DOk (v, adv c (flat f hp ps k))).
  { intros k Hk e' en' v' c' HA' HV' HS'. apply (IH m ltac:(lia) k e' en' v' c'); try assumption.
    - eapply Forall_forall in HK; eauto. lia.
    - apply Forall_forall. intros x Hx. eapply Forall_forall in HBk; [exact HBk|]. apply in_flat_map. exists k. rewrite Hc. now split.
    - unfold small in *. rewrite Hc in HZ. cbn [len] in HZ.
      assert (len (flat f hp ps k) <= len (flat_map (flat f hp ps) (kids_of n))); [|lia].
      clear - Hk. induction (kids_of n) as [|a l IHl]; [destruct Hk|]. cbn [flat_map]. rewrite app_length. destruct Hk as [->|Hk]; [lia|]. specialize (IHl Hk). lia.
    - apply Forall_forall. intros x Hx. eapply Forall_forall in HNk; [exact HNk|]. apply in_flat_map. exists k. now split. }
  assert (HEAD : forall k en v, value L hp norms first_obs f ns en k = Some v -> exists b t, flat f hp ps k = b :: t /\ b_norm b = norms k).
  { intros k en' v' Hv. destruct f as [|f']; [discriminate|]. cbn [value] in Hv. destruct (nth_error ns k) as [nk|] eqn:Ek; [|discriminate].
    destruct (M k nk Ek) as (_ & pk & Epk & _). cbn [flat]. rewrite Epk. eexists. eexists. split; [reflexivity|]. cbn. symmetry. now apply NORMS. }
  (* the same for lists of components, in the form of the loop lemmas *)
  set (F := flat f hp ps) in *.
  set (VV := fun k => if existsb (Nat.eqb k) (kids_of n) then value L hp norms first_obs f ns en k else None).
  assert (VVin : forall k, In k (kids_of n) -> VV k = value L hp norms first_obs f ns en k).
  { intros k Hk. unfold VV. replace (existsb (Nat.eqb k) (kids_of n)) with true; [reflexivity|]. symmetry. apply existsb_exists. exists k. split; [exact Hk|apply Nat.eqb_refl]. }
  assert (REC' : forall k v c, VV k = Some v -> stand A c (F k) -> callFunction m L A e c = DOk (v, adv c (F k))).
  { intros k v' c' Hk HS'. unfold VV in Hk. destruct (existsb (Nat.eqb k) (kids_of n)) eqn:Ex; [|discriminate].
    apply existsb_exists in Ex. destruct Ex as (x & Hx & Ex). apply Nat.eqb_eq in Ex. subst x. now apply (REC k Hx e en). }
  assert (HEAD' : forall k v, VV k = Some v -> exists b t, F k = b :: t /\ b_norm b = norms k).
  { intros k v' Hk. unfold VV in Hk. destruct (existsb (Nat.eqb k) (kids_of n)); [|discriminate]. eapply HEAD; eauto. }
  assert (KID : forall ks, (forall k, In k ks -> In k (kids_of n)) ->
     omap (fun k => obind (value L hp norms first_obs f ns en k) (fun v => Some (v, norms k))) ks = omap (vkid VV) ks).
  { intros ks Hks. induction ks as [|k ks IHks]; [reflexivity|]. cbn [omap]. rewrite IHks by (intros; apply Hks; now right).
    replace (vkid VV k) with (obind (value L hp norms first_obs f ns en k) (fun v => Some (v, norms k))); [reflexivity|].
    unfold vkid. rewrite (VVin k) by (apply Hks; now left). reflexivity. }
  pose proof (rd_npar _ _ _ HSb HBb) as NP. pose proof (rd_ncon _ _ _ HSb HBb) as NC. pose proof (rd_nobs _ _ _ HSb HBb) as NO.
  pose proof (rd_inc _ _ _ HSb HBb) as NI. pose proof (rd_con _ _ _ HSb) as RC.
  rewrite Hc in *. unfold adv. cbn [fold_left]. fold (adv (adv1 c b) (flat_map F (kids_of n))).
  destruct n as [l hp0|ws ks|ks|ws ks|mm ts|core shell]; cbn [kids_of] in *.
  - (* leaf *)
    destruct Hm1 as (K & P & C & O & W). rewrite K. cbn [flat_map]. unfold adv. cbn [fold_left].
    cbn [node_ok] in HNb. pose proof HNb as HNb0. destruct HNb as [HD _].
    assert (EB : b = leaf_block hp hp0 l (p_norm p)).
    { unfold b, block_of, leaf_block. rewrite K, P, C, O, registerObservables_distinct by (cbn [app]; exact HD). reflexivity. }
    rewrite EB in *. eapply leaf_correct; eauto.
  - (* AddPdf *)
    destruct Hm1 as (K & P & C & Hlen). apply obind_some in HV. destruct HV as (vs & Evs & HV).
    rewrite KID in Evs by auto. pose proof (omap_len _ _ _ Evs) as Lvs.
    assert (EW : b_pars b = map (val hp) ws) by (unfold b, block_of; cbn; now rewrite P).
    assert (LW : len (b_pars b) = len ws) by (rewrite EW; apply map_length).
    pose proof (rd_pars_all _ _ _ HSb) as RA. rewrite EW, map_length in RA. rewrite LW in NP.
    pose proof (add_loop_ok _ e F VV REC' HEAD' (map (val hp) ws) ks vs (adv1 c b) fzero fzero Evs) as AL. rewrite map_length in AL.
    unfold add_value in HV. rewrite map_length, Lvs in HV. rewrite K. destruct Hlen as [Hl|Hl].
    + replace (Nat.ltb (len ws) (len ks)) with false by (symmetry; apply Nat.ltb_ge; lia). cbn [body]. unfold dev_addext.
      rewrite NP. cbn [dbind]. rewrite RA. cbn [dbind]. rewrite NI. cbn [dbind]. rewrite AL by (lia || exact HSk). cbn [dbind].
      destruct (weighted (map (val hp) ws) vs fzero fzero) as [s t]. cbn [fst snd].
      replace (Nat.eqb (len ws) (len ks)) with true in HV by (symmetry; apply Nat.eqb_eq; lia). injection HV as <-.
      rewrite Hl, firstn_all. reflexivity.
    + replace (Nat.ltb (len ws) (len ks)) with true by (symmetry; apply Nat.ltb_lt; lia). cbn [body]. unfold dev_add.
      rewrite NP. cbn [dbind]. rewrite RA. cbn [dbind]. rewrite NI. cbn [dbind]. rewrite AL by (lia || exact HSk). cbn [dbind].
      destruct (last_kid _ e F VV REC' HEAD' (map (val hp) ws) ks vs (adv1 c b) Evs) as (q & Hq & HN2 & HR2); [rewrite map_length; exact Hl|exact HSk|].
      rewrite map_length in Hq, HN2, HR2.
      destruct (weighted (map (val hp) ws) vs fzero fzero) as [s t]. cbn [fst snd].
      replace (Nat.eqb (len ws) (len ks)) with false in HV by (symmetry; apply Nat.eqb_neq; lia). rewrite Hq in HV. destruct q as [qv qn].
      rewrite HN2. cbn [dbind]. rewrite HR2. cbn [dbind fst snd]. now injection HV as <-.
  - (* ProdPdf *)
    destruct Hm1 as (K & P & C). apply obind_some in HV. destruct HV as (vs & Evs & HV). injection HV as <-.
    rewrite KID in Evs by auto. rewrite K. cbn [body]. unfold dev_prod.
    rewrite NC. cbn [dbind]. rewrite (RC 0 (f_of_nat (len ks))) by (unfold b, block_of; cbn; now rewrite C). cbn [dbind].
    rewrite to_index_nat.
    2:{ unfold small in *. cbn [len] in HZ. pose proof (kids_len F VV HEAD' ks vs Evs). lia. }
    cbn [dbind]. rewrite NO. cbn [dbind].
    assert (EA : incrementIndex5 c 1 0 (len (b_cons b)) (len (b_obs b)) 1 = adv1 c b).
    { unfold adv1. assert (len (b_pars b) = 0) as -> by (unfold b, block_of; cbn; now rewrite P). reflexivity. }
    rewrite EA. rewrite (prod_loop_ok _ e F VV REC' HEAD' ks vs _ _ Evs HSk). reflexivity.
  - (* EventWeightedAddPdf *)
    destruct Hm1 as (K & P & C & Hlen & (rest & O) & W). cbn [node_ok] in HNb.
    apply obind_some in HV. destruct HV as (wv & Ewv & HV). apply obind_some in HV. destruct HV as (vs & Evs & HV).
    rewrite KID in Evs by auto. pose proof (omap_len _ _ _ Evs) as Lvs. pose proof (omap_len _ _ _ Ewv) as Lwv.
    rewrite registerObservables_distinct in O by (cbn [app]; exact HNb). cbn [app] in O.
    assert (EA : incrementIndex5 c 1 0 (len (b_cons b)) (len (b_obs b)) 1 = adv1 c b).
    { unfold adv1. assert (len (b_pars b) = 0) as -> by (unfold b, block_of; cbn; now rewrite P). reflexivity. }
    assert (HC0 : getConstant A c 0 = DOk (f_of_nat (len ks))) by (apply RC; unfold b, block_of; cbn; now rewrite C).
    assert (SK : small (len ks)).
    { unfold small in *. cbn [len] in HZ. pose proof (kids_len F VV HEAD' ks vs Evs). lia. }
    assert (RW : dmap (obs_value A c e) (seq 0 (len ws)) = DOk wv).
    { eapply dmap_seq; [|exact Ewv]. intros j h u Hj Hu. cbn [Nat.add]. eapply rd_event; [exact HSb| |apply HA; [|exact Hu]].
      - unfold b, block_of. cbn [b_obs]. apply idxs_nth. rewrite O, nth_error_app1; [exact Hj|]. apply nth_error_Some. congruence.
      - eapply Forall_forall in W; [exact W|]. eapply nth_error_In; eauto. }
    pose proof (add_loop_ok _ e F VV REC' HEAD' wv ks vs (adv1 c b) fzero fzero Evs) as AL. rewrite Lwv in AL.
    unfold add_value in HV. rewrite Lwv, Lvs in HV. rewrite K. destruct Hlen as [Hl|Hl].
    + replace (Nat.ltb (len ws) (len ks)) with false by (symmetry; apply Nat.ltb_ge; lia). cbn [body]. unfold dev_ewaddext.
      rewrite NC. cbn [dbind]. rewrite NO. cbn [dbind]. rewrite HC0. cbn [dbind]. rewrite to_index_nat by exact SK. cbn [dbind].
      rewrite <- Hl, RW. cbn [dbind]. rewrite EA. rewrite AL by (lia || exact HSk). cbn [dbind].
      destruct (weighted wv vs fzero fzero) as [s t]. cbn [fst snd].
      replace (Nat.eqb (len ws) (len ks)) with true in HV by (symmetry; apply Nat.eqb_eq; lia). injection HV as <-.
      rewrite Hl, firstn_all. reflexivity.
    + replace (Nat.ltb (len ws) (len ks)) with true by (symmetry; apply Nat.ltb_lt; lia). cbn [body]. unfold dev_ewadd.
      rewrite NC. cbn [dbind]. rewrite NO. cbn [dbind]. rewrite HC0. cbn [dbind]. rewrite to_index_nat by exact SK. cbn [dbind].
      replace (len ks - 1) with (len ws) by lia. rewrite RW. cbn [dbind]. rewrite EA. rewrite AL by (lia || exact HSk). cbn [dbind].
      destruct (last_kid _ e F VV REC' HEAD' wv ks vs (adv1 c b) Evs) as (q & Hq & HN2 & HR2); [rewrite Lwv; exact Hl|exact HSk|].
      rewrite Lwv in Hq, HN2, HR2.
      destruct (weighted wv vs fzero fzero) as [s t]. cbn [fst snd].
      replace (Nat.eqb (len ws) (len ks)) with false in HV by (symmetry; apply Nat.eqb_neq; lia). rewrite Hq in HV. destruct q as [qv qn].
      rewrite HN2. cbn [dbind]. rewrite HR2. cbn [dbind fst snd]. now injection HV as <-.
  - (* MappedPdf *)
    destruct Hm1 as (K & P & C).
    apply obind_some in HV. destruct HV as (mv & Emv & HV). apply obind_some in HV. destruct HV as (t & Et & HV).
    destruct (Z.ltb t 0) eqn:Tt; [discriminate|]. apply Z.ltb_ge in Tt. apply obind_some in HV. destruct HV as (k & Ek & HV).
    apply obind_some in HV. destruct HV as (q & Eq & HV). injection HV as <-.
    rewrite K. cbn [body]. unfold dev_mapped. rewrite NC. cbn [dbind]. rewrite NI. cbn [dbind].
    cbn [flat_map] in HSk, HBk. apply stand_app in HSk. destruct HSk as [HSm HSt].
    rewrite (REC mm (or_introl eq_refl) e en mv (adv1 c b) HA Emv HSm). cbn [dbind]. rewrite Et. cbn [of_option dbind].
    set (c2 := adv (adv1 c b) (F mm)) in *. set (tn := Z.to_nat t) in *.
    set (ls := map (fun t => len (F t)) ts).
    assert (Hlt : tn < len ts) by (apply nth_error_Some; congruence).
    assert (Hsz : forall x, In x ts -> len (tree_ids ns x) = len (F x)).
    { intros x Hx. unfold F, tree_ids. rewrite flat_length. symmetry. rewrite subtree_fuel; [reflexivity|].
      assert (x < id) by (eapply Forall_forall in HK; [exact HK|now right]). lia. }
    assert (Cb : b_cons b = f_of_nat (len ts) :: map f_of_nat ls).
    { unfold b, block_of. cbn [b_cons]. rewrite C. f_equal. unfold ls. rewrite map_map. apply map_ext_in. intros x Hx. now rewrite Hsz. }
    assert (Lls : len ls = len ts) by (unfold ls; apply map_length).
    assert (SLS : Forall small ls).
    { unfold ls. apply Forall_forall. intros x Hx. apply in_map_iff in Hx. destruct Hx as (y & <- & Hy). unfold small in *. cbn [len flat_map] in HZ.
      rewrite app_length in HZ. assert (len (F y) <= len (flat_map F ts)); [|lia]. clear - Hy. induction ts as [|a ts IHt]; [destruct Hy|].
      cbn [flat_map]. rewrite app_length. destruct Hy as [->|Hy]; [lia|]. specialize (IHt Hy). lia. }
    assert (HCO : forall i z, nth_error ls i = Some z -> nth_error (b_cons b) (1 + i) = Some (f_of_nat z)).
    { intros i z Hz. rewrite Cb. cbn [Nat.add nth_error]. now apply map_nth_error. }
    rewrite (sum_constants_ok c b ls 1 HSb HCO SLS 0 (map S (seq 0 tn))).
    2:{ rewrite map_length, seq_length. lia. } 2:{ rewrite map_length, seq_length. apply map_S_seq. }
    rewrite map_length, seq_length. cbn [dbind skipn].
    assert (ES : list_sum (firstn tn ls) = len (flat_map F (firstn tn ts))).
    { unfold ls. rewrite firstn_map. apply list_sum_flat. }
    rewrite ES. assert (SPL : ts = firstn tn ts ++ k :: skipn (S tn) ts).
    { rewrite <- (firstn_skipn tn ts) at 1. f_equal. clear - Ek. revert ts Ek. generalize tn. induction tn0 as [|i IHi]; intros [|a ts] E; cbn in E; try discriminate; [now injection E as ->|].
      cbn [skipn]. now apply IHi. }
    rewrite SPL in HSt, HBk. rewrite flat_map_app in HSt, HBk. apply stand_app in HSt. destruct HSt as [HS1 HS2].
    apply Forall_app in HBk. destruct HBk as [HBm HBt]. apply Forall_app in HBt. destruct HBt as [HB1 HB2].
    cbn [flat_map] in HS2, HB2. apply stand_app in HS2. destruct HS2 as [HSK HSR]. apply Forall_app in HB2. destruct HB2 as [_ HBR].
    rewrite (skip_blocks _ _ _ HS1 HB1). cbn [dbind].
    apply obind_some in Eq. destruct Eq as (kv & Ekv & E). injection E as <-. cbn [fst snd].
    destruct (HEAD k en kv Ekv) as (bk & tk & Ebk & Hnk).
    assert (HNK : getNormalization A (adv c2 (flat_map F (firstn tn ts))) 0 = DOk (norms k)).
    { rewrite <- Hnk. fold (F k) in Ebk. rewrite Ebk in HSK. apply stand_cons in HSK. apply rd_nor. apply HSK. }
    rewrite HNK. cbn [dbind].
    rewrite (REC k (or_intror (nth_error_In _ _ Ek)) e en kv _ HA Ekv HSK). cbn [dbind].
    assert (LC : len (b_cons b) - 1 = len ts) by (rewrite Cb; cbn [len]; rewrite map_length, Lls; lia). rewrite LC.
    rewrite (sum_constants_ok c b ls 1 HSb HCO SLS 0 (seq 1 (len ts))).
    2:{ rewrite seq_length. lia. } 2:{ rewrite seq_length. rewrite <- map_S_seq, seq_shift. reflexivity. }
    rewrite seq_length. cbn [dbind skipn]. rewrite <- Lls at 1. rewrite firstn_all. unfold ls at 1. rewrite list_sum_flat.
    replace (flat_map F ts) with (flat_map F (firstn tn ts) ++ F k ++ flat_map F (skipn (S tn) ts)) at 1.
    2:{ rewrite SPL at 3. rewrite flat_map_app. reflexivity. }
    rewrite !adv_fun, !app_length.
    replace (_ - _) with (len (flat_map F (skipn (S tn) ts))) by lia.
    rewrite (skip_blocks _ _ _ HSR HBR). cbn [dbind]. f_equal. f_equal. unfold c2. cbn [flat_map].
    assert (EF : flat_map F ts = flat_map F (firstn tn ts) ++ F k ++ flat_map F (skipn (S tn) ts)).
    { rewrite SPL at 1. rewrite flat_map_app. reflexivity. }
    fold F. rewrite EF, !adv_app. reflexivity.
  - (* CompositePdf *)
    destruct Hm1 as (K & P & C). apply obind_some in HV. destruct HV as (cv & Ecv & HV). apply obind_some in HV. destruct HV as (o & Eo & HV).
    cbn [node_ok] in HNb. rewrite Eo in HNb.
    rewrite K. cbn [body]. unfold dev_composite. rewrite NI. cbn [dbind]. cbn [flat_map] in HSk. apply stand_app in HSk. destruct HSk as [HSc HSs].
    rewrite app_nil_r in HSs. rewrite (REC core (or_introl eq_refl) e en cv _ HA Ecv HSc). cbn [dbind].
    assert (Hsh : exists nsh, nth_error ns shell = Some nsh).
    { destruct f as [|f']; [discriminate|]. cbn [value] in HV. destruct (nth_error ns shell); [eauto|discriminate]. }
    destruct Hsh as [nsh Ensh]. destruct (M shell nsh Ensh) as (_ & psh & Epsh & _).
    destruct (FIRST shell psh o Epsh Eo) as [Ho Wo].
    assert (Hf0 : exists f', f = S f') by (destruct f; [discriminate|eauto]). destruct Hf0 as [f' Hf'].
    assert (Hb : exists t, F shell = block_of hp psh :: t).
    { unfold F. rewrite Hf'. cbn [flat]. rewrite Epsh. eauto. }
    destruct Hb as [tsh Hb]. pose proof HSs as HSs0. rewrite Hb in HSs0. apply stand_cons in HSs0. destruct HSs0 as [HSb2 _].
    rewrite (rd_obs _ _ _ HSb2 0 (f_of_Z (get_i hp o))). 2:{ unfold block_of. cbn [b_obs]. now apply idxs_nth. }
    cbn [dbind]. rewrite to_index_Z by lia. cbn [dbind].
    replace (Nat.ltb (Z.to_nat (get_i hp o)) 10) with true by (symmetry; apply Nat.ltb_lt; lia).
    rewrite (REC shell (or_intror (or_introl eq_refl)) _ (fun h => if handle_eqb h o then Some cv else None) v _).
    + f_equal. f_equal. cbn [flat_map]. rewrite app_nil_r, adv_app. reflexivity.
    + intros h w Wh Hw. destruct (handle_eqb h o) eqn:Eh; [|discriminate]. injection Hw as <-. now apply event_fake.
    + exact HV.
    + exact HSs.
Qed.
End Tree.
