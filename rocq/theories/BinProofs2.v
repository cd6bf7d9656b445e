(** Weighted event counts, and the grid points of C04 as bin centres. *)
From Coq Require Import List ZArith Bool Lia Reals Lra.
From Flocq Require Import Core BinarySingleNaN.
From Verif Require Import F64 F64Lemmas F64Err ListAux VariableModel DataSetModel BinModel BinSpec BinProofs BinGeom.
Import ListNotations.
Open Scope Z_scope.

Definition zsum (l : list Z) : Z := fold_right Z.add 0 l.
Lemma zsum_nonneg : forall l, Forall (fun z => 0 <= z) l -> 0 <= zsum l.
Proof. intros l H; induction H; unfold zsum in *; simpl; lia. Qed.

Lemma weighted_loop_Z : forall zs acc, Forall (fun z => 0 <= z) zs -> 0 <= acc -> acc + zsum zs < 2 ^ 31 ->
  weighted_loop acc (map f_of_Z zs) = BOk (acc + zsum zs).
Proof.
  intros zs; induction zs as [|z zs IH]; intros acc H Ha Hs.
  - simpl. f_equal. lia.
  - inversion H as [|? ? Hz Hzs]; subst. unfold zsum in Hs. cbn [fold_right] in Hs. fold (zsum zs) in Hs.
    pose proof (zsum_nonneg zs Hzs) as Hp. cbn [map weighted_loop].
    destruct (f_of_Z_exact acc ltac:(lia)) as [Ea Fa]. destruct (f_of_Z_exact z ltac:(lia)) as [Ez Fz].
    destruct (fadd_rnd (f_of_Z acc) (f_of_Z z) Fa Fz) as [F E].
    { rewrite Ea, Ez, <- plus_IZR, <- abs_IZR. apply Rle_trans with (IZR (2^53)); [apply IZR_le; lia|].
      change (IZR (2^53)) with (bpow radix2 53). apply bpow_le. lia. }
    rewrite Ea, Ez, <- plus_IZR in E. unfold rnd in E. rewrite round_Z in E by lia.
    rewrite ftruncZ_spec, E, Ztrunc_IZR. change (f_isfinite (fadd (f_of_Z acc) (f_of_Z z))) with (is_finite (fadd (f_of_Z acc) (f_of_Z z))). rewrite F.
    replace (- 2 ^ 31 <=? acc + z) with true by (symmetry; apply Z.leb_le; lia).
    replace (acc + z <? 2 ^ 31) with true by (symmetry; apply Z.ltb_lt; lia).
    cbn [andb]. rewrite IH by (auto; lia). unfold zsum. cbn [fold_right]. f_equal. ring.
Qed.

Definition winv (bound : Z) (b : binned) : Prop :=
  exists zs, b_values b = map f_of_Z zs /\ Forall (fun z => 0 <= z) zs /\ zsum zs = Z.of_nat (b_num b) /\
             Z.of_nat (b_num b) <= bound.

Lemma zsum_upd : forall zs i z, nth_error zs i = Some z -> zsum (upd zs i (z + 1)) = zsum zs + 1.
Proof.
  intros zs; induction zs as [|a t IH]; intros [|i] z H; simpl in H; try discriminate.
  - inversion H; subst. unfold zsum. cbn [upd fold_right]. lia.
  - cbn [upd]. unfold zsum in *. cbn [fold_right]. rewrite (IH i z H). lia.
Qed.
Lemma map_upd : forall {A B} (f : A -> B) l i x, map f (upd l i x) = upd (map f l) i (f x).
Proof. intros A B f l; induction l as [|a t IH]; intros [|i] x; simpl; auto. rewrite IH. reflexivity. Qed.
Lemma Forall_upd_ge : forall zs i z, Forall (fun z => 0 <= z) zs -> 0 <= z -> Forall (fun z => 0 <= z) (upd zs i z).
Proof. intros zs; induction zs as [|a t IH]; intros [|i] z H Hz; simpl; auto; inversion H; subst; constructor; auto. Qed.

Lemma zsum_ge_nth : forall zs i z, Forall (fun z => 0 <= z) zs -> nth_error zs i = Some z -> 0 <= z <= zsum zs.
Proof.
  intros zs; induction zs as [|a t IH]; intros [|i] z H E; simpl in E; try discriminate; inversion H; subst;
  unfold zsum; cbn [fold_right]; fold (zsum t).
  - inversion E; subst. pose proof (zsum_nonneg t). intuition lia.
  - specialize (IH i z ltac:(auto) E). lia.
Qed.

Lemma winv_add : forall bound b hp b' r, winv bound b -> bound < 2 ^ 53 -> add_weight hp b fone = (b', r) -> winv (bound + 1) b'.
Proof.
  intros bound b hp b' r (zs & Ev & Hp & Hs & Hb) Hbd E.
  destruct (add_weight_cases _ _ _ _ _ E) as [[-> _]|(_ & k & old & _ & En & ->)].
  - exists zs. repeat split; auto. lia.
  - rewrite Ev in En. rewrite nth_error_map in En. destruct (nth_error zs (Z.to_nat k)) as [z|] eqn:Ez; [|discriminate].
    simpl in En. inversion En; subst old.
    pose proof (zsum_ge_nth _ _ _ Hp Ez) as Hz.
    exists (upd zs (Z.to_nat k) (z + 1)). cbn [b_values b_num].
    split; [|split; [|split]].
    + rewrite map_upd, <- Ev. unfold fone. rewrite fadd_Z by lia. reflexivity.
    + apply Forall_upd_ge; auto. lia.
    + rewrite (zsum_upd _ _ _ Ez). lia.
    + lia.
Qed.
Lemma winv_weaken : forall a b c, winv a c -> a <= b -> winv b c.
Proof. intros a b c (zs & H1 & H2 & H3 & H4) H. exists zs. repeat split; auto. lia. Qed.

Lemma winv_step : forall bound st o, plain o = true -> winv bound (snd st) -> bound < 2 ^ 53 ->
  winv (bound + 1) (snd (fst (bstep st o))).
Proof.
  intros bound [hp b] o Ho H Hb. cbn [snd] in H.
  destruct o as [h f c| |vals|w|i x|i e|i|i| | | |iv k|iv| | ]; try discriminate; cbn [bstep fst snd];
    try (apply winv_weaken with bound; [exact H|lia]).
  - destruct (b_addEvent hp b) as [b' r] eqn:E. eapply winv_add; eauto.
  - unfold b_addEventValues. destruct (Nat.eqb _ _); [|apply winv_weaken with bound; [exact H|lia]].
    destruct (b_addEvent _ b) as [b' r] eqn:E. eapply winv_add; eauto.
  - unfold setBinError. destruct (nth_error _ _); cbn [fst snd]; apply winv_weaken with bound; auto; lia.
Qed.
Lemma winv_run : forall ops bound st, forallb plain ops = true -> winv bound (snd st) ->
  bound + Z.of_nat (length ops) < 2 ^ 53 -> winv (bound + Z.of_nat (length ops)) (snd (fst (brun st ops))).
Proof.
  intros ops; induction ops as [|o t IH]; intros bound st H HW Hb.
  - simpl. rewrite Z.add_0_r. exact HW.
  - simpl in H. apply andb_prop in H. destruct H as [Ho Ht]. rewrite brun_cons.
    cbn [length] in *. replace (bound + Z.of_nat (S (length t))) with (bound + 1 + Z.of_nat (length t)) by lia.
    apply IH; auto; [apply winv_step; auto; lia|lia].
Qed.
Lemma winv_new : forall hp obs, winv 0 (new_binned hp obs).
Proof.
  intros hp obs. exists (repeat 0 (Z.to_nat (getNumBins (collectBins hp obs)))). unfold new_binned. cbn [b_values b_num].
  repeat split.
  - assert (E : f_of_Z 0 = fzero) by (apply fsame_eq; vm_compute; reflexivity). rewrite <- E.
    generalize (Z.to_nat (getNumBins (collectBins hp obs))). intros m; induction m as [|m IH]; cbn [repeat map]; [reflexivity|]. rewrite IH at 1. reflexivity.
  - apply Forall_forall. intros x Hx. apply repeat_spec in Hx. lia.
  - generalize (Z.to_nat (getNumBins (collectBins hp obs))). intros m. induction m as [|m IH]; simpl; auto.
  - lia.
Qed.

Lemma weighted_is_count : forall hp obs ops, forallb plain ops = true -> Z.of_nat (length ops) < 2 ^ 31 ->
  exists n, ask (bafter hp obs ops) BGetNumEvents = BRNum n /\
            ask (bafter hp obs ops) BGetNumWeighted = BRVal (f_of_Z n).
Proof.
  intros hp obs ops H HL.
  pose proof (winv_run ops 0 (hp, new_binned hp obs) H (winv_new hp obs) ltac:(lia)) as (zs & Ev & Hp & Hs & Hb).
  fold (bafter hp obs ops) in Ev, Hs, Hb. destruct (bafter hp obs ops) as [hp' b]. cbn [snd] in *.
  exists (Z.of_nat (b_num b)). unfold ask. cbn [bstep snd]. split; [reflexivity|].
  unfold getNumWeightedEvents. rewrite Ev. rewrite weighted_loop_Z by (auto; lia).
  cbn [bbind bout_val]. rewrite Hs. reflexivity.
Qed.

(** ** Grid points: the doubles computed by fillWithGrid are the bin centres up to rounding. *)
Open Scope R_scope.
Lemma fadd_comm : forall x y, fadd x y = fadd y x.
Proof.
  intros x y. unfold fadd. destruct x as [s|s| |s m e H]; destruct y as [s'|s'| |s' m' e' H']; simpl; auto;
    try (destruct s, s'; reflexivity).
  rewrite (Z.min_comm e e'). f_equal. apply Z.add_comm.
Qed.
Lemma fmul_comm : forall x y, fmul x y = fmul y x.
Proof.
  intros x y. unfold fmul. destruct x as [s|s| |s m e H]; destruct y as [s'|s'| |s' m' e' H']; simpl; auto;
    try (rewrite xorb_comm; reflexivity).
  apply B2SF_inj. rewrite !B2SF_SF2B. rewrite (xorb_comm s s'), (Pos.mul_comm m m'), (Z.add_comm e e'). reflexivity.
Qed.
Lemma grid_point_center : forall lo up n k, grid_point lo up n k = bin_center lo up n (Z.of_nat k).
Proof.
  intros. unfold grid_point, bin_center, bin_size. rewrite fadd_comm. f_equal. apply fmul_comm.
Qed.
Lemma grid_point_err : forall lo up n k, usable lo up n -> (0 <= Z.of_nat k < n)%Z ->
  f_isfinite (grid_point lo up n k) = true /\
  Rabs (f2R (grid_point lo up n k) - midpoint (f2R lo) (f2R up) n (Z.of_nat k))
    <= 12 * / 2 ^ 53 * Rmax (Rabs (f2R lo)) (Rabs (f2R up)).
Proof.
  intros lo up n k U Hk. rewrite grid_point_center.
  destruct (center_err lo up n U (Z.of_nat k) Hk) as [F E]. split; [exact F|].
  rewrite pow_bpow_inv. exact E.
Qed.

(** ** API-level facts about bin numbers and centres. *)
Lemma bafter_shape : forall hp obs ops, b_obs (snd (bafter hp obs ops)) = obs /\
  b_sizes (snd (bafter hp obs ops)) = collectBins hp obs.
Proof. intros. destruct (b_sizes_run ops (hp, new_binned hp obs)) as [H1 H2]. split; [exact H2|exact H1]. Qed.

Lemma inside_in_range : forall lo up n k v, usable lo up n -> inside lo up n k v -> in_range lo up v = true.
Proof.
  intros lo up n k v HU HI. destruct (inside_limits _ _ _ HU _ _ HI) as [Fv [H1 H2]].
  unfold in_range. apply orb_true_iff. right. apply andb_true_iff. rewrite !fle_R; auto; apply HU.
Qed.

Lemma check_inside : forall hp obs sizes ks, Forall2 (obs_usable hp) obs sizes ->
  Forall2 (obs_inside hp) obs (combine sizes ks) -> checkAllVars hp obs = Ok tt.
Proof.
  intros hp obs sizes ks H; revert ks; induction H as [|o n os ns Ho H IH]; intros ks HI; [reflexivity|].
  destruct ks as [|k ks]; cbn [combine] in HI; inversion HI as [|? ? ? ? Hk HI']; subst.
  cbn [checkAllVars]. unfold handle_in_range. unfold obs_inside in Hk. cbn [fst snd] in Hk.
  rewrite (inside_in_range _ _ _ _ _ Ho Hk). eapply IH; eauto.
Qed.

Lemma sizes_positive : forall hp obs sizes, Forall2 (obs_usable hp) obs sizes -> Forall (fun s => (1 <= s)%Z) sizes.
Proof. intros hp obs sizes H; induction H as [|o n os ns Ho H IH]; constructor; auto. destruct Ho as (_ & _ & ? & _). lia. Qed.

Lemma value_in_bin_api : forall hp0 obs ops ks,
  let st := bafter hp0 obs ops in let sizes := collectBins hp0 obs in
  Forall2 (obs_usable (fst st)) obs sizes -> (zproduct sizes < 2 ^ 31)%Z -> length ks = length sizes ->
  Forall2 (obs_inside (fst st)) obs (combine sizes ks) ->
  ask st BAddEvent = BROk /\
  ask st BGetBinNumber = BRNum (global_of sizes ks) /\
  (0 <= global_of sizes ks < zproduct sizes)%Z.
Proof.
  intros hp0 obs ops ks st sizes HU HP HL HI.
  destruct (bafter_shape hp0 obs ops) as [Eo Es]. fold st in Eo, Es. fold sizes in Es.
  pose proof (binv_run ops _ _ (hp0, new_binned hp0 obs) (binv_new hp0 obs)) as (L & _ & _).
  fold (bafter hp0 obs ops) in L. fold st in L. fold sizes in L.
  assert (HSz : Forall (fun s => (1 <= s)%Z) sizes) by (eapply sizes_positive; eauto).
  rewrite numBins_product in L by auto.
  destruct st as [hp b]. cbn [fst snd] in *.
  rewrite <- Eo, <- Es in HU. 
  destruct (bin_number_inside hp b ks HU) as [En Hr]; [rewrite Es; lia|rewrite Es; auto|rewrite Eo, Es; auto|].
  rewrite Es in En, Hr. unfold ask. cbn [bstep]. rewrite En. cbn [snd bout_num]. split; [|split; [reflexivity|exact Hr]].
  unfold b_addEvent, add_weight. rewrite Eo. rewrite Eo, Es in HU. rewrite (check_inside hp obs sizes ks HU HI).
  rewrite En. destruct (nth_error (b_values b) (Z.to_nat (global_of sizes ks))) eqn:E; [reflexivity|].
  apply nth_error_None in E. lia.
Qed.

Lemma center_api : forall hp0 obs ops i o n g,
  let st := bafter hp0 obs ops in let sizes := collectBins hp0 obs in
  Forall (fun s => (1 <= s)%Z) sizes -> nth_error obs i = Some o -> nth_error sizes i = Some n ->
  obs_usable (fst st) o n ->
  exists c, ask st (BGetBinCenter i g) = BRVal c /\ f_isfinite c = true /\
    Rabs (f2R c - midpoint (f2R (get_f (fst st) o FLower)) (f2R (get_f (fst st) o FUpper)) n (local_of sizes (Z.of_nat g) i))
      <= 12 * / 2 ^ 53 * Rmax (Rabs (f2R (get_f (fst st) o FLower))) (Rabs (f2R (get_f (fst st) o FUpper))).
Proof.
  intros hp0 obs ops i o n g st sizes HS Ho Hn HU.
  destruct (bafter_shape hp0 obs ops) as [Eo Es]. fold st in Eo, Es. fold sizes in Es.
  destruct st as [hp b]. cbn [fst snd] in *.
  destruct (globalToLocal_ok sizes (Z.of_nat g) HS) as (locals & E & L & N).
  unfold ask. cbn [bstep snd]. unfold getBinCenter. rewrite Es, Eo, E. cbn [bbind]. rewrite Ho, Hn.
  assert (Hi : (i < length sizes)%nat) by (apply nth_error_Some_lt in Hn; auto).
  destruct (nth_error locals i) as [k|] eqn:Ek; [|apply nth_error_None in Ek; lia].
  pose proof (N i Hi) as Nk. rewrite (nth_error_nth _ _ _ Ek) in Nk.
  assert (Hk : (0 <= local_of sizes (Z.of_nat g) i < n)%Z).
  { unfold local_of. rewrite (nth_error_nth _ _ _ Hn). apply Z.mod_pos_bound. destruct HU as (_ & _ & ? & _). lia. }
  exists (bin_center (get_f hp o FLower) (get_f hp o FUpper) n k). rewrite Nk. split; [reflexivity|].
  destruct (center_err _ _ _ HU _ Hk) as [F X]. split; [exact F|]. rewrite pow_bpow_inv. exact X.
Qed.

Lemma nth_error_ext_len : forall {A B} (P : A -> B -> Prop) l m, length l = length m ->
  (forall i a b, nth_error l i = Some a -> nth_error m i = Some b -> P a b) -> Forall2 P l m.
Proof.
  intros A B P l; induction l as [|a t IH]; intros [|b u] HL H; simpl in HL; try discriminate; constructor.
  - apply (H 0%nat); reflexivity.
  - apply IH; [lia|]. intros i x y Hx Hy. apply (H (S i)); auto.
Qed.

Lemma center_found_again : forall hp0 obs ops g hp,
  let st := bafter hp0 obs ops in let sizes := collectBins hp0 obs in
  Forall2 (obs_usable (fst st)) obs sizes -> (zproduct sizes <= 2 ^ 32)%Z -> (Z.of_nat g < zproduct sizes)%Z ->
  Forall2 (fun o n => resolved (get_f (fst st) o FLower) (get_f (fst st) o FUpper) n) obs sizes ->
  (forall o, In o obs -> get_f hp o FLower = get_f (fst st) o FLower /\ get_f hp o FUpper = get_f (fst st) o FUpper) ->
  (forall i o, nth_error obs i = Some o -> ask st (BGetBinCenter i g) = BRVal (get_f hp o FValue)) ->
  ask (hp, snd st) BGetBinNumber = BRNum (Z.of_nat g).
Proof.
  intros hp0 obs ops g hp st sizes HU HP Hg HR HL HV.
  destruct (bafter_shape hp0 obs ops) as [Eo Es]. fold st in Eo, Es. fold sizes in Es.
  assert (HS : Forall (fun s => (1 <= s)%Z) sizes) by (eapply sizes_positive; eauto).
  assert (Hlen : length obs = length sizes) by (eapply Forall2_len; eauto).
  destruct (global_roundtrip sizes (Z.of_nat g) HS HP ltac:(lia)) as (locals & E & R & N & G).
  assert (HLo : length locals = length sizes) by (eapply Forall2_len; eauto).
  destruct st as [hp1 b]. cbn [fst snd] in *.
  assert (HU' : Forall2 (obs_usable hp) obs sizes).
  { apply nth_error_ext_len; auto. intros i o n Ho Hn.
    destruct (HL o (nth_error_In _ _ Ho)) as [-> ->] || idtac. unfold obs_usable.
    destruct (HL o (nth_error_In _ _ Ho)) as [E1 E2]. rewrite E1, E2.
    clear - HU Ho Hn. revert i Ho Hn. induction HU as [|a b l m H1 H2 IH]; intros [|i] Ho Hn; simpl in *; try discriminate.
    - inversion Ho; inversion Hn; subst; auto.
    - eauto. }
  unfold ask. cbn [bstep snd].
  destruct (bin_number_inside hp b locals) as [En _].
  - rewrite Eo, Es. exact HU'.
  - rewrite Es. auto.
  - rewrite Es. auto.
  - rewrite Eo, Es. apply nth_error_ext_len.
    { rewrite combine_length. lia. }
    intros i o [n k] Ho Hnk.
    assert (Hn : nth_error sizes i = Some n /\ nth_error locals i = Some k).
    { clear - Hnk. revert locals i Hnk. induction sizes as [|s ss IH]; intros [|l ls] [|i] H; simpl in *; try discriminate.
      - inversion H; auto.
      - auto. }
    destruct Hn as [Hn Hk]. unfold obs_inside. cbn [fst snd].
    destruct (HL o (nth_error_In _ _ Ho)) as [E1 E2]. rewrite E1, E2.
    specialize (HV i o Ho). unfold ask in HV. cbn [bstep snd] in HV. unfold getBinCenter in HV.
    rewrite Es, Eo, E in HV. cbn [bbind] in HV. rewrite Hk, Ho, Hn in HV. cbn [bout_val] in HV.
    replace (get_f hp o FValue) with (bin_center (get_f hp1 o FLower) (get_f hp1 o FUpper) n k) by congruence. apply center_inside.
    + clear - HU Ho Hn. revert i Ho Hn. induction HU as [|a b l m H1 H2 IH]; intros [|i] Ho Hn; simpl in *; try discriminate.
      * inversion Ho; inversion Hn; subst; auto.
      * eauto.
    + clear - R Hn Hk. revert i Hn Hk. induction R as [|a b l m H1 H2 IH]; intros [|i] Hn Hk; simpl in *; try discriminate.
      * inversion Hk; inversion Hn; subst; auto.
      * eauto.
    + clear - HR Ho Hn. revert i Ho Hn. induction HR as [|a b l m H1 H2 IH]; intros [|i] Ho Hn; simpl in *; try discriminate.
      * inversion Ho; inversion Hn; subst; auto.
      * eauto.
  - rewrite Es in En. rewrite En. cbn [bout_num]. f_equal. rewrite <- (localToGlobal_ok sizes locals) by auto. exact G.
Qed.

(** Integer limits are usable. *)
Lemma usable_Z : forall a b n, (Z.abs a <= 2 ^ 53)%Z -> (Z.abs b <= 2 ^ 53)%Z -> (a < b)%Z -> (1 <= n <= 2 ^ 32)%Z ->
  usable (f_of_Z a) (f_of_Z b) n /\ f2R (f_of_Z a) = IZR a /\ f2R (f_of_Z b) = IZR b.
Proof.
  intros a b n Ha Hb Hab Hn. destruct (f_of_Z_exact a Ha) as [Ea Fa]. destruct (f_of_Z_exact b Hb) as [Eb Fb].
  split; [|split; assumption]. unfold usable, f2R. rewrite Ea, Eb.
  assert (B : forall z, (Z.abs z <= 2^53)%Z -> - 2 ^ 1021 <= IZR z <= 2 ^ 1021).
  { intros z Hz. rewrite pow_bpow. change (Z.of_nat 1021) with 1021%Z.
    assert (X : Rabs (IZR z) <= bpow radix2 1021).
    { rewrite <- abs_IZR. apply Rle_trans with (IZR (2^53)). apply IZR_le; auto.
      change (IZR (2^53)) with (bpow radix2 53). apply bpow_le. lia. }
    apply Rabs_le_inv in X. exact X. }
  repeat split; auto; try apply B; auto; try lia.
  - apply IZR_lt. auto.
  - unfold width. rewrite pow_bpow_inv. rewrite <- minus_IZR.
    assert (N1 : 1 <= IZR n <= 4294967296) by (split; apply IZR_le; lia).
    assert (D1 : 1 <= IZR (b - a)) by (apply IZR_le; lia).
    apply Rle_trans with (bpow radix2 (-32)); [apply bpow_le; lia|].
    change (bpow radix2 (-32)) with (/ 4294967296).
    apply Rmult_le_reg_r with (IZR n); [lra|]. unfold Rdiv. rewrite Rmult_assoc, Rinv_l, Rmult_1_r by lra. lra.
Qed.
