(** Proofs about bin numbering and histogram contents. *)
From Coq Require Import List ZArith Bool Lia Arith.
From Verif Require Import F64 F64Lemmas ListAux VariableModel VariableProofs DataSetModel BinModel BinSpec.
Import ListNotations.
Open Scope Z_scope.

(** ** Numbering *)
Lemma zproduct_pos : forall l, Forall (fun s => 1 <= s) l -> 1 <= zproduct l.
Proof. intros l H; induction H as [|s l Hs H IH]; simpl; [lia|]. nia. Qed.

Lemma globalToLocal_ok : forall sizes g, Forall (fun s => 1 <= s) sizes ->
  exists locals, globalToLocal sizes g = BOk locals /\ length locals = length sizes /\
    forall i, (i < length sizes)%nat -> nth i locals 0 = local_of sizes g i.
Proof.
  intros sizes; induction sizes as [|s ss IH]; intros g H.
  - exists []. repeat split; auto. simpl; intros; lia.
  - inversion H as [|? ? Hs Hss]; subst. destruct (IH (g / s) Hss) as (ls & E & L & N).
    exists (g mod s :: ls). cbn [globalToLocal]. replace (s =? 0) with false by (symmetry; apply Z.eqb_neq; lia).
    rewrite E. cbn [bbind]. split; [reflexivity|]. split; [simpl; lia|].
    intros [|i] Hi.
    + unfold local_of. cbn [firstn zproduct fold_right nth]. rewrite Z.div_1_r. reflexivity.
    + cbn [nth]. rewrite N by (simpl in Hi; lia). unfold local_of. cbn [firstn nth].
      change (zproduct (s :: firstn i ss)) with (s * zproduct (firstn i ss)).
      assert (P : 1 <= zproduct (firstn i ss)).
      { apply zproduct_pos. apply Forall_forall. intros x Hx. rewrite Forall_forall in Hss. apply Hss.
        rewrite <- (firstn_skipn i ss). apply in_or_app. auto. }
      rewrite Z.div_div by lia. reflexivity.
Qed.

Lemma global_of_cons : forall s ss l ls, global_of (s :: ss) (l :: ls) = l + s * global_of ss ls.
Proof.
  intros s ss l ls. unfold global_of. cbn [length seq map fold_right nth firstn].
  change (zproduct []) with 1. rewrite Z.mul_1_r. f_equal.
  rewrite <- seq_shift, map_map. generalize (length ls) as m.
  intros m. generalize 0%nat as a.
  induction m as [|m IH]; intros a; cbn [seq map fold_right]; [lia|].
  rewrite IH. cbn [nth firstn].
  change (zproduct (s :: firstn a ss)) with (s * zproduct (firstn a ss)). ring.
Qed.
Lemma global_of_nil : forall sizes, global_of sizes [] = 0.
Proof. reflexivity. Qed.

Lemma global_of_range : forall sizes locals, Forall2 (fun l s => 0 <= l < s) locals sizes ->
  0 <= global_of sizes locals < zproduct sizes.
Proof.
  intros sizes locals H; induction H as [|l s ls ss Hl H IH].
  - unfold global_of, zproduct; simpl; lia.
  - rewrite global_of_cons. change (zproduct (s :: ss)) with (s * zproduct ss). nia.
Qed.

Lemma mod_idem : forall a b, u32 (u32 a + u64 b) = u32 (a + b).
Proof.
  intros a b. unfold u32, u64. rewrite Z.add_mod_idemp_l by lia.
  rewrite <- (Z.add_mod_idemp_r _ (b mod 2^64)) by lia.
  rewrite <- (Znumtheory.Zmod_div_mod (2^32) (2^64)); [|lia|lia|exists (2^32); reflexivity].
  rewrite Z.add_mod_idemp_r by lia. reflexivity.
Qed.

Lemma l2g_spec : forall locals sizes ret prior, length locals = length sizes ->
  l2g_loop (u32 ret) (u32 prior) locals sizes = u32 (ret + prior * global_of sizes locals).
Proof.
  intros locals; induction locals as [|l ls IH]; intros [|s ss] ret prior HL; simpl in HL; try discriminate.
  - cbn [l2g_loop]. rewrite global_of_nil, Z.mul_0_r, Z.add_0_r. reflexivity.
  - cbn [l2g_loop]. rewrite mod_idem.
    assert (E1 : u32 (u32 prior * s) = u32 (prior * s)) by (unfold u32; rewrite Z.mul_mod_idemp_l by lia; reflexivity).
    rewrite E1, IH by lia. rewrite global_of_cons.
    unfold u32.
    replace (ret + l * (prior mod 2 ^ 32) + prior * s * global_of ss ls)
      with ((ret + prior * s * global_of ss ls) + l * (prior mod 2 ^ 32)) by ring.
    replace (ret + prior * (l + s * global_of ss ls))
      with ((ret + prior * s * global_of ss ls) + l * prior) by ring.
    rewrite <- (Z.add_mod_idemp_r _ (l * (prior mod 2^32))) by lia.
    rewrite Z.mul_mod_idemp_r by lia. rewrite Z.add_mod_idemp_r by lia. reflexivity.
Qed.

Lemma localToGlobal_wrapped : forall sizes locals, length locals = length sizes ->
  localToGlobal sizes locals = u32 (global_of sizes locals).
Proof.
  intros sizes locals H. unfold localToGlobal.
  change 0 with (u32 0) at 1. change 1 with (u32 1) at 1. rewrite l2g_spec by auto.
  f_equal. ring.
Qed.
Lemma Forall2_len : forall {A B} (P : A -> B -> Prop) l m, Forall2 P l m -> length l = length m.
Proof. intros A B P l m H; induction H; simpl; auto. Qed.
Lemma localToGlobal_ok : forall sizes locals, zproduct sizes <= 2 ^ 32 ->
  Forall2 (fun l s => 0 <= l < s) locals sizes -> localToGlobal sizes locals = global_of sizes locals.
Proof.
  intros sizes locals HP H. rewrite localToGlobal_wrapped by (eapply Forall2_len; eauto).
  pose proof (global_of_range _ _ H). unfold u32. apply Z.mod_small. lia.
Qed.

Lemma locals_in_range : forall sizes g locals, Forall (fun s => 1 <= s) sizes ->
  globalToLocal sizes g = BOk locals -> Forall2 (fun l s => 0 <= l < s) locals sizes.
Proof.
  intros sizes; induction sizes as [|s ss IH]; intros g locals H E.
  - simpl in E. inversion E. constructor.
  - inversion H; subst. cbn [globalToLocal] in E. destruct (s =? 0); [discriminate|].
    destruct (globalToLocal ss (g / s)) as [r|e|] eqn:E1; simpl in E; try discriminate.
    inversion E; subst. constructor; [apply Z.mod_pos_bound; lia|]. eapply IH; eauto.
Qed.

Lemma global_of_globalToLocal : forall sizes g locals, Forall (fun s => 1 <= s) sizes -> 0 <= g < zproduct sizes ->
  globalToLocal sizes g = BOk locals -> global_of sizes locals = g.
Proof.
  intros sizes; induction sizes as [|s ss IH]; intros g locals H Hg E.
  - simpl in E. inversion E; subst. unfold zproduct in Hg. simpl in Hg. rewrite global_of_nil. lia.
  - inversion H as [|? ? Hs Hss]; subst. cbn [globalToLocal] in E. destruct (s =? 0); [discriminate|].
    destruct (globalToLocal ss (g / s)) as [r|e|] eqn:E1; simpl in E; try discriminate.
    inversion E; subst. rewrite global_of_cons.
    change (zproduct (s :: ss)) with (s * zproduct ss) in Hg.
    rewrite (IH (g / s) r Hss) ; auto.
    + rewrite Z.add_comm. symmetry. apply Z.div_mod. lia.
    + split; [apply Z.div_pos; lia|]. apply Z.div_lt_upper_bound; lia.
Qed.

Lemma global_roundtrip : forall sizes g, Forall (fun s => 1 <= s) sizes -> zproduct sizes <= 2 ^ 32 ->
  0 <= g < zproduct sizes ->
  exists locals, globalToLocal sizes g = BOk locals /\ Forall2 (fun l s => 0 <= l < s) locals sizes /\
    (forall i, (i < length sizes)%nat -> nth i locals 0 = local_of sizes g i) /\
    localToGlobal sizes locals = g.
Proof.
  intros sizes g H HP Hg. destruct (globalToLocal_ok sizes g H) as (locals & E & _ & N).
  exists locals. pose proof (locals_in_range _ _ _ H E) as R.
  repeat split; auto. rewrite localToGlobal_ok; auto. eapply global_of_globalToLocal; eauto.
Qed.

Lemma local_roundtrip : forall sizes locals, zproduct sizes <= 2 ^ 32 ->
  Forall2 (fun l s => 0 <= l < s) locals sizes ->
  0 <= localToGlobal sizes locals < zproduct sizes /\ globalToLocal sizes (localToGlobal sizes locals) = BOk locals.
Proof.
  intros sizes locals HP H. rewrite localToGlobal_ok by auto. split; [apply global_of_range; auto|].
  clear HP. induction H as [|l s ls ss Hl H IH]; [reflexivity|].
  rewrite global_of_cons. cbn [globalToLocal].
  replace (s =? 0) with false by (symmetry; apply Z.eqb_neq; lia).
  replace ((l + s * global_of ss ls) / s) with (global_of ss ls)
    by (rewrite (Z.mul_comm s), Z.div_add by lia; rewrite (Z.div_small l s) by lia; lia).
  replace ((l + s * global_of ss ls) mod s) with l
    by (rewrite (Z.mul_comm s), Z.mod_add by lia; rewrite Z.mod_small by lia; lia).
  rewrite IH. reflexivity.
Qed.

Lemma numBins_fold : forall sizes acc, Forall (fun s => 1 <= s) sizes -> 1 <= acc -> acc * zproduct sizes < 2 ^ 31 ->
  fold_left (fun acc b => i32 (u64 (u64 acc * b))) sizes acc = acc * zproduct sizes.
Proof.
  intros sizes; induction sizes as [|s ss IH]; intros acc H Ha HP.
  - simpl. change (zproduct []) with 1. ring.
  - inversion H as [|? ? Hs Hss]; subst. change (zproduct (s :: ss)) with (s * zproduct ss) in *.
    pose proof (zproduct_pos ss Hss). cbn [fold_left].
    assert (acc * s <= acc * (s * zproduct ss)) by nia.
    assert (acc <= acc * s) by nia.
    replace (i32 (u64 (u64 acc * s))) with (acc * s).
    + rewrite IH; auto; try nia. 
    + unfold u64. rewrite (Z.mod_small acc) by lia. rewrite (Z.mod_small (acc * s)) by lia.
      unfold i32. rewrite Z.mod_small by lia. lia.
Qed.
Lemma numBins_product : forall sizes, Forall (fun s => 1 <= s) sizes -> zproduct sizes < 2 ^ 31 ->
  getNumBins sizes = zproduct sizes.
Proof.
  intros sizes H HP. unfold getNumBins. rewrite numBins_fold by (auto; lia).
  rewrite Z.mul_1_l. unfold u64. apply Z.mod_small. pose proof (zproduct_pos sizes H). lia.
Qed.

(** ** Contents *)
Lemma content_snoc : forall log e b, content_of (log ++ [e]) b =
  match e with Fill k w => if k =? b then fadd (content_of log b) w else content_of log b
             | Put k x => if k =? b then x else content_of log b end.
Proof. intros. unfold content_of. rewrite fold_left_app. reflexivity. Qed.

(** Invariant: the contents are those of the log. *)
Definition binv (n : nat) (log : list entry) (b : binned) : Prop :=
  length (b_values b) = n /\
  (forall i, (i < n)%nat -> nth_error (b_values b) i = Some (content_of log (Z.of_nat i))) /\
  b_num b = fills_of log.

Lemma fills_app : forall a b, fills_of (a ++ b) = (fills_of a + fills_of b)%nat.
Proof. intros. unfold fills_of. rewrite filter_app, app_length. reflexivity. Qed.

Lemma getBinNumber_fields : forall hp b v e n, 
  getBinNumber hp (mkBinned (b_obs b) (b_sizes b) v e n) = getBinNumber hp b.
Proof. reflexivity. Qed.

Lemma floor_to_size_t_nonneg : forall x l, floor_to_size_t x = BOk l -> 0 <= l.
Proof.
  intros x l H. unfold floor_to_size_t in H.
  destruct (f_isfinite x && (0 <=? ffloorZ x) && (ffloorZ x <? 2 ^ 64)) eqn:E; [|discriminate].
  inversion H; subst. apply andb_prop in E. destruct E as [E _]. apply andb_prop in E. lia.
Qed.

Lemma l2g_nonneg : forall locals sizes ret prior, 0 <= ret -> 0 <= l2g_loop ret prior locals sizes.
Proof.
  intros locals; induction locals as [|l ls IH]; intros [|s ss] ret prior H; cbn [l2g_loop]; auto.
  apply IH. unfold u32. apply Z.mod_pos_bound. lia.
Qed.
Lemma getBinNumber_nonneg : forall hp b k, getBinNumber hp b = BOk k -> 0 <= k.
Proof.
  intros hp b k H. unfold getBinNumber in H.
  destruct (convertValuesToBins _ _ _ _); simpl in H; try discriminate. inversion H. apply l2g_nonneg. lia.
Qed.

Lemma add_weight_cases : forall hp b w b' r, add_weight hp b w = (b', r) ->
  (b' = b /\ r <> BOk tt) \/
  (r = BOk tt /\ exists k old, getBinNumber hp b = BOk k /\ nth_error (b_values b) (Z.to_nat k) = Some old /\
     b' = mkBinned (b_obs b) (b_sizes b) (upd (b_values b) (Z.to_nat k) (fadd old w)) (b_errors b) (S (b_num b))).
Proof.
  intros hp b w b' r H. unfold add_weight in H.
  destruct (checkAllVars hp (b_obs b)) as [u|e].
  2:{ inversion H; subst. left. split; [reflexivity|discriminate]. }
  destruct (getBinNumber hp b) as [k|e|] eqn:E.
  2,3: inversion H; subst; left; split; [reflexivity|discriminate].
  destruct (nth_error (b_values b) (Z.to_nat k)) as [old|] eqn:E2; inversion H; subst.
  - right. split; auto. exists k, old. auto.
  - left. split; [reflexivity|discriminate].
Qed.

Lemma binv_fill : forall n log b hp w b', binv n log b -> add_weight hp b w = (b', BOk tt) ->
  exists k, getBinNumber hp b' = BOk k /\ binv n (log ++ [Fill k w]) b'.
Proof.
  intros n log b hp w b' (L & C & N) H.
  destruct (add_weight_cases _ _ _ _ _ H) as [[_ X]|(_ & k & old & Ek & En & Eb)]; [congruence|].
  exists k. subst b'. rewrite getBinNumber_fields. split; auto.
  pose proof (getBinNumber_nonneg _ _ _ Ek) as Hk.
  pose proof (nth_error_Some_lt _ _ _ En) as Hlt.
  split; [|split]; cbn [b_values b_num].
  - rewrite upd_length. auto.
  - intros i Hi. rewrite content_snoc.
    destruct (Nat.eq_dec i (Z.to_nat k)) as [->|Hne].
    + rewrite nth_error_upd_same by auto. rewrite Z2Nat.id by auto. rewrite Z.eqb_refl.
      rewrite C in En by (rewrite <- L; auto). inversion En; subst. rewrite Z2Nat.id by auto. reflexivity.
    + rewrite nth_error_upd_other by auto. replace (k =? Z.of_nat i) with false by (symmetry; apply Z.eqb_neq; lia).
      apply C; auto.
  - rewrite N, fills_app. change (fills_of [Fill k w]) with 1%nat. lia.
Qed.

Lemma binv_step : forall n log st o, binv n log (snd st) ->
  binv n (log ++ entry_of st o) (snd (fst (bstep st o))).
Proof.
  intros n log [hp b] o H. 
  destruct o as [h f c| |vals|w|i x|i e|i|i| | | |iv k|iv| | ]; unfold entry_of, ask; cbn [bstep fst snd];
  try (rewrite app_nil_r; exact H);
  try (destruct (bout_val _); rewrite app_nil_r; exact H);
  try (destruct (bout_num _); rewrite app_nil_r; exact H).
  - destruct (b_addEvent hp b) as [b' r] eqn:E. unfold b_addEvent in E. cbn [fst snd].
    destruct r as [[]|e|]; cbn [bout_unit].
    + destruct (binv_fill _ _ _ _ _ _ H E) as (k & Ek & Hk). cbn [bstep fst snd]. rewrite Ek. cbn [bout_num]. exact Hk.
    + destruct (add_weight_cases _ _ _ _ _ E) as [[-> _]|(X & _)]; [|discriminate]. rewrite app_nil_r; exact H.
    + destruct (add_weight_cases _ _ _ _ _ E) as [[-> _]|(X & _)]; [|discriminate]. rewrite app_nil_r; exact H.
  - unfold b_addEventValues. destruct (Nat.eqb (length vals) (length (b_obs b))).
    2:{ cbn [fst snd bout_unit]. rewrite app_nil_r; exact H. }
    destruct (b_addEvent _ b) as [b' r] eqn:E. unfold b_addEvent in E. cbn [fst snd].
    destruct r as [[]|e|]; cbn [bout_unit].
    + destruct (binv_fill _ _ _ _ _ _ H E) as (k & Ek & Hk). cbn [bstep fst snd]. rewrite Ek. cbn [bout_num]. exact Hk.
    + destruct (add_weight_cases _ _ _ _ _ E) as [[-> _]|(X & _)]; [|discriminate]. rewrite app_nil_r; exact H.
    + destruct (add_weight_cases _ _ _ _ _ E) as [[-> _]|(X & _)]; [|discriminate]. rewrite app_nil_r; exact H.
  - destruct (b_addWeightedEvent hp b w) as [b' r] eqn:E. unfold b_addWeightedEvent in E. cbn [fst snd].
    destruct r as [[]|e|]; cbn [bout_unit].
    + destruct (binv_fill _ _ _ _ _ _ H E) as (k & Ek & Hk). cbn [bstep fst snd]. rewrite Ek. cbn [bout_num]. exact Hk.
    + destruct (add_weight_cases _ _ _ _ _ E) as [[-> _]|(X & _)]; [|discriminate]. rewrite app_nil_r; exact H.
    + destruct (add_weight_cases _ _ _ _ _ E) as [[-> _]|(X & _)]; [|discriminate]. rewrite app_nil_r; exact H.
  - unfold setBinContent. destruct (nth_error (b_values b) i) as [old|] eqn:En; cbn [fst snd bout_unit].
    2:{ rewrite app_nil_r; exact H. }
    destruct H as (L & C & N). pose proof (nth_error_Some_lt _ _ _ En) as Hlt.
    split; [|split]; cbn [b_values b_num].
    + rewrite upd_length; auto.
    + intros j Hj. rewrite content_snoc. destruct (Nat.eq_dec j i) as [->|Hne].
      * rewrite nth_error_upd_same by auto. rewrite Z.eqb_refl. reflexivity.
      * rewrite nth_error_upd_other by auto.
        replace (Z.of_nat i =? Z.of_nat j) with false by (symmetry; apply Z.eqb_neq; lia). apply C; auto.
    + cbn [snd] in N; rewrite N, fills_app. change (fills_of [Put (Z.of_nat i) x]) with 0%nat. lia.
  - unfold setBinError. destruct (nth_error _ i); cbn [fst snd bout_unit]; rewrite app_nil_r; exact H.
Qed.

Lemma brun_cons : forall st o t, fst (brun st (o :: t)) = fst (brun (fst (bstep st o)) t).
Proof.
  intros st o t. simpl. destruct (bstep st o) as [st1 out]. simpl. destruct (brun st1 t). reflexivity.
Qed.
Lemma brun_app : forall a st b, fst (brun st (a ++ b)) = fst (brun (fst (brun st a)) b).
Proof.
  intros a; induction a as [|o t IH]; intros st b; [reflexivity|].
  cbn [app]. rewrite !brun_cons. apply IH.
Qed.

Lemma binv_run : forall ops n log st, binv n log (snd st) ->
  binv n (log ++ entries st ops) (snd (fst (brun st ops))).
Proof.
  intros ops; induction ops as [|o t IH]; intros n log st H.
  - simpl. rewrite app_nil_r. exact H.
  - rewrite brun_cons. cbn [entries]. rewrite app_assoc. apply IH. apply binv_step; auto.
Qed.

Lemma binv_new : forall hp obs, binv (Z.to_nat (getNumBins (collectBins hp obs))) [] (new_binned hp obs).
Proof.
  intros hp obs. unfold new_binned. split; [|split]; cbn [b_values b_num].
  - apply repeat_length.
  - intros i Hi. unfold content_of. simpl. apply nth_error_repeat. auto.
  - reflexivity.
Qed.

Definition entries_of (hp : heap) (obs : list handle) (ops : list bop) : list entry := entries (hp, new_binned hp obs) ops.

Lemma b_sizes_step : forall st o, b_sizes (snd (fst (bstep st o))) = b_sizes (snd st) /\ b_obs (snd (fst (bstep st o))) = b_obs (snd st).
Proof.
  intros [hp b] o.
  assert (A : forall hp w, b_sizes (fst (add_weight hp b w)) = b_sizes b /\ b_obs (fst (add_weight hp b w)) = b_obs b).
  { intros hp' w. destruct (add_weight hp' b w) as [b' r] eqn:E.
    destruct (add_weight_cases _ _ _ _ _ E) as [[-> _]|(_ & k & old & _ & _ & ->)]; simpl; auto. }
  destruct o as [h f c| |vals|w|i x|i e|i|i| | | |iv k|iv| | ]; cbn [bstep fst snd]; auto.
  - unfold b_addEvent. specialize (A hp fone). destruct (add_weight hp b fone). exact A.
  - unfold b_addEventValues, b_addEvent. destruct (Nat.eqb _ _); [|auto].
    specialize (A (set_values hp (b_obs b) vals) fone). destruct (add_weight _ b fone). exact A.
  - unfold b_addWeightedEvent. specialize (A hp w). destruct (add_weight hp b w). exact A.
  - unfold setBinContent. destruct (nth_error _ _); auto.
  - unfold setBinError. destruct (nth_error _ _); auto.
Qed.
Lemma b_sizes_run : forall ops st, b_sizes (snd (fst (brun st ops))) = b_sizes (snd st) /\ b_obs (snd (fst (brun st ops))) = b_obs (snd st).
Proof.
  intros ops; induction ops as [|o t IH]; intros st; [auto|]. rewrite brun_cons.
  destruct (IH (fst (bstep st o))) as [-> ->]. apply b_sizes_step.
Qed.

Lemma contents_are_sums : forall hp obs ops,
  let st := bafter hp obs ops in
  let log := entries (hp, new_binned hp obs) ops in
  exists n : Z, ask st BGetNumBins = BRNum n /\ 
  (forall b, Z.of_nat b < n -> ask st (BGetContent b) = BRVal (content_of log (Z.of_nat b))) /\
  (forall b, n <= Z.of_nat b -> ask st (BGetContent b) = BRThrow EStdOutOfRange) /\
  ask st BGetNumEvents = BRNum (Z.of_nat (fills_of log)).
Proof.
  intros hp obs ops st log.
  pose proof (binv_run ops _ _ (hp, new_binned hp obs) (binv_new hp obs)) as (L & C & N).
  fold (bafter hp obs ops) in L, C, N. fold st in L, C, N.
  destruct (b_sizes_run ops (hp, new_binned hp obs)) as [HS _]. cbn [new_binned b_sizes snd] in HS.
  fold (bafter hp obs ops) in HS. fold st in HS.
  exists (getNumBins (collectBins hp obs)). unfold ask. destruct st as [hp' b']. cbn [snd] in *. cbn [bstep snd].
  assert (P : 0 <= getNumBins (collectBins hp obs)) by (unfold getNumBins, u64; apply Z.mod_pos_bound; lia).
  split; [rewrite HS; reflexivity|]. split; [|split].
  - intros b Hb. unfold getBinContent. rewrite C by lia. reflexivity.
  - intros b Hb. unfold getBinContent. replace (nth_error (b_values b') b) with (@None f64); [reflexivity|].
    symmetry. apply nth_error_None. rewrite L. lia.
  - rewrite N. reflexivity.
Qed.

(** Unweighted events are counted exactly. *)
Definition fill_count (log : list entry) (b : Z) : nat :=
  length (filter (fun e => match e with Fill k _ => k =? b | Put _ _ => false end) log).

Lemma content_counts : forall log b, Forall (fun e => exists k, e = Fill k fone) log ->
  Z.of_nat (length log) <= 2 ^ 53 -> content_of log b = f_of_Z (Z.of_nat (fill_count log b)).
Proof.
  intros log b. induction log as [|e log IH] using rev_ind; intros H HL.
  - apply fsame_eq. vm_compute. reflexivity.
  - apply Forall_app in H. destruct H as [H He]. inversion He as [|? ? (k & ->) _]; subst.
    rewrite app_length in HL. cbn [length] in HL.
    rewrite content_snoc. unfold fill_count in *. rewrite filter_app, app_length. cbn [filter].
    rewrite IH by (auto; lia).
    pose proof (filter_len_le (fun e => match e with Fill k _ => Z.eqb k b | Put _ _ => false end) log) as F.
    destruct (k =? b); cbn [length].
    + unfold fone. rewrite fadd_Z by lia. f_equal. lia.
    + f_equal. lia.
Qed.

Lemma entries_plain : forall ops st, forallb plain ops = true -> Forall (fun e => exists k, e = Fill k fone) (entries st ops).
Proof.
  intros ops; induction ops as [|o t IH]; intros st H; cbn [entries]; [constructor|].
  simpl in H. apply andb_prop in H. destruct H as [Ho Ht]. apply Forall_app. split; [|apply IH; auto].
  unfold entry_of. destruct (ask st o); try constructor.
  destruct o; simpl in Ho; try discriminate; try constructor;
  destruct (ask _ BGetBinNumber); try constructor; eauto.
Qed.

Lemma plain_counts : forall hp obs ops n, forallb plain ops = true -> Z.of_nat (length ops) <= 2 ^ 53 ->
  ask (bafter hp obs ops) BGetNumBins = BRNum n -> forall b, Z.of_nat b < n ->
  ask (bafter hp obs ops) (BGetContent b) =
    BRVal (f_of_Z (Z.of_nat (fill_count (entries (hp, new_binned hp obs) ops) (Z.of_nat b)))).
Proof.
  intros hp obs ops n Hp HL Hn b Hb.
  destruct (contents_are_sums hp obs ops) as (n' & En & C & _ & _). rewrite En in Hn. inversion Hn; subst.
  rewrite C by auto. rewrite content_counts; auto. apply entries_plain; auto.
  assert (Hle : forall o st, (length (entry_of st o) <= 1)%nat).
  { intros o st. unfold entry_of. destruct (ask st o); simpl; try lia.
    destruct o; simpl; try lia; destruct (ask _ BGetBinNumber); simpl; lia. }
  assert (G : forall ops st, (length (entries st ops) <= length ops)%nat).
  { intros ops'; induction ops' as [|o t IH]; intros st; cbn [entries length]; [lia|].
    rewrite app_length. specialize (Hle o st). specialize (IH (fst (bstep st o))). lia. }
  specialize (G ops (hp, new_binned hp obs)). lia.
Qed.

(** A call that is refused changes nothing. *)
Lemma refused_changes_nothing : forall hp obs ops o, 
  (o = BAddEvent \/ (exists w, o = BAddWeighted w) \/ exists i x, o = BSetContent i x) ->
  ask (bafter hp obs ops) o <> BROk -> fst (bstep (bafter hp obs ops) o) = bafter hp obs ops.
Proof.
  intros hp obs ops o Ho. destruct (bafter hp obs ops) as [hp' b]. unfold ask.
  destruct Ho as [->|[(w & ->)|(i & x & ->)]]; cbn [bstep].
  - unfold b_addEvent. destruct (add_weight hp' b fone) as [b' r] eqn:E. cbn [fst snd]. intros H.
    destruct (add_weight_cases _ _ _ _ _ E) as [[-> _]|(-> & _)]; [reflexivity|elim H; reflexivity].
  - unfold b_addWeightedEvent. destruct (add_weight hp' b w) as [b' r] eqn:E. cbn [fst snd]. intros H.
    destruct (add_weight_cases _ _ _ _ _ E) as [[-> _]|(-> & _)]; [reflexivity|elim H; reflexivity].
  - unfold setBinContent. destruct (nth_error (b_values b) i); cbn [fst snd bout_unit]; intros H; [elim H; reflexivity|reflexivity].
Qed.

(** ** Errors *)
Lemma b_errors_step : forall st o, sets_error o = false -> b_errors (snd (fst (bstep st o))) = b_errors (snd st).
Proof.
  intros [hp b] o H.
  assert (A : forall hp w, b_errors (fst (add_weight hp b w)) = b_errors b).
  { intros hp' w. destruct (add_weight hp' b w) as [b' r] eqn:E.
    destruct (add_weight_cases _ _ _ _ _ E) as [[-> _]|(_ & k & old & _ & _ & ->)]; simpl; auto. }
  destruct o as [h f c| |vals|w|i x|i e|i|i| | | |iv k|iv| | ]; cbn [bstep fst snd]; auto; try discriminate.
  - unfold b_addEvent. specialize (A hp fone). destruct (add_weight hp b fone). exact A.
  - unfold b_addEventValues, b_addEvent. destruct (Nat.eqb _ _); [|auto].
    specialize (A (set_values hp (b_obs b) vals) fone). destruct (add_weight _ b fone). exact A.
  - unfold b_addWeightedEvent. specialize (A hp w). destruct (add_weight hp b w). exact A.
  - unfold setBinContent. destruct (nth_error _ _); auto.
Qed.
Lemma b_errors_run : forall ops st, forallb (fun o => negb (sets_error o)) ops = true ->
  b_errors (snd (fst (brun st ops))) = b_errors (snd st).
Proof.
  intros ops; induction ops as [|o t IH]; intros st H; [auto|]. rewrite brun_cons.
  simpl in H. apply andb_prop in H. destruct H as [Ho Ht]. rewrite IH by auto. apply b_errors_step.
  destruct (sets_error o); [discriminate|auto].
Qed.

Lemma error_default : forall hp obs ops b x, forallb (fun o => negb (sets_error o)) ops = true ->
  ask (bafter hp obs ops) (BGetContent b) = BRVal x -> ask (bafter hp obs ops) (BGetError b) = BRVal (fsqrt x).
Proof.
  intros hp obs ops b x H.
  pose proof (b_errors_run ops (hp, new_binned hp obs) H) as E. fold (bafter hp obs ops) in E.
  destruct (bafter hp obs ops) as [hp' b']. cbn [snd new_binned b_errors] in E.
  unfold ask. cbn [bstep snd]. unfold getBinContent, getBinError. rewrite E.
  destruct (nth_error (b_values b') b) as [y|]; cbn [bout_val]; intros X; [|discriminate]. inversion X; reflexivity.
Qed.

Definition einv (b : binned) : Prop := b_errors b = [] \/ length (b_errors b) = length (b_values b).

Lemma einv_step : forall st o, einv (snd st) -> einv (snd (fst (bstep st o))).
Proof.
  intros [hp b] o H. cbn [snd] in H.
  assert (A : forall hp w, einv (fst (add_weight hp b w))).
  { intros hp' w. destruct (add_weight hp' b w) as [b' r] eqn:E.
    destruct (add_weight_cases _ _ _ _ _ E) as [[-> _]|(_ & k & old & _ & _ & ->)]; simpl; auto.
    unfold einv in *. cbn [b_errors b_values]. rewrite upd_length. auto. }
  destruct o as [h f c| |vals|w|i x|i e|i|i| | | |iv k|iv| | ]; cbn [bstep fst snd]; auto.
  - unfold b_addEvent. specialize (A hp fone). destruct (add_weight hp b fone). exact A.
  - unfold b_addEventValues, b_addEvent. destruct (Nat.eqb _ _); [|auto].
    specialize (A (set_values hp (b_obs b) vals) fone). destruct (add_weight _ b fone). exact A.
  - unfold b_addWeightedEvent. specialize (A hp w). destruct (add_weight hp b w). exact A.
  - unfold setBinContent. destruct (nth_error _ _); auto. unfold einv in *. cbn [fst snd b_errors b_values]. rewrite upd_length. auto.
  - unfold setBinError. set (errs := match b_errors b with [] => _ | _ => _ end).
    assert (L : length errs = length (b_values b)).
    { unfold errs. destruct H as [-> | H]; [apply map_length|]. destruct (b_errors b); [apply map_length|auto]. }
    destruct (nth_error errs i); unfold einv; cbn [fst snd b_errors b_values]; right; rewrite ?upd_length; auto.
Qed.
Lemma einv_run : forall ops st, einv (snd st) -> einv (snd (fst (brun st ops))).
Proof.
  intros ops; induction ops as [|o t IH]; intros st H; [auto|]. rewrite brun_cons. apply IH, einv_step, H.
Qed.
Lemma einv_after : forall hp obs ops, einv (snd (bafter hp obs ops)).
Proof. intros. apply einv_run. left. reflexivity. Qed.

(** After setBinError(b, e) the error of b is e until it is set again. *)
Lemma error_set : forall hp obs ops b e later, ask (bafter hp obs ops) (BSetError b e) = BROk ->
  forallb (fun o => negb (sets_error o)) later = true ->
  ask (bafter hp obs (ops ++ BSetError b e :: later)) (BGetError b) = BRVal e.
Proof.
  intros hp obs ops b e later H HL. unfold bafter. rewrite brun_app, brun_cons. fold (bafter hp obs ops).
  pose proof (b_errors_run later (fst (bstep (bafter hp obs ops) (BSetError b e))) HL) as E.
  pose proof (einv_after hp obs ops) as HI.
  destruct (bafter hp obs ops) as [hp1 b1].
  destruct (fst (brun (fst (bstep (hp1, b1) (BSetError b e))) later)) as [hp2 b2].
  unfold ask in *. cbn [bstep snd] in *.
  unfold setBinError in *. set (errs := match b_errors b1 with [] => _ | _ => _ end) in *.
  destruct (nth_error errs b) as [old|] eqn:En; cbn [fst snd bout_unit] in *; [|discriminate].
  cbn [b_errors] in E. unfold getBinError. rewrite E.
  pose proof (nth_error_Some_lt _ _ _ En) as Hlt.
  assert (Hne : upd errs b e <> []). { intros X. apply (f_equal (@length f64)) in X. rewrite upd_length in X. simpl in X. lia. }
  destruct (upd errs b e) as [|a l] eqn:Eu; [congruence|]. rewrite <- Eu.
  rewrite nth_error_upd_same by auto. reflexivity.
Qed.

(** Once errors exist, setting one leaves the others. *)
Lemma error_frame : forall hp obs ops b e b' b0 e0 ops0 ops1, b' <> b ->
  ops = ops0 ++ BSetError b0 e0 :: ops1 ->
  ask (bafter hp obs ops0) (BSetError b0 e0) = BROk ->
  ask (fst (bstep (bafter hp obs ops) (BSetError b e))) (BGetError b') = ask (bafter hp obs ops) (BGetError b').
Proof.
  intros hp obs ops b e b' b0 e0 ops0 ops1 Hne Hops H0.
  assert (Hn : b_errors (snd (bafter hp obs ops)) <> []).
  { subst ops. unfold bafter. rewrite brun_app, brun_cons. fold (bafter hp obs ops0).
    assert (S0 : b_errors (snd (fst (bstep (bafter hp obs ops0) (BSetError b0 e0)))) <> []).
    { pose proof (einv_after hp obs ops0) as HI. destruct (bafter hp obs ops0) as [hp1 b1]. unfold ask in H0. cbn [bstep snd fst] in *.
      unfold setBinError in *. set (errs := match b_errors b1 with [] => _ | _ => _ end) in *.
      destruct (nth_error errs b0) as [old|] eqn:En; cbn [fst snd bout_unit b_errors] in *; [|discriminate].
      pose proof (nth_error_Some_lt _ _ _ En). intros X. apply (f_equal (@length f64)) in X. rewrite upd_length in X. simpl in X. lia. }
    revert S0. generalize (fst (bstep (bafter hp obs ops0) (BSetError b0 e0))) as st.
    clear. induction ops1 as [|o t IH]; intros st H; [exact H|]. rewrite brun_cons. apply IH.
    destruct (sets_error o) eqn:Eo; [|rewrite b_errors_step; auto].
    destruct o; try discriminate. destruct st as [hp b]. cbn [bstep snd fst] in *. unfold setBinError.
    destruct (b_errors b) as [|a l] eqn:Eb; [congruence|].
    destruct (nth_error (a :: l) bin); cbn [fst snd b_errors]; [|discriminate].
    intros X. apply (f_equal (@length f64)) in X. rewrite upd_length in X. simpl in X. lia. }
  destruct (bafter hp obs ops) as [hp1 b1]. cbn [snd] in Hn. unfold ask. cbn [bstep fst snd].
  unfold setBinError. destruct (b_errors b1) as [|a l] eqn:Eb; [congruence|].
  destruct (nth_error (a :: l) b) eqn:En; cbn [bstep fst snd].
  - unfold getBinError. cbn [b_errors]. rewrite Eb.
    destruct (upd (a :: l) b e) as [|a' l'] eqn:Eu.
    { apply (f_equal (@length f64)) in Eu. rewrite upd_length in Eu. simpl in Eu. lia. }
    rewrite <- Eu. rewrite nth_error_upd_other by auto. reflexivity.
  - unfold getBinError. cbn [b_errors]. rewrite Eb. reflexivity.
Qed.
