(** C118: the shared cache. *)
From Coq Require Import List ZArith Bool Reals Lra Lia Arith.
From Verif Require Import F64 PdfModel PdfSpec FormulaSpec SmoothModel ConvModel ConvSpec ConvProofs ConvProps ShareModel.
From Verif Require LeafGen.
Import ListNotations.
Open Scope Z_scope.

(** ** Registration *)
(** An object made for one or more others never becomes ready, whatever list of the right length it is given, and whatever constantsIdx
    is; one made for no others reads beyond its constants. *)
Theorem C118_register_refuted : forall n space idx others s, construct_shared n space idx = Some s -> length others = S n ->
  match register_others s others with Some s' => (n <> 0)%nat /\ s_ready s' = false /\ s' = s | None => True end.
Proof.
  intros n space idx others s E L. unfold construct_shared in E. destruct (Nat.ltb 512 n); [discriminate E|]. unfold register_others, constant.
  destruct (Nat.eqb_spec n 0) as [->|N].
  - injection E as <-. cbn [s_idx s_tail]. replace (idx + 5 - 3)%nat with (S (S idx)) by lia. cbn [nth_error]. destruct idx; exact I.
  - assert (S1 : s = mkShared space (space :: repeat 0 (S n)) idx false) by congruence. subst s. clear E. cbn [s_idx s_tail].
    replace (idx + 5 - 3)%nat with (S (S idx)) by lia. change (nth_error (space :: repeat 0 (S n)) (S (S idx))) with (nth_error (repeat 0 n) idx).
    destruct (nth_error (repeat 0 n) idx) as [c|] eqn:Q; [|exact I].
    assert (C0 : c = 0) by (apply nth_error_In in Q; now apply repeat_spec in Q). subst c. rewrite L.
    destruct (Z.eqb_spec (0 + 1) (Z.of_nat (S n))) as [H|H]; [lia|]. cbn [negb s_ready]. split; [exact N|]. split; reflexivity.
Qed.
Print Assumptions C118_register_refuted.
Theorem C118_register_zero_refuted : forall space idx others s, construct_shared 0 space idx = Some s -> register_others s others = None.
Proof.
  intros space idx others s E. injection E as <-. unfold register_others, constant. cbn [s_idx s_tail]. replace (idx + 5 - 3)%nat with (S (S idx)) by lia. cbn [nth_error]. now destruct idx.
Qed.
Print Assumptions C118_register_zero_refuted.
Example C118_register_ex : exists a b, construct_shared 1 0 0 = Some a /\ construct_shared 1 1 6 = Some b /\ register_others a [a; b] = Some a /\ s_ready a = false.
Proof. eexists. eexists. split; [reflexivity|]. split; [reflexivity|]. split; reflexivity. Qed.

(** What it does accept: a convolution made to share with [n] others becomes ready when it is registered alone. *)
Theorem C118_register_alone_refuted : forall n space idx s, construct_shared n space idx = Some s -> (idx < n)%nat ->
  register_others s [s] = Some (mkShared space (space :: 0 :: space :: repeat 0 (n - 1)) idx true).
Proof.
  intros n space idx s E H. unfold construct_shared in E. destruct (Nat.ltb 512 n); [discriminate E|]. destruct (Nat.eqb_spec n 0) as [->|N]; [lia|].
  assert (S1 : s = mkShared space (space :: repeat 0 (S n)) idx false) by congruence. subst s. clear E. unfold register_others, constant. cbn [s_idx s_tail s_space].
  replace (idx + 5 - 3)%nat with (S (S idx)) by lia. change (nth_error (space :: repeat 0 (S n)) (S (S idx))) with (nth_error (repeat 0 n) idx).
  rewrite (nth_error_nth' _ 0) by now rewrite repeat_length. rewrite nth_repeat. destruct n as [|n]; [lia|]. match goal with |- context [negb ?b] => change (negb b) with false end. cbv iota.
  cbn [write_others s_space]. cbn [length]. rewrite repeat_length. destruct (Nat.ltb_spec 2 (S (S (S n)))); [|lia]. cbn [repeat firstn skipn app existsb]. rewrite Z.eqb_refl. cbn [orb]. replace (S n - 1)%nat with n by lia. reflexivity.
Qed.
Print Assumptions C118_register_alone_refuted.
Example C118_register_alone_ex : exists s, construct_shared 2 4 1 = Some s /\ (1 < 2)%nat.
Proof. eexists. split; [reflexivity|lia]. Qed.

(** ** The metric *)
(** No probability can be computed with such a PDF at the top: the cursor is left at the PDF, and the PDF is called as the metric. *)
Theorem C118_metric_refuted : forall T (Ar : LeafGen.ops T) trunc is_zero models resols flat table c block x0 norm one cursor,
  probability Ar trunc is_zero models resols flat table c block x0 norm one cursor = None.
Proof.
  intros. unfold probability. destruct (nth_error table cursor) as [[| |]|] eqn:E; try reflexivity. unfold shared_function.
  destruct (shared_sum _ _ _ _ _ _ _ _ _) as [v|]; [|reflexivity]. cbn [obind fst snd]. unfold taken. now rewrite E.
Qed.
Print Assumptions C118_metric_refuted.

(** ** The sum *)
Section Sum.
Variables (models resols : Z -> list R) (flat : list Z) (is_zero : R -> bool).
Hypothesis Zero : forall x, is_zero x = true <-> x = 0%R.
Variables (n others load space shift k : Z).
Hypothesis HL : 0 < load.
Hypothesis HO : 0 <= space < others.
Hypothesis HK : zread flat (2 + space) = Some k.
Lemma cached_value i j : 0 <= j < load -> i + j < n -> cached R_ops models flat n others load i (space * load + j) = zread (models k) (i + j).
Proof.
  intros Hj Hn. unfold cached. rewrite Z.div_add_l, Z.div_small, Z.add_0_r by lia. rewrite Z.add_comm, Z.mod_add, Z.mod_small by lia.
  destruct (Z.ltb_spec space others); [|lia]. destruct (Z.leb_spec 0 (j + space * load)); [|nia]. cbn [andb]. rewrite HK. destruct (Z.ltb_spec (i + j) n); [reflexivity|lia].
Qed.
(** One round, cells i + j0, ..., and the rounds, cells i, ... *)
Lemma inner_loop i m : forall j0 ret v, 0 <= i -> (j0 + m <= Z.to_nat load)%nat ->
  conv_loop R_ops (models k) (resols space) shift (map Z.of_nat (seq (Z.to_nat i + j0) (Nat.min m (Z.to_nat n - (Z.to_nat i + j0))))) ret = Some v ->
  inner R_ops is_zero models resols flat n others load i space shift (map Z.of_nat (seq j0 m)) ret = Some v.
Proof.
  induction m as [|m IH]; intros j0 ret v Hi Hm E; cbn [seq map inner].
  - cbn [Nat.min seq map conv_loop] in E. exact E.
  - destruct (Z.leb_spec n (i + Z.of_nat j0)) as [H|H].
    + replace (Z.to_nat n - (Z.to_nat i + j0))%nat with 0%nat in E by lia. rewrite Nat.min_0_r in E. exact E.
    + destruct (Z.to_nat n - (Z.to_nat i + j0))%nat as [|d] eqn:D; [lia|]. cbn [Nat.min seq map conv_loop] in E.
      rewrite cached_value by lia. replace (Z.of_nat (Z.to_nat i + j0)) with (i + Z.of_nat j0) in E by lia.
      destruct (zread (models k) (i + Z.of_nat j0)) as [x|]; [|discriminate E]. destruct (zread (resols space) (i + Z.of_nat j0 + shift)) as [y|]; [|discriminate E].
      assert (G : conv_loop R_ops (models k) (resols space) shift (map Z.of_nat (seq (Z.to_nat i + S j0) (Nat.min m (Z.to_nat n - (Z.to_nat i + S j0))))) (LeafGen.o_add R_ops ret (LeafGen.o_mul R_ops x y)) = Some v).
      { replace (Z.to_nat n - (Z.to_nat i + S j0))%nat with d by lia. replace (Z.to_nat i + S j0)%nat with (S (Z.to_nat i + j0)) by lia. exact E. }
      destruct (is_zero x) eqn:X.
      * apply Zero in X. subst x. apply IH; [exact Hi|lia|]. replace (LeafGen.o_mul R_ops 0%R (LeafGen.o_zero R_ops)) with (LeafGen.o_mul R_ops 0%R y); [exact G|]. cbn. ring.
      * apply IH; [exact Hi|lia|exact G].
Qed.
Lemma loop_app (ms rs : list R) sh a : forall b ret, conv_loop R_ops ms rs sh (a ++ b) ret = obind (conv_loop R_ops ms rs sh a ret) (conv_loop R_ops ms rs sh b).
Proof. induction a as [|i a IH]; intros b ret; cbn [app conv_loop]; [reflexivity|]. destruct (zread ms i), (zread rs (i + sh)); try reflexivity. apply IH. Qed.
Lemma outer_loop fuel : forall i ret v, 0 <= i -> (Z.to_nat n - Z.to_nat i <= fuel)%nat ->
  conv_loop R_ops (models k) (resols space) shift (map Z.of_nat (seq (Z.to_nat i) (Z.to_nat n - Z.to_nat i))) ret = Some v ->
  outer R_ops is_zero models resols flat fuel n others load i space shift ret = Some v.
Proof.
  induction fuel as [|fuel IH]; intros i ret v Hi Hf E; cbn [outer]; destruct (Z.leb_spec n i) as [H|H].
  - replace (Z.to_nat n - Z.to_nat i)%nat with 0%nat in E by lia. exact E.
  - lia.
  - replace (Z.to_nat n - Z.to_nat i)%nat with 0%nat in E by lia. exact E.
  - set (a := Nat.min (Z.to_nat load) (Z.to_nat n - Z.to_nat i)).
    replace (Z.to_nat n - Z.to_nat i)%nat with (a + (Z.to_nat n - Z.to_nat i - a))%nat in E by lia. rewrite seq_app, map_app, loop_app in E.
    destruct (conv_loop R_ops (models k) (resols space) shift (map Z.of_nat (seq (Z.to_nat i) a)) ret) as [u|] eqn:U; [|discriminate E]. cbn [obind] in E.
    rewrite (inner_loop i (Z.to_nat load) 0 ret u Hi ltac:(lia)); [|now rewrite Nat.add_0_r]. apply IH; [lia|lia|].
    destruct (Nat.le_gt_cases (Z.to_nat load) (Z.to_nat n - Z.to_nat i)) as [Q|Q].
    + replace (Z.to_nat (i + load)) with (Z.to_nat i + a)%nat by lia. replace (Z.to_nat n - (Z.to_nat i + a))%nat with (Z.to_nat n - Z.to_nat i - a)%nat by lia. exact E.
    + replace (Z.to_nat n - Z.to_nat (i + load))%nat with 0%nat by lia. replace (Z.to_nat n - Z.to_nat i - a)%nat with 0%nat in E by lia. exact E.
Qed.
End Sum.
(** The sum is that of the variant without the cache, but with the model of the work space that constant number 5 + (own work space)
    names.  [flat] are the constants from number 3 on. *)
Lemma sum_value models resols flat is_zero (c : conv R) block x0 n space c4 k off sh v : (forall x, is_zero x = true <-> x = 0%R) ->
  flat = space :: c4 :: skipn 2 flat -> 0 <= space <= c4 -> c4 < 512 -> 1 <= block -> zread flat (2 + space) = Some k ->
  model_cells R_ops c = Some n -> model_offset R_ops Rtrunc_int c = Some off -> shift_bins R_ops c x0 = Some sh ->
  conv_loop R_ops (models k) (resols space) (off - sh) (map Z.of_nat (seq 0 (Z.to_nat n))) 0%R = Some v ->
  shared_sum R_ops Rtrunc_int is_zero models resols flat c block x0 = Some v.
Proof.
  intros Ze Fl Hs Hc Hb K N O SH E. unfold shared_sum.
  assert (Z0 : zread flat 0 = Some space) by (rewrite Fl; reflexivity). assert (Z1 : zread flat 1 = Some c4) by (rewrite Fl; reflexivity). rewrite Z0, Z1.
  assert (LD : 0 < Z.min (512 / (c4 + 1)) block). { apply Z.min_glb_lt; [|lia]. apply Z.div_str_pos. lia. }
  cbv zeta. destruct (Z.leb_spec (Z.min (512 / (c4 + 1)) block) 0); [lia|]. rewrite N, O, SH. cbn [obind].
  apply (outer_loop models resols flat is_zero Ze n (c4 + 1) _ space (off - sh) k LD ltac:(lia) K); [lia|lia|]. change (Z.to_nat 0) with 0%nat. rewrite Nat.sub_0_r. exact E.
Qed.
(** The first convolution of a program, made for no others, with a model that registers no constants (so that the next number in the
    flattened array is 0): the sum is the convolution of its own model and resolution. *)
Theorem C118_sum_partial : forall resols models is_zero (c : conv R) f g block x0 n r idx s rest v, (forall x, is_zero x = true <-> x = 0%R) -> 1 <= block ->
  construct_shared 0 0 idx = Some s -> model_cells R_ops c = Some n -> res_cells R_ops c = Some r ->
  models 0 = fill R_ops f (v_lo c) (v_hi c) n -> resols 0 = fill R_ops g (res_lo R_ops c) (res_hi R_ops c) r ->
  conv_value R_ops Rtrunc_int c f g x0 = Some v ->
  shared_sum R_ops Rtrunc_int is_zero models resols (s_tail s ++ 0 :: rest) c block x0 = Some v.
Proof.
  intros resols models is_zero c f g block x0 n r idx s rest v Ze Hb E N Q M Rs V. injection E as <-. cbn [s_tail app]. unfold conv_value in V. rewrite N, Q in V. cbn [obind] in V.
  destruct (model_offset R_ops Rtrunc_int c) as [off|] eqn:O; [|discriminate V]. cbn [obind] in V. destruct (shift_bins R_ops c x0) as [sh|] eqn:SH; [|discriminate V]. cbn [obind] in V.
  rewrite <- M, <- Rs in V. eapply (sum_value models resols _ is_zero c block x0 n 0 0 0 off sh v); try eassumption; try reflexivity; lia.
Qed.
Print Assumptions C118_sum_partial.
(** The second one, with a model and a resolution without constants: the model of the first with its own resolution. *)
Theorem C118_second_refuted : forall resols models is_zero (c : conv R) f0 g block x0 n r idx s rest v, (forall x, is_zero x = true <-> x = 0%R) -> 1 <= block ->
  construct_shared 0 1 idx = Some s -> model_cells R_ops c = Some n -> res_cells R_ops c = Some r ->
  models 0 = fill R_ops f0 (v_lo c) (v_hi c) n -> resols 1 = fill R_ops g (res_lo R_ops c) (res_hi R_ops c) r ->
  conv_value R_ops Rtrunc_int c f0 g x0 = Some v ->
  shared_sum R_ops Rtrunc_int is_zero models resols (s_tail s ++ 0 :: 0 :: rest) c block x0 = Some v.
Proof.
  intros resols models is_zero c f g block x0 n r idx s rest v Ze Hb E N Q M Rs V. injection E as <-. cbn [s_tail app]. unfold conv_value in V. rewrite N, Q in V. cbn [obind] in V.
  destruct (model_offset R_ops Rtrunc_int c) as [off|] eqn:O; [|discriminate V]. cbn [obind] in V. destruct (shift_bins R_ops c x0) as [sh|] eqn:SH; [|discriminate V]. cbn [obind] in V.
  rewrite <- M, <- Rs in V. eapply (sum_value models resols _ is_zero c block x0 n 1 1 0 off sh v); try eassumption; try reflexivity; lia.
Qed.
Print Assumptions C118_second_refuted.
(** A convolution over four cells, and a test for zero. *)
Example C118_sum_ex : (exists is_zero : R -> bool, forall x, is_zero x = true <-> x = 0%R) /\
  exists n r v, model_cells R_ops (mkConv 0 4 1 0 1)%R = Some n /\ res_cells R_ops (mkConv 0 4 1 0 1)%R = Some r /\
    conv_value R_ops Rtrunc_int (mkConv 0 4 1 0 1)%R (fun _ => 1%R) (fun y => y) 0%R = Some v.
Proof.
  split.
  - exists (fun x => if Req_EM_T x 0 then true else false). intro x. destruct (Req_EM_T x 0) as [E|E]; split; intro H; try easy.
  - assert (B : forall k : Z, (Z.abs k <= 4)%Z -> multiple 1 (IZR k)). { intros k Hk. exists k. split; [lia|ring]. }
    destruct (C42_in_bounds_partial (mkConv 0 4 1 0 1)%R (fun _ => 1%R) (fun y => y) 0%R) as [v V]; cbn [v_lo v_hi v_step v_dlo v_dup]; try lra; try (apply (B 0); lia); try (apply (B 4); lia); try (apply (B 1); lia).
    pose proof V as V'. unfold conv_value in V'. destruct (model_cells R_ops (mkConv 0 4 1 0 1)%R) as [n|]; [|discriminate V']. destruct (res_cells R_ops (mkConv 0 4 1 0 1)%R) as [r|]; [|discriminate V'].
    now exists n, r, v.
Qed.
