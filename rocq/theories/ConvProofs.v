(** Bounds and value of the convolution sum. *)
From Coq Require Import List ZArith Bool Lia Reals Lra.
From Flocq Require Import Core BinarySingleNaN.
From Verif Require Import F64 F64Lemmas F64Err ListAux PdfModel PdfSpec LeafFormulas FormulaSpec SmoothModel ConvModel ConvSpec.
From Verif Require LeafGen.
Import ListNotations.
Open Scope R_scope.

Section Loop.
Context {T : Type} (Ar : LeafGen.ops T) (trunc : T -> option Z).
Lemma fill_read : forall f lo hi n i, (0 <= i < n)%Z -> zread (fill Ar f lo hi n) i = Some (f (cell_center Ar lo hi n i)).
Proof.
  intros f lo hi n i H. unfold zread. destruct (Z.ltb_spec i 0); [lia|]. unfold fill.
  rewrite nth_error_map, (nth_error_nth' _ 0%nat), seq_nth by (rewrite ?seq_length; lia). cbn [option_map]. do 3 f_equal. lia.
Qed.
Lemma loop_value : forall f g lo hi n lo' hi' r sh is ret, List.Forall (fun i => 0 <= i < n /\ 0 <= i + sh < r)%Z is ->
  conv_loop Ar (fill Ar f lo hi n) (fill Ar g lo' hi' r) sh is ret =
  Some (fold_left (LeafGen.o_add Ar) (map (fun i => LeafGen.o_mul Ar (f (cell_center Ar lo hi n i)) (g (cell_center Ar lo' hi' r (i + sh)))) is) ret).
Proof.
  intros f g lo hi n lo' hi' r sh. induction is as [|i is IH]; intros ret H; [reflexivity|]. inversion H as [|? ? [H1 H2] HR]; subst.
  cbn [conv_loop]. rewrite !fill_read by assumption. now rewrite IH.
Qed.
Lemma conv_ok : forall c f g x0 n r off sh, model_cells Ar c = Some n -> res_cells Ar c = Some r -> model_offset Ar trunc c = Some off ->
  shift_bins Ar c x0 = Some sh -> (0 <= off - sh)%Z -> (n + (off - sh) <= r)%Z ->
  conv_value Ar trunc c f g x0 =
  Some (fold_left (LeafGen.o_add Ar) (map (fun i => LeafGen.o_mul Ar (f (cell_center Ar (v_lo c) (v_hi c) n i))
     (g (cell_center Ar (res_lo Ar c) (res_hi Ar c) r (i + (off - sh))))) (map Z.of_nat (seq 0 (Z.to_nat n)))) (LeafGen.o_zero Ar)).
Proof.
  intros c f g x0 n r off sh E1 E2 E3 E4 H1 H2. unfold conv_value. rewrite E1, E2, E3, E4. cbn [obind]. apply loop_value.
  apply List.Forall_forall. intros i Hi. apply in_map_iff in Hi. destruct Hi as (k & <- & Hk). apply in_seq in Hk. lia.
Qed.
Lemma loop_stops : forall ms rs sh is ret i, In i is -> zread rs (i + sh) = None -> conv_loop Ar ms rs sh is ret = None.
Proof.
  intros ms rs sh is. induction is as [|j is IH]; intros ret i H E; [contradiction|]. cbn [conv_loop]. destruct H as [->|H].
  - rewrite E. now destruct (zread ms i).
  - destruct (zread ms j); [|reflexivity]. destruct (zread rs (j + sh)); [|reflexivity]. now apply (IH _ i).
Qed.
Lemma zread_past : forall (l : list T) i, (i < 0 \/ Z.of_nat (length l) <= i)%Z -> zread l i = None.
Proof. intros l i H. unfold zread. destruct (Z.ltb_spec i 0); [reflexivity|]. apply nth_error_None. lia. Qed.
Lemma conv_oob : forall c f g x0 n r off sh, model_cells Ar c = Some n -> res_cells Ar c = Some r -> model_offset Ar trunc c = Some off ->
  shift_bins Ar c x0 = Some sh -> (1 <= n)%Z -> (off - sh < 0 \/ Z.max 0 r < n + (off - sh))%Z -> conv_value Ar trunc c f g x0 = None.
Proof.
  intros c f g x0 n r off sh E1 E2 E3 E4 H1 H2. unfold conv_value. rewrite E1, E2, E3, E4. cbn [obind].
  assert (LF : Z.of_nat (length (fill Ar g (res_lo Ar c) (res_hi Ar c) r)) = Z.max 0 r) by (unfold fill; rewrite map_length, seq_length; lia).
  destruct H2 as [H2|H2].
  - apply (loop_stops _ _ _ _ _ 0%Z); [|apply zread_past; lia]. apply in_map_iff. exists 0%nat. split; [reflexivity|]. apply in_seq. lia.
  - apply (loop_stops _ _ _ _ _ (n - 1)%Z); [|apply zread_past; lia]. apply in_map_iff. exists (Z.to_nat (n - 1)). split; [lia|]. apply in_seq. lia.
Qed.
End Loop.

(** ** Reals *)
Lemma Rfloor_some : forall x z, Zfloor x = z -> (Z.abs z <= 2 ^ 31 - 1)%Z -> Rfloor_int x = Some z.
Proof. intros x z E H. unfold Rfloor_int. rewrite E. cbv zeta. destruct (Z.leb_spec (-2147483648) z), (Z.leb_spec z 2147483647); try lia. reflexivity. Qed.
Lemma Rtrunc_some : forall x z, Ztrunc x = z -> (Z.abs z <= 2 ^ 31 - 1)%Z -> Rtrunc_int x = Some z.
Proof. intros x z E H. unfold Rtrunc_int. rewrite E. cbv zeta. destruct (Z.leb_spec (-2147483648) z), (Z.leb_spec z 2147483647); try lia. reflexivity. Qed.
Section Reals.
Variables (c : conv R) (a h d u : Z).
Hypothesis HS : 0 < v_step c.
Hypothesis Ba : (Z.abs a <= 2 ^ 28)%Z. Hypothesis Bh : (Z.abs h <= 2 ^ 28)%Z. Hypothesis Bd : (Z.abs d <= 2 ^ 28)%Z. Hypothesis Bu : (Z.abs u <= 2 ^ 28)%Z.
Hypothesis Ea : v_lo c = IZR a * v_step c. Hypothesis Eh : v_hi c = IZR h * v_step c.
Hypothesis Ed : v_dlo c = IZR d * v_step c. Hypothesis Eu : v_dup c = IZR u * v_step c.
Hypothesis Hah : (a <= h)%Z.
Lemma half_floor : forall z, Zfloor (IZR z + / 2) = z.
Proof. intro z. apply Zfloor_imp. rewrite plus_IZR. lra. Qed.
Lemma cells_R : model_cells R_ops c = Some (h - a)%Z.
Proof.
  unfold model_cells. cbn [LeafGen.o_floor LeafGen.o_add LeafGen.o_sub LeafGen.o_div LeafGen.o_half R_ops]. apply Rfloor_some; [|lia].
  rewrite Ea, Eh. replace ((IZR h * v_step c - IZR a * v_step c) / v_step c) with (IZR (h - a)) by (rewrite minus_IZR; field; lra). apply half_floor.
Qed.
Lemma res_R : res_cells R_ops c = Some (h - a + u - d)%Z.
Proof.
  unfold res_cells, res_hi, res_lo. cbn [LeafGen.o_floor LeafGen.o_add LeafGen.o_sub LeafGen.o_div LeafGen.o_half R_ops]. apply Rfloor_some; [|lia].
  rewrite Ea, Eh, Ed, Eu. replace ((IZR h * v_step c - IZR d * v_step c - (IZR a * v_step c - IZR u * v_step c)) / v_step c) with (IZR (h - a + u - d))
    by (rewrite minus_IZR, plus_IZR, minus_IZR; field; lra). apply half_floor.
Qed.
Lemma offset_R : model_offset R_ops Rtrunc_int c = Some u.
Proof.
  unfold model_offset. cbn [LeafGen.o_div R_ops]. apply Rtrunc_some; [|lia]. rewrite Eu. replace (IZR u * v_step c / v_step c) with (IZR u) by (field; lra). apply Ztrunc_IZR.
Qed.
Lemma shift_R : forall x0, v_dlo c <= x0 <= v_dup c -> exists sh, shift_bins R_ops c x0 = Some sh /\ (d <= sh <= u)%Z /\ sh = Zfloor (x0 / v_step c).
Proof.
  intros x0 [H1 H2]. exists (Zfloor (x0 / v_step c)).
  assert (Q1 : IZR d <= x0 / v_step c) by (apply (Rmult_le_reg_r (v_step c)); [exact HS|]; unfold Rdiv; rewrite Rmult_assoc, Rinv_l, Rmult_1_r by lra; lra).
  assert (Q2 : x0 / v_step c <= IZR u) by (apply (Rmult_le_reg_r (v_step c)); [exact HS|]; unfold Rdiv; rewrite Rmult_assoc, Rinv_l, Rmult_1_r by lra; lra).
  assert (B : (d <= Zfloor (x0 / v_step c) <= u)%Z) by (split; [apply Zfloor_lub; exact Q1|rewrite <- (Zfloor_IZR u); now apply Zfloor_le]).
  split; [|split; [exact B|reflexivity]].
  unfold shift_bins. cbn [LeafGen.o_floor LeafGen.o_add LeafGen.o_sub LeafGen.o_div LeafGen.o_ofZ R_ops].
  assert (EQ : v_lo c / v_step c = IZR a) by (rewrite Ea; field; lra). rewrite EQ.
  rewrite (Rfloor_some (IZR a) a) by (try apply Zfloor_IZR; lia). cbn [obind].
  replace (x0 / v_step c - (IZR a - IZR a)) with (x0 / v_step c) by ring. apply Rfloor_some; [reflexivity|lia].
Qed.
Lemma center_R : forall l hi n k, (0 < n)%Z -> hi - l = IZR n * v_step c -> cell_center R_ops l hi n k = l + (IZR k + / 2) * v_step c.
Proof.
  intros l hi n k Hn E. unfold cell_center. cbn [LeafGen.o_add LeafGen.o_sub LeafGen.o_div LeafGen.o_ofZ LeafGen.o_mul LeafGen.o_half R_ops].
  rewrite E. field. apply Rgt_not_eq. now apply IZR_lt.
Qed.
Theorem conv_R : forall f g x0, v_dlo c <= x0 <= v_dup c ->
  conv_value R_ops Rtrunc_int c f g x0 =
  Some (midpoint_sum (fun t => f t * g (t - IZR (Zfloor (x0 / v_step c)) * v_step c)) (v_lo c) (v_step c) (Z.to_nat (h - a))).
Proof.
  intros f g x0 Hx. destruct (shift_R x0 Hx) as (sh & E4 & B & ->). set (k := Zfloor (x0 / v_step c)) in *.
  rewrite (conv_ok R_ops Rtrunc_int c f g x0 _ _ _ _ cells_R res_R offset_R E4) by lia.
  f_equal. unfold midpoint_sum. cbn [LeafGen.o_add LeafGen.o_zero LeafGen.o_mul R_ops]. f_equal. rewrite map_map. apply map_ext_in. intros i Hi. apply in_seq in Hi.
  rewrite !center_R.
  - rewrite INR_IZR_INZ. f_equal. f_equal. unfold res_lo. cbn [LeafGen.o_sub R_ops]. rewrite Eu, plus_IZR, minus_IZR. ring.
  - lia.
  - unfold res_lo, res_hi. cbn [LeafGen.o_sub R_ops]. rewrite Ea, Eh, Ed, Eu. rewrite minus_IZR, plus_IZR, minus_IZR. ring.
  - lia.
  - rewrite Ea, Eh, minus_IZR. ring.
Qed.
End Reals.

(** ** Doubles *)
Lemma fdiv_finite : forall x s, B2R s <> 0 -> is_finite x = true -> is_finite (fdiv x s) = true -> B2R (fdiv x s) = rnd (B2R x / B2R s).
Proof.
  intros x s Hs Fx Fq. pose proof (Bdiv_correct 53 1024 f64_prec_gt f64_prec_lt mode_NE x s Hs) as E. cbv zeta in E.
  destruct (Rlt_bool _ _); [apply E|]. exfalso. unfold fdiv in Fq. rewrite <- is_finite_SF_B2SF, E in Fq. unfold binary_overflow in Fq. cbn in Fq. discriminate.
Qed.
Lemma near_whole : forall x s k, B2R s <> 0 -> is_finite x = true -> (Z.abs k <= 2 ^ 28)%Z -> fdiv x s = f_of_Z k -> Rabs (B2R x / B2R s - IZR k) <= / 2 ^ 20.
Proof.
  intros x s k Hs Fx Bk E. destruct (f_of_Z_exact k ltac:(lia)) as [Ek Fk].
  assert (R1 : rnd (B2R x / B2R s) = IZR k) by (rewrite <- fdiv_finite by (rewrite ?E; assumption); now rewrite E).
  destruct (rnd_err (B2R x / B2R s)) as (dd & e & Hd & He & EE). rewrite R1 in EE. set (y := B2R x / B2R s) in *.
  assert (U : uro <= / 2 ^ 50) by (rewrite uro_val; apply Rinv_le; [apply pow_lt; lra|]; rewrite <- (Rmult_1_r (2 ^ 50)); change (IZR (2 ^ 53)) with 9007199254740992; simpl; lra).
  assert (ET : eta0 <= / 2 ^ 50). { unfold eta0. replace (/ 2 ^ 50) with (bpow radix2 (-50)) by (simpl; lra). apply bpow_le. lia. }
  assert (KB : Rabs (IZR k) <= 2 ^ 28) by (rewrite <- abs_IZR; replace (2 ^ 28) with (IZR (2 ^ 28)) by (simpl; lra); now apply IZR_le).
  apply Rabs_le_inv in Hd, He, KB. assert (P50 : / 2 ^ 50 = / 1125899906842624) by (f_equal; simpl; lra). assert (P28 : 2 ^ 28 = 268435456) by (simpl; lra).
  assert (P20 : / 2 ^ 20 = / 1048576) by (f_equal; simpl; lra). rewrite P50 in *. rewrite P28 in *. rewrite P20.
  assert (YB : -300000000 <= y <= 300000000) by nra.
  apply Rabs_le. assert (- / 1125899906842624 * 300000000 <= y * dd <= / 1125899906842624 * 300000000) by nra. split; nra.
Qed.
Definition sane_step (s : f64) : Prop := is_finite s = true /\ / 2 ^ 900 <= B2R s <= 2 ^ 900.
Lemma bpow_of_pow : forall n, 2 ^ n = bpow radix2 (Z.of_nat n).
Proof. induction n as [|n IH]; [reflexivity|]. rewrite Nat2Z.inj_succ. unfold Z.succ. rewrite bpow_plus, <- IH. change (bpow radix2 1) with 2. simpl. lra. Qed.
Lemma uro_bound : 0 < uro <= / 1000000000000000. Proof. split; [apply uro_pos|apply uro_small]. Qed.
Lemma eta_bound : 0 < eta0 <= / 1000000000000000.
Proof. split; [apply eta0_pos|]. unfold eta0. apply Rle_trans with (bpow radix2 (-50)); [apply bpow_le; lia|simpl; lra]. Qed.
Lemma big_step : forall s z, sane_step s -> Rabs z <= 2000000000 * B2R s -> Rabs z <= bpow radix2 1023.
Proof.
  intros s z (_ & _ & H) Hz. eapply Rle_trans; [exact Hz|]. apply Rle_trans with (2 ^ 31 * 2 ^ 900).
  - assert (0 < 2 ^ 900) by (apply pow_lt; lra). replace (2 ^ 31) with 2147483648 by (simpl; lra). nra.
  - rewrite <- pow_add, bpow_of_pow. apply bpow_le. cbn. lia.
Qed.
Lemma step_pos : forall s, sane_step s -> 0 < B2R s.
Proof. intros s (_ & H & _). assert (0 < / 2 ^ 900) by (apply Rinv_0_lt_compat, pow_lt; lra). lra. Qed.
(** Difference of two numbers that are near m and n steps. *)
Lemma sub_near : forall s x y m n e, sane_step s -> is_finite x = true -> is_finite y = true -> 0 <= e <= / 100 -> Rabs m <= 600000000 -> Rabs n <= 600000000 ->
  Rabs (B2R x / B2R s - m) <= e -> Rabs (B2R y / B2R s - n) <= e ->
  is_finite (fsub x y) = true /\ Rabs (B2R (fsub x y) / B2R s - (m - n)) <= 2 * e + / 500000.
Proof.
  intros s x y m n e HS Fx Fy He Hm Hn Hx Hy. pose proof (step_pos s HS) as SP. apply Rabs_le_inv in Hm, Hn, Hx, Hy.
  set (p := B2R x / B2R s) in *. set (q := B2R y / B2R s) in *.
  assert (Ex : B2R x = p * B2R s) by (unfold p; field; lra). assert (Ey : B2R y = q * B2R s) by (unfold q; field; lra).
  assert (D : Rabs (p - q) <= 1300000000) by (apply Rabs_le; lra).
  destruct (fsub_err x y Fx Fy) as (F & dd & Hd & E).
  { apply (big_step s _ HS). rewrite Ex, Ey. replace (p * B2R s - q * B2R s) with ((p - q) * B2R s) by ring. rewrite Rabs_mult, (Rabs_right (B2R s)) by lra. nra. }
  split; [exact F|]. rewrite E, Ex, Ey. replace ((p * B2R s - q * B2R s) * (1 + dd) / B2R s) with ((p - q) + (p - q) * dd) by (field; lra).
  apply Rabs_le_inv in Hd, D. pose proof uro_bound.
  assert (- / 500000 <= (p - q) * dd <= / 500000).
  { assert (Rabs ((p - q) * dd) <= / 500000); [|now apply Rabs_le_inv]. rewrite Rabs_mult. apply Rle_trans with (1300000000 * / 1000000000000000); [|lra].
    apply Rmult_le_compat; try apply Rabs_pos; apply Rabs_le; lra. }
  apply Rabs_le. lra.
Qed.
Lemma fhalf_R : B2R fhalf = / 2.
Proof.
  unfold fhalf, f_of_ZE.
  pose proof (binary_normalize_correct 53 1024 f64_prec_gt f64_prec_lt mode_NE 1 (-1) false) as H. cbv zeta in H.
  assert (Eg : F2R (Float radix2 1 (-1)) = bpow radix2 (-1)) by (unfold F2R; cbn [Fnum Fexp]; ring).
  rewrite Eg in H. rewrite Rlt_bool_true in H.
  - destruct H as [H _]. rewrite H. rewrite round_generic. reflexivity. apply valid_rnd_round_mode.
    apply generic_format_bpow. change (SpecFloat.fexp 53 1024) with (FLT_exp (-1074) 53). unfold FLT_exp. lia.
  - apply rnd_no_ovf. rewrite Rabs_right by (apply Rle_ge, bpow_ge_0). apply bpow_le. lia.
Qed.
Lemma count_ok : forall s D n, sane_step s -> is_finite D = true -> (Z.abs n <= 2 ^ 30)%Z -> Rabs (B2R D / B2R s - IZR n) <= / 100 ->
  floor_int (fadd (fdiv D s) fhalf) = Some n.
Proof.
  intros s D n HS FD Bn H. pose proof (step_pos s HS) as SP. set (y := B2R D / B2R s) in *.
  assert (NB : Rabs (IZR n) <= 1100000000). { rewrite <- abs_IZR. apply Rle_trans with (IZR (2 ^ 30)); [now apply IZR_le|simpl; lra]. }
  apply Rabs_le_inv in H, NB.
  assert (Yb : Rabs y <= bpow radix2 1023).
  { apply Rle_trans with (2 ^ 31); [apply Rabs_le; replace (2 ^ 31) with 2147483648 by (simpl; lra); lra|]. rewrite bpow_of_pow. apply bpow_le. cbn. lia. }
  destruct (fdiv_rnd D s FD ltac:(lra) Yb) as [Fq Eq]. destruct (rnd_err y) as (dd & e & Hd & He & Er).
  fold y in Eq. rewrite Er in Eq. apply Rabs_le_inv in Hd, He. pose proof uro_bound. pose proof eta_bound.
  assert (T1 : Rabs (y * dd) <= / 500000).
  { rewrite Rabs_mult. apply Rle_trans with (1200000000 * / 1000000000000000); [|lra]. apply Rmult_le_compat; try apply Rabs_pos; apply Rabs_le; lra. }
  apply Rabs_le_inv in T1. set (q := B2R (fdiv D s)) in *.
  assert (Q : Rabs (q - IZR n) <= / 50) by (apply Rabs_le; nra). apply Rabs_le_inv in Q.
  assert (EH : B2R fhalf = / 2 /\ is_finite fhalf = true).
  { split; [|reflexivity]. apply fhalf_R. }
  destruct EH as [EH FH].
  destruct (fadd_err (fdiv D s) fhalf Fq FH) as (Fa & d2 & Hd2 & Ea).
  { rewrite EH. fold q. apply Rle_trans with (2 ^ 31); [apply Rabs_le; replace (2 ^ 31) with 2147483648 by (simpl; lra); lra|]. rewrite bpow_of_pow. apply bpow_le. cbn. lia. }
  rewrite EH in Ea. fold q in Ea. apply Rabs_le_inv in Hd2.
  assert (T2 : Rabs ((q + / 2) * d2) <= / 500000).
  { rewrite Rabs_mult. apply Rle_trans with (1200000000 * / 1000000000000000); [|lra]. apply Rmult_le_compat; try apply Rabs_pos; apply Rabs_le; lra. }
  apply Rabs_le_inv in T2. unfold floor_int. change (f_isfinite (fadd (fdiv D s) fhalf)) with (is_finite (fadd (fdiv D s) fhalf)). rewrite Fa. rewrite ffloorZ_spec.
  assert (EF : Zfloor (B2R (fadd (fdiv D s) fhalf)) = n). { apply Zfloor_imp. rewrite Ea, plus_IZR. lra. }
  rewrite EF. cbv zeta. destruct (Z.leb_spec (-2147483648) n), (Z.leb_spec n 2147483647); try lia. reflexivity.
Qed.
Section Doubles.
Variables (c : conv f64) (a h d u : Z).
Hypothesis HS : sane_step (v_step c).
Hypothesis Ba : (Z.abs a <= 2 ^ 28)%Z. Hypothesis Bh : (Z.abs h <= 2 ^ 28)%Z. Hypothesis Bd : (Z.abs d <= 2 ^ 28)%Z. Hypothesis Bu : (Z.abs u <= 2 ^ 28)%Z.
Hypothesis Fa : is_finite (v_lo c) = true. Hypothesis Fh : is_finite (v_hi c) = true. Hypothesis Fd : is_finite (v_dlo c) = true. Hypothesis Fu : is_finite (v_dup c) = true.
Hypothesis Ea : fdiv (v_lo c) (v_step c) = f_of_Z a. Hypothesis Eh : fdiv (v_hi c) (v_step c) = f_of_Z h.
Hypothesis Ed : fdiv (v_dlo c) (v_step c) = f_of_Z d. Hypothesis Eu : fdiv (v_dup c) (v_step c) = f_of_Z u.
Lemma zb : forall k, (Z.abs k <= 2 ^ 28)%Z -> Rabs (IZR k) <= 300000000.
Proof. intros k H. rewrite <- abs_IZR. apply Rle_trans with (IZR (2 ^ 28)); [now apply IZR_le|simpl; lra]. Qed.
Lemma nw : forall x k, is_finite x = true -> (Z.abs k <= 2 ^ 28)%Z -> fdiv x (v_step c) = f_of_Z k -> Rabs (B2R x / B2R (v_step c) - IZR k) <= / 500000.
Proof.
  intros x k Fx B E. eapply Rle_trans; [apply near_whole; try assumption|].
  - apply Rgt_not_eq. now apply step_pos.
  - replace (/ 2 ^ 20) with (/ 1048576) by (f_equal; simpl; lra). lra.
Qed.
Lemma cells_f : model_cells f64_ops c = Some (h - a)%Z.
Proof.
  unfold model_cells. cbn [LeafGen.o_floor LeafGen.o_add LeafGen.o_sub LeafGen.o_div LeafGen.o_half f64_ops].
  pose proof (zb a Ba) as Za. pose proof (zb h Bh) as Zh.
  destruct (sub_near (v_step c) (v_hi c) (v_lo c) (IZR h) (IZR a) (/ 500000) HS Fh Fa ltac:(lra) ltac:(lra) ltac:(lra) (nw _ _ Fh Bh Eh) (nw _ _ Fa Ba Ea)) as [F E].
  apply count_ok; [exact HS|exact F|lia|]. rewrite minus_IZR. lra.
Qed.
Lemma res_f : res_cells f64_ops c = Some (h - a + u - d)%Z.
Proof.
  unfold res_cells, res_hi, res_lo. cbn [LeafGen.o_floor LeafGen.o_add LeafGen.o_sub LeafGen.o_div LeafGen.o_half f64_ops].
  pose proof (zb a Ba) as Za. pose proof (zb h Bh) as Zh. pose proof (zb d Bd) as Zd. pose proof (zb u Bu) as Zu.
  destruct (sub_near (v_step c) (v_hi c) (v_dlo c) (IZR h) (IZR d) (/ 500000) HS Fh Fd ltac:(lra) ltac:(lra) ltac:(lra) (nw _ _ Fh Bh Eh) (nw _ _ Fd Bd Ed)) as [F1 E1].
  destruct (sub_near (v_step c) (v_lo c) (v_dup c) (IZR a) (IZR u) (/ 500000) HS Fa Fu ltac:(lra) ltac:(lra) ltac:(lra) (nw _ _ Fa Ba Ea) (nw _ _ Fu Bu Eu)) as [F2 E2].
  destruct (sub_near (v_step c) (fsub (v_hi c) (v_dlo c)) (fsub (v_lo c) (v_dup c)) (IZR h - IZR d) (IZR a - IZR u) (/ 100000) HS F1 F2) as [F3 E3]; try lra.
  - apply Rabs_le. apply Rabs_le_inv in Zh, Zd. lra.
  - apply Rabs_le. apply Rabs_le_inv in Za, Zu. lra.
  - apply count_ok; [exact HS|exact F3|lia|]. rewrite minus_IZR, plus_IZR, minus_IZR.
    replace (IZR h - IZR a + IZR u - IZR d) with (IZR h - IZR d - (IZR a - IZR u)) by ring. lra.
Qed.
Lemma offset_f : model_offset f64_ops f2int c = Some u.
Proof.
  unfold model_offset. cbn [LeafGen.o_div f64_ops]. rewrite Eu. unfold f2int. destruct (f_of_Z_exact u ltac:(lia)) as [E F].
  change (f_isfinite (f_of_Z u)) with (is_finite (f_of_Z u)). rewrite F, ftruncZ_spec, E, Ztrunc_IZR. cbv zeta.
  destruct (Z.leb_spec (-2147483648) u), (Z.leb_spec u 2147483647); try lia. reflexivity.
Qed.
Lemma shift_f : forall x0, is_finite x0 = true -> B2R (v_dlo c) <= B2R x0 <= B2R (v_dup c) -> exists sh, shift_bins f64_ops c x0 = Some sh /\ (d <= sh <= u)%Z.
Proof.
  intros x0 Fx [H1 H2]. unfold shift_bins. cbn [LeafGen.o_floor LeafGen.o_add LeafGen.o_sub LeafGen.o_div LeafGen.o_ofZ f64_ops]. rewrite Ea.
  destruct (f_of_Z_exact a ltac:(lia)) as [EA FA]. destruct (f_of_Z_exact d ltac:(lia)) as [ED FD]. destruct (f_of_Z_exact u ltac:(lia)) as [EU FU].
  assert (FI : floor_int (f_of_Z a) = Some a).
  { unfold floor_int. change (f_isfinite (f_of_Z a)) with (is_finite (f_of_Z a)). rewrite FA, ffloorZ_spec, EA, Zfloor_IZR. cbv zeta.
    destruct (Z.leb_spec (-2147483648) a), (Z.leb_spec a 2147483647); try lia. reflexivity. }
  rewrite FI. cbn [obind].
  destruct (fsub_rnd (f_of_Z a) (f_of_Z a) FA FA) as [FZ EZ]. { rewrite Rminus_eq_0, Rabs_R0. apply bpow_ge_0. } rewrite Rminus_eq_0, rnd_0 in EZ.
  set (z := fsub (f_of_Z a) (f_of_Z a)) in *. pose proof (step_pos _ HS) as SP.
  assert (Rd : rnd (B2R (v_dlo c) / B2R (v_step c)) = IZR d) by (rewrite <- fdiv_finite by (rewrite ?Ed; try lra; assumption); now rewrite Ed).
  assert (Ru : rnd (B2R (v_dup c) / B2R (v_step c)) = IZR u) by (rewrite <- fdiv_finite by (rewrite ?Eu; try lra; assumption); now rewrite Eu).
  assert (I0 : 0 < / B2R (v_step c)) by now apply Rinv_0_lt_compat.
  assert (QL : B2R (v_dlo c) / B2R (v_step c) <= B2R x0 / B2R (v_step c)) by (apply Rmult_le_compat_r; lra).
  assert (QH : B2R x0 / B2R (v_step c) <= B2R (v_dup c) / B2R (v_step c)) by (apply Rmult_le_compat_r; lra).
  assert (Bq : Rabs (B2R x0 / B2R (v_step c)) <= bpow radix2 1023).
  { pose proof (nw _ _ Fd Bd Ed) as N1. pose proof (nw _ _ Fu Bu Eu) as N2. apply Rabs_le_inv in N1, N2. pose proof (zb d Bd) as Zd. pose proof (zb u Bu) as Zu. apply Rabs_le_inv in Zd, Zu.
    apply Rle_trans with (2 ^ 31); [apply Rabs_le; replace (2 ^ 31) with 2147483648 by (simpl; lra); lra|]. rewrite bpow_of_pow. apply bpow_le. cbn. lia. }
  destruct (fdiv_rnd x0 (v_step c) Fx ltac:(lra) Bq) as [Fq Eq].
  assert (B1 : IZR d <= B2R (fdiv x0 (v_step c)) <= IZR u) by (rewrite Eq, <- Rd, <- Ru; split; now apply rnd_le).
  destruct (fsub_rnd (fdiv x0 (v_step c)) z Fq FZ) as [Fs Es].
  { rewrite EZ, Rminus_0_r. pose proof (zb d Bd) as Zd. pose proof (zb u Bu) as Zu. apply Rabs_le_inv in Zd, Zu.
    apply Rle_trans with (2 ^ 31); [apply Rabs_le; replace (2 ^ 31) with 2147483648 by (simpl; lra); lra|]. rewrite bpow_of_pow. apply bpow_le. cbn. lia. }
  rewrite EZ, Rminus_0_r, rnd_B2R in Es.
  exists (Zfloor (B2R (fdiv x0 (v_step c)))).
  assert (B : (d <= Zfloor (B2R (fdiv x0 (v_step c))) <= u)%Z) by (split; [apply Zfloor_lub; apply B1|rewrite <- (Zfloor_IZR u); apply Zfloor_le; apply B1]).
  split; [|exact B]. unfold floor_int. change (f_isfinite (fsub (fdiv x0 (v_step c)) z)) with (is_finite (fsub (fdiv x0 (v_step c)) z)). rewrite Fs, ffloorZ_spec, Es. cbv zeta.
  destruct (Z.leb_spec (-2147483648) (Zfloor (B2R (fdiv x0 (v_step c))))), (Z.leb_spec (Zfloor (B2R (fdiv x0 (v_step c)))) 2147483647); try lia. reflexivity.
Qed.
Theorem conv_f : forall f g x0, is_finite x0 = true -> B2R (v_dlo c) <= B2R x0 <= B2R (v_dup c) -> exists v, conv_value f64_ops f2int c f g x0 = Some v.
Proof.
  intros f g x0 Fx Hx. destruct (shift_f x0 Fx Hx) as (sh & E4 & B). eexists.
  apply (conv_ok f64_ops f2int c f g x0 _ _ _ _ cells_f res_f offset_f E4); lia.
Qed.
End Doubles.
