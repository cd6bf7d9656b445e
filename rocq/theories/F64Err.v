(** Rounding-error lemmas for the doubles of [F64]. *)
From Coq Require Import ZArith Reals Bool Lia Lra Floats.SpecFloat.
From Flocq Require Import Core BinarySingleNaN Relative Plus_error.
From Verif Require Import F64 F64Lemmas.
Open Scope R_scope.

(** Unit roundoff 2^-53 and half the smallest subnormal 2^-1075. *)
Definition uro : R := bpow radix2 (-53).
Definition eta0 : R := bpow radix2 (-1075).

Definition rnd (x : R) : R := round radix2 (SpecFloat.fexp 53 1024) (round_mode mode_NE) x.

Lemma uro_val : uro = / IZR (2 ^ 53).
Proof. reflexivity. Qed.
Lemma uro_pos : 0 < uro. Proof. apply bpow_gt_0. Qed.
Lemma eta0_pos : 0 < eta0. Proof. apply bpow_gt_0. Qed.
Lemma uro_small : uro <= / 1000000000000000.
Proof. rewrite uro_val. apply Rinv_le. lra. apply IZR_le. lia. Qed.

Lemma half_bpow : forall e, / 2 * bpow radix2 e = bpow radix2 (e - 1).
Proof. intros e. unfold Zminus. rewrite bpow_plus. simpl. lra. Qed.

Lemma rnd_err : forall x, exists d e, Rabs d <= uro /\ Rabs e <= eta0 /\ rnd x = x * (1 + d) + e.
Proof.
  intros x. unfold rnd. change (SpecFloat.fexp 53 1024) with (FLT_exp (-1074) 53). simpl round_mode.
  destruct (error_N_FLT radix2 (-1074) 53 eq_refl (fun t => negb (Z.even t)) x) as (d & e & H1 & H2 & _ & H3).
  exists d, e. rewrite half_bpow in H1, H2. split; [exact H1|split; [exact H2|exact H3]].
Qed.

Lemma rnd_rel : forall x, bpow radix2 (-1022) <= Rabs x -> exists d, Rabs d <= uro /\ rnd x = x * (1 + d).
Proof.
  intros x Hx. unfold rnd. change (SpecFloat.fexp 53 1024) with (FLT_exp (-1074) 53). simpl round_mode.
  destruct (relative_error_N_FLT_ex radix2 (-1074) 53 eq_refl (fun t => negb (Z.even t)) x Hx) as (d & H1 & H3).
  exists d. rewrite half_bpow in H1. split; [exact H1|exact H3].
Qed.

Lemma rnd_0 : rnd 0 = 0.
Proof. unfold rnd. apply round_0. apply valid_rnd_round_mode. Qed.
Lemma fexp_valid : Valid_exp (SpecFloat.fexp 53 1024).
Proof. change (SpecFloat.fexp 53 1024) with (FLT_exp (-1074) 53). apply FLT_exp_valid. reflexivity. Qed.
#[export] Existing Instance fexp_valid.
Lemma rnd_le : forall x y, x <= y -> rnd x <= rnd y.
Proof. intros. unfold rnd. apply round_le; auto. apply fexp_valid. apply valid_rnd_round_mode. Qed.
Lemma rnd_format : forall x, generic_format radix2 (SpecFloat.fexp 53 1024) x -> rnd x = x.
Proof. intros. unfold rnd. apply round_generic; auto. apply valid_rnd_round_mode. Qed.
Lemma rnd_B2R : forall x : f64, rnd (B2R x) = B2R x.
Proof. intros x. apply rnd_format, generic_format_B2R. Qed.

Lemma rnd_no_ovf : forall x, Rabs x <= bpow radix2 1023 -> Rabs (rnd x) < bpow radix2 1024.
Proof.
  intros x Hx. apply Rle_lt_trans with (bpow radix2 1023).
  - unfold rnd. apply abs_round_le_generic; auto. apply fexp_valid. apply valid_rnd_round_mode.
    apply generic_format_bpow. change (SpecFloat.fexp 53 1024) with (FLT_exp (-1074) 53). unfold FLT_exp. lia.
  - apply bpow_lt. lia.
Qed.

Lemma fadd_rnd : forall x y, is_finite x = true -> is_finite y = true -> Rabs (B2R x + B2R y) <= bpow radix2 1023 ->
  is_finite (fadd x y) = true /\ B2R (fadd x y) = rnd (B2R x + B2R y).
Proof.
  intros x y Fx Fy H. pose proof (Bplus_correct 53 1024 f64_prec_gt f64_prec_lt mode_NE x y Fx Fy) as E.
  cbv zeta in E. rewrite Rlt_bool_true in E by (apply (rnd_no_ovf _ H)). split; apply E.
Qed.
Lemma fsub_rnd : forall x y, is_finite x = true -> is_finite y = true -> Rabs (B2R x - B2R y) <= bpow radix2 1023 ->
  is_finite (fsub x y) = true /\ B2R (fsub x y) = rnd (B2R x - B2R y).
Proof.
  intros x y Fx Fy H. pose proof (Bminus_correct 53 1024 f64_prec_gt f64_prec_lt mode_NE x y Fx Fy) as E.
  cbv zeta in E. rewrite Rlt_bool_true in E by (apply (rnd_no_ovf _ H)). split; apply E.
Qed.
Lemma fmul_rnd : forall x y, is_finite x = true -> is_finite y = true -> Rabs (B2R x * B2R y) <= bpow radix2 1023 ->
  is_finite (fmul x y) = true /\ B2R (fmul x y) = rnd (B2R x * B2R y).
Proof.
  intros x y Fx Fy H. pose proof (Bmult_correct 53 1024 f64_prec_gt f64_prec_lt mode_NE x y) as E.
  cbv zeta in E. rewrite Rlt_bool_true in E by (apply (rnd_no_ovf _ H)).
  rewrite Fx, Fy in E. split; apply E.
Qed.
Lemma fdiv_rnd : forall x y, is_finite x = true -> B2R y <> 0 -> Rabs (B2R x / B2R y) <= bpow radix2 1023 ->
  is_finite (fdiv x y) = true /\ B2R (fdiv x y) = rnd (B2R x / B2R y).
Proof.
  intros x y Fx Hy H. pose proof (Bdiv_correct 53 1024 f64_prec_gt f64_prec_lt mode_NE x y Hy) as E.
  cbv zeta in E. rewrite Rlt_bool_true in E by (apply (rnd_no_ovf _ H)).
  rewrite Fx in E. split; apply E.
Qed.

(** Additions and subtractions have no underflow error. *)
Lemma rnd_plus_rel : forall x y : f64, exists d, Rabs d <= uro /\ rnd (B2R x + B2R y) = (B2R x + B2R y) * (1 + d).
Proof.
  intros x y. destruct (Rle_or_lt (bpow radix2 (-1022)) (Rabs (B2R x + B2R y))) as [H|H].
  - apply rnd_rel; auto.
  - exists 0. split. rewrite Rabs_R0. left; apply uro_pos.
    rewrite rnd_format. ring.
    change (SpecFloat.fexp 53 1024) with (FLT_exp (-1074) 53). apply FLT_format_plus_small. reflexivity.
    apply generic_format_B2R. apply generic_format_B2R.
    left. eapply Rlt_le_trans; [exact H|]. apply bpow_le. lia.
Qed.
Lemma B2R_fopp : forall x, B2R (fopp x) = - B2R x.
Proof. intros. unfold fopp. apply B2R_Bopp. Qed.
Lemma rnd_minus_rel : forall x y : f64, exists d, Rabs d <= uro /\ rnd (B2R x - B2R y) = (B2R x - B2R y) * (1 + d).
Proof.
  intros x y. destruct (rnd_plus_rel x (fopp y)) as (d & H1 & H2). rewrite B2R_fopp in H2.
  exists d. split; auto.
Qed.

Lemma fadd_err : forall x y, is_finite x = true -> is_finite y = true -> Rabs (B2R x + B2R y) <= bpow radix2 1023 ->
  is_finite (fadd x y) = true /\ exists d, Rabs d <= uro /\ B2R (fadd x y) = (B2R x + B2R y) * (1 + d).
Proof. intros x y Fx Fy H. destruct (fadd_rnd x y Fx Fy H) as [F E]. split; auto. rewrite E. apply rnd_plus_rel. Qed.
Lemma fsub_err : forall x y, is_finite x = true -> is_finite y = true -> Rabs (B2R x - B2R y) <= bpow radix2 1023 ->
  is_finite (fsub x y) = true /\ exists d, Rabs d <= uro /\ B2R (fsub x y) = (B2R x - B2R y) * (1 + d).
Proof. intros x y Fx Fy H. destruct (fsub_rnd x y Fx Fy H) as [F E]. split; auto. rewrite E. apply rnd_minus_rel. Qed.
Lemma fmul_err : forall x y, is_finite x = true -> is_finite y = true -> Rabs (B2R x * B2R y) <= bpow radix2 1023 ->
  bpow radix2 (-1022) <= Rabs (B2R x * B2R y) ->
  is_finite (fmul x y) = true /\ exists d, Rabs d <= uro /\ B2R (fmul x y) = (B2R x * B2R y) * (1 + d).
Proof. intros x y Fx Fy H Hl. destruct (fmul_rnd x y Fx Fy H) as [F E]. split; auto. rewrite E. apply rnd_rel; auto. Qed.
Lemma fdiv_err : forall x y, is_finite x = true -> B2R y <> 0 -> Rabs (B2R x / B2R y) <= bpow radix2 1023 ->
  bpow radix2 (-1022) <= Rabs (B2R x / B2R y) ->
  is_finite (fdiv x y) = true /\ exists d, Rabs d <= uro /\ B2R (fdiv x y) = (B2R x / B2R y) * (1 + d).
Proof. intros x y Fx Fy H Hl. destruct (fdiv_rnd x y Fx Fy H) as [F E]. split; auto. rewrite E. apply rnd_rel; auto. Qed.

(** floor and truncation. *)
Lemma ffloorZ_spec : forall x, ffloorZ x = Zfloor (B2R x).
Proof.
  intros x. unfold ffloorZ. apply eq_IZR.
  rewrite (Btrunc_correct 53 1024 f64_prec_lt).
  destruct (Bnearbyint_correct 53 1024 f64_prec_lt mode_DN x) as [E _]. rewrite E. clear E.
  unfold round, scaled_mantissa, F2R, FIX_exp, cexp. simpl. rewrite !Rmult_1_r. rewrite Ztrunc_IZR. reflexivity.
Qed.
Lemma ftruncZ_spec : forall x, ftruncZ x = Ztrunc (B2R x).
Proof.
  intros x. unfold ftruncZ. apply eq_IZR. rewrite (Btrunc_correct 53 1024 f64_prec_lt).
  unfold round, scaled_mantissa, F2R, FIX_exp, cexp. simpl. rewrite !Rmult_1_r. reflexivity.
Qed.

Lemma flt_spec : forall x y, is_finite x = true -> is_finite y = true -> flt x y = true <-> B2R x < B2R y.
Proof.
  intros x y Fx Fy. unfold flt. rewrite (Bltb_correct 53 1024 x y Fx Fy).
  destruct (Rlt_bool_spec (B2R x) (B2R y)); split; intros; try lra; try discriminate; auto.
Qed.
Lemma flt_false_spec : forall x y, is_finite x = true -> is_finite y = true -> flt x y = false <-> B2R y <= B2R x.
Proof.
  intros x y Fx Fy. unfold flt. rewrite (Bltb_correct 53 1024 x y Fx Fy).
  destruct (Rlt_bool_spec (B2R x) (B2R y)); split; intros; try lra; try discriminate; auto.
Qed.
Lemma fle_R : forall x y, is_finite x = true -> is_finite y = true -> fle x y = true <-> B2R x <= B2R y.
Proof.
  intros x y Fx Fy. unfold fle. rewrite (Bleb_correct 53 1024 x y Fx Fy).
  destruct (Rle_bool_spec (B2R x) (B2R y)); split; intros; try lra; try discriminate; auto.
Qed.
Lemma feq_R : forall x y, is_finite x = true -> is_finite y = true -> feq x y = true <-> B2R x = B2R y.
Proof.
  intros x y Fx Fy. unfold feq. rewrite (Beqb_correct 53 1024 x y Fx Fy).
  destruct (Req_bool_spec (B2R x) (B2R y)); split; intros; try lra; try discriminate; auto.
Qed.
