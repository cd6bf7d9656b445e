(** Proofs about the lineshapes. *)
From Coq Require Import Reals List Lra Lia Psatz Arith Bool ZArith.
From Coquelicot Require Import Coquelicot.
From Verif Require Import FormulaSpec FormulaProofs AmpModel WaveModel WaveSpec WaveProofs LineModel LineSpec.
Import ListNotations.
Open Scope R_scope.

Lemma pi_const_value : pi_const R_ops = m_PI.
Proof. unfold pi_const, m_PI. rops. change (powerRZ 2 (-48)) with (/ 2 ^ 48). reflexivity. Qed.
Lemma m_PI_pos : 0 < m_PI.
Proof. unfold m_PI. apply Rdiv_lt_0_compat; [lra|]. apply pow_lt; lra. Qed.

(** ** Momenta *)
Lemma p_square_breakup : forall M m1 m2 q, 0 < M -> breakup M m1 m2 q ->
  p_square R_ops (M * M) m1 m2 = q ^ 2 /\ p_square_at R_ops M m1 m2 = q ^ 2.
Proof.
  intros M m1 m2 q P B. assert (Q : 0 < M * M) by nra.
  rewrite <- (sqrt_square M) in B by lra. destruct (breakup_pos _ _ _ _ Q B) as (_ & _ & E).
  unfold p_square, p_square_at. rops.
  replace ((M * M - (m1 + m2) * (m1 + m2)) * (M * M - (m1 - m2) * (m1 - m2)))
    with ((M * M - (m1 + m2) ^ 2) * (M * M - (m1 - m2) ^ 2)) by ring.
  rewrite E. split; field; lra.
Qed.
Lemma to_power_pow : forall n x, to_power R_ops n x = x ^ n.
Proof.
  induction n as [|n H]; intro x; [reflexivity|]. change (to_power R_ops (S n) x) with (to_power R_ops n x * x). rewrite H. cbn [pow]. ring.
Qed.
Lemma ratio_sqrt : forall q q0, 0 <= q -> 0 < q0 -> sqrt (q ^ 2 / q0 ^ 2) = q / q0.
Proof.
  intros q q0 P P0. replace (q ^ 2 / q0 ^ 2) with ((q / q0) ^ 2) by (field; lra). apply sqrt_pow2.
  apply Rmult_le_pos; [assumption|]. left. now apply Rinv_0_lt_compat.
Qed.
Lemma bl_prime_barrier : forall l z z0, (l <= 2)%nat -> 0 <= z -> 0 <= z0 -> bl_prime R_ops z z0 l = barrier l z z0.
Proof.
  intros l z z0 Pl Pz Pz0. destruct l as [|[|[|l]]]; [reflexivity|reflexivity| |lia]. unfold bl_prime, barrier. rops. apply f_equal2; ring.
Qed.
Lemma form_value : forall f l z z0, (l <= 2)%nat -> 0 <= z -> 0 <= z0 -> form R_ops f l z z0 = form_factor f l z z0.
Proof.
  intros f l z z0 Pl Pz Pz0. unfold form, form_factor, bl, bl2, bl_prime, weight. rops.
  destruct l as [|[|[|l]]]; [| | |lia]; destruct f; try reflexivity; try (field; nra); try (cbn [pow]; field; nra).
Qed.
Lemma line_norm_pos : forall m g, 0 < m -> 0 < g -> 0 < line_norm m g.
Proof.
  intros m g Pm Pg. unfold line_norm. assert (S : 0 < sqrt (m ^ 2 + g ^ 2)) by (apply sqrt_lt_R0; nra).
  assert (G : 0 < m * sqrt (m ^ 2 + g ^ 2)) by nra. apply Rdiv_lt_0_compat; [|apply sqrt_lt_R0; nra].
  repeat apply Rmult_lt_0_compat; assumption.
Qed.

(** ** The Breit-Wigner functions *)
Lemma bw_pair : forall A B x, ((A * (x / (A * A + B * B)))%R, (B * (x / (A * A + B * B)))%R) = (RtoC x * / (A, - B)%R)%C.
Proof.
  intros A B x. unfold Cinv, Cmult, RtoC. cbn [fst snd]. replace (A ^ 2 + (- B) ^ 2) with (A * A + B * B) by ring.
  unfold Rdiv. f_equal; ring.
Qed.
Lemma rbw_value : forall m0 width l f r M m1 m2 q q0, (l <= 2)%nat -> 0 < m0 -> 0 < M ->
  breakup M m1 m2 q -> breakup m0 m1 m2 q0 -> 0 < q0 ->
  R_RBW m0 width l f r M m1 m2 =
  (RtoC (sqrt (2 * sqrt 2 / m_PI * line_norm m0 width * form_factor f l ((q * r) ^ 2) ((q0 * r) ^ 2))) *
   breit_wigner m0 (M ^ 2)%R (running m0 width l r (M ^ 2)%R q q0))%C.
Proof.
  intros m0 width l f r M m1 m2 q q0 Pl Pm PM B B0 P0.
  destruct (p_square_breakup _ _ _ _ PM B) as [E _]. destruct (p_square_breakup _ _ _ _ Pm B0) as [_ E0].
  unfold rbw_line. rops. rewrite E, E0, pi_const_value. unfold Rltb. destruct (Rlt_dec (q0 ^ 2) 0) as [N|_]; [nra|].
  rewrite Rabs_pos_eq by nra. rewrite to_power_pow.
  destruct B as [Pq _]. rewrite ratio_sqrt by assumption.
  rewrite form_value by (try assumption; nra). rewrite bl_prime_barrier by (try assumption; nra).
  replace (q ^ 2 * (r * r)) with ((q * r) ^ 2) by ring. replace (q0 ^ 2 * (r * r)) with ((q0 * r) ^ 2) by ring.
  unfold breit_wigner, running, line_norm. replace (M ^ 2) with (M * M) by ring. rewrite sqrt_square by lra.
  replace (m0 * m0) with (m0 ^ 2) by ring. replace (width * width) with (width ^ 2) by ring.
  set (W := width * (q / q0) ^ (2 * l + 1) * (m0 / M) * barrier l ((q * r) ^ 2) ((q0 * r) ^ 2)).
  replace (m0 * W * m0 * W) with (m0 * W * (m0 * W)) by ring. rewrite bw_pair. do 3 f_equal. unfold Rdiv. ring.
Qed.
Lemma sbw_value : forall m0 width l f r M m1 m2 q q0, (l <= 2)%nat -> 0 < m0 -> 0 < M ->
  breakup M m1 m2 q -> breakup m0 m1 m2 q0 ->
  R_SBW m0 width l f r M m1 m2 =
  (RtoC (sqrt (line_norm m0 width * form_factor f l ((q * r) ^ 2) ((q0 * r) ^ 2))) * breit_wigner m0 (M ^ 2)%R (m0 * width)%R)%C.
Proof.
  intros m0 width l f r M m1 m2 q q0 Pl Pm PM B B0.
  destruct (p_square_breakup _ _ _ _ PM B) as [E _]. destruct (p_square_breakup _ _ _ _ Pm B0) as [_ E0].
  unfold sbw_line. rops. rewrite E, E0. unfold Rltb. destruct (Rlt_dec (q0 ^ 2) 0) as [N|_]; [nra|].
  rewrite form_value by (try assumption; nra).
  replace (q ^ 2 * (r * r)) with ((q * r) ^ 2) by ring. replace (q0 ^ 2 * (r * r)) with ((q0 * r) ^ 2) by ring.
  unfold breit_wigner, line_norm. replace (M ^ 2) with (M * M) by ring.
  replace (m0 * m0) with (m0 ^ 2) by ring. replace (width * width) with (width ^ 2) by ring.
  rewrite (sqrt_mult (m0 ^ 2)) by nra. rewrite (sqrt_pow2 m0) by lra.
  replace (m0 * width * m0 * width) with (m0 * width * (m0 * width)) by ring. apply bw_pair.
Qed.
(** Without a form factor the momenta do not matter. *)
Lemma sbw_plain : forall m0 width l f r M m1 m2, 0 <= m0 -> l = 0%nat \/ f = FF_One ->
  R_SBW m0 width l f r M m1 m2 = (RtoC (sqrt (line_norm m0 width)) * breit_wigner m0 (M ^ 2)%R (m0 * width)%R)%C.
Proof.
  intros m0 width l f r M m1 m2 Pm H. unfold sbw_line. cbv zeta.
  match goal with |- context [form ?a ?b ?c ?d ?e] => assert (F : form a b c d e = 1) by (destruct H; subst; [reflexivity|now destruct l]) end.
  rewrite F. clear F. rops. rewrite Rmult_1_r. unfold breit_wigner, line_norm. replace (M ^ 2) with (M * M) by ring.
  replace (m0 * m0) with (m0 ^ 2) by ring. replace (width * width) with (width ^ 2) by ring.
  rewrite (sqrt_mult (m0 ^ 2)) by nra. rewrite (sqrt_pow2 m0) by lra.
  replace (m0 * width * m0 * width) with (m0 * width * (m0 * width)) by ring. apply bw_pair.
Qed.
(** Orbital angular momentum above 2 *)
Lemma rbw_high_form : forall m0 width l f r M m1 m2, (3 <= l)%nat -> f <> FF_One -> R_RBW m0 width l f r M m1 m2 = RtoC 0.
Proof.
  intros m0 width l f r M m1 m2 Pl N. unfold rbw_line. cbv zeta.
  match goal with |- context [form ?a ?b ?c ?d ?e] => assert (F : form a b c d e = 0)
    by (destruct l as [|[|[|l]]]; try lia; destruct f; [now elim N|reflexivity..]) end.
  rewrite F. clear F. rops. rewrite Rmult_0_r, sqrt_0. unfold Rdiv. rewrite !Rmult_0_l, !Rmult_0_r. reflexivity.
Qed.
Lemma sbw_high_form : forall m0 width l f r M m1 m2, (3 <= l)%nat -> f <> FF_One -> R_SBW m0 width l f r M m1 m2 = RtoC 0.
Proof.
  intros m0 width l f r M m1 m2 Pl N. unfold sbw_line. cbv zeta.
  match goal with |- context [form ?a ?b ?c ?d ?e] => assert (F : form a b c d e = 0)
    by (destruct l as [|[|[|l]]]; try lia; destruct f; [now elim N|reflexivity..]) end.
  rewrite F. clear F. rops. rewrite Rmult_0_r, sqrt_0. unfold Rdiv. rewrite !Rmult_0_l, !Rmult_0_r. reflexivity.
Qed.
Lemma rbw_high_real : forall m0 width l f r M m1 m2, (3 <= l)%nat -> Im (R_RBW m0 width l f r M m1 m2) = 0.
Proof.
  intros m0 width l f r M m1 m2 Pl. unfold rbw_line, Im. cbv zeta. cbn [snd].
  match goal with |- context [bl_prime ?a ?b ?c ?d] => assert (F : bl_prime a b c d = 0)
    by (destruct l as [|[|[|l]]]; try lia; reflexivity) end.
  rewrite F. clear F. rops. rewrite !Rmult_0_r, Rmult_0_l. reflexivity.
Qed.

(** ** The integral over the mass *)
Lemma lim_shift : forall d c : R, is_lim (fun X => c * / (X + d)) p_infty 0.
Proof.
  intros d c. replace (Finite 0) with (Rbar_mult c (Rbar_inv p_infty)) by (cbn; f_equal; ring).
  apply (is_lim_mult (fun _ => c) (fun X => / (X + d))); [apply is_lim_const| |reflexivity].
  apply is_lim_inv; [|discriminate]. eapply is_lim_plus; [apply is_lim_id|apply is_lim_const|reflexivity].
Qed.
Lemma lim_atan : forall d c : R, 0 < c -> is_lim (fun X => atan ((X + d) / c)) p_infty (PI / 2).
Proof.
  intros d c P. apply (is_lim_ext_loc (fun X => PI / 2 - atan (c * / (X + d)))).
  - exists (- d). intros X H. replace (c * / (X + d)) with (/ ((X + d) / c)) by (field; lra).
    rewrite atan_inv by (apply Rdiv_lt_0_compat; lra). ring.
  - replace (Finite (PI / 2)) with (Finite (PI / 2 - atan 0)) by (rewrite atan_0; f_equal; ring).
    apply (is_lim_comp_continuous (fun X => c * / (X + d)) (fun y => PI / 2 - atan y) p_infty 0); [apply lim_shift|].
    apply (continuous_minus (fun _ => PI / 2) atan); [apply continuous_const|].
    apply continuity_pt_filterlim. apply derivable_continuous_pt. apply derivable_pt_atan.
Qed.
Lemma quartic_pos : forall b c X, 0 < c -> 0 < X ^ 2 - b * X + (c ^ 2 + b ^ 2 / 4) /\ 0 < X ^ 2 + b * X + (c ^ 2 + b ^ 2 / 4).
Proof.
  intros b c X P. assert (0 < c ^ 2) by nra. pose proof (sq_nonneg (X - b / 2)). pose proof (sq_nonneg (X + b / 2)).
  replace (X ^ 2 - b * X + (c ^ 2 + b ^ 2 / 4)) with ((X - b / 2) ^ 2 + c ^ 2) by field.
  replace (X ^ 2 + b * X + (c ^ 2 + b ^ 2 / 4)) with ((X + b / 2) ^ 2 + c ^ 2) by field. lra.
Qed.
Lemma lim_ln : forall b c, 0 < b -> 0 < c ->
  is_lim (fun X => ln ((X ^ 2 + b * X + (c ^ 2 + b ^ 2 / 4)) / (X ^ 2 - b * X + (c ^ 2 + b ^ 2 / 4)))) p_infty 0.
Proof.
  intros b c Pb Pc. apply (is_lim_ext (fun X => ln (1 + 2 * b * X / (X ^ 2 - b * X + (c ^ 2 + b ^ 2 / 4))))).
  - intro X. f_equal. pose proof (quartic_pos b c X Pc). field. lra.
  - replace (Finite 0) with (Finite (ln (1 + 0))) by (rewrite Rplus_0_r, ln_1; reflexivity).
    apply (is_lim_comp_continuous (fun X => 2 * b * X / (X ^ 2 - b * X + (c ^ 2 + b ^ 2 / 4))) (fun y => ln (1 + y)) p_infty 0).
    + apply (is_lim_le_le_loc (fun _ => 0) (fun X => 2 * b * / (X + - b))).
      * exists b. intros X H. pose proof (quartic_pos b c X Pc) as [Q _]. split.
        -- apply Rmult_le_pos; [nra|]. left. now apply Rinv_0_lt_compat.
        -- assert (0 < c ^ 2 + b ^ 2 / 4) by nra. apply Rmult_le_reg_r with (X ^ 2 - b * X + (c ^ 2 + b ^ 2 / 4)); [assumption|].
           apply Rmult_le_reg_r with (X + - b); [lra|]. unfold Rdiv.
           replace (2 * b * X * / (X ^ 2 - b * X + (c ^ 2 + b ^ 2 * / 4)) * (X ^ 2 - b * X + (c ^ 2 + b ^ 2 * / 4)) * (X + - b))
             with (2 * b * (X ^ 2 - b * X)) by (field; unfold Rdiv in Q; lra).
           replace (2 * b * / (X + - b) * (X ^ 2 - b * X + (c ^ 2 + b ^ 2 * / 4)) * (X + - b))
             with (2 * b * (X ^ 2 - b * X) + 2 * b * (c ^ 2 + b ^ 2 / 4)) by (field; lra). nra.
      * apply is_lim_const.
      * apply lim_shift.
    + apply continuity_pt_filterlim. apply derivable_continuous_pt. exists (/ 1). apply is_derive_Reals. auto_derive; [lra|field].
Qed.
Definition primitive (b c X : R) : R :=
  let g := c ^ 2 + b ^ 2 / 4 in
  1 / (4 * g * b) * ln ((X ^ 2 + b * X + g) / (X ^ 2 - b * X + g)) + 1 / (4 * g * c) * (atan ((X + b / 2) / c) + atan ((X + - (b / 2)) / c)).
Lemma primitive_derive : forall b c X, 0 < b -> 0 < c ->
  is_derive (primitive b c) X (/ ((X ^ 2 + b * X + (c ^ 2 + b ^ 2 / 4)) * (X ^ 2 - b * X + (c ^ 2 + b ^ 2 / 4)))).
Proof.
  intros b c X Pb Pc. unfold primitive. cbv zeta. pose proof (quartic_pos b c X Pc) as [Q1 Q2].
  auto_derive.
  - replace (X * (X * 1) + b * X + (c * (c * 1) + b * (b * 1) * / 4)) with (X ^ 2 + b * X + (c ^ 2 + b ^ 2 / 4)) by field.
    replace (X * (X * 1) + - (b * X) + (c * (c * 1) + b * (b * 1) * / 4)) with (X ^ 2 - b * X + (c ^ 2 + b ^ 2 / 4)) by field.
    repeat split; try lra. now apply Rdiv_lt_0_compat.
  - unfold Rsqr. assert (G : 0 < c ^ 2 + b ^ 2 / 4) by nra.
    replace (1 + (X + b / 2) * / c * ((X + b / 2) * / c)) with ((X ^ 2 + b * X + (c ^ 2 + b ^ 2 / 4)) / c ^ 2) by (field; lra).
    replace (1 + (X + - (b / 2)) * / c * ((X + - (b / 2)) * / c)) with ((X ^ 2 - b * X + (c ^ 2 + b ^ 2 / 4)) / c ^ 2) by (field; lra).
    field. repeat split; try lra; nra.
Qed.
Lemma primitive_zero : forall b c, 0 < c -> primitive b c 0 = 0.
Proof.
  intros b c P. unfold primitive. cbv zeta. pose proof (quartic_pos b c 0 P) as [Q _].
  replace ((0 ^ 2 + b * 0 + (c ^ 2 + b ^ 2 / 4)) / (0 ^ 2 - b * 0 + (c ^ 2 + b ^ 2 / 4))) with 1 by (field; nra).
  replace ((0 + - (b / 2)) / c) with (- ((0 + b / 2) / c)) by (field; lra). rewrite atan_opp, ln_1. ring.
Qed.
Lemma primitive_limit : forall b c, 0 < b -> 0 < c -> is_lim (primitive b c) p_infty (PI / (4 * (c ^ 2 + b ^ 2 / 4) * c)).
Proof.
  intros b c Pb Pc. unfold primitive. cbv zeta. assert (G : 0 < c ^ 2 + b ^ 2 / 4) by nra.
  replace (Finite (PI / (4 * (c ^ 2 + b ^ 2 / 4) * c)))
    with (Finite (1 / (4 * (c ^ 2 + b ^ 2 / 4) * b) * 0 + 1 / (4 * (c ^ 2 + b ^ 2 / 4) * c) * (PI / 2 + PI / 2)))
    by (f_equal; field; repeat split; try lra; nra).
  apply is_lim_plus'.
  - apply (is_lim_scal_l (fun X => ln _) _ _ (Finite 0)). now apply lim_ln.
  - apply (is_lim_scal_l (fun X => atan ((X + b / 2) / c) + atan ((X + - (b / 2)) / c)) _ _ (Finite (PI / 2 + PI / 2))).
    apply is_lim_plus'; now apply lim_atan.
Qed.
Lemma resonance_integral : forall m g, 0 < m -> 0 < g ->
  (forall X, is_RInt (fun M => line_norm m g / ((m ^ 2 - M ^ 2) ^ 2 + (m * g) ^ 2)) 0 X
     (RInt (fun M => line_norm m g / ((m ^ 2 - M ^ 2) ^ 2 + (m * g) ^ 2)) 0 X)) /\
  is_lim (fun X => RInt (fun M => line_norm m g / ((m ^ 2 - M ^ 2) ^ 2 + (m * g) ^ 2)) 0 X) p_infty (PI / (2 * sqrt 2)).
Proof.
  intros m g Pm Pg. set (gam := m * sqrt (m ^ 2 + g ^ 2)). set (b := sqrt (2 * (gam + m ^ 2))). set (c := sqrt ((gam - m ^ 2) / 2)).
  assert (S : sqrt (m ^ 2 + g ^ 2) ^ 2 = m ^ 2 + g ^ 2) by (apply sqrt_pow2'; nra).
  assert (S0 : 0 < sqrt (m ^ 2 + g ^ 2)) by (apply sqrt_lt_R0; nra).
  assert (S1 : m < sqrt (m ^ 2 + g ^ 2)) by nra.
  assert (G : m ^ 2 < gam) by (unfold gam; nra).
  assert (G2 : gam ^ 2 = m ^ 4 + m ^ 2 * g ^ 2) by (unfold gam; rewrite Rpow_mult_distr, S; ring).
  assert (Pm2 : 0 < m ^ 2) by nra.
  assert (Pb : 0 < b) by (apply sqrt_lt_R0; lra). assert (Pc : 0 < c) by (apply sqrt_lt_R0; lra).
  assert (B2 : b ^ 2 = 2 * (gam + m ^ 2)) by (apply sqrt_pow2'; lra). assert (C2 : c ^ 2 = (gam - m ^ 2) / 2) by (apply sqrt_pow2'; lra).
  assert (D : forall X, (X ^ 2 + b * X + (c ^ 2 + b ^ 2 / 4)) * (X ^ 2 - b * X + (c ^ 2 + b ^ 2 / 4)) = (m ^ 2 - X ^ 2) ^ 2 + (m * g) ^ 2).
  { intro X. replace (c ^ 2 + b ^ 2 / 4) with gam by (rewrite C2, B2; field).
    replace ((X ^ 2 + b * X + gam) * (X ^ 2 - b * X + gam)) with (X ^ 4 + 2 * gam * X ^ 2 + gam ^ 2 - b ^ 2 * X ^ 2) by ring.
    rewrite B2, G2. ring. }
  assert (Q : forall X, 0 < (m ^ 2 - X ^ 2) ^ 2 + (m * g) ^ 2).
  { intro X. rewrite <- D. destruct (quartic_pos b c X Pc). now apply Rmult_lt_0_compat. }
  assert (I : forall X, is_RInt (fun M => line_norm m g / ((m ^ 2 - M ^ 2) ^ 2 + (m * g) ^ 2)) 0 X (line_norm m g * primitive b c X)).
  { intro X. replace (line_norm m g * primitive b c X) with (scal (line_norm m g) (minus (primitive b c X) (primitive b c 0))).
    2:{ rewrite primitive_zero by assumption. unfold scal, minus, plus, opp. cbn. unfold mult. cbn. ring. }
    apply (is_RInt_scal (fun M => / ((m ^ 2 - M ^ 2) ^ 2 + (m * g) ^ 2))). apply (is_RInt_derive (V := R_CompleteNormedModule)).
    - intros Y _. rewrite <- D. now apply primitive_derive.
    - intros Y _. apply continuity_pt_filterlim. apply derivable_continuous_pt. eexists. apply is_derive_Reals. auto_derive; [|reflexivity].
      specialize (Q Y). nra. }
  split; [intro X; rewrite (is_RInt_unique _ _ _ _ (I X)); apply I|].
  apply (is_lim_ext (fun X => line_norm m g * primitive b c X)); [intro X; symmetry; now apply is_RInt_unique|].
  replace (Finite (PI / (2 * sqrt 2))) with (Rbar_mult (line_norm m g) (PI / (4 * (c ^ 2 + b ^ 2 / 4) * c))).
  - apply is_lim_scal_l. now apply primitive_limit.
  - cbn. f_equal. replace (c ^ 2 + b ^ 2 * / 4) with gam by (rewrite C2, B2; field). unfold line_norm. fold gam.
    assert (W : 0 < sqrt 2) by (apply sqrt_lt_R0; lra). assert (W2 : sqrt 2 * sqrt 2 = 2) by (apply sqrt_sqrt; lra).
    set (h := sqrt (m ^ 2 + gam)). assert (Ph : 0 < h) by (apply sqrt_lt_R0; lra).
    assert (E : sqrt 2 * c * h = m * g).
    { assert (E2 : (sqrt 2 * c * h) ^ 2 = (m * g) ^ 2).
      { replace ((sqrt 2 * c * h) ^ 2) with (sqrt 2 * sqrt 2 * c ^ 2 * h ^ 2) by ring. rewrite W2, C2. unfold h. rewrite sqrt_pow2' by lra.
        replace (2 * ((gam - m ^ 2) / 2) * (m ^ 2 + gam)) with (gam ^ 2 - m ^ 4) by field. rewrite G2. ring. }
      assert (0 < sqrt 2 * c * h) by (repeat apply Rmult_lt_0_compat; assumption). assert (0 < m * g) by nra. nra. }
    rewrite <- E. replace (c * (c * 1) + b * (b * 1) / 4) with gam by (replace (c * (c * 1)) with (c ^ 2) by ring; replace (b * (b * 1)) with (b ^ 2) by ring; rewrite C2, B2; field).
    set (w := sqrt 2) in *. apply Rmult_eq_reg_r with (2 * w); [|lra].
    transitivity (w * w * PI / 2); [field; repeat split; try lra|rewrite W2; field; lra].
Qed.
Lemma bw_intensity : forall m s w x, 0 <= x -> (m ^ 2 - s) ^ 2 + w ^ 2 <> 0 ->
  Cmod (RtoC (sqrt x) * breit_wigner m s w)%C ^ 2 = x / ((m ^ 2 - s) ^ 2 + w ^ 2).
Proof.
  intros m s w x P N. assert (N' : ((m ^ 2 - s)%R, (- w)%R) <> RtoC 0).
  { intro E. pose proof (f_equal fst E) as E1. pose proof (f_equal snd E) as E2. unfold RtoC in E1, E2. cbn [fst snd] in E1, E2.
    apply N. rewrite E1. replace w with 0 by lra. ring. }
  unfold breit_wigner. rewrite Cmod_mult, Cmod_inv, Cmod_R by exact N'. rewrite Rabs_pos_eq by apply sqrt_pos.
  unfold Cmod. cbn [fst snd]. replace ((- w) ^ 2) with (w ^ 2) by ring.
  assert (Q : 0 < (m ^ 2 - s) ^ 2 + w ^ 2).
  { pose proof (sq_nonneg (m ^ 2 - s)). pose proof (sq_nonneg w). destruct (Rle_lt_or_eq_dec 0 ((m ^ 2 - s) ^ 2 + w ^ 2)) as [Y|Y]; [lra|exact Y|]. now elim N. }
  assert (0 < sqrt ((m ^ 2 - s) ^ 2 + w ^ 2)) by now apply sqrt_lt_R0.
  rewrite Rpow_mult_distr, sqrt_pow2' by assumption. unfold Rdiv. f_equal.
  rewrite pow_inv by lra. now rewrite sqrt_pow2' by lra.
Qed.
Lemma sbw_normalised : forall m g l f r m1 m2, 0 < m -> 0 < g -> l = 0%nat \/ f = FF_One ->
  (forall X, ex_RInt (fun M => Cmod (R_SBW m g l f r M m1 m2) ^ 2) 0 X) /\
  is_lim (fun X => RInt (fun M => Cmod (R_SBW m g l f r M m1 m2) ^ 2) 0 X) p_infty (PI / (2 * sqrt 2)).
Proof.
  intros m g l f r m1 m2 Pm Pg H. destruct (resonance_integral m g Pm Pg) as [I Lm].
  assert (E : forall M, Cmod (R_SBW m g l f r M m1 m2) ^ 2 = line_norm m g / ((m ^ 2 - M ^ 2) ^ 2 + (m * g) ^ 2)).
  { intro M. rewrite sbw_plain by (try assumption; lra). apply bw_intensity; [left; now apply line_norm_pos|].
    assert (0 < (m * g) ^ 2) by (apply pow_lt; nra). pose proof (sq_nonneg (m ^ 2 - M ^ 2)). lra. }
  split.
  - intro X. apply (ex_RInt_ext (fun M => line_norm m g / ((m ^ 2 - M ^ 2) ^ 2 + (m * g) ^ 2))); [intros; symmetry; apply E|].
    eexists. apply I.
  - apply (is_lim_ext (fun X => RInt (fun M => line_norm m g / ((m ^ 2 - M ^ 2) ^ 2 + (m * g) ^ 2)) 0 X)); [|exact Lm].
    intro X. apply RInt_ext. intros; symmetry; apply E.
Qed.

(** ** LASS *)
Lemma lass_value : forall m0 width l f r M m1 m2 q q0, 0 < m0 -> 0 < M -> 0 < width ->
  breakup M m1 m2 q -> breakup m0 m1 m2 q0 -> 0 < q -> 0 < q0 ->
  R_LASS m0 width l f r M m1 m2 =
  (RtoC (M * q0 / (m0 ^ 2 * width * q)) / (RtoC (cot_lass q) - Ci)
   + (RtoC (cot_lass q) + Ci) / (RtoC (cot_lass q) - Ci) * R_RBW m0 width l f r M m1 m2)%C.
Proof.
  intros m0 width l f r M m1 m2 q q0 Pm PM Pw B B0 Pq P0. unfold lass_line. cbv zeta.
  destruct (rbw_line R_ops m0 width l f r M m1 m2) as [u v]. rops.
  destruct (p_square_breakup _ _ _ _ PM B) as [E _]. destruct (p_square_breakup _ _ _ _ Pm B0) as [_ E0]. rewrite E, E0.
  rewrite (Rabs_pos_eq (q0 ^ 2)) by nra. rewrite !sqrt_pow2 by lra.
  change (powerRZ 2 (-51)) with (/ 2 ^ 51).
  change (4661225614328463 * / 2 ^ 51) with (4661225614328463 / 2 ^ 51). change (7475975381435023 * / 2 ^ 51) with (7475975381435023 / 2 ^ 51).
  unfold cot_lass. cbv zeta. set (cot := (2 + _ * _ * q ^ 2) / _). clearbody cot.
  unfold c_add, c_mul, c_div, c_norm. rops. unfold Cdiv, Cminus. unfold Cplus, Cmult, Cinv, Copp, Ci, RtoC. cbn [fst snd].
  assert (0 < cot * cot + 1) by nra. f_equal; field; repeat split; try lra; nra.
Qed.
Lemma lass_elastic : forall m0 width f r M m1 m2 q q0, 0 < m0 -> 0 < M -> 0 < width ->
  breakup M m1 m2 q -> breakup m0 m1 m2 q0 -> 0 < q -> 0 < q0 ->
  let w := m0 ^ 2 * width * q / (M * q0) in
  (1 + 2 * Ci * (RtoC w * R_LASS m0 width 0 f r M m1 m2) =
   (RtoC (cot_lass q) + Ci) / (RtoC (cot_lass q) - Ci) *
   (1 + 2 * Ci * RtoC (sqrt (2 * sqrt 2 / m_PI * line_norm m0 width) * w)%R * breit_wigner m0 (M ^ 2)%R w))%C.
Proof.
  intros m0 width f r M m1 m2 q q0 Pm PM Pw B B0 Pq P0 w.
  rewrite (lass_value m0 width 0 f r M m1 m2 q q0) by assumption. rewrite (rbw_value m0 width 0 f r M m1 m2 q q0) by (try assumption; lia).
  assert (F : form_factor f 0 ((q * r) ^ 2) ((q0 * r) ^ 2) = 1) by (destruct f; cbn [form_factor weight pow]; field).
  rewrite F, Rmult_1_r.
  assert (W : running m0 width 0 r (M ^ 2) q q0 = w).
  { unfold running, w. cbn [barrier Nat.mul Nat.add]. rewrite sqrt_pow2 by lra. cbn [pow]. field. lra. }
  rewrite W. replace (M * q0 / (m0 ^ 2 * width * q)) with (/ w) by (unfold w; field; lra).
  assert (Pw' : 0 < w). { unfold w. apply Rdiv_lt_0_compat; [|nra]. assert (0 < m0 ^ 2) by nra. assert (0 < m0 ^ 2 * width) by nra. nra. }
  set (k := sqrt (_ * line_norm _ _)). clearbody k w. set (bw := breit_wigner m0 (M ^ 2) w). clearbody bw. clear F W.
  set (cot := cot_lass q). clearbody cot.
  assert (Nc : (RtoC cot - Ci)%C <> RtoC 0).
  { intro X. apply (f_equal snd) in X. unfold Cminus, Ci, RtoC in X. cbn in X. lra. }
  rewrite RtoC_inv, RtoC_mult by lra. assert (Nw : RtoC w <> RtoC 0) by (intro X; apply RtoC_inj in X; lra).
  replace (RtoC 2) with (RtoC 1 + RtoC 1)%C by (rewrite <- RtoC_plus; f_equal; lra).
  field_simplify_eq; [|split; assumption].
  replace (Ci * Ci)%C with (- (1))%C by (unfold Ci, Cmult, RtoC, Copp; cbn; f_equal; ring). ring.
Qed.
Lemma phase_modulus : forall c : R, Cmod ((RtoC c + Ci) / (RtoC c - Ci))%C = 1.
Proof.
  intro c. assert (N : (RtoC c - Ci)%C <> RtoC 0). { intro X. apply (f_equal snd) in X. unfold Cminus, Ci, RtoC in X. cbn in X. lra. }
  rewrite Cmod_div by exact N. unfold Cmod, Cminus. unfold Cplus, Copp, Ci, RtoC. cbn [fst snd].
  replace ((c + 0) ^ 2 + (0 + 1) ^ 2) with (c ^ 2 + 1) by ring. replace ((c + - 0) ^ 2 + (0 + - (1)) ^ 2) with (c ^ 2 + 1) by ring.
  assert (0 < sqrt (c ^ 2 + 1)) by (apply sqrt_lt_R0; nra). field. lra.
Qed.
Lemma lass_at_mass : forall m0 width f r m1 m2 q, 0 < m0 -> 0 < width -> breakup m0 m1 m2 q -> 0 < q ->
  Cmod (1 + 2 * Ci * (RtoC (m0 * width) * R_LASS m0 width 0 f r m0 m1 m2))%C = Rabs (1 - 2 * sqrt (2 * sqrt 2 / m_PI * line_norm m0 width)).
Proof.
  intros m0 width f r m1 m2 q Pm Pw B Pq. pose proof (lass_elastic m0 width f r m0 m1 m2 q q Pm Pm Pw B B Pq Pq) as X. cbv zeta in X.
  replace (m0 ^ 2 * width * q / (m0 * q)) with (m0 * width) in X by (field; lra). rewrite X. rewrite Cmod_mult, phase_modulus, Rmult_1_l.
  set (k := sqrt _). clearbody k. assert (0 < m0 * width) by nra. rewrite <- Cmod_R. f_equal.
  unfold breit_wigner, Cinv, Cplus, Cmult, Ci, RtoC. cbn [fst snd]. f_equal; field; repeat split; try lra; nra.
Qed.
Lemma lass_unitary_if : forall m0 width f r M m1 m2 q q0, 0 < m0 -> 0 < M -> 0 < width ->
  breakup M m1 m2 q -> breakup m0 m1 m2 q0 -> 0 < q -> 0 < q0 -> 2 * sqrt 2 / m_PI * line_norm m0 width = 1 ->
  unitary (RtoC (m0 ^ 2 * width * q / (M * q0)) * R_LASS m0 width 0 f r M m1 m2)%C.
Proof.
  intros m0 width f r M m1 m2 q q0 Pm PM Pw B B0 Pq P0 K. pose proof (lass_elastic m0 width f r M m1 m2 q q0 Pm PM Pw B B0 Pq P0) as X.
  cbv zeta in X. unfold unitary. rewrite X, Cmod_mult, phase_modulus, Rmult_1_l, K, sqrt_1, Rmult_1_l.
  set (w := m0 ^ 2 * width * q / (M * q0)).
  assert (Pw' : 0 < w). { unfold w. apply Rdiv_lt_0_compat; [|nra]. assert (0 < m0 ^ 2) by nra. assert (0 < m0 ^ 2 * width) by nra. nra. }
  clearbody w. set (A := m0 ^ 2 - M ^ 2). assert (0 < A ^ 2 + w ^ 2) by nra.
  rewrite <- Cmult_assoc. 
  assert (E : (RtoC w * breit_wigner m0 (M ^ 2) w)%C = ((w * A / (A ^ 2 + w ^ 2))%R, (w * w / (A ^ 2 + w ^ 2))%R)).
  { unfold breit_wigner. fold A. unfold Cinv, Cmult, RtoC. cbn [fst snd]. assert (A ^ 2 + (- w) ^ 2 <> 0) by nra. f_equal; field; repeat split; lra. }
  rewrite E. apply unitary_norm. field. lra.
Qed.

(** ** Generalised LASS *)
Lemma e_i_add : forall x y, e_i (x + y) = (e_i x * e_i y)%C.
Proof. intros. unfold e_i, Cmult. cbn [fst snd]. rewrite cos_plus, sin_plus. f_equal; ring. Qed.
Lemma e_i_double : forall x, (1 + 2 * Ci * (RtoC (sin x) * e_i x))%C = e_i (2 * x).
Proof.
  intro x. unfold e_i, Cplus, Cmult, Ci, RtoC. cbn [fst snd]. rewrite cos_2a_sin, sin_2a. f_equal; ring.
Qed.
Lemma e_i_mod : forall x, Cmod (e_i x) = 1.
Proof.
  intro x. unfold e_i, Cmod. cbn [fst snd]. pose proof (sin2_cos2 x) as S. unfold Rsqr in S.
  replace (cos x ^ 2 + sin x ^ 2) with 1 by nra. apply sqrt_1.
Qed.
Lemma glass_shape : forall mass width a r phiF phiR F l radius M m1 m2 q q0, (l <= 2)%nat -> 0 < mass -> 0 < M ->
  breakup M m1 m2 q -> breakup mass m1 m2 q0 -> 0 < q -> 0 < q0 ->
  (RtoC (q / M) * R_GLASS mass width a r phiF phiR F l radius M m1 m2)%C =
  glass_formula F (phiF + atan (2 * a * q / (2 + a * r * q ^ 2)))
    (phiR + atan (running mass width l radius (M ^ 2) q q0 / (mass ^ 2 - M ^ 2))).
Proof.
  intros mass width a r phiF phiR F l radius M m1 m2 q q0 Pl Pm PM B B0 Pq P0. unfold glass_line. cbv zeta. rops.
  destruct (p_square_breakup _ _ _ _ PM B) as [E _]. destruct (p_square_breakup _ _ _ _ Pm B0) as [_ E0]. rewrite E, E0.
  rewrite (Rabs_pos_eq (q0 ^ 2)) by nra. rewrite (sqrt_pow2 q) by lra. rewrite to_power_pow, ratio_sqrt by lra.
  rewrite bl_prime_barrier by (try assumption; nra).
  replace (q ^ 2 * (radius * radius)) with ((q * radius) ^ 2) by ring. replace (q0 ^ 2 * (radius * radius)) with ((q0 * radius) ^ 2) by ring.
  replace (M * M) with (M ^ 2) by ring. replace (mass * mass) with (mass ^ 2) by ring.
  rewrite ratio_sqrt by lra.
  assert (W : running mass width l radius (M ^ 2) q q0 = mass * (width * (q / q0) ^ (2 * l + 1) * (mass / M) * barrier l ((q * radius) ^ 2) ((q0 * radius) ^ 2))).
  { unfold running. rewrite sqrt_pow2 by lra. reflexivity. }
  rewrite W. set (dB := phiF + _). set (dR := phiR + _). clearbody dB dR.
  unfold glass_formula, c_scale, c_add. rops. cbn [fst snd]. rewrite cos_plus, sin_plus. unfold e_i, Cplus, Cmult, RtoC. cbn [fst snd]. f_equal; field; lra.
Qed.
Lemma glass_unitary : forall dB dR, unitary (glass_formula 1 dB dR).
Proof.
  intros dB dR. unfold unitary, glass_formula.
  replace (1 + 2 * Ci * (1 * (RtoC (sin dB) * e_i dB) + e_i (2 * dB) * (RtoC (sin dR) * e_i dR)))%C
    with ((1 + 2 * Ci * (RtoC (sin dB) * e_i dB)) + e_i (2 * dB) * (2 * Ci * (RtoC (sin dR) * e_i dR)))%C by ring.
  rewrite e_i_double. replace (e_i (2 * dB) + e_i (2 * dB) * (2 * Ci * (RtoC (sin dR) * e_i dR)))%C
    with (e_i (2 * dB) * (1 + 2 * Ci * (RtoC (sin dR) * e_i dR)))%C by ring.
  rewrite e_i_double, Cmod_mult, !e_i_mod. ring.
Qed.

(** ** Flatté *)
Lemma bl2_weight : forall l z, (l <= 2)%nat -> bl2 R_ops z l = weight l z.
Proof.
  intros l z Pl. destruct l as [|[|[|l]]]; [reflexivity|reflexivity| |lia]. unfold bl2, weight. rops. unfold Rdiv. do 2 f_equal. ring.
Qed.
Lemma a_sqrt_phase : forall m M, 0 < M -> a_sqrt R_ops m M = phase_space (4 * m ^ 2) (M ^ 2).
Proof.
  intros m M PM. rewrite phase_space_sqrt by nra. unfold a_sqrt. rops.
  assert (E : 2 * m / M * (2 * m / M) = 4 * m ^ 2 / M ^ 2) by (field; lra). rewrite E. set (x := 4 * m ^ 2 / M ^ 2). clearbody x.
  unfold Rltb. destruct (Rlt_dec 0 (1 - x)) as [H|H].
  - rewrite (sqrt_neg_0 (x - 1)) by lra. reflexivity.
  - rewrite (sqrt_neg_0 (1 - x)) by lra. do 2 f_equal. ring.
Qed.
Lemma flatte_constants : f_pi0 R_ops = fl_pi0 /\ f_k0 R_ops = fl_k0 /\ f_gpi R_ops = fl_gpi /\ f_gk R_ops = fl_gk.
Proof.
  unfold f_gk, f_pi0, f_k0, f_gpi, fl_gk, fl_pi0, fl_k0, fl_gpi. rops. change (powerRZ 2 (-53)) with (/ 2 ^ 53).
  change (powerRZ 2 (-55)) with (/ 2 ^ 55). change (powerRZ 2 (-50)) with (/ 2 ^ 50). repeat split; reflexivity.
Qed.
Lemma flatte_value : forall mass l r M m1 m2, 0 < M ->
  R_Flatte mass l r M m1 m2 =
  (RtoC (sqrt (bl2 R_ops (p_square R_ops (M * M) m1 m2 * r * r) l))%R * flatte_formula mass fl_gpi fl_gk (KmModel.m_pi R_ops) fl_pi0 (KmModel.m_k R_ops) fl_k0 (M ^ 2))%C.
Proof.
  intros mass l r M m1 m2 PM. unfold flatte_line. cbv zeta. rewrite !a_sqrt_phase by assumption.
  destruct flatte_constants as (-> & -> & -> & ->). rewrite flatte_formula_parts. unfold flatte_A, flatte_B.
  set (fr := bl2 _ _ _). clearbody fr. change (LeafGen.o_sqrt R_ops fr) with (sqrt fr). set (h := sqrt fr). clearbody h.
  destruct (phase_space (4 * fl_pi0 ^ 2) (M ^ 2)) as [x1 y1], (phase_space (4 * KmModel.m_pi R_ops ^ 2) (M ^ 2)) as [x2 y2],
    (phase_space (4 * fl_k0 ^ 2) (M ^ 2)) as [x3 y3], (phase_space (4 * KmModel.m_k R_ops ^ 2) (M ^ 2)) as [x4 y4].
  unfold c_div, KmModel.c_sub, c_mul, c_scale, c_add, c_norm, Cinv, Cmult, RtoC, Re, Im. rops. cbn [fst snd].
  set (g1 := fl_gpi). set (g2 := fl_gk). clearbody g1 g2.
  match goal with |- (?n1 / ?d1, ?n2 / ?d2) = (?u1 * (?a / ?e) - _ * _, _) =>
    replace d1 with e; [replace d2 with e by field; set (dd := e); clearbody dd; unfold Rdiv; f_equal; ring|] end.
  field.
Qed.
