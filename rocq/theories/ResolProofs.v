(** Integrals of the mixing rate over the decay time. *)
From Coq Require Import List ZArith Reals Lra Lia.
From Coquelicot Require Import Coquelicot.
From Verif Require Import FormulaSpec ResolModel ResolSpec ResolMoment.
From Verif Require LeafGen.
Import ListNotations.
Open Scope R_scope.

(** ** Linear combinations of improper integrals *)
Section Lin.
Context (Fa Fb : (R -> Prop) -> Prop) {PFa : ProperFilter' Fa} {PFb : ProperFilter' Fb}.
Lemma gen_scal (f : R -> R) (c v : R) : is_RInt_gen f Fa Fb v -> is_RInt_gen (fun t => c * f t) Fa Fb (c * v).
Proof. pose proof (filter_filter' (F := Fa)). pose proof (filter_filter' (F := Fb)). intros Hf. exact (is_RInt_gen_scal f c v Hf). Qed.
Lemma gen_plus (f h : R -> R) (v w : R) : is_RInt_gen f Fa Fb v -> is_RInt_gen h Fa Fb w -> is_RInt_gen (fun t => f t + h t) Fa Fb (v + w).
Proof. pose proof (filter_filter' (F := Fa)). pose proof (filter_filter' (F := Fb)). intros Hf Hh. exact (is_RInt_gen_plus f h v w Hf Hh). Qed.
Lemma gen_ext (f h : R -> R) (v w : R) : (forall t, f t = h t) -> v = w -> is_RInt_gen f Fa Fb v -> is_RInt_gen h Fa Fb w.
Proof.
  pose proof (filter_filter' (F := Fa)). pose proof (filter_filter' (F := Fb)). intros E <- Hf.
  apply is_RInt_gen_ext with (2 := Hf). apply filter_forall. intros ab t _. apply E.
Qed.
End Lin.
#[export] Instance proper'_at (a : R) : ProperFilter' (at_point a). Proof. apply Proper_StrongProper, at_point_filter. Qed.
#[export] Instance proper'_p : ProperFilter' (Rbar_locally p_infty). Proof. apply Proper_StrongProper. typeclasses eauto. Qed.
#[export] Instance proper'_m : ProperFilter' (Rbar_locally m_infty). Proof. apply Proper_StrongProper. typeclasses eauto. Qed.

(** ** The integrals of the four terms *)
Local Notation FP := (Rbar_locally p_infty).
Lemma filter_p : Filter FP. Proof. typeclasses eauto. Qed.
Lemma from0 (f F : R -> R) : (forall t, is_derive F t (f t)) -> (forall t, continuous f t) -> fast FP F -> over_decay_time f (- F 0).
Proof.
  intros D C Fs. unfold over_decay_time. replace (- F 0) with (0 - F 0) by ring.
  apply (int_gen f F); try typeclasses eauto; try assumption.
  - intros P [e He]. apply He. apply ball_center.
  - apply fast_0; [exact filter_p|exact Fs].
Qed.
Lemma fast_cos k w : 0 < k -> fast FP (fun t => exp (- k * t) * cos (w * t)).
Proof.
  intros Hk. apply fast_dom with (fun t => exp (- k * t)); [exact filter_p| |now apply fast_exp].
  exists 0. intros t _. rewrite Rabs_mult. rewrite <- (Rmult_1_r (Rabs (exp _))) at 2. apply Rmult_le_compat_l; [apply Rabs_pos|].
  apply Rabs_le. apply COS_bound.
Qed.
Lemma fast_sin k w : 0 < k -> fast FP (fun t => exp (- k * t) * sin (w * t)).
Proof.
  intros Hk. apply fast_dom with (fun t => exp (- k * t)); [exact filter_p| |now apply fast_exp].
  exists 0. intros t _. rewrite Rabs_mult. rewrite <- (Rmult_1_r (Rabs (exp _))) at 2. apply Rmult_le_compat_l; [apply Rabs_pos|].
  apply Rabs_le. apply SIN_bound.
Qed.
Ltac fastlin := repeat (apply fast_plus; [exact filter_p| |]); repeat (apply fast_scal; [exact filter_p|]).
Ltac gendiff f x := match goal with |- continuous _ _ => apply gcont; auto_derive; repeat split; try exact I end.

Lemma int_exp k : 0 < k -> over_decay_time (fun t => exp (- k * t)) (/ k).
Proof.
  intros Hk. replace (/ k) with (- (- / k * exp (- k * 0))) by (rewrite Rmult_0_r, exp_0; field; lra).
  apply (from0 _ (fun t => - / k * exp (- k * t))).
  - intros t. auto_derive; [exact I|]. eqR. field. lra.
  - intros t. apply gcont. auto_derive. exact I.
  - fastlin. now apply fast_exp.
Qed.
Lemma int_texp k : 0 < k -> over_decay_time (fun t => t * exp (- k * t)) (/ k ^ 2).
Proof.
  intros Hk. set (F := fun t => - / k * (t * exp (- k * t)) + - / k ^ 2 * exp (- k * t)).
  replace (/ k ^ 2) with (- F 0) by (unfold F; rewrite Rmult_0_r, exp_0; field; lra).
  apply (from0 _ F).
  - intros t. unfold F. auto_derive; [exact I|]. eqR. field. lra.
  - intros t. apply gcont. auto_derive. exact I.
  - unfold F. fastlin; [apply fast_id; [exact filter_p|]|]; now apply fast_exp.
Qed.
Lemma sq_pos k w : 0 < k -> 0 < k ^ 2 + w ^ 2.
Proof. intros. pose proof (pow2_ge_0 w). nra. Qed.
Lemma int_cos k w : 0 < k -> over_decay_time (fun t => exp (- k * t) * cos (w * t)) (k / (k ^ 2 + w ^ 2)).
Proof.
  intros Hk. pose proof (sq_pos k w Hk) as Q.
  set (F := fun t => - k / (k ^ 2 + w ^ 2) * (exp (- k * t) * cos (w * t)) + w / (k ^ 2 + w ^ 2) * (exp (- k * t) * sin (w * t))).
  replace (k / (k ^ 2 + w ^ 2)) with (- F 0) by (unfold F; rewrite !Rmult_0_r, exp_0, cos_0, sin_0; field; lra).
  apply (from0 _ F).
  - intros t. unfold F. auto_derive; [exact I|].
    generalize (exp (- k * t)) (cos (w * t)) (sin (w * t)). intros e c d. eqR. field. lra.
  - intros t. apply gcont. auto_derive. exact I.
  - unfold F. fastlin; [now apply fast_cos|now apply fast_sin].
Qed.
Lemma int_sin k w : 0 < k -> over_decay_time (fun t => exp (- k * t) * sin (w * t)) (w / (k ^ 2 + w ^ 2)).
Proof.
  intros Hk. pose proof (sq_pos k w Hk) as Q.
  set (F := fun t => - k / (k ^ 2 + w ^ 2) * (exp (- k * t) * sin (w * t)) + - w / (k ^ 2 + w ^ 2) * (exp (- k * t) * cos (w * t))).
  replace (w / (k ^ 2 + w ^ 2)) with (- F 0) by (unfold F; rewrite !Rmult_0_r, exp_0, cos_0, sin_0; field; lra).
  apply (from0 _ F).
  - intros t. unfold F. auto_derive; [exact I|].
    generalize (exp (- k * t)) (cos (w * t)) (sin (w * t)). intros e c d. eqR. field. lra.
  - intros t. apply gcont. auto_derive. exact I.
  - unfold F. fastlin; [now apply fast_sin|now apply fast_cos].
Qed.
Lemma int_tcos k w : 0 < k -> over_decay_time (fun t => t * (exp (- k * t) * cos (w * t))) ((k ^ 2 - w ^ 2) / (k ^ 2 + w ^ 2) ^ 2).
Proof.
  intros Hk. pose proof (sq_pos k w Hk) as Q. set (q := k ^ 2 + w ^ 2) in *.
  set (F := fun t => (- k / q * (t * (exp (- k * t) * cos (w * t))) + w / q * (t * (exp (- k * t) * sin (w * t)))) +
                     (- (k ^ 2 - w ^ 2) / q ^ 2 * (exp (- k * t) * cos (w * t)) + 2 * k * w / q ^ 2 * (exp (- k * t) * sin (w * t)))).
  replace ((k ^ 2 - w ^ 2) / q ^ 2) with (- F 0) by (unfold F; rewrite !Rmult_0_r, exp_0, cos_0, sin_0; field; lra).
  apply (from0 _ F).
  - intros t. unfold F. auto_derive; [exact I|].
    generalize (exp (- k * t)) (cos (w * t)) (sin (w * t)). intros e c d. eqR. unfold q. field. unfold q in Q. lra.
  - intros t. apply gcont. auto_derive. exact I.
  - unfold F. fastlin; try (apply fast_id; [exact filter_p|]); first [now apply fast_cos|now apply fast_sin].
Qed.
Lemma int_tsin k w : 0 < k -> over_decay_time (fun t => t * (exp (- k * t) * sin (w * t))) (2 * k * w / (k ^ 2 + w ^ 2) ^ 2).
Proof.
  intros Hk. pose proof (sq_pos k w Hk) as Q. set (q := k ^ 2 + w ^ 2) in *.
  set (F := fun t => (- k / q * (t * (exp (- k * t) * sin (w * t))) + - w / q * (t * (exp (- k * t) * cos (w * t)))) +
                     (- (k ^ 2 - w ^ 2) / q ^ 2 * (exp (- k * t) * sin (w * t)) + - (2 * k * w) / q ^ 2 * (exp (- k * t) * cos (w * t)))).
  replace (2 * k * w / q ^ 2) with (- F 0) by (unfold F; rewrite !Rmult_0_r, exp_0, cos_0, sin_0; field; lra).
  apply (from0 _ F).
  - intros t. unfold F. auto_derive; [exact I|].
    generalize (exp (- k * t)) (cos (w * t)) (sin (w * t)). intros e c d. eqR. unfold q. field. unfold q in Q. lra.
  - intros t. apply gcont. auto_derive. exact I.
  - unfold F. fastlin; try (apply fast_id; [exact filter_p|]); first [now apply fast_cos|now apply fast_sin].
Qed.

(** ** The rate *)
Lemma truth_is_rate W c1 c2 c3 c4 tau t x y : truth_rate R_ops (R_lib W) R_extra c1 c2 c3 c4 tau t x y = rate c1 c2 c3 c4 tau x y t.
Proof.
  unfold truth_rate, rate. cbn [R_ops R_lib R_extra x_cosh LeafGen.o_zero LeafGen.o_add LeafGen.o_sub LeafGen.o_mul LeafGen.o_div LeafGen.o_opp
    LeafGen.o_ofZ LeafGen.m_exp LeafGen.m_cos LeafGen.m_sin LeafGen.m_sinh].
  replace (y * t / tau) with (y * (t / tau)) by (unfold Rdiv; ring). replace (x * t / tau) with (x * (t / tau)) by (unfold Rdiv; ring). ring.
Qed.
Definition kp (tau y : R) := (1 - y) / tau.
Definition km (tau y : R) := (1 + y) / tau.
Lemma rate_split c1 c2 c3 c4 tau x y t : tau <> 0 -> rate c1 c2 c3 c4 tau x y t =
  ((c1 / 2 - c3) * exp (- kp tau y * t) + (c1 / 2 + c3) * exp (- km tau y * t)) +
  (c2 * (exp (- (1 / tau) * t) * cos (x / tau * t)) + -2 * c4 * (exp (- (1 / tau) * t) * sin (x / tau * t))).
Proof.
  intros Ht. unfold rate, cosh, sinh, kp, km.
  replace (x * t / tau) with (x / tau * t) by (field; exact Ht).
  replace (exp (- ((1 - y) / tau) * t)) with (exp (- (t / tau)) * exp (y * t / tau)) by (rewrite <- exp_plus; f_equal; field; exact Ht).
  replace (exp (- ((1 + y) / tau) * t)) with (exp (- (t / tau)) * exp (- (y * t / tau))) by (rewrite <- exp_plus; f_equal; field; exact Ht).
  replace (- (1 / tau) * t) with (- (t / tau)) by (field; exact Ht). field.
Qed.
Lemma kpm_pos tau y : 0 < tau -> -1 < y < 1 -> 0 < kp tau y /\ 0 < km tau y /\ 0 < 1 / tau.
Proof. intros. repeat split; apply Rdiv_lt_0_compat; lra. Qed.
Lemma rate_integral c1 c2 c3 c4 tau x y : 0 < tau -> -1 < y < 1 -> over_decay_time (rate c1 c2 c3 c4 tau x y)
  (tau * ((c1 - 2 * y * c3) / (1 - y ^ 2) + (c2 - 2 * x * c4) / (1 + x ^ 2))).
Proof.
  intros Ht Hy. destruct (kpm_pos tau y Ht Hy) as (Kp & Km & K1).
  pose proof (pow2_ge_0 x) as Px. assert (Py : 0 < 1 - y ^ 2) by nra.
  refine (gen_ext _ _ _ _ _ _ _ _ (gen_plus _ _ _ _ _ _ (gen_plus _ _ _ _ _ _ (gen_scal _ _ _ (c1 / 2 - c3) _ (int_exp _ Kp)) (gen_scal _ _ _ (c1 / 2 + c3) _ (int_exp _ Km)))
     (gen_plus _ _ _ _ _ _ (gen_scal _ _ _ c2 _ (int_cos _ (x / tau) K1)) (gen_scal _ _ _ (-2 * c4) _ (int_sin _ (x / tau) K1))))).
  - intros t. symmetry. apply rate_split. lra.
  - unfold kp, km. field. repeat split; nra.
Qed.
Lemma rate_first_moment c1 c2 c3 c4 tau x y : 0 < tau -> -1 < y < 1 -> over_decay_time (fun t => t * rate c1 c2 c3 c4 tau x y t)
  (tau ^ 2 * ((c1 * (1 + y ^ 2) - 4 * y * c3) / (1 - y ^ 2) ^ 2 + (c2 * (1 - x ^ 2) - 4 * x * c4) / (1 + x ^ 2) ^ 2)).
Proof.
  intros Ht Hy. destruct (kpm_pos tau y Ht Hy) as (Kp & Km & K1).
  pose proof (pow2_ge_0 x) as Px. assert (Py : 0 < 1 - y ^ 2) by nra.
  refine (gen_ext _ _ _ _ _ _ _ _ (gen_plus _ _ _ _ _ _ (gen_plus _ _ _ _ _ _ (gen_scal _ _ _ (c1 / 2 - c3) _ (int_texp _ Kp)) (gen_scal _ _ _ (c1 / 2 + c3) _ (int_texp _ Km)))
     (gen_plus _ _ _ _ _ _ (gen_scal _ _ _ c2 _ (int_tcos _ (x / tau) K1)) (gen_scal _ _ _ (-2 * c4) _ (int_tsin _ (x / tau) K1))))).
  - intros t. rewrite rate_split by lra. ring.
  - unfold kp, km. field. repeat split; nra.
Qed.
Lemma truth_norm_value (di1 di2 di3 di4 tau x y : R) : truth_normalization R_ops di1 di2 di3 di4 tau x y =
  tau / (1 - y * y) * (di1 + di2) + tau / (1 + x * x) * (di1 - di2) - 2 * (y * (tau / (1 - y * y))) * di3 - 2 * (x * (tau / (1 + x * x))) * di4.
Proof. reflexivity. Qed.
Lemma average_tau_value (A2 B2 ABr ABi x y tau : R) : truth_average_tau R_ops A2 B2 ABr ABi x y tau =
  (x * x + 1) * (y * y - 1) * (((A2 - B2) * tau * (x * x - 1) + 2 * (2 * ABi) * tau * x) / ((x * x + 1) * (x * x + 1)) +
     ((A2 + B2) * (- (tau * y * y) - tau) + 2 * ABr * (2 * tau) * y) / ((y * y - 1) * (y * y - 1))) /
  ((y * y - 1) * (2 * ABi * x - (A2 - B2)) + (x * x + 1) * ((A2 + B2) - 2 * ABr * y)).
Proof. reflexivity. Qed.

(** ** The rate is twice the squared modulus of the amplitude *)
Lemma cosh_half z : cosh z = (exp (z / 2) ^ 2 + exp (- (z / 2)) ^ 2) / 2.
Proof. unfold cosh. rewrite <- !Rsqr_pow2. unfold Rsqr. rewrite <- !exp_plus. do 2 f_equal; f_equal; field. Qed.
Lemma sinh_half z : sinh z = (exp (z / 2) ^ 2 - exp (- (z / 2)) ^ 2) / 2.
Proof. unfold sinh. rewrite <- !Rsqr_pow2. unfold Rsqr. rewrite <- !exp_plus. do 2 f_equal; f_equal; field. Qed.
Lemma amplitude_rate (A B : R * R) x y s :
  2 * norm2 (decay_amplitude A B x y s) =
  exp (- s) * ((norm2 A + norm2 B) * cosh (y * s) + (norm2 A - norm2 B) * cos (x * s)
               - 2 * fst (cmult A (cconj B)) * sinh (y * s) - 2 * snd (cmult A (cconj B)) * sin (x * s)).
Proof.
  destruct A as [a1 a2], B as [b1 b2]. unfold decay_amplitude, state1, state2, norm2, cplus, cmult, cconj, cscale. cbn [fst snd].
  rewrite cosh_half, sinh_half.
  replace (exp (- ((1 - y) * s / 2))) with (exp (- (s / 2)) * exp (y * s / 2)) by (rewrite <- exp_plus; f_equal; field).
  replace (exp (- ((1 + y) * s / 2))) with (exp (- (s / 2)) * exp (- (y * s / 2))) by (rewrite <- exp_plus; f_equal; field).
  replace (exp (- s)) with (exp (- (s / 2)) ^ 2) by (rewrite <- Rsqr_pow2; unfold Rsqr; rewrite <- exp_plus; f_equal; field).
  replace (x * s) with (2 * (x * s / 2)) by field. rewrite cos_2a, sin_2a.
  replace (2 * (x * s / 2) / 2) with (x * s / 2) by field.
  assert (E : exp (y * s / 2) * exp (- (y * s / 2)) = 1) by (rewrite <- exp_plus, Rplus_opp_r; apply exp_0).
  assert (Q : sin (x * s / 2) ^ 2 + cos (x * s / 2) ^ 2 = 1) by (rewrite <- !Rsqr_pow2; apply sin2_cos2).
  set (e0 := exp (- (s / 2))). set (e := exp (y * s / 2)) in *. set (f := exp (- (y * s / 2))) in *.
  set (c := cos (x * s / 2)) in *. set (d := sin (x * s / 2)) in *.
  assert (Q1 : d ^ 2 = 1 - c ^ 2) by lra.
  transitivity (e0 ^ 2 / 2 * (((a1 - b1) ^ 2 + (a2 - b2) ^ 2) * e ^ 2 * (d ^ 2 + c ^ 2) + ((a1 + b1) ^ 2 + (a2 + b2) ^ 2) * f ^ 2 * (d ^ 2 + c ^ 2)
    + 2 * (e * f) * (((a1 - b1) * (a1 + b1) + (a2 - b2) * (a2 + b2)) * (c ^ 2 - d ^ 2)
                     - ((a2 - b2) * (a1 + b1) - (a1 - b1) * (a2 + b2)) * (2 * d * c)))).
  { field. }
  rewrite E, Q. field.
Qed.
