(** Positivity of improper integrals; what is wrong for x different from 0. *)
From Coq Require Import List ZArith Reals Lra Lia.
From Coquelicot Require Import Coquelicot.
From Verif Require Import FormulaSpec ResolModel ResolSpec ResolMoment ResolProofs ResolProofs2 ResolProofs3.
From Verif Require LeafGen.
Import ListNotations.
Open Scope R_scope.

Lemma sin_lt_abs u : 0 < u -> sin u ^ 2 < u ^ 2.
Proof.
  intros Hu. pose proof (sin_lt_x u Hu) as A. assert (B : - u < sin u).
  { destruct (Rle_lt_dec u 1) as [L|L]; [|pose proof (SIN_bound u); lra]. pose proof PI2_1. assert (0 < sin u) by (apply sin_gt_0; lra). lra. }
  nra.
Qed.
Lemma cos_gt z : z <> 0 -> 1 - z ^ 2 / 2 < cos z.
Proof.
  intros Hz. assert (S : sin (z / 2) ^ 2 < (z / 2) ^ 2).
  { destruct (Rlt_dec 0 z) as [P|P]; [apply sin_lt_abs; lra|].
    replace (sin (z / 2) ^ 2) with (sin (- (z / 2)) ^ 2) by (rewrite sin_neg; ring). replace ((z / 2) ^ 2) with ((- (z / 2)) ^ 2) by ring. apply sin_lt_abs; lra. }
  replace z with (2 * (z / 2)) at 2 by field. rewrite cos_2a_sin. nra.
Qed.
Lemma cos_ge z : 1 - z ^ 2 / 2 <= cos z.
Proof. destruct (Req_dec z 0) as [ -> |N]; [rewrite cos_0; lra|left; now apply cos_gt]. Qed.

(** A function that is nowhere negative and positive on an interval has a positive integral. *)
Lemma gen_pos (f h : R -> R) (p q v : R) : 0 <= p -> p < q -> (forall t, 0 < t -> 0 <= f t) -> (forall t, p < t < q -> h t = f t) ->
  (forall t, p < t < q -> 0 < h t) -> (forall t, continuous h t) -> over_decay_time f v -> 0 < v.
Proof.
  intros Hp Hpq Pos E Ph Ch I. destruct (Rlt_le_dec 0 v) as [L|L]; [exact L|exfalso].
  assert (H0 : 0 < RInt h p q) by (apply RInt_gt_0; [lra|exact Ph|intros t _; apply Ch]).
  assert (V : is_RInt f p q (RInt h p q)).
  { apply is_RInt_ext with h; [rewrite Rmin_left, Rmax_right by lra; exact E|]. apply (RInt_correct (V := R_CompleteNormedModule) h p q), (ex_RInt_continuous (V := R_CompleteNormedModule)). intros t _. apply Ch. }
  assert (P : filter_prod (at_point 0) (Rbar_locally p_infty) (fun ab => exists y, is_RInt f (fst ab) (snd ab) y /\ ball v (mkposreal _ H0) y)).
  { apply (I (ball v (mkposreal _ H0))). exists (mkposreal _ H0). tauto. }
  destruct P as [Q S HQ [M HM] HP]. unfold at_point in HQ.
  set (b := Rmax (q + 1) (M + 1)). assert (B1 : q + 1 <= b) by apply Rmax_l. assert (B2 : M + 1 <= b) by apply Rmax_r.
  destruct (HP 0 b HQ (HM b ltac:(lra))) as (y & Iy & By). cbn [fst snd] in Iy.
  assert (Ex : ex_RInt f 0 b) by (eexists; exact Iy).
  assert (Ex1 : ex_RInt f 0 p) by (apply (ex_RInt_Chasles_1 f 0 p b); [lra|exact Ex]).
  assert (Ex2 : ex_RInt f p b) by (apply (ex_RInt_Chasles_2 f 0 p b); [lra|exact Ex]).
  assert (Ex3 : ex_RInt f q b) by (apply (ex_RInt_Chasles_2 f p q b); [lra|exact Ex2]).
  assert (Y : y = RInt f 0 p + (RInt h p q + RInt f q b)).
  { pose proof (RInt_correct (V := R_CompleteNormedModule) f 0 p Ex1) as Z1. pose proof (RInt_correct (V := R_CompleteNormedModule) f q b Ex3) as Z3.
    pose proof (is_RInt_Chasles f 0 p b _ _ Z1 (is_RInt_Chasles f p q b _ _ V Z3)) as Z.
    pose proof (is_RInt_unique _ _ _ _ Iy) as U1. pose proof (is_RInt_unique _ _ _ _ Z) as U2. rewrite <- U1. exact U2. }
  assert (N1 : 0 <= RInt f 0 p) by (apply RInt_ge_0; [lra|exact Ex1|intros t T; apply Pos; lra]).
  assert (N2 : 0 <= RInt f q b) by (apply RInt_ge_0; [lra|exact Ex3|intros t T; apply Pos; lra]).
  change (Rabs (y + - v) < RInt h p q) in By. apply Rabs_def2 in By. clear V. set (z := RInt h p q) in *. clearbody z. lra.
Qed.
Lemma unique_decay (f : R -> R) (v w : R) : over_decay_time f v -> over_decay_time f w -> v = w.
Proof. intros A B. rewrite <- (is_RInt_gen_unique f v A). exact (is_RInt_gen_unique f w B). Qed.
Lemma unique_measured (f : R -> R) (v w : R) : over_measured_time f v -> over_measured_time f w -> v = w.
Proof. intros A B. rewrite <- (is_RInt_gen_unique f v A). exact (is_RInt_gen_unique f w B). Qed.

(** The cut-off series lies below the cosine. *)
Lemma cubic_gap tau x y t : rate 0 1 0 0 tau x y t - rate_cubic 0 1 0 0 tau x y t = exp (- (t / tau)) * (cos (x * t / tau) - (1 - (x * t / tau) ^ 2 / 2)).
Proof. unfold rate, rate_cubic. cbv zeta. ring. Qed.
Lemma cubic_ge tau x y t : 0 <= rate 0 1 0 0 tau x y t - rate_cubic 0 1 0 0 tau x y t.
Proof. rewrite cubic_gap. apply Rmult_le_pos; [left; apply exp_pos|]. pose proof (cos_ge (x * t / tau)). lra. Qed.
Lemma cubic_gt tau x y t : 0 < tau -> x <> 0 -> 0 < t -> 0 < rate 0 1 0 0 tau x y t - rate_cubic 0 1 0 0 tau x y t.
Proof.
  intros Ht Hx H0. rewrite cubic_gap. apply Rmult_lt_0_compat; [apply exp_pos|].
  assert (Z : x * t / tau <> 0). { unfold Rdiv. repeat apply Rmult_integral_contrapositive_currified; try lra. apply Rinv_neq_0_compat. lra. }
  pose proof (cos_gt _ Z). lra.
Qed.
Lemma normal_pos s d : 0 < s -> 0 < normal s d.
Proof.
  intros Hs. unfold normal. apply Rdiv_lt_0_compat; [apply exp_pos|]. apply Rmult_lt_0_compat; [exact Hs|]. apply sqrt_lt_R0. pose proof PI_RGT_0. lra.
Qed.
Lemma resolution_pos r d : wide r -> mixture r -> 0 < resolution r d.
Proof.
  intros (W1 & W2 & W3) (M1 & M2 & M3). unfold resolution.
  pose proof (normal_pos (w_core r) (d - b_core r) W1) as N1. pose proof (normal_pos (w_tail r) (d - b_tail r) W2) as N2. pose proof (normal_pos (w_outl r) (d - b_outl r) W3) as N3.
  set (a := normal _ _) in N1 |- *. set (b := normal _ _) in N2 |- *. set (c := normal (w_outl r) _) in N3 |- *. clearbody a b c.
  destruct (Rlt_dec 0 (f_core r)) as [P|P]; [|destruct (Rlt_dec 0 (f_tail r)) as [P'|P']]; nra.
Qed.
Lemma resolution_cont r T t : wide r -> ex_derive (fun t => resolution r (T - t)) t.
Proof.
  intros (W1 & W2 & W3). unfold resolution, normal. auto_derive. pose proof PI_RGT_0.
  assert (Q : sqrt (2 * PI) <> 0) by (apply Rgt_not_eq, sqrt_lt_R0; lra).
  repeat split; try exact I; try (apply Rmult_integral_contrapositive_currified; [lra|exact Q]).
Qed.
Lemma gap_cont sb tau x y r T t : tau <> 0 -> wide r ->
  continuous (fun t => exp (- sb * t) * (rate 0 1 0 0 tau x y t - rate_cubic 0 1 0 0 tau x y t) * resolution r (T - t)) t.
Proof.
  intros Ht Hw. apply gcont. apply (ex_derive_mult (fun t => exp (- sb * t) * (rate 0 1 0 0 tau x y t - rate_cubic 0 1 0 0 tau x y t)) (fun t => resolution r (T - t))); [|now apply resolution_cont].
  unfold rate, rate_cubic, cosh, sinh. auto_derive. repeat split; try exact I; exact Ht.
Qed.
Section Wrong.
Variables (W : R -> R -> R) (cf tf cb cs tb ts ob os : R).
Lemma tg_smear_wrong sb bias scale bias2 scale2 tau x y sigma T : 0 < tau -> x <> 0 -> wide (tg_shape cf tf cb cs tb ts ob os bias scale bias2 scale2 sigma) ->
  mixture (tg_shape cf tf cb cs tb ts ob os bias scale bias2 scale2 sigma) ->
  ~ over_decay_time (fun t => exp (- sb * t) * rate 0 1 0 0 tau x y t * resolution (tg_shape cf tf cb cs tb ts ob os bias scale bias2 scale2 sigma) (T - t))
      (tg_rate R_ops (R_lib W) R_extra (tg_params cf tf cb cs tb ts ob os sb bias scale bias2 scale2) 0 1 0 0 tau T x y sigma).
Proof.
  intros Ht Hx Hw Hm I. pose proof (tg_smear W cf tf cb cs tb ts ob os sb bias scale bias2 scale2 tau x y sigma Ht Hw 0 1 0 0 T) as J.
  set (r := tg_shape _ _ _ _ _ _ _ _ _ _ _ _ _) in *. set (v := tg_rate _ _ _ _ _ _ _ _ _ _ _ _ _) in *.
  assert (D : over_decay_time (fun t => exp (- sb * t) * (rate 0 1 0 0 tau x y t - rate_cubic 0 1 0 0 tau x y t) * resolution r (T - t)) 0).
  { refine (gen_ext _ _ _ _ _ _ _ _ (gen_plus _ _ _ _ _ _ I (gen_scal _ _ _ (- (1)) _ J))); [intros t; ring|ring]. }
  apply (Rlt_irrefl 0). refine (gen_pos _ (fun t => exp (- sb * t) * (rate 0 1 0 0 tau x y t - rate_cubic 0 1 0 0 tau x y t) * resolution r (T - t)) 0 1 0 _ _ _ _ _ _ D).
  - lra.
  - lra.
  - intros t H0. apply Rmult_le_pos; [apply Rmult_le_pos; [left; apply exp_pos|apply cubic_ge]|]. left. now apply resolution_pos.
  - reflexivity.
  - intros t [H0 _]. apply Rmult_lt_0_compat; [apply Rmult_lt_0_compat; [apply exp_pos|now apply cubic_gt]|]. now apply resolution_pos.
  - intros t. apply gap_cont; [lra|exact Hw].
Qed.
Lemma tg_total_wrong sb bias scale bias2 scale2 tau x y sigma di1 di2 di3 di4 : 0 < tau -> x <> 0 -> wide (tg_shape cf tf cb cs tb ts ob os bias scale bias2 scale2 sigma) ->
  0 < 1 / tau + sb - y * (1 / tau) -> 0 < 1 / tau + sb + y * (1 / tau) -> (di1 - di2) * (1 / tau + sb) <> 2 * di4 * (x * (1 / tau)) ->
  ~ over_measured_time (fun T => tg_rate R_ops (R_lib W) R_extra (tg_params cf tf cb cs tb ts ob os sb bias scale bias2 scale2) (di1 + di2) (di1 - di2) di3 di4 tau T x y sigma)
      (tg_normalization R_ops sb di1 di2 di3 di4 tau x y).
Proof.
  intros Ht Hx Hw Kp Km Hd I. assert (K : 0 < 1 / tau + sb) by lra.
  pose proof (tg_integral W cf tf cb cs tb ts ob os sb bias scale bias2 scale2 tau x y sigma Ht Hw K Kp Km (di1 + di2) (di1 - di2) di3 di4) as J.
  pose proof (unique_measured _ _ _ I J) as E. pose proof (tg_norm_gap sb tau x y Ht K Kp Km di1 di2 di3 di4) as G. rewrite E, Rminus_eq_0 in G. symmetry in G. revert G.
  pose proof (sq_pos (1 / tau + sb) (x * (1 / tau)) K) as Q.
  assert (X : x * (1 / tau) <> 0). { apply Rmult_integral_contrapositive_currified; [exact Hx|]. unfold Rdiv. rewrite Rmult_1_l. apply Rinv_neq_0_compat. lra. }
  change ((x * (1 / tau) / (1 / tau + sb)) ^ 4 * ((di1 - di2) * (1 / tau + sb) - 2 * di4 * (x * (1 / tau))) * / ((1 / tau + sb) ^ 2 + (x * (1 / tau)) ^ 2) <> 0).
  apply Rmult_integral_contrapositive_currified; [apply Rmult_integral_contrapositive_currified|].
  - apply pow_nonzero. apply Rmult_integral_contrapositive_currified; [exact X|]. apply Rinv_neq_0_compat. lra.
  - intros Z. apply Hd. lra.
  - apply Rinv_neq_0_compat. lra.
Qed.
Lemma tg_total_near sb bias scale bias2 scale2 tau x y sigma di1 di2 di3 di4 : 0 < tau -> wide (tg_shape cf tf cb cs tb ts ob os bias scale bias2 scale2 sigma) ->
  0 < 1 / tau + sb - y * (1 / tau) -> 0 < 1 / tau + sb + y * (1 / tau) ->
  exists v, over_measured_time (fun T => tg_rate R_ops (R_lib W) R_extra (tg_params cf tf cb cs tb ts ob os sb bias scale bias2 scale2) (di1 + di2) (di1 - di2) di3 di4 tau T x y sigma) v /\
    Rabs (tg_normalization R_ops sb di1 di2 di3 di4 tau x y - v) <= (x / (1 + sb * tau)) ^ 4 * (Rabs (di1 - di2) + Rabs di4) * (tau / (1 + sb * tau)).
Proof.
  intros Ht Hw Kp Km. assert (K : 0 < 1 / tau + sb) by lra.
  exists (tg_total sb tau x y (di1 + di2) (di1 - di2) di3 di4). split; [now apply tg_integral|].
  rewrite tg_norm_gap by assumption. assert (Kt : 0 < 1 + sb * tau). { apply Rmult_lt_reg_r with (1 / tau); [apply Rdiv_lt_0_compat; lra|]. rewrite Rmult_0_l. replace ((1 + sb * tau) * (1 / tau)) with (1 / tau + sb) by (field; lra). exact K. }
  replace (x / (1 + sb * tau)) with (x * (1 / tau) / (1 / tau + sb)) by (field; split; lra).
  replace (tau / (1 + sb * tau)) with (/ (1 / tau + sb)) by (field; split; lra).
  set (k := 1 / tau + sb) in *. set (X := x * (1 / tau)). pose proof (sq_pos k X K) as Q. change ((X / k) ^ 4 * ((di1 - di2) * k - 2 * di4 * X) / (k ^ 2 + X ^ 2)) with ((X / k) ^ 4 * ((di1 - di2) * k - 2 * di4 * X) * / (k ^ 2 + X ^ 2)). rewrite Rmult_assoc, Rabs_mult. rewrite (Rabs_pos_eq ((X / k) ^ 4)).
  2:{ replace ((X / k) ^ 4) with (((X / k) ^ 2) ^ 2) by ring. apply pow2_ge_0. }
  rewrite (Rmult_assoc ((X / k) ^ 4) (Rabs (di1 - di2) + Rabs di4)). apply Rmult_le_compat_l. { replace ((X / k) ^ 4) with (((X / k) ^ 2) ^ 2) by ring. apply pow2_ge_0. }
  rewrite Rabs_mult, (Rabs_pos_eq (/ _)) by (left; apply Rinv_0_lt_compat; lra).
  apply Rmult_le_reg_r with (k ^ 2 + X ^ 2); [lra|]. rewrite (Rmult_assoc (Rabs _) (/ _) (k ^ 2 + X ^ 2)), Rinv_l, Rmult_1_r by lra.
  apply Rle_trans with (Rabs (di1 - di2) * k + Rabs di4 * (2 * Rabs X)).
  - unfold Rminus at 1. eapply Rle_trans; [apply Rabs_triang|]. rewrite Rabs_Ropp. apply Rplus_le_compat.
    + rewrite Rabs_mult, (Rabs_pos_eq k) by lra. apply Rle_refl.
    + rewrite !Rabs_mult, (Rabs_pos_eq 2) by lra. apply Req_le. ring.
  - pose proof (Rabs_pos (di1 - di2)) as P1. pose proof (Rabs_pos di4) as P2.
    assert (B1 : k <= / k * (k ^ 2 + X ^ 2)).
    { apply Rmult_le_reg_l with k; [exact K|]. rewrite <- Rmult_assoc, Rinv_r, Rmult_1_l by lra. pose proof (pow2_ge_0 X). nra. }
    assert (B2 : 2 * Rabs X <= / k * (k ^ 2 + X ^ 2)).
    { apply Rmult_le_reg_l with k; [exact K|]. rewrite <- (Rmult_assoc k (/ k)), Rinv_r, Rmult_1_l by lra.
      rewrite <- (pow2_abs X). pose proof (pow2_ge_0 (k - Rabs X)). nra. }
    rewrite (Rmult_assoc (Rabs (di1 - di2) + Rabs di4)). set (z := / k * (k ^ 2 + X ^ 2)) in *. clearbody z. nra.
Qed.

(** ThreeGaussResolutionExt *)
Lemma g_pos k s a T : 0 < s -> 0 < g k s a T.
Proof. intros Hs. unfold g. apply Rmult_lt_0_compat; [apply exp_pos|now apply normal_pos]. Qed.
Lemma bad_value sh Tt C tau x y s T : bad sh Tt C tau x y s 1 0 T =
  - (C * exp (sh * Tt) * (/ 2 * (x * (1 / tau)) ^ 2 * ((s * sqrt 2) ^ 3 / 2 * g (1 / tau + sh) s Tt T)) * (1 - ((1 / tau + sh) * s ^ 2 - T + Tt) / (s * sqrt 2))).
Proof. unfold bad, wrong. cbv zeta. cbn [p2 p4]. ring. Qed.
Lemma bad_factor sh Tt C tau x s T : 0 < C -> 0 < tau -> x <> 0 -> 0 < s ->
  0 < C * exp (sh * Tt) * (/ 2 * (x * (1 / tau)) ^ 2 * ((s * sqrt 2) ^ 3 / 2 * g (1 / tau + sh) s Tt T)).
Proof.
  intros HC Ht Hx Hs. pose proof (g_pos (1 / tau + sh) s Tt T Hs). pose proof s2_pos.
  assert (X : x * (1 / tau) <> 0). { apply Rmult_integral_contrapositive_currified; [exact Hx|]. unfold Rdiv. rewrite Rmult_1_l. apply Rinv_neq_0_compat. lra. }
  apply Rmult_lt_0_compat; [apply Rmult_lt_0_compat; [exact HC|apply exp_pos]|].
  apply Rmult_lt_0_compat; [apply Rmult_lt_0_compat; [lra|]|].
  - rewrite <- Rsqr_pow2. now apply Rsqr_pos_lt.
  - apply Rmult_lt_0_compat; [|assumption]. apply Rdiv_lt_0_compat; [|lra]. apply pow_lt. now apply Rmult_lt_0_compat.
Qed.
Variables (sl sh Tt C : R).
Hypothesis HC : 0 < C.
Hypothesis HT : 0 <= Tt.
Lemma bad_le tau x y s T b : 0 < tau -> x <> 0 -> 0 < s -> late sh Tt tau T b s -> bad sh Tt C tau x y s 1 0 (T - b) <= 0.
Proof.
  intros Ht Hx Hs L. rewrite bad_value. pose proof (bad_factor sh Tt C tau x s (T - b) HC Ht Hx Hs) as F. unfold late in L. pose proof s2_pos as P2.
  assert (U : ((1 / tau + sh) * s ^ 2 - (T - b) + Tt) / (s * sqrt 2) <= 1).
  { assert (Sg : 0 < s * sqrt 2) by (now apply Rmult_lt_0_compat). apply Rmult_le_reg_r with (s * sqrt 2); [exact Sg|]. unfold Rdiv. rewrite Rmult_assoc, Rinv_l by lra. lra. }
  set (f := C * _ * _) in *. clearbody f. nra.
Qed.
Lemma ext_smear_wrong tau x y sigma T : 0 < tau -> x <> 0 -> wide (ext_shape cf tf cb cs tb ts ob os sigma) -> mixture (ext_shape cf tf cb cs tb ts ob os sigma) ->
  (let r := ext_shape cf tf cb cs tb ts ob os sigma in late sh Tt tau T (b_core r) (w_core r) /\ late sh Tt tau T (b_tail r) (w_tail r) /\ late sh Tt tau T (b_outl r) (w_outl r)) ->
  ~ over_decay_time (fun t => acceptance sl sh Tt C t * rate 0 1 0 0 tau x y t * resolution (ext_shape cf tf cb cs tb ts ob os sigma) (T - t))
      (ext_rate R_ops (R_lib W) R_extra (ext_params cf tf cb cs tb ts ob os sl sh Tt C) 0 1 0 0 tau T x y sigma).
Proof.
  intros Ht Hx Hw Hm (L1 & L2 & L3) Iw.
  pose proof (ext_good_smear cf tf cb cs tb ts ob os sl sh Tt C tau x y sigma 0 1 0 0 T Ht HT Hw) as J. cbv zeta in J.
  rewrite (ext_value W cf tf cb cs tb ts ob os sl sh Tt C tau x y sigma 0 1 0 0 T Hw) in Iw. cbv zeta in Iw.
  destruct Hw as (W1 & W2 & W3).
  pose proof (bad_le tau x y _ T _ Ht Hx W1 L1) as B1. pose proof (bad_le tau x y _ T _ Ht Hx W2 L2) as B2. pose proof (bad_le tau x y _ T _ Ht Hx W3 L3) as B3.
  set (r := ext_shape cf tf cb cs tb ts ob os sigma) in *. assert (Hw : wide r) by (repeat split; assumption).
  pose proof (gen_ext _ _ _ _ _ _ (fun t => eq_refl) eq_refl (gen_plus _ _ _ _ _ _ Iw (gen_scal _ _ _ (- (1)) _ J))) as D.
  match type of D with is_RInt_gen _ _ _ ?v => assert (V : v <= 0) end.
  { destruct Hm as (M1 & M2 & M3). cbn [f_core f_tail r ext_shape] in M1, M2, M3.
    set (b1 := bad _ _ _ _ _ _ _ _ _ _) in *. set (b2 := bad _ _ _ _ _ _ (w_tail r) _ _ _) in *. set (b3 := bad _ _ _ _ _ _ (w_outl r) _ _ _) in *. clearbody b1 b2 b3.
    match goal with |- ?l <= 0 => replace l with (cf * b1 + tf * b2 + (1 - cf - tf) * b3) by ring end.
    assert (cf * b1 <= 0) by nra. assert (tf * b2 <= 0) by nra. assert ((1 - cf - tf) * b3 <= 0) by nra. lra. }
  apply (Rlt_irrefl 0). apply Rlt_le_trans with (2 := V).
  refine (gen_pos _ (fun t => C * exp (sh * Tt) * (exp (- sh * t) * (rate 0 1 0 0 tau x y t - rate_cubic 0 1 0 0 tau x y t) * resolution r (T - t))) Tt (Tt + 1) _ _ _ _ _ _ _ D).
  - exact HT.
  - lra.
  - intros t H0. cbv beta.
    replace (acceptance sl sh Tt C t * rate 0 1 0 0 tau x y t * resolution r (T - t) + - (1) * (acceptance sl sh Tt C t * rate_cubic 0 1 0 0 tau x y t * resolution r (T - t)))
      with (acceptance sl sh Tt C t * (rate 0 1 0 0 tau x y t - rate_cubic 0 1 0 0 tau x y t) * resolution r (T - t)) by ring.
    apply Rmult_le_pos; [apply Rmult_le_pos; [|apply cubic_ge]|]; [|left; now apply resolution_pos].
    unfold acceptance. destruct Rlt_dec; (apply Rmult_le_pos; [lra|left; apply exp_pos]).
  - intros t [H1 _]. cbv beta. rewrite acc_high by exact H1. ring.
  - intros t [H1 _]. apply Rmult_lt_0_compat; [apply Rmult_lt_0_compat; [exact HC|apply exp_pos]|].
    apply Rmult_lt_0_compat; [apply Rmult_lt_0_compat; [apply exp_pos|apply cubic_gt; lra]|now apply resolution_pos].
  - intros t. apply (continuous_scal_r (C * exp (sh * Tt)) (fun t => exp (- sh * t) * (rate 0 1 0 0 tau x y t - rate_cubic 0 1 0 0 tau x y t) * resolution r (T - t))).
    apply gap_cont; [lra|exact Hw].
Qed.
End Wrong.
(** One Gaussian only: not even the smeared rate with the series cut off. *)
Lemma ext_series_wrong W cb cs tb ts ob os sl sh Tt C tau x y sigma T : 0 < C -> 0 <= Tt -> 0 < tau -> x <> 0 -> wide (ext_shape 1 0 cb cs tb ts ob os sigma) ->
  T <> Tt + cb * sigma + (1 / tau + sh) * (cs * sigma) ^ 2 - cs * sigma * sqrt 2 ->
  ~ over_decay_time (fun t => acceptance sl sh Tt C t * rate_cubic 0 1 0 0 tau x y t * resolution (ext_shape 1 0 cb cs tb ts ob os sigma) (T - t))
      (ext_rate R_ops (R_lib W) R_extra (ext_params 1 0 cb cs tb ts ob os sl sh Tt C) 0 1 0 0 tau T x y sigma).
Proof.
  intros HC HT Ht Hx Hw HL Iw.
  pose proof (ext_good_smear 1 0 cb cs tb ts ob os sl sh Tt C tau x y sigma 0 1 0 0 T Ht HT Hw) as J. cbv zeta in J.
  pose proof (unique_decay _ _ _ Iw J) as E. rewrite (ext_value W 1 0 cb cs tb ts ob os sl sh Tt C tau x y sigma 0 1 0 0 T Hw) in E. cbv zeta in E.
  destruct Hw as (W1 & W2 & W3). cbn [w_core b_core w_tail b_tail w_outl b_outl ext_shape] in *.
  assert (B : bad sh Tt C tau x y (cs * sigma) 1 0 (T - cb * sigma) = 0) by lra.
  rewrite bad_value in B. pose proof (bad_factor sh Tt C tau x (cs * sigma) (T - cb * sigma) HC Ht Hx W1) as F. pose proof s2_pos as P2.
  set (f := C * _ * _) in *. clearbody f. assert (U : ((1 / tau + sh) * (cs * sigma) ^ 2 - (T - cb * sigma) + Tt) / (cs * sigma * sqrt 2) = 1) by nra.
  assert (Sg : 0 < cs * sigma * sqrt 2) by (now apply Rmult_lt_0_compat).
  assert (U' : (1 / tau + sh) * (cs * sigma) ^ 2 - (T - cb * sigma) + Tt = cs * sigma * sqrt 2).
  { apply Rmult_eq_reg_r with (/ (cs * sigma * sqrt 2)); [|apply Rinv_neq_0_compat; lra]. rewrite Rinv_r by lra. exact U. }
  apply HL. lra.
Qed.
