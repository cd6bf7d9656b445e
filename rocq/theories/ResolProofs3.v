(** Exact normalisations for the rate with its acceptance; ThreeGaussResolutionExt; the refutations. *)
From Coq Require Import List ZArith Reals Lra Lia.
From Coquelicot Require Import Coquelicot.
From Verif Require Import FormulaSpec ResolModel ResolSpec ResolMoment ResolProofs ResolProofs2.
From Verif Require LeafGen.
Import ListNotations.
Open Scope R_scope.

(** ** Antiderivatives of the rate with an exponential acceptance *)
Section Anti.
Variables (tau x y sb : R).
Let Ga := 1 / tau.
Let k := Ga + sb.
Let w := x * Ga.
Definition Ecos (t : R) : R := (k * (exp (- k * t) * cos (w * t)) + - w * (exp (- k * t) * sin (w * t))) / (k ^ 2 + w ^ 2).
Definition Esin (t : R) : R := (k * (exp (- k * t) * sin (w * t)) + w * (exp (- k * t) * cos (w * t))) / (k ^ 2 + w ^ 2).
(** The integral from t to infinity. *)
Definition tail_int (c1 c2 c3 c4 t : R) : R :=
  ((c1 / 2 - c3) / (k - y * Ga) * exp (- (k - y * Ga) * t) + (c1 / 2 + c3) / (k + y * Ga) * exp (- (k + y * Ga) * t)) +
  (c2 * Ecos t + -2 * c4 * Esin t).
Hypothesis Ht : tau <> 0.
Hypothesis Hkp : k - y * Ga <> 0.
Hypothesis Hkm : k + y * Ga <> 0.
Hypothesis Hq : k ^ 2 + w ^ 2 <> 0.
Lemma rate_acc_split c1 c2 c3 c4 t : exp (- sb * t) * rate c1 c2 c3 c4 tau x y t =
  ((c1 / 2 - c3) * exp (- (k - y * Ga) * t) + (c1 / 2 + c3) * exp (- (k + y * Ga) * t)) +
  (c2 * (exp (- k * t) * cos (w * t)) + -2 * c4 * (exp (- k * t) * sin (w * t))).
Proof.
  rewrite rate_split by exact Ht. unfold kp, km, w.
  replace (x / tau) with (x * Ga) by (unfold Ga; field; exact Ht).
  replace (exp (- (k - y * Ga) * t)) with (exp (- sb * t) * exp (- ((1 - y) / tau) * t)) by (rewrite <- exp_plus; f_equal; unfold k, Ga; field; exact Ht).
  replace (exp (- (k + y * Ga) * t)) with (exp (- sb * t) * exp (- ((1 + y) / tau) * t)) by (rewrite <- exp_plus; f_equal; unfold k, Ga; field; exact Ht).
  replace (exp (- k * t)) with (exp (- sb * t) * exp (- (1 / tau) * t)) by (rewrite <- exp_plus; f_equal; unfold k, Ga; field; exact Ht).
  ring.
Qed.
Lemma tail_derive c1 c2 c3 c4 t : is_derive (fun t => - tail_int c1 c2 c3 c4 t) t (exp (- sb * t) * rate c1 c2 c3 c4 tau x y t).
Proof.
  rewrite rate_acc_split. unfold tail_int, Ecos, Esin. auto_derive; [exact I|].
  generalize (exp (- (k - y * Ga) * t)) (exp (- (k + y * Ga) * t)) (exp (- k * t)) (cos (w * t)) (sin (w * t)). intros e1 e2 e3 e4 e5.
  eqR. clear - Hkp Hkm Hq. clearbody w k. generalize (y * Ga) Hkp Hkm. intros Y Hp Hm. field. repeat split; try assumption; intros E; first [apply Hp; lra|apply Hm; lra|apply Hq; lra].
Qed.
Lemma rate_acc_cont c1 c2 c3 c4 t : continuous (fun t => exp (- sb * t) * rate c1 c2 c3 c4 tau x y t) t.
Proof. apply gcont. unfold rate, cosh, sinh. auto_derive. repeat split; try exact I; exact Ht. Qed.
Lemma acc_fin c1 c2 c3 c4 a b : is_RInt (fun t => exp (- sb * t) * rate c1 c2 c3 c4 tau x y t) a b (tail_int c1 c2 c3 c4 a - tail_int c1 c2 c3 c4 b).
Proof.
  replace (tail_int c1 c2 c3 c4 a - tail_int c1 c2 c3 c4 b) with (minus (- tail_int c1 c2 c3 c4 b) (- tail_int c1 c2 c3 c4 a)) by (unfold minus, plus, opp; cbn; ring).
  apply (is_RInt_derive (fun t => - tail_int c1 c2 c3 c4 t)); intros t _; [apply tail_derive|apply rate_acc_cont].
Qed.
Hypothesis Pk : 0 < k.
Hypothesis Pkp : 0 < k - y * Ga.
Hypothesis Pkm : 0 < k + y * Ga.
Lemma acc_inf c1 c2 c3 c4 a : is_RInt_gen (fun t => exp (- sb * t) * rate c1 c2 c3 c4 tau x y t) (at_point a) (Rbar_locally p_infty) (tail_int c1 c2 c3 c4 a).
Proof.
  replace (tail_int c1 c2 c3 c4 a) with (- 0 - - tail_int c1 c2 c3 c4 a) by ring.
  apply (int_gen _ (fun t => - tail_int c1 c2 c3 c4 t)); try typeclasses eauto.
  - intros t. apply tail_derive.
  - intros t. apply rate_acc_cont.
  - intros P [e He]. apply He. apply ball_center.
  - apply (filterlim_comp _ _ _ (tail_int c1 c2 c3 c4) Ropp (Rbar_locally p_infty) (locally 0)); [|apply (filterlim_opp 0)].
    apply fast_0; [exact filter_p|]. unfold tail_int, Ecos, Esin.
    assert (FC := fast_cos k w Pk). assert (FS := fast_sin k w Pk).
    repeat (apply fast_plus; [exact filter_p| |]); repeat (apply fast_scal; [exact filter_p|]); try (now apply fast_exp).
    + apply fast_ext with (fun t => k / (k ^ 2 + w ^ 2) * (exp (- k * t) * cos (w * t)) + - w / (k ^ 2 + w ^ 2) * (exp (- k * t) * sin (w * t))); [exact filter_p|intros t; field; exact Hq|].
      apply fast_plus; [exact filter_p| |]; now apply (fast_scal _ _ _ filter_p).
    + apply fast_ext with (fun t => k / (k ^ 2 + w ^ 2) * (exp (- k * t) * sin (w * t)) + w / (k ^ 2 + w ^ 2) * (exp (- k * t) * cos (w * t))); [exact filter_p|intros t; field; exact Hq|].
      apply fast_plus; [exact filter_p| |]; now apply (fast_scal _ _ _ filter_p).
Qed.
End Anti.

Lemma tg_exact sb di1 di2 di3 di4 tau x y : 0 < tau -> 0 < 1 / tau + sb - y * (1 / tau) -> 0 < 1 / tau + sb + y * (1 / tau) ->
  over_decay_time (fun t => exp (- sb * t) * rate (di1 + di2) (di1 - di2) di3 di4 tau x y t) (tg_normalization R_ops sb di1 di2 di3 di4 tau x y).
Proof.
  intros Ht Kp Km. assert (K : 0 < 1 / tau + sb) by lra. pose proof (sq_pos (1 / tau + sb) (x * (1 / tau)) K) as Q.
  assert (A : is_RInt_gen (fun t => exp (- sb * t) * rate (di1 + di2) (di1 - di2) di3 di4 tau x y t) (at_point 0) (Rbar_locally p_infty) (tail_int tau x y sb (di1 + di2) (di1 - di2) di3 di4 0))
    by (apply acc_inf; lra).
  refine (gen_ext _ _ _ _ _ _ (fun t => eq_refl) _ A). clear A.
  unfold tail_int, Ecos, Esin. rewrite !Rmult_0_r, exp_0, cos_0, sin_0.
  unfold tg_normalization, combine. cbv zeta. rops.
  assert (E1 : sb * sb + 2 * sb / tau + (1 - y * y) / (tau * tau) = (1 / tau + sb - y * (1 / tau)) * (1 / tau + sb + y * (1 / tau))) by (field; lra).
  assert (E2 : sb * sb + 2 * sb / tau + (1 + x * x) / (tau * tau) = (1 / tau + sb) ^ 2 + (x * (1 / tau)) ^ 2) by (field; lra).
  rewrite E1, E2. replace (sb + 1 / tau) with (1 / tau + sb) by ring.
  replace (y / tau) with (y * (1 / tau)) by (field; lra). replace (x / tau) with (x * (1 / tau)) by (field; lra).
  set (X := x * (1 / tau)) in *. set (Y := y * (1 / tau)) in *. set (k := 1 / tau + sb) in *. clearbody X Y k.
  field. repeat split; lra.
Qed.

(** ** Two integrals over adjacent intervals *)
Lemma glue (f f1 f2 : R -> R) (a b v1 v2 : R) : a <= b -> (forall t, a < t < b -> f1 t = f t) -> (forall t, b < t -> f2 t = f t) ->
  is_RInt f1 a b v1 -> is_RInt_gen f2 (at_point b) (Rbar_locally p_infty) v2 -> is_RInt_gen f (at_point a) (Rbar_locally p_infty) (v1 + v2).
Proof.
  intros Hab E1 E2 I1 I2.
  apply (is_RInt_gen_Chasles (Fa := at_point a) (Fc := Rbar_locally p_infty) f b v1 v2).
  - apply is_RInt_gen_at_point. apply is_RInt_ext with (2 := I1). rewrite Rmin_left, Rmax_right by exact Hab. exact E1.
  - apply is_RInt_gen_ext with (2 := I2). apply (Filter_prod _ _ _ (fun u => u = b) (fun v => b < v)).
    + reflexivity.
    + exists b. intros v Hv. exact Hv.
    + intros u v -> Hv t. cbn [fst snd]. rewrite Rmin_left by lra. intros [Hb _]. now apply E2.
Qed.

(** ** ThreeGaussResolutionExt *)
Section Ext.
Variables (W : R -> R -> R).
Definition scale_quad (c : R) (q : quad) : quad := mkQuad (c * p1 q) (c * p2 q) (c * p3 q) (c * p4 q).
Definition diff_quad (q r : quad) : quad := mkQuad (p1 q - p1 r) (p2 q - p2 r) (p3 q - p3 r) (p4 q - p4 r).
Lemma u1_form k s a T : 0 < s -> 1 / (s * sqrt 2) * a + (k * s ^ 2 - T) / (s * sqrt 2) = (k * s ^ 2 - T + a) / (s * sqrt 2).
Proof. intros. pose proof s2_pos. field. lra. Qed.
Lemma u1_form' k s a T : 0 < s -> (k * s ^ 2 - T) / (s * sqrt 2) + 1 / (s * sqrt 2) * a = (k * s ^ 2 - T + a) / (s * sqrt 2).
Proof. intros. pose proof s2_pos. field. lra. Qed.
Lemma low_value tau x y sb s T a C : 0 < s ->
  gaussian_low R_ops (R_lib W) R_extra tau T x y s sb a C = scale_quad (C * exp (sb * a)) (diff_quad (gq tau x y sb s 0 T) (gq tau x y sb s a T)).
Proof.
  intros Hs. unfold gaussian_low, sqrt1o2pi, sqrtpio2, cossin, r1o6. cbv zeta. rops. rewrite norm_const. set (Ga := 1 / tau). set (k := Ga + sb).
  replace (Ga + - T * (1 / s * (1 / s)) - y * Ga + sb) with (Ga + - T * (1 / s * (1 / s)) + - (y * Ga) + sb) by ring.
  pose proof (u_y tau sb s T Hs) as UY. pose proof (u_0 tau sb s T Hs) as U0. fold Ga in UY, U0. fold k in UY, U0.
  rewrite !UY, !U0, !u1_form', !u1_form, !exponent by exact Hs. change (k + - (y * Ga)) with (k - y * Ga).
  unfold scale_quad, diff_quad, gq. cbv zeta. cbn [p1 p2 p3 p4 fst snd]. fold Ga. fold k.
  pose proof s2_pos as P2. pose proof spi_pos as PP.
  f_equal.
  - cbn [H]. unfold H0. rewrite !Rplus_0_r.
    generalize (exp ((k - y * Ga) ^ 2 * s ^ 2 / 2 - (k - y * Ga) * T)) (exp ((k + y * Ga) ^ 2 * s ^ 2 / 2 - (k + y * Ga) * T)) (exp (sb * a))
      (Rerfc (((k - y * Ga) * s ^ 2 - T) / (s * sqrt 2))) (Rerfc (((k + y * Ga) * s ^ 2 - T) / (s * sqrt 2)))
      (Rerfc (((k - y * Ga) * s ^ 2 - T + a) / (s * sqrt 2))) (Rerfc (((k + y * Ga) * s ^ 2 - T + a) / (s * sqrt 2))).
    intros. field. repeat split; lra.
  - rewrite !(H0_closed k s _ T Hs), !(H2_closed k s _ T Hs). rewrite !Rplus_0_r.
    set (u0 := (k * s ^ 2 - T) / (s * sqrt 2)). set (u1 := (k * s ^ 2 - T + a) / (s * sqrt 2)).
    replace (-1 * (u0 * u0)) with (- (u0 * u0)) by ring. replace (- u1 * u1) with (- (u1 * u1)) by ring.
    replace (- (1) * (u0 * u0)) with (- (u0 * u0)) by ring.
    replace (u0 ^ 2) with (u0 * u0) by ring. replace (u1 ^ 2) with (u1 * u1) by ring.
    generalize (exp (k ^ 2 * s ^ 2 / 2 - k * T)) (exp (sb * a)) (Rerfc u0) (Rerfc u1) (exp (- (u0 * u0))) (exp (- (u1 * u1))).
    clearbody u0 u1. intros. field. repeat split; lra.
  - cbn [H]. unfold H0. rewrite !Rplus_0_r.
    generalize (exp ((k - y * Ga) ^ 2 * s ^ 2 / 2 - (k - y * Ga) * T)) (exp ((k + y * Ga) ^ 2 * s ^ 2 / 2 - (k + y * Ga) * T)) (exp (sb * a))
      (Rerfc (((k - y * Ga) * s ^ 2 - T) / (s * sqrt 2))) (Rerfc (((k + y * Ga) * s ^ 2 - T) / (s * sqrt 2)))
      (Rerfc (((k - y * Ga) * s ^ 2 - T + a) / (s * sqrt 2))) (Rerfc (((k + y * Ga) * s ^ 2 - T + a) / (s * sqrt 2))).
    intros. field. repeat split; lra.
  - rewrite !(H1_closed k s _ T Hs), !(H3_closed k s _ T Hs). rewrite !Rplus_0_r.
    set (u0 := (k * s ^ 2 - T) / (s * sqrt 2)). set (u1 := (k * s ^ 2 - T + a) / (s * sqrt 2)).
    replace (- u1 * u1) with (- (u1 * u1)) by ring. replace (- (1) * (u0 * u0)) with (- (u0 * u0)) by ring.
    replace (u0 ^ 2) with (u0 * u0) by ring. replace (u1 ^ 2) with (u1 * u1) by ring.
    generalize (exp (k ^ 2 * s ^ 2 / 2 - k * T)) (exp (sb * a)) (Rerfc u0) (Rerfc u1) (exp (- (u0 * u0))) (exp (- (u1 * u1))).
    clearbody u0 u1. intros. field. repeat split; lra.
Qed.
(** gaussian_high: the first and third function are right; the second and fourth have an extra term. *)
Definition wrong (tau x y sb s T a : R) : quad := let Ga := 1 / tau in let k := Ga + sb in
  let sg := s * sqrt 2 in let u0 := (k * s ^ 2 - T) / sg in let u1 := (k * s ^ 2 - T + a) / sg in
  mkQuad 0 (- (/ 2 * (x * Ga) ^ 2 * (sg ^ 3 / 2 * g k s a T * (1 - u1)))) 0
         (- (/ 6 * (x * Ga) ^ 3 * (sg ^ 4 / 2 * g k s a T * ((1 - u1) * u1 - 3 * u0 * (1 - u1))))).
Definition sum_quad (q r : quad) : quad := mkQuad (p1 q + p1 r) (p2 q + p2 r) (p3 q + p3 r) (p4 q + p4 r).
Lemma high_value tau x y sb s T a C : 0 < s ->
  gaussian_high R_ops (R_lib W) R_extra tau T x y s sb a C = scale_quad (C * exp (sb * a)) (sum_quad (gq tau x y sb s a T) (wrong tau x y sb s T a)).
Proof.
  intros Hs. unfold gaussian_high, sqrt1o2pi, sqrtpio2, cossin, r1o6. cbv zeta. rops. rewrite norm_const. set (Ga := 1 / tau). set (k := Ga + sb).
  replace (Ga + - T * (1 / s * (1 / s)) - y * Ga + sb) with (Ga + - T * (1 / s * (1 / s)) + - (y * Ga) + sb) by ring.
  pose proof (u_y tau sb s T Hs) as UY. pose proof (u_0 tau sb s T Hs) as U0. fold Ga in UY, U0. fold k in UY, U0.
  rewrite !UY, !U0, !u1_form', !u1_form, !exponent by exact Hs. change (k + - (y * Ga)) with (k - y * Ga).
  unfold scale_quad, sum_quad, gq, wrong. cbv zeta. cbn [p1 p2 p3 p4 fst snd]. fold Ga. fold k.
  pose proof s2_pos as P2. pose proof spi_pos as PP.
  f_equal.
  - cbn [H]. unfold H0.
    generalize (exp ((k - y * Ga) ^ 2 * s ^ 2 / 2 - (k - y * Ga) * T)) (exp ((k + y * Ga) ^ 2 * s ^ 2 / 2 - (k + y * Ga) * T)) (exp (sb * a))
      (Rerfc (((k - y * Ga) * s ^ 2 - T + a) / (s * sqrt 2))) (Rerfc (((k + y * Ga) * s ^ 2 - T + a) / (s * sqrt 2))).
    intros. field. repeat split; lra.
  - rewrite !(H0_closed k s _ T Hs), !(H2_closed k s _ T Hs), (g_closed k s a T Hs).
    set (u0 := (k * s ^ 2 - T) / (s * sqrt 2)). set (u1 := (k * s ^ 2 - T + a) / (s * sqrt 2)).
    replace (- (1) * u1 * u1) with (- (u1 * u1)) by ring.
    replace (u0 ^ 2) with (u0 * u0) by ring. replace (u1 ^ 2) with (u1 * u1) by ring.
    generalize (exp (k ^ 2 * s ^ 2 / 2 - k * T)) (exp (sb * a)) (Rerfc u0) (Rerfc u1) (exp (- (u0 * u0))) (exp (- (u1 * u1))).
    clearbody u0 u1. intros. field. repeat split; lra.
  - cbn [H]. unfold H0.
    generalize (exp ((k - y * Ga) ^ 2 * s ^ 2 / 2 - (k - y * Ga) * T)) (exp ((k + y * Ga) ^ 2 * s ^ 2 / 2 - (k + y * Ga) * T)) (exp (sb * a))
      (Rerfc (((k - y * Ga) * s ^ 2 - T + a) / (s * sqrt 2))) (Rerfc (((k + y * Ga) * s ^ 2 - T + a) / (s * sqrt 2))).
    intros. field. repeat split; lra.
  - rewrite !(H1_closed k s _ T Hs), !(H3_closed k s _ T Hs), (g_closed k s a T Hs).
    set (u0 := (k * s ^ 2 - T) / (s * sqrt 2)). set (u1 := (k * s ^ 2 - T + a) / (s * sqrt 2)).
    replace (- (1) * u1 * u1) with (- (u1 * u1)) by ring.
    replace (u0 ^ 2) with (u0 * u0) by ring. replace (u1 ^ 2) with (u1 * u1) by ring.
    generalize (exp (k ^ 2 * s ^ 2 / 2 - k * T)) (exp (sb * a)) (Rerfc u0) (Rerfc u1) (exp (- (u0 * u0))) (exp (- (u1 * u1))).
    clearbody u0 u1. intros. field. repeat split; lra.
Qed.

Variables (cf tf cb cs tb ts ob os sl sh Tt C : R).
Let ps := ext_params cf tf cb cs tb ts ob os sl sh Tt C.
(** One Gaussian: low part, high part, and the extra term of [gaussian_high]. *)
Definition good (tau x y s c1 c2 c3 c4 T : R) : R :=
  C * exp (sl * Tt) * (gsum tau x y sl s 0 c1 c2 c3 c4 T - gsum tau x y sl s Tt c1 c2 c3 c4 T) + C * exp (sh * Tt) * gsum tau x y sh s Tt c1 c2 c3 c4 T.
Definition bad (tau x y s c2 c4 T : R) : R :=
  C * exp (sh * Tt) * (c2 * p2 (wrong tau x y sh s T Tt) - 2 * c4 * p4 (wrong tau x y sh s T Tt)).
Lemma ext_value tau x y sigma c1 c2 c3 c4 T : wide (ext_shape cf tf cb cs tb ts ob os sigma) -> ext_rate R_ops (R_lib W) R_extra ps c1 c2 c3 c4 tau T x y sigma =
  let r := ext_shape cf tf cb cs tb ts ob os sigma in
  cf * (good tau x y (w_core r) c1 c2 c3 c4 (T - b_core r) + bad tau x y (w_core r) c2 c4 (T - b_core r)) +
  tf * (good tau x y (w_tail r) c1 c2 c3 c4 (T - b_tail r) + bad tau x y (w_tail r) c2 c4 (T - b_tail r)) +
  (1 - cf - tf) * (good tau x y (w_outl r) c1 c2 c3 c4 (T - b_outl r) + bad tau x y (w_outl r) c2 c4 (T - b_outl r)).
Proof.
  intros (W1 & W2 & W3). cbn [w_core w_tail w_outl ext_shape] in W1, W2, W3.
  unfold ext_rate, ps, ext_params. cbn [nth]. cbv zeta. rops. rewrite !low_value, !high_value by assumption.
  cbn [w_core w_tail w_outl b_core b_tail b_outl ext_shape]. unfold good. rewrite <- !combine_gq, !combine_value.
  unfold mix, add_quad, bad, scale_quad, diff_quad, sum_quad. cbn [p1 p2 p3 p4]. rops.
  assert (E1 : forall s T, p1 (wrong tau x y sh s T Tt) = 0) by reflexivity. assert (E3 : forall s T, p3 (wrong tau x y sh s T Tt) = 0) by reflexivity.
  rewrite !E1, !E3. ring.
Qed.
Lemma acc_low t : t < Tt -> acceptance sl sh Tt C t = C * exp (sl * Tt) * exp (- sl * t).
Proof. intros L. unfold acceptance. destruct Rlt_dec; [|contradiction]. rewrite Rmult_assoc, <- exp_plus. do 2 f_equal. ring. Qed.
Lemma acc_high t : Tt < t -> acceptance sl sh Tt C t = C * exp (sh * Tt) * exp (- sh * t).
Proof. intros L. unfold acceptance. destruct Rlt_dec; [lra|]. rewrite Rmult_assoc, <- exp_plus. do 2 f_equal. ring. Qed.
Lemma good_smear tau x y s c1 c2 c3 c4 T : 0 < tau -> 0 <= Tt -> 0 < s ->
  over_decay_time (fun t => acceptance sl sh Tt C t * rate_cubic c1 c2 c3 c4 tau x y t * normal s (T - t)) (good tau x y s c1 c2 c3 c4 T).
Proof.
  intros Ht HT Hs. unfold good.
  apply (glue _ (fun t => C * exp (sl * Tt) * (exp (- sl * t) * rate_cubic c1 c2 c3 c4 tau x y t * normal s (T - t)))
                (fun t => C * exp (sh * Tt) * (exp (- sh * t) * rate_cubic c1 c2 c3 c4 tau x y t * normal s (T - t))) 0 Tt).
  - exact HT.
  - intros t [_ L]. rewrite acc_low by exact L. ring.
  - intros t L. rewrite acc_high by exact L. ring.
  - apply (is_RInt_scal (V := R_NormedModule)). apply smear_fin; lra.
  - apply gen_scal; try typeclasses eauto. apply smear_one; lra.
Qed.
Lemma bad_x0 tau y s c2 c4 T : bad tau 0 y s c2 c4 T = 0.
Proof. unfold bad, wrong. cbv zeta. cbn [p2 p4]. ring. Qed.
Lemma ext_good_smear tau x y sigma c1 c2 c3 c4 T : 0 < tau -> 0 <= Tt -> wide (ext_shape cf tf cb cs tb ts ob os sigma) ->
  over_decay_time (fun t => acceptance sl sh Tt C t * rate_cubic c1 c2 c3 c4 tau x y t * resolution (ext_shape cf tf cb cs tb ts ob os sigma) (T - t))
   (let r := ext_shape cf tf cb cs tb ts ob os sigma in cf * good tau x y (w_core r) c1 c2 c3 c4 (T - b_core r) +
    tf * good tau x y (w_tail r) c1 c2 c3 c4 (T - b_tail r) + (1 - cf - tf) * good tau x y (w_outl r) c1 c2 c3 c4 (T - b_outl r)).
Proof.
  intros Ht HT (W1 & W2 & W3). cbv zeta.
  assert (M : forall c s b, 0 < s -> is_RInt_gen (fun t => c * (acceptance sl sh Tt C t * rate_cubic c1 c2 c3 c4 tau x y t * normal s (T - b - t)))
                                       (at_point 0) (Rbar_locally p_infty) (c * good tau x y s c1 c2 c3 c4 (T - b))).
  { intros c s b Hs. apply gen_scal; try typeclasses eauto. now apply good_smear. }
  refine (gen_ext _ _ _ _ _ _ _ eq_refl (gen_plus _ _ _ _ _ _ (gen_plus _ _ _ _ _ _ (M cf _ (b_core (ext_shape cf tf cb cs tb ts ob os sigma)) W1) (M tf _ (b_tail (ext_shape cf tf cb cs tb ts ob os sigma)) W2)) (M (1 - cf - tf) _ (b_outl (ext_shape cf tf cb cs tb ts ob os sigma)) W3))).
  intros t. unfold resolution. cbn [f_core f_tail ext_shape].
  replace (T - t - b_core (ext_shape cf tf cb cs tb ts ob os sigma)) with (T - b_core (ext_shape cf tf cb cs tb ts ob os sigma) - t) by ring.
  replace (T - t - b_tail (ext_shape cf tf cb cs tb ts ob os sigma)) with (T - b_tail (ext_shape cf tf cb cs tb ts ob os sigma) - t) by ring.
  replace (T - t - b_outl (ext_shape cf tf cb cs tb ts ob os sigma)) with (T - b_outl (ext_shape cf tf cb cs tb ts ob os sigma) - t) by ring.
  cbn [w_core w_tail w_outl b_core b_tail b_outl ext_shape]. ring.
Qed.
Lemma cubic_x0 c1 c2 c3 c4 tau y t : rate_cubic c1 c2 c3 c4 tau 0 y t = rate c1 c2 c3 c4 tau 0 y t.
Proof. unfold rate_cubic, rate. cbv zeta. replace (0 * t / tau) with 0 by (unfold Rdiv; ring). rewrite cos_0, sin_0. f_equal. field. Qed.
Lemma ext_smear_x0 tau y sigma c1 c2 c3 c4 T : 0 < tau -> 0 <= Tt -> wide (ext_shape cf tf cb cs tb ts ob os sigma) ->
  over_decay_time (fun t => acceptance sl sh Tt C t * rate c1 c2 c3 c4 tau 0 y t * resolution (ext_shape cf tf cb cs tb ts ob os sigma) (T - t))
    (ext_rate R_ops (R_lib W) R_extra ps c1 c2 c3 c4 tau T 0 y sigma).
Proof.
  intros Ht HT Hw. refine (gen_ext _ _ _ _ _ _ _ _ (ext_good_smear tau 0 y sigma c1 c2 c3 c4 T Ht HT Hw)).
  - intros t. now rewrite cubic_x0.
  - rewrite ext_value by exact Hw. cbv zeta. rewrite !bad_x0. ring.
Qed.
(** The normalisation is the integral of the rate with its acceptance, for every mixing x. *)
Lemma ext_norm_tail tau x y di1 di2 di3 di4 : tau <> 0 ->
  1 / tau + sl - y * (1 / tau) <> 0 -> 1 / tau + sl + y * (1 / tau) <> 0 -> (1 / tau + sl) ^ 2 + (x * (1 / tau)) ^ 2 <> 0 ->
  0 < 1 / tau + sh - y * (1 / tau) -> 0 < 1 / tau + sh + y * (1 / tau) ->
  ext_normalization R_ops (R_lib W) sl sh Tt C di1 di2 di3 di4 tau x y =
    C * exp (sl * Tt) * (tail_int tau x y sl (di1 + di2) (di1 - di2) di3 di4 0 - tail_int tau x y sl (di1 + di2) (di1 - di2) di3 di4 Tt)
    + C * exp (sh * Tt) * tail_int tau x y sh (di1 + di2) (di1 - di2) di3 di4 Tt.
Proof.
  intros Ht Lp Lm Lq Kp Km. assert (K : 0 < 1 / tau + sh) by lra. pose proof (sq_pos (1 / tau + sh) (x * (1 / tau)) K) as Q.
  unfold tail_int, Ecos, Esin. rewrite !Rmult_0_r, exp_0, cos_0, sin_0.
  unfold ext_normalization, combine. cbv zeta. rops.
  assert (EE : forall s, exp (Tt * (y * (1 / tau) - 1 / tau - s)) = exp (- (1 / tau + s - y * (1 / tau)) * Tt)) by (intros s; f_equal; ring).
  assert (EM : forall s, exp (Tt * (- y * (1 / tau) - 1 / tau - s)) = exp (- (1 / tau + s + y * (1 / tau)) * Tt)) by (intros s; f_equal; ring).
  rewrite !EE, !EM. clear EE EM.
  assert (Q1 : forall s, y * (1 / tau) - 1 / tau - s = - (1 / tau + s - y * (1 / tau))) by (intros; ring).
  assert (Q2 : forall s, - y * (1 / tau) - 1 / tau - s = - (1 / tau + s + y * (1 / tau))) by (intros; ring).
  assert (Q3 : forall k, k * k + x * x * (1 / tau) * (1 / tau) = k ^ 2 + (x * (1 / tau)) ^ 2) by (intros; ring).
  rewrite !Q1, !Q2, !Q3. clear Q1 Q2 Q3.
  replace (- x * (1 / tau)) with (- (x * (1 / tau))) by ring.
  set (X := x * (1 / tau)) in *. set (Y := y * (1 / tau)) in *.
  generalize (exp (sl * Tt)) (exp (sh * Tt)) (cos (X * Tt)) (sin (X * Tt)) (exp (- (1 / tau + sl) * Tt)) (exp (- (1 / tau + sh) * Tt))
    (exp (- (1 / tau + sl - Y) * Tt)) (exp (- (1 / tau + sl + Y) * Tt)) (exp (- (1 / tau + sh - Y) * Tt)) (exp (- (1 / tau + sh + Y) * Tt)).
  set (kl := 1 / tau + sl) in *. set (kh := 1 / tau + sh) in *. clearbody X Y kl kh. intros.
  field. repeat split; try lra; intros E; first [apply Lp; lra|apply Lm; lra|apply Lq; lra].
Qed.
Lemma ext_exact tau x y di1 di2 di3 di4 : 0 < tau -> 0 <= Tt ->
  1 / tau + sl - y * (1 / tau) <> 0 -> 1 / tau + sl + y * (1 / tau) <> 0 -> (1 / tau + sl) ^ 2 + (x * (1 / tau)) ^ 2 <> 0 ->
  0 < 1 / tau + sh - y * (1 / tau) -> 0 < 1 / tau + sh + y * (1 / tau) ->
  over_decay_time (fun t => acceptance sl sh Tt C t * rate (di1 + di2) (di1 - di2) di3 di4 tau x y t)
    (ext_normalization R_ops (R_lib W) sl sh Tt C di1 di2 di3 di4 tau x y).
Proof.
  intros Ht HT Lp Lm Lq Kp Km. assert (K : 0 < 1 / tau + sh) by lra. pose proof (sq_pos (1 / tau + sh) (x * (1 / tau)) K) as Q.
  assert (A := acc_inf tau x y sh ltac:(lra) ltac:(lra) ltac:(lra) ltac:(lra) ltac:(lra) ltac:(lra) ltac:(lra) (di1 + di2) (di1 - di2) di3 di4 Tt).
  assert (B := acc_fin tau x y sl ltac:(lra) Lp Lm Lq (di1 + di2) (di1 - di2) di3 di4 0 Tt).
  rewrite (ext_norm_tail tau x y di1 di2 di3 di4 ltac:(lra) Lp Lm Lq Kp Km).
  apply (glue _ (fun t => C * exp (sl * Tt) * (exp (- sl * t) * rate (di1 + di2) (di1 - di2) di3 di4 tau x y t))
                (fun t => C * exp (sh * Tt) * (exp (- sh * t) * rate (di1 + di2) (di1 - di2) di3 di4 tau x y t)) 0 Tt).
  - exact HT.
  - intros t [_ L]. rewrite acc_low by exact L. ring.
  - intros t L. rewrite acc_high by exact L. ring.
  - apply (is_RInt_scal (V := R_NormedModule)). exact B.
  - apply gen_scal; try typeclasses eauto. exact A.
Qed.
(** Integrated over the measured time, for x = 0. *)
Lemma tail_x0 tau y sb c1 c2 c3 c4 t : 1 / tau + sb <> 0 -> tail_int tau 0 y sb c1 c2 c3 c4 t =
  (c1 / 2 - c3) * (exp (- (1 / tau + sb - y * (1 / tau)) * t) / (1 / tau + sb - y * (1 / tau))) +
  (c1 / 2 + c3) * (exp (- (1 / tau + sb + y * (1 / tau)) * t) / (1 / tau + sb + y * (1 / tau))) + c2 * (exp (- (1 / tau + sb) * t) / (1 / tau + sb)).
Proof.
  intros Hk. unfold tail_int, Ecos, Esin. replace (0 * (1 / tau)) with 0 by ring. rewrite Rmult_0_l, cos_0, sin_0.
  set (k := 1 / tau + sb) in *. clearbody k.
  replace ((k * (exp (- k * t) * 1) + - 0 * (exp (- k * t) * 0)) / (k ^ 2 + 0 ^ 2)) with (exp (- k * t) / k) by (field; auto).
  unfold Rdiv. ring.
Qed.
Lemma ext_total_x0 tau y sigma di1 di2 di3 di4 : 0 < tau -> 0 <= Tt -> wide (ext_shape cf tf cb cs tb ts ob os sigma) ->
  0 < 1 / tau + sl - y * (1 / tau) -> 0 < 1 / tau + sl + y * (1 / tau) -> 0 < 1 / tau + sh - y * (1 / tau) -> 0 < 1 / tau + sh + y * (1 / tau) ->
  over_measured_time (fun T => ext_rate R_ops (R_lib W) R_extra ps (di1 + di2) (di1 - di2) di3 di4 tau T 0 y sigma)
    (ext_normalization R_ops (R_lib W) sl sh Tt C di1 di2 di3 di4 tau 0 y).
Proof.
  intros Ht HT (W1 & W2 & W3) Lp Lm Kp Km. set (c1 := di1 + di2). set (c2 := di1 - di2).
  assert (M : forall c s b, 0 < s -> over_measured_time (fun T => c * good tau 0 y s c1 c2 di3 di4 (T - b)) (c * ext_normalization R_ops (R_lib W) sl sh Tt C di1 di2 di3 di4 tau 0 y)).
  { intros c s b Hs. apply gen_scal; try typeclasses eauto. apply (shift_gen (good tau 0 y s c1 c2 di3 di4)). unfold good.
    pose proof (total_one tau 0 y sl s 0 c1 c2 di3 di4 Hs ltac:(lra) Lp Lm) as Q0.
    pose proof (total_one tau 0 y sl s Tt c1 c2 di3 di4 Hs ltac:(lra) Lp Lm) as Q1.
    pose proof (total_one tau 0 y sh s Tt c1 c2 di3 di4 Hs ltac:(lra) Kp Km) as Q2. cbv zeta in Q0, Q1, Q2.
    refine (gen_ext _ _ _ _ _ _ _ _ (gen_plus _ _ _ _ _ _ (gen_scal _ _ _ (C * exp (sl * Tt)) _ (gen_plus _ _ _ _ _ _ Q0 (gen_scal _ _ _ (- (1)) _ Q1))) (gen_scal _ _ _ (C * exp (sh * Tt)) _ Q2))).
    - intros T. ring.
    - assert (L0 : 0 < 1 / tau + sl) by lra. assert (K0 : 0 < 1 / tau + sh) by lra.
      pose proof (sq_pos (1 / tau + sl) (0 * (1 / tau)) L0) as Qq.
      rewrite (ext_norm_tail tau 0 y di1 di2 di3 di4 ltac:(lra) ltac:(lra) ltac:(lra) ltac:(lra) Kp Km). fold c1 c2.
      rewrite !tail_x0 by lra. unfold total. clear Q0 Q1 Q2. set (ga := 1 / tau) in *. clearbody ga. field. repeat split; lra. }
  refine (gen_ext _ _ _ _ _ _ _ _ (gen_plus _ _ _ _ _ _ (gen_plus _ _ _ _ _ _ (M cf _ (b_core (ext_shape cf tf cb cs tb ts ob os sigma)) W1) (M tf _ (b_tail (ext_shape cf tf cb cs tb ts ob os sigma)) W2)) (M (1 - cf - tf) _ (b_outl (ext_shape cf tf cb cs tb ts ob os sigma)) W3))).
  - intros T. rewrite ext_value by (repeat split; assumption). cbv zeta. rewrite !bad_x0. ring.
  - ring.
Qed.
End Ext.
