(** The three-Gaussian resolution: its rate is the smeared rate, with the power series of cos and sin cut off. *)
From Coq Require Import List ZArith Reals Lra Lia.
From Coquelicot Require Import Coquelicot.
From Verif Require Import FormulaSpec ResolModel ResolSpec ResolMoment ResolProofs.
From Verif Require LeafGen.
Import ListNotations.
Open Scope R_scope.

Ltac rops := cbn [R_ops R_lib R_extra x_cosh x_erf x_sqrt2 x_1_pi x_2_sqrtpi LeafGen.o_zero LeafGen.o_one LeafGen.o_half LeafGen.o_add LeafGen.o_sub
  LeafGen.o_mul LeafGen.o_div LeafGen.o_opp LeafGen.o_ofZ LeafGen.o_sqrt LeafGen.m_exp LeafGen.m_cos LeafGen.m_sin LeafGen.m_sinh LeafGen.m_erfc LeafGen.m_pow].

(** ** The closed forms *)
Section Closed.
Variables (k s a T : R).
Hypothesis Hs : 0 < s.
Let sg := s * sqrt 2.
Let u0 := (k * s ^ 2 - T) / sg.
Let u1 := (k * s ^ 2 - T + a) / sg.
Let N := / (sg * sqrt PI).
Let F := sg * exp (k ^ 2 * s ^ 2 / 2 - k * T).
Let j0 := sqrt PI / 2 * Rerfc u1.
Let j1 := / 2 * exp (- u1 ^ 2).
Let j2 := j1 * u1 + / 2 * j0.
Let j3 := j1 * (u1 ^ 2 + 1).
Lemma sg_pos : 0 < sg. Proof. apply Rmult_lt_0_compat; [exact Hs|exact s2_pos]. Qed.
Lemma sg_sq : s ^ 2 = sg ^ 2 / 2.
Proof. unfold sg. pose proof s2_sq as E. replace ((s * sqrt 2) ^ 2) with (s ^ 2 * (sqrt 2 * sqrt 2)) by ring. rewrite E. field. Qed.
Lemma g_closed : g k s a T = N * F / sg * exp (- u1 ^ 2).
Proof.
  unfold g, normal. rewrite s2pi. unfold N, F. pose proof sg_pos as P. pose proof spi_pos as P'. pose proof s2_pos as P2.
  pose proof (bell_g k s Hs a T) as B. change ((k * s ^ 2 - T + a) / (s * sqrt 2)) with u1 in B.
  replace (/ (sg * sqrt PI) * (sg * exp (k ^ 2 * s ^ 2 / 2 - k * T)) / sg * exp (- u1 ^ 2))
     with ((exp (k ^ 2 * s ^ 2 / 2 - k * T) * exp (- u1 ^ 2)) / (sg * sqrt PI)) by (field; repeat split; lra).
  rewrite B. unfold sg. field. repeat split; lra.
Qed.
Lemma H0_closed : H k s 0 a T = N * F * j0.
Proof.
  cbn [H]. unfold H0, N, F, j0. fold sg. fold u1. pose proof sg_pos. pose proof spi_pos. field. split; lra.
Qed.
Lemma rec1 : H k s 1 a T = - (u0 * sg) * H k s 0 a T + sg ^ 2 / 2 * g k s a T.
Proof.
  rewrite H_S. cbn [Hm INR pow]. replace (sg * (sg * 1) / 2) with (s ^ 2) by (rewrite sg_sq; field). unfold u0. pose proof sg_pos.
  replace ((k * s ^ 2 - T) / sg * sg) with (k * s ^ 2 - T) by (field; lra). ring.
Qed.
Lemma rec2 : H k s 2 a T = - (u0 * sg) * H k s 1 a T + sg ^ 2 / 2 * H k s 0 a T + sg ^ 2 / 2 * a * g k s a T.
Proof.
  rewrite (H_S k s 1). cbn [Hm INR pow]. replace (sg * (sg * 1) / 2) with (s ^ 2) by (rewrite sg_sq; field). unfold u0. pose proof sg_pos.
  replace ((k * s ^ 2 - T) / sg * sg) with (k * s ^ 2 - T) by (field; lra). ring.
Qed.
Lemma rec3 : H k s 3 a T = - (u0 * sg) * H k s 2 a T + sg ^ 2 / 2 * 2 * H k s 1 a T + sg ^ 2 / 2 * a ^ 2 * g k s a T.
Proof.
  rewrite (H_S k s 2). cbn [Hm INR pow]. replace (sg * (sg * 1) / 2) with (s ^ 2) by (rewrite sg_sq; field). unfold u0. pose proof sg_pos.
  replace ((k * s ^ 2 - T) / sg * sg) with (k * s ^ 2 - T) by (field; lra). ring.
Qed.
Lemma a_u : a = sg * (u1 - u0). Proof. unfold u0, u1. pose proof sg_pos. field. lra. Qed.
Lemma H1_closed : H k s 1 a T = N * (F * sg * (j1 - u0 * j0)).
Proof. rewrite rec1, H0_closed, g_closed. pose proof sg_pos. unfold j1. generalize (exp (- u1 ^ 2)). intros e. field. lra. Qed.
Lemma H2_closed : H k s 2 a T = N * (F * (sg * sg) * (j2 - u0 * j1 * 2 + u0 * u0 * j0)).
Proof. rewrite rec2, H1_closed, H0_closed, g_closed. rewrite a_u at 1. pose proof sg_pos. unfold j2, j1. generalize (exp (- u1 ^ 2)). intros e. field. lra. Qed.
Lemma H3_closed : H k s 3 a T = N * (F * (sg * sg) * sg * (j3 - u0 * j2 * 3 + u0 * u0 * j1 * 3 - u0 * (u0 * u0) * j0)).
Proof. rewrite rec3, H2_closed, H1_closed, g_closed. rewrite a_u at 1. pose proof sg_pos. unfold j3, j2, j1. generalize (exp (- u1 ^ 2)). intros e. field. lra. Qed.
End Closed.

Lemma norm_const : sqrt (/ 2 * / PI) = / (sqrt 2 * sqrt PI).
Proof. pose proof PI_RGT_0. rewrite <- Rinv_mult, sqrt_inv, s2pi. reflexivity. Qed.
Lemma exponent k s T : 0 < s -> - (/ 2 * T * T * (1 / s * (1 / s))) + (k * s ^ 2 - T) / (s * sqrt 2) * ((k * s ^ 2 - T) / (s * sqrt 2)) = k ^ 2 * s ^ 2 / 2 - k * T.
Proof.
  intros Hs. pose proof s2_sq as E. pose proof s2_pos.
  replace ((k * s ^ 2 - T) / (s * sqrt 2) * ((k * s ^ 2 - T) / (s * sqrt 2))) with ((k * s ^ 2 - T) ^ 2 / (s ^ 2 * (sqrt 2 * sqrt 2))) by (field; lra).
  rewrite E. field. lra.
Qed.
Lemma u_form k s T : 0 < s -> / 2 * (s * sqrt 2) * (k + - T * (1 / s * (1 / s))) = (k * s ^ 2 - T) / (s * sqrt 2).
Proof.
  intros Hs. pose proof s2_sq as E. pose proof s2_pos. apply Rmult_eq_reg_r with (s * sqrt 2); [|nra].
  replace ((k * s ^ 2 - T) / (s * sqrt 2) * (s * sqrt 2)) with (k * s ^ 2 - T) by (field; lra).
  replace (/ 2 * (s * sqrt 2) * (k + - T * (1 / s * (1 / s))) * (s * sqrt 2)) with (/ 2 * s ^ 2 * (sqrt 2 * sqrt 2) * (k + - T * (1 / s * (1 / s)))) by ring.
  rewrite E. field. lra.
Qed.

(** ** The four functions of [gaussian] *)
Section Gauss.
Variables (W : R -> R -> R) (tau x y sb s T : R).
Hypothesis Ht : tau <> 0.
Hypothesis Hs : 0 < s.
Let Ga := 1 / tau.
Let k := Ga + sb.
Let q := gaussian R_ops (R_lib W) R_extra tau T x y s sb.
Lemma u_y z : / 2 * (s * sqrt 2) * (Ga + - T * (1 / s * (1 / s)) + z + sb) = ((k + z) * s ^ 2 - T) / (s * sqrt 2).
Proof. rewrite <- u_form by exact Hs. unfold k. ring. Qed.
Lemma u_0 : / 2 * (s * sqrt 2) * (Ga + - T * (1 / s * (1 / s)) + sb) = (k * s ^ 2 - T) / (s * sqrt 2).
Proof. rewrite <- u_form by exact Hs. unfold k. ring. Qed.
Lemma gaussian_p13 : p1 q = / 2 * (H (k - y * Ga) s 0 0 T + H (k + y * Ga) s 0 0 T) /\ p3 q = / 2 * (H (k - y * Ga) s 0 0 T - H (k + y * Ga) s 0 0 T).
Proof.
  unfold q, gaussian, sqrt1o2pi, sqrtpio2. cbv zeta. cbn [p1 p3]. rops. fold Ga. rewrite norm_const.
  replace (Ga + - T * (1 / s * (1 / s)) - y * Ga + sb) with (Ga + - T * (1 / s * (1 / s)) + - (y * Ga) + sb) by ring.
  rewrite !u_y, !exponent by exact Hs. cbn [H]. unfold H0. rewrite !Rplus_0_r.
  pose proof s2_pos. pose proof spi_pos. change (k + - (y * Ga)) with (k - y * Ga).
  generalize (exp ((k - y * Ga) ^ 2 * s ^ 2 / 2 - (k - y * Ga) * T)) (exp ((k + y * Ga) ^ 2 * s ^ 2 / 2 - (k + y * Ga) * T))
    (Rerfc (((k - y * Ga) * s ^ 2 - T) / (s * sqrt 2))) (Rerfc (((k + y * Ga) * s ^ 2 - T) / (s * sqrt 2))).
  intros e1 e2 e3 e4. split; field; repeat split; lra.
Qed.
Lemma gaussian_p24 : p2 q = H k s 0 0 T - / 2 * (x * Ga) ^ 2 * H k s 2 0 T /\ p4 q = x * Ga * H k s 1 0 T - / 6 * (x * Ga) ^ 3 * H k s 3 0 T.
Proof.
  unfold q, gaussian, sqrt1o2pi, sqrtpio2, cossin, r1o6. cbv zeta. cbn [p2 p4 fst snd]. rops. fold Ga. rewrite norm_const.
  rewrite !u_0, !exponent by exact Hs.
  rewrite (H0_closed k s 0 T Hs), (H1_closed k s 0 T Hs), (H2_closed k s 0 T Hs), (H3_closed k s 0 T Hs). rewrite !Rplus_0_r.
  set (u := (k * s ^ 2 - T) / (s * sqrt 2)). replace (u ^ 2) with (u * u) by ring.
  pose proof s2_pos. pose proof spi_pos.
  generalize (exp (k ^ 2 * s ^ 2 / 2 - k * T)) (Rerfc u) (exp (- (u * u))). clearbody u. intros e1 e2 e3. split; field; repeat split; lra.
Qed.
End Gauss.

(** ** The quadruple for decays after [a] *)
Definition gq (tau x y sb s a T : R) : quad := let Ga := 1 / tau in let k := Ga + sb in
  mkQuad (/ 2 * (H (k - y * Ga) s 0 a T + H (k + y * Ga) s 0 a T)) (H k s 0 a T - / 2 * (x * Ga) ^ 2 * H k s 2 a T)
         (/ 2 * (H (k - y * Ga) s 0 a T - H (k + y * Ga) s 0 a T)) (x * Ga * H k s 1 a T - / 6 * (x * Ga) ^ 3 * H k s 3 a T).
Lemma gaussian_gq W tau x y sb s T : tau <> 0 -> 0 < s -> gaussian R_ops (R_lib W) R_extra tau T x y s sb = gq tau x y sb s 0 T.
Proof.
  intros Ht Hs. pose proof (gaussian_p13 W tau x y sb s T Hs) as [A B]. pose proof (gaussian_p24 W tau x y sb s T Hs) as [C D].
  destruct (gaussian R_ops (R_lib W) R_extra tau T x y s sb) as [q1 q2 q3 q4]. cbn [p1 p2 p3 p4] in *. unfold gq. cbv zeta. now subst.
Qed.
(** The value of the rate as a sum of moments. *)
Lemma combine_value (q : quad) (c1 c2 c3 c4 : R) : combine_rate R_ops q c1 c2 c3 c4 = c1 * p1 q + c2 * p2 q - 2 * c3 * p3 q - 2 * c4 * p4 q.
Proof. unfold combine_rate. rops. ring. Qed.
Definition gsum (tau x y sb s a c1 c2 c3 c4 T : R) : R := let Ga := 1 / tau in let k := Ga + sb in
  ((c1 / 2 - c3) * H (k - y * Ga) s 0 a T + (c1 / 2 + c3) * H (k + y * Ga) s 0 a T) +
  ((c2 * H k s 0 a T + - (c2 * (x * Ga) ^ 2 / 2) * H k s 2 a T) + (-2 * c4 * (x * Ga) * H k s 1 a T + c4 * (x * Ga) ^ 3 / 3 * H k s 3 a T)).
Lemma combine_gq tau x y sb s a T c1 c2 c3 c4 : combine_rate R_ops (gq tau x y sb s a T) c1 c2 c3 c4 = gsum tau x y sb s a c1 c2 c3 c4 T.
Proof. rewrite combine_value. unfold gq, gsum. cbv zeta. cbn [p1 p2 p3 p4]. generalize (1 / tau). intros Ga. field. Qed.

Lemma cubic_split c1 c2 c3 c4 tau x y sb t : tau <> 0 -> let Ga := 1 / tau in let k := Ga + sb in
  exp (- sb * t) * rate_cubic c1 c2 c3 c4 tau x y t =
  ((c1 / 2 - c3) * (t ^ 0 * exp (- (k - y * Ga) * t)) + (c1 / 2 + c3) * (t ^ 0 * exp (- (k + y * Ga) * t))) +
  ((c2 * (t ^ 0 * exp (- k * t)) + - (c2 * (x * Ga) ^ 2 / 2) * (t ^ 2 * exp (- k * t))) +
   (-2 * c4 * (x * Ga) * (t ^ 1 * exp (- k * t)) + c4 * (x * Ga) ^ 3 / 3 * (t ^ 3 * exp (- k * t)))).
Proof.
  intros Ht Ga k. unfold rate_cubic, cosh, sinh. cbv zeta.
  replace (exp (- (k - y * Ga) * t)) with (exp (- sb * t) * exp (- (t / tau)) * exp (y * t / tau)) by (rewrite <- !exp_plus; f_equal; unfold k, Ga; field; exact Ht).
  replace (exp (- (k + y * Ga) * t)) with (exp (- sb * t) * exp (- (t / tau)) * exp (- (y * t / tau))) by (rewrite <- !exp_plus; f_equal; unfold k, Ga; field; exact Ht).
  replace (exp (- k * t)) with (exp (- sb * t) * exp (- (t / tau))) by (rewrite <- !exp_plus; f_equal; unfold k, Ga; field; exact Ht).
  generalize (exp (- sb * t)) (exp (- (t / tau))) (exp (y * t / tau)) (exp (- (y * t / tau))). intros e1 e2 e3 e4.
  unfold Ga. field. exact Ht.
Qed.
Lemma smear_one tau x y sb s a T c1 c2 c3 c4 : tau <> 0 -> 0 < s ->
  is_RInt_gen (fun t => exp (- sb * t) * rate_cubic c1 c2 c3 c4 tau x y t * normal s (T - t)) (at_point a) (Rbar_locally p_infty)
    (gsum tau x y sb s a c1 c2 c3 c4 T).
Proof.
  intros Ht Hs. unfold gsum. cbv zeta. set (Ga := 1 / tau). set (k := Ga + sb).
  assert (M : forall c k n, is_RInt_gen (fun t => c * (t ^ n * (exp (- k * t) * normal s (T - t)))) (at_point a) (Rbar_locally p_infty) (c * H k s n a T)).
  { intros c k' n. apply gen_scal; try typeclasses eauto. now apply H_smear. }
  refine (gen_ext _ _ _ _ _ _ _ eq_refl (gen_plus _ _ _ _ _ _ (gen_plus _ _ _ _ _ _ (M _ (k - y * Ga) 0%nat) (M _ (k + y * Ga) 0%nat))
     (gen_plus _ _ _ _ _ _ (gen_plus _ _ _ _ _ _ (M _ k 0%nat) (M _ k 2%nat)) (gen_plus _ _ _ _ _ _ (M _ k 1%nat) (M _ k 3%nat))))).
  intros t. rewrite (cubic_split c1 c2 c3 c4 tau x y sb t Ht). fold Ga. fold k. cbv zeta. ring.
Qed.
Lemma smear_fin tau x y sb s a b T c1 c2 c3 c4 : tau <> 0 -> 0 < s ->
  is_RInt (fun t => exp (- sb * t) * rate_cubic c1 c2 c3 c4 tau x y t * normal s (T - t)) a b
    (gsum tau x y sb s a c1 c2 c3 c4 T - gsum tau x y sb s b c1 c2 c3 c4 T).
Proof.
  intros Ht Hs. set (Ga := 1 / tau). set (k := Ga + sb).
  assert (M : forall c k n, is_RInt (fun t => c * (t ^ n * (exp (- k * t) * normal s (T - t)))) a b (c * (H k s n a T - H k s n b T))).
  { intros c k' n. apply (is_RInt_scal (fun t => t ^ n * (exp (- k' * t) * normal s (T - t))) a b c). now apply H_smear_fin. }
  pose proof (is_RInt_plus _ _ _ _ _ _ (is_RInt_plus _ _ _ _ _ _ (M (c1 / 2 - c3) (k - y * Ga) 0%nat) (M (c1 / 2 + c3) (k + y * Ga) 0%nat))
     (is_RInt_plus _ _ _ _ _ _ (is_RInt_plus _ _ _ _ _ _ (M c2 k 0%nat) (M (- (c2 * (x * Ga) ^ 2 / 2)) k 2%nat))
        (is_RInt_plus _ _ _ _ _ _ (M (-2 * c4 * (x * Ga)) k 1%nat) (M (c4 * (x * Ga) ^ 3 / 3) k 3%nat)))) as Q.
  match type of Q with is_RInt _ _ _ ?v => replace (gsum tau x y sb s a c1 c2 c3 c4 T - gsum tau x y sb s b c1 c2 c3 c4 T) with v end.
  2:{ unfold plus; cbn -[H pow]. unfold gsum. cbv zeta. fold Ga. fold k. ring. }
  apply is_RInt_ext with (2 := Q). intros t _.
  rewrite (cubic_split c1 c2 c3 c4 tau x y sb t Ht). fold Ga. fold k. cbv zeta. unfold plus; cbn -[pow]. ring.
Qed.

(** ** Integral over the measured time *)
Lemma shift_gen (f : R -> R) (b v : R) : over_measured_time f v -> over_measured_time (fun t => f (t - b)) v.
Proof.
  unfold over_measured_time. intros Hf P HP. specialize (Hf P HP). unfold filtermapi in *. destruct Hf as [Q1 Q2 [M1 H1] [M2 H2] Hq].
  apply (Filter_prod _ _ _ (fun t => Q1 (t - b)) (fun t => Q2 (t - b))).
  - exists (M1 + b). intros t Ht. apply H1. lra.
  - exists (M2 + b). intros t Ht. apply H2. lra.
  - intros u w Hu Hw. destruct (Hq _ _ Hu Hw) as (z & Hz & Pz). exists z. split; [|exact Pz]. cbn [fst snd] in *.
    pose proof (is_RInt_comp_lin f 1 (- b) u w z) as K.
    replace (1 * u + - b) with (u - b) in K by ring. replace (1 * w + - b) with (w - b) in K by ring.
    apply is_RInt_ext with (2 := K Hz). intros t _. unfold scal; cbn; unfold mult; cbn. replace (1 * t + - b) with (t - b) by ring. ring.
Qed.
Lemma total_one tau x y sb s a c1 c2 c3 c4 : let Ga := 1 / tau in let k := Ga + sb in
  0 < s -> 0 < k -> 0 < k - y * Ga -> 0 < k + y * Ga ->
  over_measured_time (gsum tau x y sb s a c1 c2 c3 c4)
   (((c1 / 2 - c3) * total (k - y * Ga) 0 a + (c1 / 2 + c3) * total (k + y * Ga) 0 a) +
    ((c2 * total k 0 a + - (c2 * (x * Ga) ^ 2 / 2) * total k 2 a) + (-2 * c4 * (x * Ga) * total k 1 a + c4 * (x * Ga) ^ 3 / 3 * total k 3 a))).
Proof.
  intros Ga k Hs K0 K1 K2. unfold over_measured_time.
  assert (M : forall c k n, 0 < k -> is_RInt_gen (fun T => c * H k s n a T) (Rbar_locally m_infty) (Rbar_locally p_infty) (c * total k n a)).
  { intros c k' n Hk. apply gen_scal; try typeclasses eauto. now apply H_total. }
  refine (gen_ext _ _ _ _ _ _ _ eq_refl (gen_plus _ _ _ _ _ _ (gen_plus _ _ _ _ _ _ (M _ (k - y * Ga) 0%nat K1) (M _ (k + y * Ga) 0%nat K2))
     (gen_plus _ _ _ _ _ _ (gen_plus _ _ _ _ _ _ (M _ k 0%nat K0) (M _ k 2%nat K0)) (gen_plus _ _ _ _ _ _ (M _ k 1%nat K0) (M _ k 3%nat K0))))).
  intros t. reflexivity.
Qed.
Lemma total_00 k : k <> 0 -> total k 0 0 = 1 / k /\ total k 1 0 = 1 / k ^ 2 /\ total k 2 0 = 2 / k ^ 3 /\ total k 3 0 = 6 / k ^ 4.
Proof.
  intros Hk. unfold total. rewrite !Rmult_0_r, exp_0. cbn [INR pow]. repeat split; field; exact Hk.
Qed.

(** ** ThreeGaussResolution *)
Section TG.
Variables (W : R -> R -> R) (cf tf cb cs tb ts ob os sb bias scale bias2 scale2 : R).
Let ps := tg_params cf tf cb cs tb ts ob os sb bias scale bias2 scale2.
Variables (tau x y sigma : R).
Hypothesis Ht : 0 < tau.
Hypothesis Hw : wide (tg_shape cf tf cb cs tb ts ob os bias scale bias2 scale2 sigma).
Lemma tg_value c1 c2 c3 c4 T : tg_rate R_ops (R_lib W) R_extra ps c1 c2 c3 c4 tau T x y sigma =
  let r := tg_shape cf tf cb cs tb ts ob os bias scale bias2 scale2 sigma in
  cf * gsum tau x y sb (w_core r) 0 c1 c2 c3 c4 (T - b_core r) + tf * gsum tau x y sb (w_tail r) 0 c1 c2 c3 c4 (T - b_tail r)
  + (1 - cf - tf) * gsum tau x y sb (w_outl r) 0 c1 c2 c3 c4 (T - b_outl r).
Proof.
  destruct Hw as (W1 & W2 & W3). cbn [w_core w_tail w_outl tg_shape] in W1, W2, W3.
  unfold tg_rate, ps, tg_params. cbn [nth]. cbv zeta. rops. rewrite !gaussian_gq by (first [lra|assumption]).
  cbn [w_core w_tail w_outl b_core b_tail b_outl tg_shape]. rewrite <- !combine_gq, !combine_value. unfold mix. cbn [p1 p2 p3 p4]. rops. ring.
Qed.
Lemma tg_smear c1 c2 c3 c4 T :
  over_decay_time (fun t => exp (- sb * t) * rate_cubic c1 c2 c3 c4 tau x y t * resolution (tg_shape cf tf cb cs tb ts ob os bias scale bias2 scale2 sigma) (T - t))
    (tg_rate R_ops (R_lib W) R_extra ps c1 c2 c3 c4 tau T x y sigma).
Proof.
  destruct Hw as (W1 & W2 & W3). unfold over_decay_time. rewrite tg_value. cbv zeta.
  assert (M : forall c s b, 0 < s -> is_RInt_gen (fun t => c * (exp (- sb * t) * rate_cubic c1 c2 c3 c4 tau x y t * normal s (T - b - t)))
                                       (at_point 0) (Rbar_locally p_infty) (c * gsum tau x y sb s 0 c1 c2 c3 c4 (T - b))).
  { intros c s b Hs. apply gen_scal; try typeclasses eauto. apply smear_one; [lra|exact Hs]. }
  refine (gen_ext _ _ _ _ _ _ _ eq_refl (gen_plus _ _ _ _ _ _ (gen_plus _ _ _ _ _ _ (M cf _ (b_core (tg_shape cf tf cb cs tb ts ob os bias scale bias2 scale2 sigma)) W1) (M tf _ (b_tail (tg_shape cf tf cb cs tb ts ob os bias scale bias2 scale2 sigma)) W2)) (M (1 - cf - tf) _ (b_outl (tg_shape cf tf cb cs tb ts ob os bias scale bias2 scale2 sigma)) W3))).
  intros t. unfold resolution. cbn [f_core f_tail tg_shape].
  replace (T - t - b_core (tg_shape cf tf cb cs tb ts ob os bias scale bias2 scale2 sigma)) with (T - b_core (tg_shape cf tf cb cs tb ts ob os bias scale bias2 scale2 sigma) - t) by ring.
  replace (T - t - b_tail (tg_shape cf tf cb cs tb ts ob os bias scale bias2 scale2 sigma)) with (T - b_tail (tg_shape cf tf cb cs tb ts ob os bias scale bias2 scale2 sigma) - t) by ring.
  replace (T - t - b_outl (tg_shape cf tf cb cs tb ts ob os bias scale bias2 scale2 sigma)) with (T - b_outl (tg_shape cf tf cb cs tb ts ob os bias scale bias2 scale2 sigma) - t) by ring.
  cbn [w_core w_tail w_outl b_core b_tail b_outl tg_shape]. ring.
Qed.
Let Ga := 1 / tau.
Let k := Ga + sb.
Hypothesis Hk : 0 < k.
Hypothesis Hkp : 0 < k - y * Ga.
Hypothesis Hkm : 0 < k + y * Ga.
Definition tg_total c1 c2 c3 c4 : R :=
  (c1 / 2 - c3) / (k - y * Ga) + (c1 / 2 + c3) / (k + y * Ga) + c2 * (1 / k - (x * Ga) ^ 2 / k ^ 3) - 2 * c4 * (x * Ga / k ^ 2 - (x * Ga) ^ 3 / k ^ 4).
Lemma tg_integral c1 c2 c3 c4 : over_measured_time (fun T => tg_rate R_ops (R_lib W) R_extra ps c1 c2 c3 c4 tau T x y sigma) (tg_total c1 c2 c3 c4).
Proof.
  destruct Hw as (W1 & W2 & W3).
  assert (M : forall c s b, 0 < s -> over_measured_time (fun T => c * gsum tau x y sb s 0 c1 c2 c3 c4 (T - b)) (c * tg_total c1 c2 c3 c4)).
  { intros c s b Hs. apply gen_scal; try typeclasses eauto. apply (shift_gen (gsum tau x y sb s 0 c1 c2 c3 c4)).
    pose proof (total_one tau x y sb s 0 c1 c2 c3 c4 Hs Hk Hkp Hkm) as Q. cbv zeta in Q. fold Ga in Q. fold k in Q.
    destruct (total_00 k ltac:(lra)) as (A & B & C & D). destruct (total_00 (k - y * Ga) ltac:(lra)) as (A1 & _). destruct (total_00 (k + y * Ga) ltac:(lra)) as (A2 & _).
    rewrite A, B, C, D, A1, A2 in Q. refine (gen_ext _ _ _ _ _ _ _ _ Q); [intros t; reflexivity|]. unfold tg_total. field. repeat split; lra. }
  refine (gen_ext _ _ _ _ _ _ _ _ (gen_plus _ _ _ _ _ _ (gen_plus _ _ _ _ _ _ (M cf _ (b_core (tg_shape cf tf cb cs tb ts ob os bias scale bias2 scale2 sigma)) W1) (M tf _ (b_tail (tg_shape cf tf cb cs tb ts ob os bias scale bias2 scale2 sigma)) W2)) (M (1 - cf - tf) _ (b_outl (tg_shape cf tf cb cs tb ts ob os bias scale bias2 scale2 sigma)) W3))).
  - intros T. rewrite tg_value. reflexivity.
  - ring.
Qed.
Lemma tg_norm_gap di1 di2 di3 di4 :
  tg_normalization R_ops sb di1 di2 di3 di4 tau x y - tg_total (di1 + di2) (di1 - di2) di3 di4 =
  (x * Ga / k) ^ 4 * ((di1 - di2) * k - 2 * di4 * (x * Ga)) / (k ^ 2 + (x * Ga) ^ 2).
Proof.
  unfold tg_normalization, combine. cbv zeta. rops. unfold tg_total.
  assert (E1 : sb * sb + 2 * sb / tau + (1 - y * y) / (tau * tau) = (k - y * Ga) * (k + y * Ga)) by (unfold k, Ga; field; lra).
  assert (E2 : sb * sb + 2 * sb / tau + (1 + x * x) / (tau * tau) = k ^ 2 + (x * Ga) ^ 2) by (unfold k, Ga; field; lra).
  rewrite E1, E2. replace (sb + 1 / tau) with k by (unfold k, Ga; ring).
  replace (y / tau) with (y * Ga) by (unfold Ga; field; lra). replace (x / tau) with (x * Ga) by (unfold Ga; field; lra).
  clearbody k. set (X := x * Ga) in *. set (Y := y * Ga) in *. clearbody X Y.
  pose proof (pow2_ge_0 X). field. repeat split; nra.
Qed.
End TG.
