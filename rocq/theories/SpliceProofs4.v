(** Where ThreeGaussResolutionSplice is not what it should be; the integral over the measured time. *)
From Coq Require Import List ZArith Reals Lra Lia Arith Bool.
From Coquelicot Require Import Coquelicot.
From Verif Require Import FormulaSpec ResolModel ResolSpec ResolMoment ResolProofs ResolProofs2 ResolProofs3 ResolProofs4 SpliceModel SpliceSpec SpliceProofs SpliceProofs2 SpliceProofs3.
From Verif Require LeafGen.
Import ListNotations.
Open Scope R_scope.

(** ** The power series *)
Lemma f0 : INR (fact 0) = 1. Proof. reflexivity. Qed.
Lemma f2 : INR (fact 2) = 2. Proof. reflexivity. Qed.
Lemma f4 : INR (fact 4) = 24. Proof. rewrite !fact_simpl, !mult_INR. cbn [fact INR]. ring. Qed.
Lemma f6 : INR (fact 6) = 720. Proof. rewrite 2!fact_simpl, !mult_INR, f4. cbn [INR]. ring. Qed.
Lemma f8 : INR (fact 8) = 40320. Proof. rewrite 2!fact_simpl, !mult_INR, f6. cbn [INR]. ring. Qed.
Lemma cos_low z f : Rabs z <= 1 -> Rabs f <= / 2 -> 1 - z ^ 2 / 2 + f ^ 4 * z ^ 4 / 24 <= cos z.
Proof.
  intros Hz Hf. apply Rabs_le_between in Hz. apply Rabs_le_between in Hf. pose proof PI2_1 as P.
  destruct (cos_bound z 1 ltac:(lra) ltac:(lra)) as [L _].
  replace (cos_approx z (2 * 1 + 1)) with (1 - z ^ 2 / 2 + z ^ 4 / 24 - z ^ 6 / 720) in L by (unfold cos_approx, cos_term; cbn [sum_f_R0 Nat.mul Nat.add]; rewrite ?f0, ?f2, ?f4, ?f6, ?f8; cbn [pow]; field).
  assert (Z2 : 0 <= z ^ 2 <= 1) by nra. assert (F2 : 0 <= f ^ 2 <= / 4) by nra.
  replace (f ^ 4) with (f ^ 2 * f ^ 2) by ring. replace (z ^ 4) with (z ^ 2 * z ^ 2) in * by ring. replace (z ^ 6) with (z ^ 2 * z ^ 2 * z ^ 2) in * by ring.
  set (a := z ^ 2) in *. set (b := f ^ 2) in *. clearbody a b.
  assert (B2 : b * b <= / 16) by nra. assert (A2 : 0 <= a * a) by nra. assert (A3 : a * a * a <= a * a) by nra. nra.
Qed.
Lemma cos_high z : Rabs z <= 1 -> z <> 0 -> cos z < 1 - z ^ 2 / 2 + z ^ 4 / 24.
Proof.
  intros Hz Nz. apply Rabs_le_between in Hz. pose proof PI2_1 as P.
  destruct (cos_bound z 1 ltac:(lra) ltac:(lra)) as [_ L].
  replace (cos_approx z (2 * (1 + 1))) with (1 - z ^ 2 / 2 + z ^ 4 / 24 - z ^ 6 / 720 + z ^ 8 / 40320) in L by (unfold cos_approx, cos_term; cbn [sum_f_R0 Nat.mul Nat.add]; rewrite ?f0, ?f2, ?f4, ?f6, ?f8; cbn [pow]; field).
  assert (Z2 : 0 < z ^ 2 <= 1) by nra.
  replace (z ^ 4) with (z ^ 2 * z ^ 2) in * by ring. replace (z ^ 6) with (z ^ 2 * z ^ 2 * z ^ 2) in * by ring. replace (z ^ 8) with (z ^ 2 * z ^ 2 * z ^ 2 * z ^ 2) in * by ring.
  set (a := z ^ 2) in *. clearbody a. assert (A3 : 0 < a * a * a) by (apply Rmult_lt_0_compat; [apply Rmult_lt_0_compat|]; lra). nra.
Qed.

(** ** Integrals over the measured time *)
Lemma psum_gen (D : R -> R -> nat -> R) (Dt : R -> nat -> R) f c1 c2 c3 c4 tau x y a :
  (forall k n, k = 1 / tau * (1 - y) \/ k = 1 / tau * (1 + y) \/ k = 1 / tau -> over_measured_time (fun T => D T k n) (Dt k n)) ->
  over_measured_time (fun T => psum (D T) f c1 c2 c3 c4 tau x y a) (psum Dt f c1 c2 c3 c4 tau x y a).
Proof.
  intros HD. unfold over_measured_time in *.
  assert (S : forall c u U, is_RInt_gen u (Rbar_locally m_infty) (Rbar_locally p_infty) U -> is_RInt_gen (fun T => c * u T) (Rbar_locally m_infty) (Rbar_locally p_infty) (c * U)).
  { intros c u U A. apply gen_scal; try typeclasses eauto. exact A. }
  assert (P : forall u v U V, is_RInt_gen u (Rbar_locally m_infty) (Rbar_locally p_infty) U -> is_RInt_gen v (Rbar_locally m_infty) (Rbar_locally p_infty) V ->
     is_RInt_gen (fun T => u T + v T) (Rbar_locally m_infty) (Rbar_locally p_infty) (U + V)).
  { intros u v U V A B. apply gen_plus; try typeclasses eauto; assumption. }
  assert (M : forall j, is_RInt_gen (fun T => pterm (D T) f c1 c2 c3 c4 tau x y j) (Rbar_locally m_infty) (Rbar_locally p_infty) (pterm Dt f c1 c2 c3 c4 tau x y j)).
  { intros j. unfold pterm. apply P; [apply P; apply S; auto|apply P; [apply P; [apply S; auto|apply P; apply S; auto]|apply P; [apply S; auto|apply P; apply S; auto]]]. }
  unfold psum. apply P; apply P; apply S; apply M.
Qed.
Lemma psums_gen (V : R -> R -> R -> cubic -> R) Vt : (forall lo hi c, over_measured_time (fun T => V T lo hi c) (Vt lo hi c)) ->
  forall ks cs, over_measured_time (fun T => psums (V T) ks cs) (psums Vt ks cs).
Proof.
  intros HV. assert (Z : over_measured_time (fun _ => 0) 0).
  { pose proof (HV 0 0 c_d) as Q. refine (gen_ext _ _ _ _ _ _ _ _ (gen_scal _ _ _ 0 _ Q)); [intros; ring|ring]. }
  induction ks as [|k ks IH]; intros cs; [exact Z|]. destruct ks as [|k' ks]; [exact Z|]. destruct cs as [|c cs]; [exact Z|].
  cbn [psums]. apply gen_plus; try typeclasses eauto; [apply HV|apply IH].
Qed.
Lemma psum_x0 D f c1 c2 c3 c4 tau y a : psum D f c1 c2 c3 c4 tau 0 y a = psum D 1 c1 c2 c3 c4 tau 0 y a.
Proof. unfold psum, pterm. replace (0 * (1 / tau)) with 0 by ring. rewrite !pow_i by lia. unfold Rdiv. ring. Qed.
Lemma total_minus s lo hi k n : 0 < s -> 0 < k -> over_measured_time (fun T => DH s T lo hi k n) (DT lo hi k n).
Proof.
  intros Hs Hk. refine (gen_ext _ _ _ _ _ _ _ _ (gen_plus _ _ _ _ _ _ (H_total k s Hs n lo Hk) (gen_scal _ _ _ (- (1)) _ (H_total k s Hs n hi Hk)))).
  - intros T. unfold DH. ring.
  - unfold DT. ring.
Qed.
Lemma one_total_x0 tau y s k ks ps v m c1 c2 c3 c4 : 0 < tau -> 0 < s -> 0 < 1 - y -> 0 < 1 + y ->
  0 < 1 / tau + - m / v - y * (1 / tau) -> 0 < 1 / tau + - m / v + y * (1 / tau) ->
  over_measured_time (one_gauss tau 0 y s (k :: ks) ps v m c1 c2 c3 c4) (norm_value tau 0 y k ks ps v m c1 c2 c3 c4).
Proof.
  intros Ht Hs Y1 Y2 Kp Km. assert (G0 : 0 < 1 / tau) by (unfold Rdiv; rewrite Rmult_1_l; now apply Rinv_0_lt_compat).
  unfold one_gauss, norm_value. apply gen_plus; try typeclasses eauto.
  - apply (psums_gen (fun T lo hi c => psum (DH s T lo hi) (0 * (1 / tau) * s) c1 c2 c3 c4 tau 0 y c)). intros lo hi c.
    rewrite <- (psum_x0 (DT lo hi) (0 * (1 / tau) * s)). apply psum_gen. intros k' n K. apply total_minus; [exact Hs|].
    destruct K as [-> |[-> | -> ]]; [apply Rmult_lt_0_compat|apply Rmult_lt_0_compat|]; assumption.
  - apply gen_scal; try typeclasses eauto. set (e := last (k :: ks) 0).
    pose proof (total_one tau 0 y (- m / v) s e c1 c2 c3 c4 Hs ltac:(lra) Kp Km) as Q0. cbv zeta in Q0. refine (gen_ext _ _ _ _ _ _ _ _ Q0); [reflexivity|]. clear Q0.
    rewrite tail_x0 by lra. unfold total. set (ga := 1 / tau) in *. clearbody ga. set (sb := - m / v) in *. clearbody sb. field. repeat split; lra.
Qed.

(** ** The device function *)
Section Device.
Variable W : R -> R -> R.
Variables (cf tf cb cs tb ts ob os bias scale bias2 scale2 sigma tau : R).
Let r := tg_shape cf tf cb cs tb ts ob os bias scale bias2 scale2 sigma.
Let params k ks ps := splice_params cf tf cb cs tb ts ob os bias scale bias2 scale2 (k :: ks) (map c_0 ps) (map c_1 ps) (map c_2 ps) (map c_3 ps).
Hypothesis Hw : wide r.
Hypothesis Ht : 0 < tau.
Lemma total_x0 y k ks ps c1 c2 c3 c4 : length ks = length ps -> (1 <= length ks <= 7)%nat ->
  let e := last (k :: ks) 0 in let z := last ps c_d in let v := c_1 z * e + c_0 z in let sb := - c_1 z / v in
  0 < 1 - y -> 0 < 1 + y -> 0 < 1 / tau + sb - y * (1 / tau) -> 0 < 1 / tau + sb + y * (1 / tau) ->
  exists F, (forall T, splice_rate R_ops (R_lib W) R_extra (params k ks ps) (length (k :: ks)) c1 c2 c3 c4 tau T 0 y sigma = Some (F T)) /\
    over_measured_time F (norm_value tau 0 y 0 ks ps v (c_1 z) c1 c2 c3 c4).
Proof.
  intros Hl Hn e z v sb Y1 Y2 Kp Km. destruct Hw as (W1 & W2 & W3).
  eexists. split; [intros T; exact (rate_value W cf tf cb cs tb ts ob os bias scale bias2 scale2 sigma tau 0 y k ks ps Hl Hn Hw c1 c2 c3 c4 T)|].
  assert (M : forall c s b, 0 < s -> over_measured_time (fun T => c * one_gauss tau 0 y s (0 :: ks) ps v (c_1 z) c1 c2 c3 c4 (T - b)) (c * norm_value tau 0 y 0 ks ps v (c_1 z) c1 c2 c3 c4)).
  { intros c s b Hs. apply gen_scal; try typeclasses eauto. apply (shift_gen (one_gauss tau 0 y s (0 :: ks) ps v (c_1 z) c1 c2 c3 c4)). now apply one_total_x0. }
  refine (gen_ext _ _ _ _ _ _ _ _ (gen_plus _ _ _ _ _ _ (gen_plus _ _ _ _ _ _ (M cf _ (b_core r) W1) (M tf _ (b_tail r) W2)) (M (1 - cf - tf) _ (b_outl r) W3))).
  - intros T. reflexivity.
  - ring.
Qed.
Hypothesis Hm : mixture r.
(** A last piece that is not straight. *)
Lemma tail_wrong a b q y T : 0 < a -> 0 < b -> 0 < q ->
  ~ exists u, splice_rate R_ops (R_lib W) R_extra (params 0 [a] [(b, 0, q, 0)]) 2 1 1 0 0 tau T 0 y sigma = Some u /\
      over_decay_time (fun t => spliced [0; a] [(b, 0, q, 0)] t * rate 1 1 0 0 tau 0 y t * resolution r (T - t)) u.
Proof.
  intros Ha Hb Hq (u & E & I0).
  destruct (device_x0 W cf tf cb cs tb ts ob os bias scale bias2 scale2 sigma tau 0 y 0 [a] [(b, 0, q, 0)] eq_refl ltac:(cbn; lia) Hw 1 1 0 0 T ltac:(lra) eq_refl ltac:(cbn; lra)) as (u' & E' & I1).
  assert (Eu : u' = u) by (apply (f_equal (fun o => match o with Some w => w | None => 0 end)) in E; apply (f_equal (fun o => match o with Some w => w | None => 0 end)) in E'; cbv beta iota in E, E'; rewrite <- E, <- E'; reflexivity). subst u'.
  set (c1 := continued a (b + q * a ^ 2) (2 * q * a)). set (c0 := continued a b 0).
  assert (D : over_decay_time (fun t => (if Rlt_dec t a then 0 else c1 t - c0 t) * rate 1 1 0 0 tau 0 y t * resolution r (T - t)) 0).
  { refine (gen_ext _ _ _ _ _ _ _ _ (gen_plus _ _ _ _ _ _ I0 (gen_scal _ _ _ (- (1)) _ I1))); [|ring].
    intros t. unfold spliced, seen. cbv zeta. cbn [last along map c_1 c_0]. unfold c1, c0.
    replace (value (b, 0, q, 0) a) with (b + q * a ^ 2) by (unfold value; cbn [c_0 c_1 c_2 c_3]; ring).
    replace (slope (b, 0, q, 0) a) with (2 * q * a) by (unfold slope; cbn [c_0 c_1 c_2 c_3]; ring).
    replace (0 * a + b) with b by ring. fold r. destruct Rlt_dec; ring. }
  assert (Pr : forall t, 0 < rate 1 1 0 0 tau 0 y t).
  { intros t. unfold rate. apply Rmult_lt_0_compat; [apply exp_pos|]. replace (0 * t / tau) with 0 by (unfold Rdiv; ring). rewrite cos_0. unfold cosh.
    pose proof (exp_pos (y * t / tau)). pose proof (exp_pos (- (y * t / tau))). lra. }
  assert (Pc : forall t, a <= t -> 0 < c1 t - c0 t).
  { intros t Hta. unfold c1, c0, continued. replace (0 / b * (t - a)) with 0 by (unfold Rdiv; ring). rewrite exp_0.
    assert (A2 : 0 < q * a ^ 2) by (apply Rmult_lt_0_compat; [lra|nra]).
    assert (X1 : 1 <= exp (2 * q * a / (b + q * a ^ 2) * (t - a))).
    { rewrite <- exp_0. destruct (Req_dec t a) as [-> |N]; [right; f_equal; ring|]. left. apply exp_increasing. apply Rmult_lt_0_compat; [|lra]. apply Rdiv_lt_0_compat; [nra|lra]. }
    nra. }
  apply (Rlt_irrefl 0). refine (gen_pos _ (fun t => (c1 t - c0 t) * rate 1 1 0 0 tau 0 y t * resolution r (T - t)) a (a + 1) 0 _ _ _ _ _ _ D).
  - lra.
  - lra.
  - intros t _. apply Rmult_le_pos; [apply Rmult_le_pos; [|left; apply Pr]|left; now apply resolution_pos]. destruct Rlt_dec; [lra|left; apply Pc; lra].
  - intros t [L _]. destruct Rlt_dec; [lra|reflexivity].
  - intros t [L _]. apply Rmult_lt_0_compat; [apply Rmult_lt_0_compat; [apply Pc; lra|apply Pr]|now apply resolution_pos].
  - intros t. apply gcont. apply (ex_derive_mult (fun t => (c1 t - c0 t) * rate 1 1 0 0 tau 0 y t) (fun t => resolution r (T - t))); [|now apply resolution_cont].
    unfold rate, c1, c0, continued, cosh, sinh. auto_derive. repeat split; try exact I; lra.
Qed.
(** Mixing. *)
Lemma mixing_wrong x y ks ps c1 c2 c3 T : length ks = length ps -> (1 <= length ks <= 7)%nat -> in_order 0 ks -> straight (last ps c_d) ->
  let e := last (0 :: ks) 0 in x <> 0 -> 0 < c2 -> Rabs (x / tau * e) <= 1 ->
  Rabs (x / tau * w_core r) <= / 2 -> Rabs (x / tau * w_tail r) <= / 2 -> Rabs (x / tau * w_outl r) <= / 2 ->
  (forall t, 0 < t -> 0 <= spliced (0 :: ks) ps t) -> 0 < value (last ps c_d) e ->
  ~ exists u, splice_rate R_ops (R_lib W) R_extra (params 0 ks ps) (length (0 :: ks)) c1 c2 c3 0 tau T x y sigma = Some u /\
      over_decay_time (fun t => spliced (0 :: ks) ps t * rate c1 c2 c3 0 tau x y t * resolution r (T - t)) u.
Proof.
  intros Hl Hn Ho Hz e Hx Hc He F1 F2 F3 Hs Hv (u & E & I0).
  destruct (device_seen W cf tf cb cs tb ts ob os bias scale bias2 scale2 sigma tau x y 0 ks ps Hl Hn Hw c1 c2 c3 0 T ltac:(lra) Ho) as (u' & E' & I1). fold r in I1.
  assert (Eu : u' = u) by (apply (f_equal (fun o => match o with Some w => w | None => 0 end)) in E; apply (f_equal (fun o => match o with Some w => w | None => 0 end)) in E'; cbv beta iota in E, E'; rewrite <- E, <- E'; reflexivity). subst u'.
  set (gap := fun s t => rate c1 c2 c3 0 tau x y t - cut_rate tau x y 0 ks s c1 c2 c3 0 t).
  assert (D : over_decay_time (fun t => spliced (0 :: ks) ps t * (cf * (gap (w_core r) t * normal (w_core r) (T - b_core r - t)) + tf * (gap (w_tail r) t * normal (w_tail r) (T - b_tail r - t))
      + (1 - cf - tf) * (gap (w_outl r) t * normal (w_outl r) (T - b_outl r - t)))) 0).
  { refine (gen_ext _ _ _ _ _ _ _ _ (gen_plus _ _ _ _ _ _ I0 (gen_scal _ _ _ (- (1)) _ I1))); [|ring].
    intros t. rewrite (seen_straight 0 ks ps Hn t Hz). unfold r at 1. rewrite resolution_form. fold r. unfold gap. ring. }
  assert (Z : forall t, x * t / tau = x / tau * t) by (intros; unfold Rdiv; ring).
  assert (E0 : 0 <= e) by (apply (order_last ks 0 Ho)).
  assert (G1 : forall s t, 0 < t -> Rabs (x / tau * s) <= / 2 -> 0 <= gap s t).
  { intros s t Pt Fs. unfold gap, cut_rate. fold e. destruct Rlt_dec as [L|L].
    - unfold rate, rate_code. cbv zeta. rewrite Z. replace (x * (1 / tau) * s) with (x / tau * s) by (unfold Rdiv; ring).
      assert (Az : Rabs (x / tau * t) <= 1). { rewrite Rabs_mult, (Rabs_pos_eq t) by lra. rewrite Rabs_mult, (Rabs_pos_eq e) in He by exact E0. pose proof (Rabs_pos (x / tau)). nra. }
      pose proof (cos_low (x / tau * t) (x / tau * s) Az Fs) as C0. pose proof (exp_pos (- (t / tau))) as P0. set (f := x / tau * s) in *. set (w := x / tau * t) in *. clearbody f w.
      replace (exp (- (t / tau)) * (c1 * cosh (y * t / tau) + c2 * cos w - 2 * c3 * sinh (y * t / tau) - 2 * 0 * sin w) -
        exp (- (t / tau)) * (c1 * cosh (y * t / tau) + c2 * (1 - w ^ 2 / 2 + f ^ 4 * w ^ 4 / 24) - 2 * c3 * sinh (y * t / tau) - 2 * 0 * (w - f * w ^ 3 / 6 + f ^ 11 * w ^ 5 / 120)))
        with (exp (- (t / tau)) * (c2 * (cos w - (1 - w ^ 2 / 2 + f ^ 4 * w ^ 4 / 24)))) by ring.
      apply Rmult_le_pos; [lra|]. apply Rmult_le_pos; lra.
    - unfold rate, rate_cubic. cbv zeta. pose proof (cos_ge (x * t / tau)) as C0. pose proof (exp_pos (- (t / tau))) as P0. set (w := x * t / tau) in *. clearbody w.
      replace (_ - _) with (exp (- (t / tau)) * (c2 * (cos w - (1 - w ^ 2 / 2)))) by ring. apply Rmult_le_pos; [lra|]. apply Rmult_le_pos; lra. }
  set (g0 := fun t => exp (- (t / tau)) * (c2 * (cos (x * t / tau) - (1 - (x * t / tau) ^ 2 / 2)))).
  assert (G2 : forall s t, e < t -> gap s t = g0 t).
  { intros s t L. unfold gap, cut_rate, g0. fold e. destruct Rlt_dec; [lra|]. unfold rate, rate_cubic. cbv zeta. ring. }
  assert (G3 : forall t, e < t -> 0 < g0 t).
  { intros t L. unfold g0. apply Rmult_lt_0_compat; [apply exp_pos|]. apply Rmult_lt_0_compat; [exact Hc|].
    assert (N : x * t / tau <> 0) by (unfold Rdiv; apply Rmult_integral_contrapositive_currified; [apply Rmult_integral_contrapositive_currified; lra|apply Rinv_neq_0_compat; lra]).
    pose proof (cos_gt _ N). lra. }
  set (c0 := continued e (value (last ps c_d) e) (slope (last ps c_d) e)).
  assert (Sp : forall t, e < t -> spliced (0 :: ks) ps t = c0 t).
  { intros t L. unfold spliced. cbv zeta. fold e. change (0, 0, 0, 0) with c_d. fold c0.
    apply along_after; [exact Ho|exact Hl|]. fold e. lra. }
  apply (Rlt_irrefl 0). refine (gen_pos _ (fun t => c0 t * g0 t * resolution r (T - t)) e (e + 1) 0 _ _ _ _ _ _ D).
  - exact E0.
  - lra.
  - intros t Pt. apply Rmult_le_pos; [now apply Hs|]. destruct Hm as (M1 & M2 & M3). destruct Hw as (W1 & W2 & W3). change (f_core r) with cf in M1, M3. change (f_tail r) with tf in M2, M3.
    pose proof (normal_pos (w_core r) (T - b_core r - t) W1). pose proof (normal_pos (w_tail r) (T - b_tail r - t) W2). pose proof (normal_pos (w_outl r) (T - b_outl r - t) W3).
    pose proof (G1 (w_core r) t Pt F1). pose proof (G1 (w_tail r) t Pt F2). pose proof (G1 (w_outl r) t Pt F3).
    apply Rplus_le_le_0_compat; [apply Rplus_le_le_0_compat|]; (apply Rmult_le_pos; [lra|apply Rmult_le_pos; lra]).
  - intros t [L _]. rewrite !G2 by exact L. rewrite Sp by exact L. unfold r at 1. rewrite resolution_form. fold r. ring.
  - intros t [L _]. apply Rmult_lt_0_compat; [apply Rmult_lt_0_compat; [unfold c0, continued; apply Rmult_lt_0_compat; [exact Hv|apply exp_pos]|now apply G3]|now apply resolution_pos].
  - intros t. apply gcont. apply (ex_derive_mult (fun t => c0 t * g0 t) (fun t => resolution r (T - t))); [|now apply resolution_cont].
    unfold c0, g0, continued. auto_derive. repeat split; try exact I; lra.
Qed.
End Device.

(** ** The normalisation *)
Section Norm.
Variable W : R -> R -> R.
Variables (tau y : R).
Hypothesis Ht : 0 < tau.
Lemma quintic_x0 c1 c2 c3 c4 t : rate_quintic c1 c2 c3 c4 tau 0 y t = rate c1 c2 c3 c4 tau 0 y t.
Proof. rewrite <- code_quintic. apply code_x0. Qed.
(** With a straight last piece the tail is that of the acceptance. *)
Lemma straight_value z e : straight z -> value z e = c_1 z * e + c_0 z /\ slope z e = c_1 z.
Proof. intros [Z2 Z3]. unfold value, slope. rewrite Z2, Z3. split; ring. Qed.
Lemma norm_series x ks ps c1 c2 c3 c4 : length ks = length ps -> in_order 0 ks -> straight (last ps c_d) ->
  let e := last (0 :: ks) 0 in let z := last ps c_d in 1 - y <> 0 -> 1 + y <> 0 ->
  0 < 1 / tau + - slope z e / value z e - y * (1 / tau) -> 0 < 1 / tau + - slope z e / value z e + y * (1 / tau) -> (1 <= length ks)%nat ->
  over_decay_time (fun t => spliced (0 :: ks) ps t * (if Rlt_dec t e then rate_quintic c1 c2 c3 c4 tau x y t else rate c1 c2 c3 c4 tau x y t))
    (norm_value tau x y 0 ks ps (c_1 z * e + c_0 z) (c_1 z) c1 c2 c3 c4).
Proof.
  intros Hl Ho Hz e z Y1 Y2 Kp Km Hn. destruct (straight_value z e Hz) as [Ev Es]. rewrite Ev, Es in Kp, Km.
  refine (gen_ext _ _ _ _ _ _ _ eq_refl (norm_int tau x y 0 ks ps (c_1 z * e + c_0 z) (c_1 z) c1 c2 c3 c4 Hl Ho Ht Y1 Y2 Kp Km)).
  intros t. unfold spliced. cbv zeta. change (0, 0, 0, 0) with c_d. fold z. fold e. rewrite Ev, Es.
  apply (along_cases (rate_quintic c1 c2 c3 c4 tau x y) (rate c1 c2 c3 c4 tau x y)); assumption.
Qed.
Lemma norm_mixing_wrong x k1 ks p0 ps c1 c2 c3 : length ks = length ps -> 0 < k1 -> in_order k1 ks -> straight (last (p0 :: ps) c_d) ->
  let e := last (0 :: k1 :: ks) 0 in let z := last (p0 :: ps) c_d in 1 - y <> 0 -> 1 + y <> 0 ->
  0 < 1 / tau + - slope z e / value z e - y * (1 / tau) -> 0 < 1 / tau + - slope z e / value z e + y * (1 / tau) ->
  x <> 0 -> 0 < c2 -> Rabs (x / tau * e) <= 1 -> (forall t, 0 < t -> 0 <= spliced (0 :: k1 :: ks) (p0 :: ps) t) -> (forall t, 0 < t < k1 -> 0 < value p0 t) ->
  ~ over_decay_time (fun t => spliced (0 :: k1 :: ks) (p0 :: ps) t * rate c1 c2 c3 0 tau x y t)
      (norm_value tau x y 0 (k1 :: ks) (p0 :: ps) (c_1 z * e + c_0 z) (c_1 z) c1 c2 c3 0).
Proof.
  intros Hl Hk Ho Hz e z Y1 Y2 Kp Km Hx Hc He Hs Hp I0.
  pose proof (norm_series x (k1 :: ks) (p0 :: ps) c1 c2 c3 0 ltac:(cbn; now rewrite Hl) ltac:(cbn; split; [lra|exact Ho]) Hz Y1 Y2 Kp Km ltac:(cbn; lia)) as I1. fold e z in I1.
  pose proof (order_last ks k1 Ho) as OL. change (last (k1 :: ks) 0) with e in OL.
  set (gap := fun t => exp (- (t / tau)) * (c2 * (1 - (x * t / tau) ^ 2 / 2 + (x * t / tau) ^ 4 / 24 - cos (x * t / tau)))).
  assert (D : over_decay_time (fun t => spliced (0 :: k1 :: ks) (p0 :: ps) t * (if Rlt_dec t e then gap t else 0)) 0).
  { refine (gen_ext _ _ _ _ _ _ _ _ (gen_plus _ _ _ _ _ _ I1 (gen_scal _ _ _ (- (1)) _ I0))); [|ring].
    intros t. unfold gap, rate, rate_quintic. cbv zeta. destruct Rlt_dec; ring. }
  assert (G : forall t, 0 < t < e -> 0 < gap t).
  { intros t [T0 T1]. unfold gap. apply Rmult_lt_0_compat; [apply exp_pos|]. apply Rmult_lt_0_compat; [exact Hc|].
    assert (N : x * t / tau <> 0) by (unfold Rdiv; apply Rmult_integral_contrapositive_currified; [apply Rmult_integral_contrapositive_currified; lra|apply Rinv_neq_0_compat; lra]).
    assert (Az : Rabs (x * t / tau) <= 1).
    { replace (x * t / tau) with (x / tau * t) by (unfold Rdiv; ring). rewrite Rabs_mult, (Rabs_pos_eq t) by lra. rewrite Rabs_mult, (Rabs_pos_eq e) in He by lra. pose proof (Rabs_pos (x / tau)). nra. }
    pose proof (cos_high _ Az N). lra. }
  apply (Rlt_irrefl 0). refine (gen_pos _ (fun t => value p0 t * gap t) 0 k1 0 _ _ _ _ _ _ D).
  - lra.
  - exact Hk.
  - intros t Pt. apply Rmult_le_pos; [now apply Hs|]. destruct Rlt_dec; [left; apply G; lra|lra].
  - intros t T. unfold spliced. cbv zeta. cbn [along map]. destruct (Rlt_dec t k1); [|lra]. destruct (Rlt_dec t e); [reflexivity|lra].
  - intros t T. apply Rmult_lt_0_compat; [now apply Hp|apply G; lra].
  - intros t. apply gcont. unfold value, gap. auto_derive. repeat split; try exact I; lra.
Qed.
(** The host takes the first knot as it is given, the device takes 0. *)
Lemma norm_first k k1 ks p0 ps v m c1 c2 c3 c4 : 0 < k -> k <= k1 -> 1 - y <> 0 -> 1 + y <> 0 ->
  (forall t, 0 < t < k -> 0 < value p0 t * rate c1 c2 c3 c4 tau 0 y t) ->
  norm_value tau 0 y k (k1 :: ks) (p0 :: ps) v m c1 c2 c3 c4 < norm_value tau 0 y 0 (k1 :: ks) (p0 :: ps) v m c1 c2 c3 c4.
Proof.
  intros Hk L1 Y1 Y2 P. unfold norm_value. cbn [psums]. change (last (k :: k1 :: ks) 0) with (last (k1 :: ks) 0). change (last (0 :: k1 :: ks) 0) with (last (k1 :: ks) 0).
  assert (G0 : 0 < 1 / tau) by (unfold Rdiv; rewrite Rmult_1_l; now apply Rinv_0_lt_compat).
  set (f := fun t => value p0 t * rate c1 c2 c3 c4 tau 0 y t).
  assert (J : forall lo hi, is_RInt f lo hi (psum (DT lo hi) 1 c1 c2 c3 c4 tau 0 y p0)).
  { intros lo hi. eapply is_RInt_ext; [|apply (psum_int (DT lo hi) 1 c1 c2 c3 c4 tau 0 y (fun t => 1) lo hi)]; [| |lra].
    - intros t _. cbv beta. rewrite code_x0. unfold f. eqR. ring.
    - intros k' n K. apply total_int. assert (NZ : forall u, u <> 0 -> 1 / tau * u <> 0) by (intros u U; apply Rmult_integral_contrapositive_currified; lra).
      destruct K as [-> |[-> | -> ]]; [now apply NZ|now apply NZ|lra]. }
  pose proof (is_RInt_Chasles f 0 k k1 _ _ (J 0 k) (J k k1)) as C0. pose proof (is_RInt_unique _ _ _ _ C0) as U1. pose proof (is_RInt_unique _ _ _ _ (J 0 k1)) as U2. rewrite U2 in U1.
  assert (Q : 0 < psum (DT 0 k) 1 c1 c2 c3 c4 tau 0 y p0).
  { rewrite <- (is_RInt_unique _ _ _ _ (J 0 k)). apply RInt_gt_0; [exact Hk|exact P|]. intros t _. apply gcont. unfold f, value, rate, cosh, sinh. auto_derive. repeat split; try exact I; lra. }
  rewrite U1. unfold plus; cbn -[psum DT psums]. lra.
Qed.
End Norm.
