(** Class by class: the code without rounding is the documented formula, or the one it computes instead. *)
From Coq Require Import List ZArith Reals Bool Lia Lra.
From Coquelicot Require Import Coquelicot.
From Flocq Require Import Core.
From Verif Require Import F64 PdfModel PdfSpec FormulaSpec FormulaProofs PolyProofs.
From Verif Require LeafGen.
Import ListNotations.
Open Scope R_scope.

Ltac ex := cbn [R_ops R_lib LeafGen.o_ofZ LeafGen.o_lit LeafGen.o_add LeafGen.o_sub LeafGen.o_mul LeafGen.o_div LeafGen.o_opp
  LeafGen.o_sqrt LeafGen.o_abs LeafGen.o_lt LeafGen.o_le LeafGen.o_eq LeafGen.o_floor LeafGen.o_zero LeafGen.o_one LeafGen.o_half
  LeafGen.m_exp LeafGen.m_log LeafGen.m_pow LeafGen.m_sin LeafGen.m_cos LeafGen.m_sinh LeafGen.m_erfc LeafGen.m_atan2 LeafGen.m_faddeeva_re].

Section Classes.
Variable W : R -> R -> R.
Let O := R_ops.
Let L := R_lib W.
Local Notation k := code_consts.

Lemma gauss_R : forall x m s, s <> 0 -> LeafGen.gauss R_ops (R_lib W) x m s = gaussian x m s.
Proof. intros. unfold LeafGen.gauss, LeafGen.minus_half, gaussian. ex. f_equal. field. assumption. Qed.
Lemma argus_upper_R : forall x m0 a p, 0 < m0 -> - m0 <= x ->
  LeafGen.argus_upper R_ops (R_lib W) x m0 a p =
  (if Rle_dec m0 x then 0 else x * Rpow ((m0 ^ 2 - x ^ 2) / m0 ^ 2) p * exp (a * ((m0 ^ 2 - x ^ 2) / m0 ^ 2))).
Proof.
  intros x m0 a p H _. unfold LeafGen.argus_upper. ex. cbv zeta.
  assert (E : 1 - x / m0 * (x / m0) = (m0 ^ 2 - x ^ 2) / m0 ^ 2) by (field; lra). rewrite E.
  rcase 1 (x / m0); destruct (Rle_dec m0 x) as [N|N]; try reflexivity.
  - elim N. apply Rmult_le_reg_r with (/ m0); [now apply Rinv_0_lt_compat|]. rewrite Rinv_r by lra. exact HC.
  - assert (1 <= x / m0); [|lra]. apply Rmult_le_reg_r with m0; [assumption|]. unfold Rdiv. rewrite Rmult_assoc, Rinv_l by lra. lra.
Qed.
Lemma argus_lower_R : forall x m0 a p, 0 < m0 ->
  LeafGen.argus_lower R_ops (R_lib W) x m0 a p =
  (if Rle_dec x m0 then 0 else x * Rpow ((x ^ 2 - m0 ^ 2) / m0 ^ 2) p * exp (a * ((x ^ 2 - m0 ^ 2) / m0 ^ 2))).
Proof.
  intros x m0 a p H. unfold LeafGen.argus_lower. ex. cbv zeta.
  assert (E : x / m0 * (x / m0) - 1 = (x ^ 2 - m0 ^ 2) / m0 ^ 2) by (field; lra). rewrite E.
  rcase (x / m0) 1; destruct (Rle_dec x m0) as [N|N]; try reflexivity.
  - elim N. apply Rmult_le_reg_r with (/ m0); [now apply Rinv_0_lt_compat|]. rewrite Rinv_r by lra. exact HC.
  - assert (x / m0 <= 1); [|lra]. apply Rmult_le_reg_r with m0; [assumption|]. unfold Rdiv. rewrite Rmult_assoc, Rinv_l by lra. lra.
Qed.
Lemma bifur_R : forall x m sl sr, sl <> 0 -> sr <> 0 ->
  LeafGen.bifur_gauss R_ops (R_lib W) x m sl sr = (if Rle_dec x m then gaussian x m sl else gaussian x m sr).
Proof.
  intros. unfold LeafGen.bifur_gauss. ex. cbv zeta. rcase m x; destruct (Rle_dec x m); try lra; now apply gauss_R.
Qed.
Lemma crystal_R : forall x m s a p, s <> 0 -> (a <> 0 -> p / a - a + (x - m) / s <> 0) ->
  LeafGen.crystal_ball R_ops (R_lib W) x m s a p =
  (if Req_EM_T a 0 then gaussian x m s
   else if Rle_dec (sg a * ((x - m) / s)) (sg a * a) then gaussian x m s
   else exp (- (a ^ 2 / 2)) * Rpow (p / a / (p / a - a + (x - m) / s)) p).
Proof.
  intros x m s a p Hs Hd. unfold LeafGen.crystal_ball. ex. cbv zeta. unfold LeafGen.minus_half. ex.
  destruct (Reqb_spec s 0) as [[E _]|[_ Es]]; [contradiction|]. rewrite Es. cbn [negb].
  assert (G : exp (- / 2 * ((x - m) / s) * ((x - m) / s)) = gaussian x m s) by (unfold gaussian; f_equal; field; assumption).
  rewrite G. set (r := (x - m) / s) in *. unfold sg.
  destruct (Req_EM_T a 0) as [E|E].
  - destruct (Reqb_spec a 0) as [[_ E2]|[E2 _]]; [|contradiction]. rewrite E2, orb_true_r. reflexivity.
  - destruct (Reqb_spec a 0) as [[E2 _]|[_ E2]]; [contradiction|]. rewrite E2, orb_false_r.
    specialize (Hd E). destruct (Reqb_spec (p / a - a + r) 0) as [[E3 _]|[_ E3]]; [contradiction|]. rewrite E3. cbn [negb].
    assert (EA : exp (- / 2 * a * a) = exp (- (a ^ 2 / 2))) by (f_equal; field). rewrite EA.
    destruct (Rltb_spec 0 a) as [[P1 P2]|[P1 P2]]; rewrite P2; destruct (Rltb_spec a 0) as [[Q1 Q2]|[Q1 Q2]]; rewrite Q2;
      destruct (Rleb_spec r a) as [[S1 S2]|[S1 S2]]; rewrite S2; destruct (Rleb_spec a r) as [[T1 T2]|[T1 T2]]; rewrite T2;
      cbn [andb orb]; destruct (Rlt_dec a 0); try lra;
      match goal with |- context [Rle_dec ?u ?w] => destruct (Rle_dec u w) end; try lra; reflexivity.
Qed.
Lemma exp_gaus_R : forall x m s t, s <> 0 -> LeafGen.exp_gaus R_ops (R_lib W) x m s t =
  t / 2 * exp (t / 2 * (2 * m + t * s ^ 2 - 2 * x)) * Rerfc ((m + t * s ^ 2 - x) / (s * k_r2 k)).
Proof.
  intros x m s t Hs. unfold LeafGen.exp_gaus. ex. cbv zeta. unfold code_consts. cbn [k_r2]. ex.
  replace (m + t * s ^ 2 - x) with (m + t * s * s - x) by ring.
  replace (t / 2 * (2 * m + t * s ^ 2 - 2 * x)) with (/ 2 * t * (2 * m + t * s * s - 2 * x)) by field.
  replace (/ 2 * t) with (t / 2) by field. reflexivity.
Qed.
Lemma johnson_R : forall x m s g d, s <> 0 -> LeafGen.johnson_su R_ops (R_lib W) x m s g d =
  d / (s * k_r2pi k * sqrt (1 + (x - m) ^ 2 / s ^ 2)) *
  exp (- (1 / 2) * (g + d * ln ((x - m) / s + sqrt (1 + (x - m) ^ 2 / s ^ 2))) ^ 2).
Proof.
  intros x m s g d Hs. unfold LeafGen.johnson_su, LeafGen.minus_half. ex. cbv zeta. unfold code_consts. cbn [k_r2pi]. ex.
  replace ((x - m) ^ 2 / s ^ 2) with ((x - m) / s * ((x - m) / s)) by (field; assumption).
  f_equal. f_equal. field.
Qed.
Lemma step_R : forall x x0 up, LeafGen.step R_ops x x0 up =
  (if Z.eqb up 1 then (if Rle_dec x x0 then 0 else 1) else (if Rle_dec x x0 then 1 else 0)).
Proof.
  intros. unfold LeafGen.step. ex. rewrite Z.eqb_sym. destruct (Z.eqb up 1); rcase x0 x; destruct (Rle_dec x x0); try lra; reflexivity.
Qed.
Lemma thresh_R : forall d a, LeafGen.thresh_calc R_ops (R_lib W) d a = threshold k d a.
Proof.
  intros. unfold LeafGen.thresh_calc, threshold. ex. rcase (/ 2) d; destruct (Rlt_dec (1 / 2) d); try lra; reflexivity.
Qed.

Lemma omap_some : forall {A B} (f : A -> option B) (g : A -> B) l, (forall a, f a = Some (g a)) -> omap f l = Some (map g l).
Proof. intros A B f g l H. induction l as [|a l IH]; [reflexivity|]. cbn [omap map]. now rewrite H, IH. Qed.

Theorem documented_ok : forall {V} (lims : V -> R * R) (v : V -> R) (l : leaf V), as_documented l = true -> in_domain lims v l ->
  leaf_value_in R_ops (R_lib W) f2R lims (fun h => Some (v h)) v l = documented W code_consts lims v l.
Proof.
  intros V lims v l HA HD. destruct l; try discriminate HA; cbn [leaf_value_in documented obind in_domain] in *; clear HA.
  - destruct HD as [H1 H2]. destruct upper; f_equal; [now apply argus_upper_R|now apply argus_lower_R].
  - destruct (lims x) as [lo up] eqn:EL. cbn [fst snd] in *. f_equal. unfold LeafGen.bernstein. ex. rewrite map_length, bernstein_loop.
    + ring.
    + rewrite map_length. lia.
    + lra.
  - destruct HD. f_equal. now apply bifur_R.
  - rewrite (omap_some _ (fun a => (v (fst (fst (fst a))), f2R (snd (fst (fst a))), f2R (snd (fst a)), snd a))) by reflexivity.
    cbn [obind]. rewrite global_bin_R.
    + cbn [obind]. ex. f_equal. f_equal. lia.
    + apply List.Forall_forall. intros a Ha. apply in_map_iff in Ha. destruct Ha as (b & <- & Hb). cbn [fst snd].
      exact (proj1 (List.Forall_forall _ _) HD b Hb).
  - destruct HD. f_equal. now apply crystal_R.
  - f_equal. now apply exp_gaus_R.
  - reflexivity.
  - reflexivity.
  - f_equal. unfold LeafGen.exp_poly. ex. f_equal. change 0%Z with (Z.of_nat 0). rewrite exp_poly_from. ring.
  - f_equal. now apply gauss_R.
  - f_equal. now apply johnson_R.
  - f_equal. unfold LeafGen.polynomial. ex. rewrite poly_from. ring.
  - destruct HD as [H1 H2]. rewrite (omap_some _ v) by reflexivity. cbn [obind].
    rewrite multi_polynomial_R; rewrite !map_length; [reflexivity|assumption|assumption].
  - f_equal. apply step_R.
  - destruct upper; f_equal; unfold LeafGen.trig_upper, LeafGen.trig_lower; rewrite thresh_R; reflexivity.
  - destruct upper; f_equal; unfold LeafGen.trig_upper2, LeafGen.trig_lower2, LeafGen.trig_upper, LeafGen.trig_lower; rewrite thresh_R; reflexivity.
Qed.

(** ** The other classes *)
Lemma bw_R : forall x m G, G <> 0 -> LeafGen.breit_wigner R_ops (R_lib W) x m G = 1 / (2 * PI) * (G / ((x - m) ^ 2 + G ^ 2 / 4)).
Proof.
  intros x m G HG. unfold LeafGen.breit_wigner. ex. cbv zeta. unfold Ratan2.
  destruct (Rlt_dec 0 0); [lra|]. destruct (Rlt_dec 0 (Ropp 1)); [lra|]. destruct (Rlt_dec (Ropp 1) 0); [|lra].
  pose proof PI_RGT_0. assert (0 < G * G) by (destruct (Rdichotomy _ _ HG); nra).
  assert (0 <= (x - m) * (x - m)) by (apply Rle_0_sqr). field. repeat split; nra.
Qed.
Lemma corr_R : forall x y mx sx my sy c, sx <> 0 -> sy * (1 + c * ((x - mx) / sx) ^ 2) <> 0 ->
  LeafGen.corr_gauss R_ops (R_lib W) x y mx sx my sy c = gaussian x mx sx * gaussian y my (sy * (1 + c * ((x - mx) / sx) ^ 2)).
Proof.
  intros x y mx sx my sy c Hx Hy. unfold LeafGen.corr_gauss, LeafGen.minus_half, gaussian. ex. cbv zeta.
  replace (c * ((x - mx) / sx) * ((x - mx) / sx)) with (c * ((x - mx) / sx) ^ 2) by ring.
  set (s := sy * (1 + c * ((x - mx) / sx) ^ 2)) in *. destruct (Reqb_spec s 0) as [[E _]|[_ E]]; [contradiction|]. rewrite E.
  rewrite <- exp_plus. f_equal. field. split; assumption.
Qed.
Lemma scaled_R : forall x m s b e, s * (1 + e) <> 0 ->
  LeafGen.scaled_gauss R_ops (R_lib W) x m s b e = gaussian x (m + b) (s * (1 + e)).
Proof. intros. unfold LeafGen.scaled_gauss. rewrite gauss_R; [reflexivity|assumption]. Qed.
Lemma momentum_R : forall x M m, 0 < x + M -> LeafGen.get_momentum R_ops (x + M) m M = kl_q x M m.
Proof.
  intros x M m H. unfold LeafGen.get_momentum, kl_q, kl_lambda. ex. cbv zeta.
  set (lam := ((x + M) ^ 2 - (M - m) ^ 2) * ((x + M) ^ 2 - (M + m) ^ 2)).
  replace (((x + M) * (x + M) - m * m - M * M) * ((x + M) * (x + M) - m * m - M * M) - 4 * m * m * M * M) with lam by (unfold lam; ring).
  rcase (x + M) 0; [lra|]. rcase lam 0.
  - symmetry. apply sqrt_neg_0. unfold Rdiv. assert (0 < / (2 * (x + M))) by (apply Rinv_0_lt_compat; lra). nra.
  - f_equal. field. lra.
Qed.
Lemma bw_factor_R : forall x M m, LeafGen.bw_factor R_ops (kl_q x M m) = kl_bW' k x M m.
Proof. intros. unfold LeafGen.bw_factor, kl_bW', code_consts. ex. cbn [k_rr]. ex. do 2 f_equal. ring. Qed.
Lemma kin_R : forall x x0 G M m, 0 < x0 + M -> 0 < x + M ->
  LeafGen.kin_limit_bw R_ops x x0 G M m =
  (let S := kl_S' k x x0 M m in
   if Rle_dec (kl_lambda x0 M m) 0 then 0
   else S * (x0 + M) ^ 2 * G ^ 2 / (((x0 + M) ^ 2 - (x + M) ^ 2) ^ 2 + (x0 + M) ^ 2 * G ^ 2 * S ^ 2)).
Proof.
  intros x x0 G M m H0 H. unfold LeafGen.kin_limit_bw, LeafGen.pow3, LeafGen.pow2. ex. cbv zeta.
  rewrite !momentum_R, !bw_factor_R by assumption. rcase (kl_q x0 M m) 0.
  - destruct (Rle_dec (kl_lambda x0 M m) 0) as [N|N]; [reflexivity|]. exfalso.
    assert (0 < kl_q x0 M m); [|lra]. apply sqrt_lt_R0. apply Rdiv_lt_0_compat; lra.
  - destruct (Rle_dec (kl_lambda x0 M m) 0) as [N|N].
    + exfalso. assert (kl_q x0 M m = 0); [|lra]. apply sqrt_neg_0.
      unfold Rdiv. assert (0 < / (2 * (x0 + M))) by (apply Rinv_0_lt_compat; lra). nra.
    + unfold kl_S'. set (a := kl_q x M m / kl_q x0 M m). set (b := kl_bW' k x M m / kl_bW' k x0 M m).
      f_equal; [ring|]. f_equal; ring.
Qed.
Lemma novo_R : forall x m s t, s <> 0 -> / 1000000 <= Rabs t ->
  / 1000000 <= 1 + (x - m) / s * (sinh (t * sqrt (ln 4)) / sqrt (ln 4)) ->
  LeafGen.novosibirsk R_ops (R_lib W) x m s t =
  exp (- (1 / 2) * (ln (1 + (x - m) / s * (sinh (t * sqrt (ln 4)) / sqrt (ln 4))) ^ 2 / t ^ 2 + t ^ 2)).
Proof.
  intros x m s t Hs Ht Hy. unfold LeafGen.novosibirsk, LeafGen.pow2. ex. cbv zeta.
  assert (Ht0 : t <> 0) by (intros ->; rewrite Rabs_R0 in Ht; lra).
  assert (HL : 0 < sqrt (ln 4)) by (apply sqrt_lt_R0; rewrite <- ln_1; apply ln_increasing; lra).
  assert (HV : IZR 944473296573929 * powerRZ 2 (-73) < / 1000000).
  { rewrite lit_neg. let z := eval vm_compute in (Z.pow_pos 2 73) in change (Z.pow_pos 2 73) with z. lra. }
  rcase (Rabs t) (IZR 944473296573929 * powerRZ 2 (-73)); [lra|].
  replace (1 + t * ((x - m) / s * (sinh (t * sqrt (ln 4)) / (t * sqrt (ln 4)))))
     with (1 + (x - m) / s * (sinh (t * sqrt (ln 4)) / sqrt (ln 4))) by (field; repeat split; lra || assumption).
  rcase (IZR 944473296573929 * powerRZ 2 (-73)) (1 + (x - m) / s * (sinh (t * sqrt (ln 4)) / sqrt (ln 4))); [|lra].
  f_equal. set (l := ln _). field. exact Ht0.
Qed.
Lemma voigt_R : forall x m w s, LeafGen.voigt R_ops (R_lib W) x m w s = voigt_profile W (k_ir2 k) (k_irpi k) x m s w.
Proof.
  intros x m w s. unfold LeafGen.voigt, voigt_profile, LeafGen.minus_half, code_consts. ex. cbn [k_ir2 k_irpi]. ex. cbv zeta.
  destruct (Req_EM_T s 0) as [E|E]; destruct (Req_EM_T w 0) as [F|F];
  destruct (Reqb_spec 0 s) as [[A1 A2]|[A1 A2]]; try (exfalso; now auto); rewrite A2;
  destruct (Reqb_spec 0 w) as [[B1 B2]|[B1 B2]]; try (exfalso; now auto); rewrite ?B2; cbn [andb].
  - reflexivity.
  - f_equal. rewrite lit_neg. change (Z.pow_pos 2 2) with 4%Z. field.
  - unfold gaussian. f_equal. field. assumption.
  - set (a := IZR 796131459066231 * powerRZ 2 (-50)). f_equal. f_equal. field. assumption.
Qed.
Theorem instead_ok : forall {V} (lims : V -> R * R) (v : V -> R) (l : leaf V) r, instead W code_consts v l = Some r -> instead_domain v l ->
  leaf_value_in R_ops (R_lib W) f2R lims (fun h => Some (v h)) v l = Some r.
Proof.
  intros V lims v l r HI HD. rewrite <- HI. destruct l; try discriminate HI; clear HI r; cbn [leaf_value_in instead obind instead_domain] in *.
  - f_equal. now apply bw_R.
  - destruct HD. f_equal. now apply corr_R.
  - f_equal. unfold LeafGen.exp_poly. ex. f_equal. change 1%Z with (Z.of_nat 1). rewrite exp_poly_from. ring.
  - destruct HD. f_equal. now apply kin_R.
  - destruct HD as (H1 & H2 & H3). f_equal. now apply novo_R.
  - f_equal. unfold LeafGen.polynomial. ex. rewrite poly_from, map_app. cbn [map]. ring.
  - f_equal. now apply scaled_R.
  - f_equal. apply voigt_R.
Qed.
End Classes.
