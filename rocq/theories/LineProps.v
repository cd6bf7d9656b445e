(** C88 - C93: the lineshapes of four-body decays, in exact arithmetic. *)
From Coq Require Import Reals List Lra Lia Psatz Arith Bool ZArith.
From Coquelicot Require Import Coquelicot.
From Verif Require Import FormulaSpec AmpModel WaveModel WaveSpec WaveProofs LineModel LineSpec LineProofs LineProofs2.
Import ListNotations.
Local Open Scope R_scope.

Local Ltac rring := match goal with |- ?a = ?b => change (@eq R a b) end; ring.

(** ** C88: RBW, SBW and NonRes with their form factors *)
(** Missing: orbital angular momentum above 2 (C88_orbital_refuted), and masses where a momentum is not real. *)
Theorem C88_rbw_partial : forall m0 width l f r M m1 m2 q q0, (l <= 2)%nat -> 0 < m0 -> 0 < M ->
  breakup M m1 m2 q -> breakup m0 m1 m2 q0 -> 0 < q0 ->
  R_RBW m0 width l f r M m1 m2 =
  (RtoC (sqrt (2 * sqrt 2 / m_PI * line_norm m0 width * form_factor f l ((q * r) ^ 2) ((q0 * r) ^ 2))) *
   breit_wigner m0 (M ^ 2)%R (running m0 width l r (M ^ 2)%R q q0))%C.
Proof. exact rbw_value. Qed.
Print Assumptions C88_rbw_partial.
Theorem C88_sbw_partial : forall m0 width l f r M m1 m2 q q0, (l <= 2)%nat -> 0 < m0 -> 0 < M ->
  breakup M m1 m2 q -> breakup m0 m1 m2 q0 ->
  R_SBW m0 width l f r M m1 m2 =
  (RtoC (sqrt (line_norm m0 width * form_factor f l ((q * r) ^ 2) ((q0 * r) ^ 2))) * breit_wigner m0 (M ^ 2)%R (m0 * width)%R)%C.
Proof. exact sbw_value. Qed.
Print Assumptions C88_sbw_partial.
Theorem C88_nonres_partial : forall l r M m1 m2 q, (l <= 2)%nat -> 0 < M -> breakup M m1 m2 q ->
  R_NonRes l r M m1 m2 = RtoC (sqrt (weight l ((q * r) ^ 2))).
Proof.
  intros l r M m1 m2 q Pl PM B. unfold nonres_line. rops. destruct (p_square_breakup _ _ _ _ PM B) as [-> _].
  rewrite bl2_weight by assumption. replace (q ^ 2 * r * r) with ((q * r) ^ 2) by ring. unfold c_scale, RtoC. rops. cbn [fst snd]. f_equal; ring.
Qed.
Print Assumptions C88_nonres_partial.
(** With a form factor the amplitude of orbital angular momentum 3 and more is zero; without one its width is zero. *)
Theorem C88_orbital_refuted : forall m0 width l r M m1 m2, (3 <= l)%nat ->
  (forall f, f <> FF_One -> R_RBW m0 width l f r M m1 m2 = RtoC 0 /\ R_SBW m0 width l f r M m1 m2 = RtoC 0) /\
  Im (R_RBW m0 width l FF_One r M m1 m2) = 0 /\ R_NonRes l r M m1 m2 = RtoC 0.
Proof.
  intros m0 width l r M m1 m2 Pl. split; [|split].
  - intros f N. split; [now apply rbw_high_form|now apply sbw_high_form].
  - now apply rbw_high_real.
  - destruct l as [|[|[|l]]]; try lia. unfold nonres_line, bl2, c_scale, RtoC. rops. cbn [fst snd]. rewrite sqrt_0. f_equal; ring.
Qed.
Print Assumptions C88_orbital_refuted.
(** Daughters of masses 15 and 48: momentum 20 at mass 77, 36 at mass 99. *)
Lemma ex_momenta : breakup 77 15 48 20 /\ breakup 99 15 48 36.
Proof.
  split; (split; [lra|]).
  - rewrite (sqrt_of (20 ^ 2 + 15 ^ 2) 25), (sqrt_of (20 ^ 2 + 48 ^ 2) 52); lra.
  - rewrite (sqrt_of (36 ^ 2 + 15 ^ 2) 39), (sqrt_of (36 ^ 2 + 48 ^ 2) 60); lra.
Qed.
Example C88_ex : R_RBW 77 1 1 FF_BL_Prime 0 99 15 48 =
  (RtoC (sqrt (2 * sqrt 2 / m_PI * line_norm 77 1)) * breit_wigner 77 9801 (77 * (729 / 125 * (7 / 9))))%C.
Proof.
  destruct ex_momenta as [A B]. rewrite (C88_rbw_partial 77 1 1 FF_BL_Prime 0 99 15 48 36 20 ltac:(lia) ltac:(lra) ltac:(lra) B A ltac:(lra)).
  unfold form_factor, weight, running, barrier. f_equal; [|f_equal].
  - do 2 f_equal. field. apply Rgt_not_eq, m_PI_pos.
  - lra.
  - rewrite sqrt_pow2 by lra. cbn [pow Nat.mul Nat.add]. field.
Qed.

(** ** C89: normalisation of SBW *)
(** Over all masses of the pair the intensity without form factor integrates to pi / (2 sqrt 2), whatever mass and width. *)
Theorem C89 : forall m0 width l f r m1 m2, 0 < m0 -> 0 < width -> l = 0%nat \/ f = FF_One ->
  (forall X, ex_RInt (fun M => Cmod (R_SBW m0 width l f r M m1 m2) ^ 2) 0 X) /\
  is_lim (fun X => RInt (fun M => Cmod (R_SBW m0 width l f r M m1 m2) ^ 2) 0 X) p_infty (PI / (2 * sqrt 2)).
Proof. intros. now apply sbw_normalised. Qed.
Print Assumptions C89.
Example C89_ex : Cmod (R_SBW 1 (3 / 4) 0 FF_One 0 1 0 0) ^ 2 = 5 / 4 * (3 / 4) / (3 / 2) / (9 / 16).
Proof.
  rewrite sbw_plain by (try lra; now left). rewrite bw_intensity.
  - unfold line_norm. rewrite (sqrt_of (1 ^ 2 + (3 / 4) ^ 2) (5 / 4)) by lra. cbv zeta. rewrite (sqrt_of (1 ^ 2 + 1 * (5 / 4)) (3 / 2)) by lra. field.
  - left. apply line_norm_pos; lra.
  - lra.
Qed.

(** ** C90: elastic unitarity of GLASS and LASS *)
(** GLASS with F = 1, any phases: p/m times the amplitude is unitary; in general it is the formula of the paper. *)
Theorem C90_glass : forall mass width a r phiF phiR F l radius M m1 m2 q q0, (l <= 2)%nat -> 0 < mass -> 0 < M ->
  breakup M m1 m2 q -> breakup mass m1 m2 q0 -> 0 < q -> 0 < q0 ->
  (forall dB dR, - (PI / 2) < dB < PI / 2 -> - (PI / 2) < dR < PI / 2 ->
     2 + a * r * q ^ 2 <> 0 -> tan dB * (2 + a * r * q ^ 2) = 2 * a * q ->
     mass <> M -> tan dR * (mass ^ 2 - M ^ 2) = running mass width l radius (M ^ 2) q q0 ->
     (RtoC (q / M) * R_GLASS mass width a r phiF phiR F l radius M m1 m2)%C = glass_formula F (phiF + dB) (phiR + dR)) /\
  (F = 1 -> unitary (RtoC (q / M) * R_GLASS mass width a r phiF phiR F l radius M m1 m2)%C).
Proof.
  intros mass width a r phiF phiR F l radius M m1 m2 q q0 Pl Pm PM B B0 Pq P0.
  rewrite (glass_shape mass width a r phiF phiR F l radius M m1 m2 q q0) by assumption. split.
  - intros dB dR HB HR NB TB NR TR.
    replace (2 * a * q / (2 + a * r * q ^ 2)) with (tan dB) by (rewrite <- TB; field; exact NB).
    assert (mass ^ 2 - M ^ 2 <> 0) by (replace (mass ^ 2 - M ^ 2) with ((mass - M) * (mass + M)) by ring; apply Rmult_integral_contrapositive_currified; lra).
    replace (running mass width l radius (M ^ 2) q q0 / (mass ^ 2 - M ^ 2)) with (tan dR) by (rewrite <- TR; field; assumption).
    rewrite !atan_tan by assumption. reflexivity.
  - intros ->. apply glass_unitary.
Qed.
Print Assumptions C90_glass.
Example C90_glass_ex : (RtoC (36 / 99) * R_GLASS 77 1 0 1 0 0 1 1 0 99 15 48)%C =
  glass_formula 1 0 (atan (77 * (729 / 125 * (7 / 9)) / (77 ^ 2 - 99 ^ 2))).
Proof.
  destruct ex_momenta as [A B]. destruct (C90_glass 77 1 0 1 0 0 1 1 0 99 15 48 36 20 ltac:(lia) ltac:(lra) ltac:(lra) B A ltac:(lra) ltac:(lra)) as [V _].
  pose proof PI_RGT_0 as P. set (t := 77 * (729 / 125 * (7 / 9)) / (77 ^ 2 - 99 ^ 2)). pose proof (atan_bound t) as T.
  rewrite (V 0 (atan t)); [now rewrite !Rplus_0_l|lra|lra|lra|rewrite tan_0; ring|lra|].
  rewrite tan_atan. unfold running, barrier, t. rewrite sqrt_pow2 by lra. cbn [pow Nat.mul Nat.add]. field.
Qed.
(** Missing: the unitarity (C90_lass_refuted).  The background is the one of LASS, the resonance is RBW. *)
Theorem C90_lass_partial : forall m0 width l f r M m1 m2 q q0, 0 < m0 -> 0 < M -> 0 < width ->
  breakup M m1 m2 q -> breakup m0 m1 m2 q0 -> 0 < q -> 0 < q0 ->
  R_LASS m0 width l f r M m1 m2 =
  (RtoC (M * q0 / (m0 ^ 2 * width * q)) / (RtoC (cot_lass q) - Ci)
   + (RtoC (cot_lass q) + Ci) / (RtoC (cot_lass q) - Ci) * R_RBW m0 width l f r M m1 m2)%C.
Proof. exact lass_value. Qed.
Print Assumptions C90_lass_partial.
(** m0 times the running width times the amplitude, S wave: unitary when the constant of RBW is one, and only then: at the nominal
    mass |1 + 2iT| = |1 - 2 sqrt k|. *)
Theorem C90_lass_refuted : forall m0 width f r m1 m2 q0, 0 < m0 -> 0 < width -> breakup m0 m1 m2 q0 -> 0 < q0 ->
  ((forall M q, 0 < M -> breakup M m1 m2 q -> 0 < q ->
      unitary (RtoC (running m0 width 0 r (M ^ 2) q q0) * R_LASS m0 width 0 f r M m1 m2)%C)
   <-> 2 * sqrt 2 / m_PI * line_norm m0 width = 1).
Proof.
  intros m0 width f r m1 m2 q0 Pm Pw B0 P0.
  assert (W : forall M q, 0 < M -> running m0 width 0 r (M ^ 2) q q0 = m0 ^ 2 * width * q / (M * q0)).
  { intros M q PM. unfold running. cbn [barrier Nat.mul Nat.add]. rewrite sqrt_pow2 by lra. cbn [pow]. field. lra. }
  split.
  - intro H. specialize (H m0 q0 Pm B0 P0). rewrite W in H by assumption.
    replace (m0 ^ 2 * width * q0 / (m0 * q0)) with (m0 * width) in H by (field; lra).
    unfold unitary in H. rewrite (lass_at_mass m0 width f r m1 m2 q0) in H by assumption.
    pose proof m_PI_pos. pose proof (line_norm_pos m0 width Pm Pw). assert (S : 0 < sqrt 2) by (apply sqrt_lt_R0; lra).
    assert (K : 0 < 2 * sqrt 2 / m_PI * line_norm m0 width) by (apply Rmult_lt_0_compat; [apply Rdiv_lt_0_compat; lra|assumption]).
    set (k := 2 * sqrt 2 / m_PI * line_norm m0 width) in *. assert (0 < sqrt k) by now apply sqrt_lt_R0.
    assert (E : sqrt k = 1) by (unfold Rabs in H; destruct (Rcase_abs (1 - 2 * sqrt k)); lra).
    rewrite <- (sqrt_sqrt k) by lra. rewrite E. ring.
  - intros K M q PM B Pq. rewrite W by assumption. now apply lass_unitary_if.
Qed.
Print Assumptions C90_lass_refuted.
Example C90_lass_ex : breakup 77 15 48 20 /\ 2 * sqrt 2 / m_PI * line_norm 77 1 <> 1.
Proof.
  split; [apply ex_momenta|]. unfold line_norm. cbv zeta.
  assert (S : 77 < sqrt (77 ^ 2 + 1 ^ 2) < 78) by (split; [rewrite <- (sqrt_pow2 77) at 1 by lra|rewrite <- (sqrt_pow2 78) by lra]; apply sqrt_lt_1; lra).
  set (g := sqrt (77 ^ 2 + 1 ^ 2)) in *. clearbody g.
  assert (T : 0 < sqrt (77 ^ 2 + 77 * g) < 110).
  { split; [apply sqrt_lt_R0; lra|]. rewrite <- (sqrt_pow2 110) by lra. apply sqrt_lt_1; lra. }
  set (h := sqrt (77 ^ 2 + 77 * g)) in *. clearbody h. assert (U : 1 < sqrt 2) by (rewrite <- sqrt_1 at 1; apply sqrt_lt_1; lra).
  assert (V : 0 < m_PI < 4) by (split; [apply m_PI_pos|unfold m_PI; lra]).
  assert (A : 1 / 2 < 2 * sqrt 2 / m_PI) by (apply (proj1 (Rcomplements.Rlt_div_r (1 / 2) (2 * sqrt 2) m_PI ltac:(lra))); lra).
  assert (B : 1000 < 77 * 1 * (77 * g) / h) by (apply (proj1 (Rcomplements.Rlt_div_r 1000 (77 * 1 * (77 * g)) h ltac:(lra))); lra).
  set (u := 2 * sqrt 2 / m_PI) in *. set (v := 77 * 1 * (77 * g) / h) in *. clearbody u v. nra.
Qed.

(** ** C91: Flatté *)
(** S wave, f0(980): the formula with the couplings of the program, finite and without a jump at any mass. *)
Theorem C91 : forall m0 r m1 m2,
  (forall M, 0 < M -> R_Flatte m0 0 r M m1 m2 = flatte_formula m0 fl_gpi fl_gk bg_pi fl_pi0 bg_k fl_k0 (M ^ 2)) /\
  (2 * fl_pi0 <= m0 -> forall M, 0 < M ->
     (RtoC (m0 ^ 2 - M ^ 2)%R - Ci * m0 * (fl_gpi * (2 / 3 * phase_space (4 * bg_pi ^ 2)%R (M ^ 2)%R + 1 / 3 * phase_space (4 * fl_pi0 ^ 2)%R (M ^ 2)%R)
        + fl_gk * (1 / 2 * phase_space (4 * bg_k ^ 2)%R (M ^ 2)%R + 1 / 2 * phase_space (4 * fl_k0 ^ 2)%R (M ^ 2)%R)))%C <> RtoC 0 /\
     continuous (fun M => Re (R_Flatte m0 0 r M m1 m2)) M /\ continuous (fun M => Im (R_Flatte m0 0 r M m1 m2)) M).
Proof.
  intros m0 r m1 m2.
  assert (V : forall M, 0 < M -> R_Flatte m0 0 r M m1 m2 = flatte_formula m0 fl_gpi fl_gk bg_pi fl_pi0 bg_k fl_k0 (M ^ 2)).
  { intros M PM. rewrite flatte_value by assumption. cbn [bl2]. rops. rewrite sqrt_1. destruct bugg_constants as (_ & -> & -> & _ & _). apply c_one_l. }
  split; [exact V|]. intros Pm M PM. assert (Ps : 0 < M ^ 2) by nra.
  assert (P0 : 0 < fl_pi0 < bg_pi) by (unfold fl_pi0, bg_pi, dbl; lra).
  assert (G1 : 0 < fl_gpi) by (unfold fl_gpi; lra). assert (G2 : 0 <= fl_gk) by (unfold fl_gk; apply Rmult_le_pos; lra).
  pose proof (flatte_denominator m0 fl_gpi fl_gk (4 * bg_pi ^ 2) (4 * fl_pi0 ^ 2) (4 * bg_k ^ 2) (4 * fl_k0 ^ 2) (M ^ 2) ltac:(lra) G1 G2 Ps ltac:(nra) ltac:(nra)) as D.
  split.
  - intro E. match type of E with ?x = _ => assert (X : x = (flatte_A m0 fl_gpi fl_gk (4 * bg_pi ^ 2) (4 * fl_pi0 ^ 2) (4 * bg_k ^ 2) (4 * fl_k0 ^ 2) (M ^ 2), - flatte_B m0 fl_gpi fl_gk (4 * bg_pi ^ 2) (4 * fl_pi0 ^ 2) (4 * bg_k ^ 2) (4 * fl_k0 ^ 2) (M ^ 2))%R) end.
    { unfold flatte_A, flatte_B. destruct (phase_space (4 * bg_pi ^ 2) (M ^ 2)) as [x1 y1], (phase_space (4 * fl_pi0 ^ 2) (M ^ 2)) as [x2 y2], (phase_space (4 * bg_k ^ 2) (M ^ 2)) as [x3 y3], (phase_space (4 * fl_k0 ^ 2) (M ^ 2)) as [x4 y4].
      unfold Cminus, Copp, Cdiv, Cinv, Cmult, Cplus, RtoC, Ci, Re, Im. cbn [fst snd]. f_equal; field. }
    rewrite X in E. pose proof (f_equal fst E) as E1. pose proof (f_equal snd E) as E2. unfold RtoC in E1, E2. cbn [fst snd] in E1, E2. rewrite E1 in D.
    assert (Z : flatte_B m0 fl_gpi fl_gk (4 * bg_pi ^ 2) (4 * fl_pi0 ^ 2) (4 * bg_k ^ 2) (4 * fl_k0 ^ 2) (M ^ 2) = 0) by lra. rewrite Z in D. lra.
  - destruct (flatte_continuous m0 fl_gpi fl_gk (4 * bg_pi ^ 2) (4 * fl_pi0 ^ 2) (4 * bg_k ^ 2) (4 * fl_k0 ^ 2) (M ^ 2) Ps D) as [CR CI].
    assert (N : locally M (fun x => 0 < x)).
    { exists (mkposreal _ PM). intros y By. unfold ball in By. cbn in By. unfold AbsRing_ball, abs, minus, plus, opp in By. cbn in By. apply Rabs_def2 in By. lra. }
    assert (Sq : continuous (fun x : R => x ^ 2) M) by apply k_sq, k_id.
    split.
    + apply (continuous_ext_loc _ (fun x => Re (/ (flatte_A m0 fl_gpi fl_gk (4 * bg_pi ^ 2) (4 * fl_pi0 ^ 2) (4 * bg_k ^ 2) (4 * fl_k0 ^ 2) (x ^ 2), - flatte_B m0 fl_gpi fl_gk (4 * bg_pi ^ 2) (4 * fl_pi0 ^ 2) (4 * bg_k ^ 2) (4 * fl_k0 ^ 2) (x ^ 2))%R)%C)).
      * revert N. apply filter_imp. intros x Px. rewrite V, flatte_formula_parts by assumption. reflexivity.
      * exact (continuous_comp (fun x => x ^ 2) _ M Sq CR).
    + apply (continuous_ext_loc _ (fun x => Im (/ (flatte_A m0 fl_gpi fl_gk (4 * bg_pi ^ 2) (4 * fl_pi0 ^ 2) (4 * bg_k ^ 2) (4 * fl_k0 ^ 2) (x ^ 2), - flatte_B m0 fl_gpi fl_gk (4 * bg_pi ^ 2) (4 * fl_pi0 ^ 2) (4 * bg_k ^ 2) (4 * fl_k0 ^ 2) (x ^ 2))%R)%C)).
      * revert N. apply filter_imp. intros x Px. rewrite V, flatte_formula_parts by assumption. reflexivity.
      * exact (continuous_comp (fun x => x ^ 2) _ M Sq CI).
Qed.
Print Assumptions C91.
Example C91_ex : R_Flatte 1 0 0 1 0 0 <> RtoC 0 /\ 2 * fl_pi0 <= 1.
Proof.
  split; [|unfold fl_pi0; lra]. destruct (C91 1 0 0 0) as [V F]. destruct (F ltac:(unfold fl_pi0; lra) 1 ltac:(lra)) as [N _]. rewrite V by lra. unfold flatte_formula.
  unfold Cdiv at 1. rewrite Cmult_1_l. intro E. apply N. rewrite <- (inv_inv _ N), E. unfold Cinv, RtoC. cbn [fst snd]. unfold Rdiv. f_equal; ring.
Qed.

(** ** C92: Bugg's sigma *)
(** Missing: continuity at the mass of four pions (C92_jump_refuted), and masses below two pions. *)
Theorem C92_value_partial : forall M, 0 < M ->
  R_Bugg M = (RtoC (sqrt 1000) / bg_denominator bg_M (M ^ 2)%R)%C /\ R_Bugg3 M = (/ bg_denominator 1 (M ^ 2)%R)%C /\
  (2 * bg_pi < M -> forall x, 0 <= x -> bg_denominator x (M ^ 2) <> RtoC 0) /\
  (2 * bg_pi < M -> M <> 4 * bg_pi ->
     continuous (fun M => Re (R_Bugg M)) M /\ continuous (fun M => Im (R_Bugg M)) M /\
     continuous (fun M => Re (R_Bugg3 M)) M /\ continuous (fun M => Im (R_Bugg3 M)) M).
Proof.
  intros M PM. pose proof pi_small as P. split; [now apply bugg_value|]. split; [now apply bugg3_value|]. split.
  - intros H x Px E. pose proof (bugg_finite x (M ^ 2) Px ltac:(nra)) as I. rewrite E in I. cbn in I. lra.
  - intros H N. assert (N2 : M ^ 2 <> 16 * bg_pi ^ 2) by (intro E; apply N; nra). assert (H2 : 4 * bg_pi ^ 2 < M ^ 2) by nra.
    pose proof M_bounds as PB. destruct (den_cont bg_M (M ^ 2) ltac:(lra) H2 N2) as [A1 A2]. destruct (den_cont 1 (M ^ 2) ltac:(lra) H2 N2) as [B1 B2].
    assert (NL : locally M (fun x => 0 < x)).
    { exists (mkposreal _ PM). intros y By. unfold ball in By. cbn in By. unfold AbsRing_ball, abs, minus, plus, opp in By. cbn in By. apply Rabs_def2 in By. lra. }
    assert (Sq : continuous (fun x : R => x ^ 2) M) by apply k_sq, k_id.
    repeat split.
    + apply (continuous_ext_loc _ (fun x => sqrt 1000 * Re (/ bg_denominator bg_M (x ^ 2)%R)%C)).
      * revert NL. apply filter_imp. intros x Px. rewrite bugg_value by assumption. unfold Cdiv, Cmult, RtoC, Re. cbn [fst snd]. rring.
      * apply k_mult; [apply k_const|]. exact (continuous_comp (fun x => x ^ 2) _ M Sq A1).
    + apply (continuous_ext_loc _ (fun x => sqrt 1000 * Im (/ bg_denominator bg_M (x ^ 2)%R)%C)).
      * revert NL. apply filter_imp. intros x Px. rewrite bugg_value by assumption. unfold Cdiv, Cmult, RtoC, Im. cbn [fst snd]. rring.
      * apply k_mult; [apply k_const|]. exact (continuous_comp (fun x => x ^ 2) _ M Sq A2).
    + apply (continuous_ext_loc _ (fun x => Re (/ bg_denominator 1 (x ^ 2)%R)%C)).
      * revert NL. apply filter_imp. intros x Px. now rewrite bugg3_value by assumption.
      * exact (continuous_comp (fun x => x ^ 2) _ M Sq B1).
    + apply (continuous_ext_loc _ (fun x => Im (/ bg_denominator 1 (x ^ 2)%R)%C)).
      * revert NL. apply filter_imp. intros x Px. now rewrite bugg3_value by assumption.
      * exact (continuous_comp (fun x => x ^ 2) _ M Sq B2).
Qed.
Print Assumptions C92_value_partial.
(** Both jump at the mass of four pions. *)
Theorem C92_jump_refuted :
  ~ (continuous (fun M => Re (R_Bugg M)) (4 * bg_pi) /\ continuous (fun M => Im (R_Bugg M)) (4 * bg_pi)) /\
  ~ (continuous (fun M => Re (R_Bugg3 M)) (4 * bg_pi) /\ continuous (fun M => Im (R_Bugg3 M)) (4 * bg_pi)).
Proof.
  pose proof pi_small as P. assert (PM : 0 < 4 * bg_pi) by lra. assert (NL : locally (4 * bg_pi) (fun x => 0 < x)).
  { exists (mkposreal _ PM). intros y By. unfold ball in By. cbn in By. unfold AbsRing_ball, abs, minus, plus, opp in By. cbn in By. apply Rabs_def2 in By. lra. }
  assert (S : 0 < sqrt 1000) by (apply sqrt_lt_R0; lra). pose proof M_bounds as PB.
  split; intros [A B].
  - apply (bugg_jump bg_M ltac:(lra)). split.
    + apply (continuous_ext_loc _ (fun x => / sqrt 1000 * Re (R_Bugg x))); [|apply k_mult; [apply k_const|exact A]].
      revert NL. apply filter_imp. intros x Px. rewrite bugg_value by assumption. unfold Cdiv, Cmult, RtoC, Re. cbn [fst snd]. match goal with |- ?a = ?b => change (@eq R a b) end. field. lra.
    + apply (continuous_ext_loc _ (fun x => / sqrt 1000 * Im (R_Bugg x))); [|apply k_mult; [apply k_const|exact B]].
      revert NL. apply filter_imp. intros x Px. rewrite bugg_value by assumption. unfold Cdiv, Cmult, RtoC, Im. cbn [fst snd]. match goal with |- ?a = ?b => change (@eq R a b) end. field. lra.
  - apply (bugg_jump 1 ltac:(lra)). split.
    + apply (continuous_ext_loc _ (fun x => Re (R_Bugg3 x))); [|exact A]. revert NL. apply filter_imp. intros x Px. now rewrite bugg3_value by assumption.
    + apply (continuous_ext_loc _ (fun x => Im (R_Bugg3 x))); [|exact B]. revert NL. apply filter_imp. intros x Px. now rewrite bugg3_value by assumption.
Qed.
Print Assumptions C92_jump_refuted.
(** The two are the same up to the factor sqrt 1000 below the mass of four pions, and at no mass above. *)
Theorem C92_same_refuted : forall M, 2 * bg_pi < M -> (R_Bugg M = (RtoC (sqrt 1000) * R_Bugg3 M)%C <-> M < 4 * bg_pi).
Proof.
  intros M H. pose proof pi_small as P. pose proof M_bounds as PB. assert (PM : 0 < M) by lra. rewrite bugg_value, bugg3_value by assumption.
  assert (H2 : 4 * bg_pi ^ 2 < M ^ 2) by nra.
  assert (N : forall x, 0 <= x -> bg_denominator x (M ^ 2) <> RtoC 0).
  { intros x Px E. pose proof (bugg_finite x (M ^ 2) Px H2) as I. rewrite E in I. cbn in I. lra. }
  assert (S : 0 < sqrt 1000) by (apply sqrt_lt_R0; lra). unfold Cdiv. split.
  - intro E. destruct (Rlt_dec M (4 * bg_pi)) as [|C]; [assumption|exfalso].
    assert (E' : (/ bg_denominator bg_M (M ^ 2)%R)%C = (/ bg_denominator 1 (M ^ 2)%R)%C).
    { assert (NS : RtoC (sqrt 1000) <> RtoC 0) by (intro X; apply RtoC_inj in X; lra).
      transitivity (/ RtoC (sqrt 1000) * (RtoC (sqrt 1000) * / bg_denominator bg_M (M ^ 2)%R))%C; [field; split; [apply N; lra|exact NS]|].
      rewrite E. field. split; [apply N; lra|exact NS]. }
    assert (F : bg_denominator bg_M (M ^ 2) = bg_denominator 1 (M ^ 2)) by (rewrite <- (inv_inv (bg_denominator bg_M (M ^ 2))), E', inv_inv by (apply N; lra); reflexivity).
    rewrite !denominator_parts in F. apply (f_equal snd) in F. cbn [snd] in F. pose proof (four_open (M ^ 2) ltac:(nra)). nra.
  - intro C. do 2 f_equal. rewrite !denominator_parts. f_equal.
    assert (Z : bg_four (M ^ 2) = 0) by (unfold bg_four; destruct (Rlt_dec (M ^ 2) (16 * bg_pi ^ 2)) as [|D]; [reflexivity|exfalso; apply D; nra]).
    rewrite Z. ring.
Qed.
Print Assumptions C92_same_refuted.
Example C92_ex : 2 * bg_pi < 1 / 2 < 4 * bg_pi /\ R_Bugg (1 / 2) <> RtoC 0.
Proof.
  pose proof pi_small as P. split; [lra|]. rewrite bugg_value by lra. intro E.
  destruct (C92_value_partial (1 / 2) ltac:(lra)) as (_ & _ & N & _). pose proof M_bounds as PB. specialize (N ltac:(lra) bg_M ltac:(lra)).
  assert (S : 0 < sqrt 1000) by (apply sqrt_lt_R0; lra).
  assert (X : (RtoC (sqrt 1000) = 0)%C).
  { transitivity (RtoC (sqrt 1000) / bg_denominator bg_M ((1 / 2) ^ 2)%R * bg_denominator bg_M ((1 / 2) ^ 2)%R)%C; [field; exact N|]. rewrite E. ring. }
  apply RtoC_inj in X. lra.
Qed.

(** ** C93: FOCUS *)
(** Missing: isospin 3/2 (C93_isospin_refuted); masses below K eta' at which the element K12 is zero. *)
Theorem C93_partial : forall M, let s := M ^ 2 in s <> dbl 1008750021535649 49 ->
  (bg_k + fo_etap) ^ 2 < s \/ ((bg_k + bg_pi) ^ 2 < s < (bg_k + fo_etap) ^ 2 /\ fo_12 s <> 0) ->
  t_column s (R_FOCUS Kpi M) (R_FOCUS KEta M) /\ (s < (bg_k + fo_etap) ^ 2 -> unitary (rho_kpi s * R_FOCUS Kpi M)%C).
Proof.
  intros M s _ H. destruct (focus_value M) as (E1 & E2 & _). fold s in E1, E2. unfold t_column. rewrite E1, E2. destruct H as [A|[A N]].
  - destruct (above_window s A) as (r & k & Pr & Pk & -> & ->). split; [|intro; lra]. apply column_solves. now apply del_open.
  - destruct (in_window s A) as (r & k & Pr & Pk & -> & ->). split; [apply column_solves; now apply del_closed|]. intros _. now apply closed_unitary.
Qed.
Print Assumptions C93_partial.
(** Isospin 3/2: only K pi is open below K eta', yet the amplitude has no phase there: it is not 1 / (1 - i K rho). *)
Theorem C93_isospin_refuted : forall M, let s := M ^ 2 in (bg_k + bg_pi) ^ 2 < s < (bg_k + fo_etap) ^ 2 -> fo_32 s <> 0 ->
  Im (R_FOCUS I32 M) = 0 /\ R_FOCUS I32 M <> (/ (1 - Ci * rho_kpi s * RtoC (fo_32 s)))%C.
Proof.
  intros M s A N. destruct (focus_value M) as (_ & _ & E). fold s in E. rewrite E. destruct (in_window s A) as (r & k & Pr & Pk & -> & ->).
  set (x := fo_32 s) in *. clearbody x.
  assert (I : Im (/ (1 - Ci * (0, k) * RtoC x))%C = 0).
  { unfold Cinv, Cminus, Im. unfold Cplus, Cmult, Copp, Ci, RtoC. cbn [fst snd]. unfold Rdiv.
    match goal with |- - ?a * ?b = 0 => replace a with 0 by ring end. ring. }
  split; [exact I|]. intro F. rewrite F in I. revert I. unfold Cinv, Cminus, Im. unfold Cplus, Cmult, Copp, Ci, RtoC. cbn [fst snd].
  match goal with |- - ?a / ?b = 0 -> _ => replace b with (1 + (r * x) ^ 2) by ring; replace a with (- (r * x)) by ring end.
  intro I. pose proof (sq_nonneg (r * x)) as Q. assert (Z : r * x = 0).
  { transitivity (- - (r * x) / (1 + (r * x) ^ 2) * (1 + (r * x) ^ 2)); [field; lra|]. rewrite I. ring. }
  apply Rmult_integral in Z. destruct Z; [lra|contradiction].
Qed.
Print Assumptions C93_isospin_refuted.
Example C93_ex : (bg_k + bg_pi) ^ 2 < 1 ^ 2 < (bg_k + fo_etap) ^ 2 /\ fo_12 (1 ^ 2) <> 0 /\ fo_32 (1 ^ 2) <> 0.
Proof.
  pose proof pi_small. pose proof k_bounds. pose proof etap_bounds. split; [nra|].
  assert (Nn : 26 / 100 < fo_norm < 27 / 100) by (unfold fo_norm, bg_k, bg_pi, dbl; lra).
  assert (X : 27 / 10 < 1 ^ 2 / fo_norm - 1 < 3).
  { assert (37 / 10 < 1 ^ 2 / fo_norm) by (apply (proj1 (Rcomplements.Rlt_div_r (37 / 10) (1 ^ 2) fo_norm ltac:(lra))); lra).
    assert (1 ^ 2 / fo_norm < 4) by (apply Rcomplements.Rlt_div_l; lra). lra. }
  split.
  - unfold fo_12, fo_element. cbv zeta. set (x := 1 ^ 2 / fo_norm - 1) in *. clearbody x.
    assert (A : 0 < (1 ^ 2 - dbl 8286623314361713 55) / fo_norm) by (apply Rdiv_lt_0_compat; [unfold dbl; lra|lra]).
    assert (G : - (2 / 100) < fo_g1 * fo_g2 / (dbl 1008750021535649 49 - 1 ^ 2) < 0) by (unfold fo_g1, fo_g2, dbl; lra).
    assert (B : 0 < fo_g1 * fo_g2 / (dbl 1008750021535649 49 - 1 ^ 2) + dbl 5418731071652181 55 - dbl 5514711786910701 57 * x + dbl 5210282863619263 61 * x ^ 2).
    { assert (C0 : 15 / 100 < dbl 5418731071652181 55) by (unfold dbl; lra). assert (C1 : 0 < dbl 5514711786910701 57 < 39 / 1000) by (unfold dbl; lra).
      assert (C2 : 0 < dbl 5210282863619263 61) by (unfold dbl; lra). nra. }
    apply Rgt_not_eq. now apply Rmult_lt_0_compat.
  - unfold fo_32. cbv zeta. set (x := 1 ^ 2 / fo_norm - 1) in *. clearbody x.
    assert (A : 0 < (1 ^ 2 - dbl 607985949695017 51) / fo_norm) by (apply Rdiv_lt_0_compat; [unfold dbl; lra|lra]).
    assert (B : - dbl 3989648837894975 54 + dbl 3838796264776573 57 * x - dbl 8490759595967401 63 * x ^ 2 < 0).
    { assert (C0 : 2 / 10 < dbl 3989648837894975 54) by (unfold dbl; lra). assert (C1 : 0 < dbl 3838796264776573 57 < 3 / 100) by (unfold dbl; lra).
      assert (C2 : 0 < dbl 8490759595967401 63) by (unfold dbl; lra). nra. }
    apply Rlt_not_eq. nra.
Qed.
