(** The Faddeeva function and the Voigtian: C113 - C115. *)
From Coq Require Import Reals List Lra Lia Psatz Arith Bool ZArith.
From Coquelicot Require Import Coquelicot.
From Flocq Require Import Core.Raux.
From Verif Require Import FormulaSpec FormulaProofs AmpModel WaveModel WaveProofs FadModel FadSpec FadProofs FadProofs2 FadProofs3.
From Verif Require Import PdfModel.
From Verif Require LeafGen.
Import ListNotations.
Open Scope R_scope.

Notation code_fad := (faddeeva R_ops (R_lib (fun _ _ => 0))).
(** The real part of the code's Faddeeva function at x + iy. *)
Definition code_W (x y : R) : R := fst (code_fad (x, y)).

(** C113: above the real axis and not near 0 the value is the trapezoidal rule with step 1/2 or 0.53 and 25 nodes, plus the term of the pole
    if y is below 2 PI; the tables are the Gaussian at the nodes, and no node but 0 is nearer to z than 0.0099. *)
Theorem C113_rule_partial : forall x y, 0 < y -> / 10 ^ 7 <= x * x + y * y ->
  exists h r table b, (h = 1 / 2 \/ h = 53 / 100) /\ Rabs (r * PI - h) <= / 1000000 /\ gauss_table h (/ 10 ^ 12) table /\
    clear_of (99 / 10000) table (x, y) /\ Rabs (b - 2 * PI) <= / 100000 /\
    code_fad (x, y) = (rule r table (x, y) + (if Rlt_dec y b then pole r (x, y) else 0))%C.
Proof.
  intros x y P F. unfold faddeeva.
  assert (N : LeafGen.o_lt R_ops (c_norm R_ops (x, y)) (LeafGen.o_lit R_ops 944473296573929 (-73)) = false).
  { unfold c_norm. rewrite lit2. rops. cbn [fst snd]. unfold Rltb. destruct Rlt_dec as [H|_]; [|reflexivity]. exfalso. revert H F. pos_nat. intros H F. lra. }
  rewrite N. cbn [fst snd]. destruct nonneg1 as [P1 _], nonneg2 as [P2 _]. destruct r1_near as [R1 E1], r2_near as [R2 E2].
  destruct (near_pole R_ops x y) eqn:NP.
  - exists (53 / 100), r2, table2, bound2pi. repeat split; try tauto; try exact E2; try exact bound2pi_near; try apply table2_gauss; try apply (clear2 x y NP); auto.
    exact (trapezoid_value x y _ _ r2 P R2 P2).
  - exists (1 / 2), r1, table1, bound2pi. repeat split; try tauto; try exact E1; try exact bound2pi_near; try apply table1_gauss; try apply (clear1 x y NP); auto.
    exact (trapezoid_value x y _ _ r1 P R1 P1).
Qed.
Print Assumptions C113_rule_partial.
(** Near 0 it is 1/v + 2i/sqrt(PI) * A/B * z * v with v = exp(z^2) and a ratio of polynomials in z^2 that is 1 at 0. *)
Theorem C113_near_zero_partial : forall z : C, fst z * fst z + snd z * snd z <= 99 / 10 ^ 9 ->
  exists k top bottom, Rabs (k - 2 / sqrt PI) <= / 100000 /\ hd 0 top = hd 0 bottom /\ hd 0 top <> 0 /\ length top = 7%nat /\ length bottom = 7%nat /\
  code_fad z = (1 / Cexp (z * z) + Ci * RtoC k * poly top (z * z) / poly bottom (z * z) * z * Cexp (z * z))%C.
Proof.
  intros z F. exists (M_2_SQRTPI R_ops), pade_top, pade_bottom. split; [exact two_sqrtpi|]. split; [reflexivity|]. split; [cbn [hd pade_top]; lra|].
  split; [reflexivity|]. split; [reflexivity|]. unfold faddeeva.
  assert (N : LeafGen.o_lt R_ops (c_norm R_ops z) (LeafGen.o_lit R_ops 944473296573929 (-73)) = true).
  { unfold c_norm. rewrite lit2. rops. unfold Rltb. destruct Rlt_dec as [_|H]; [reflexivity|]. exfalso. apply H. revert F. pos_nat. intro F. lra. }
  rewrite N. apply pade_value.
Qed.
Print Assumptions C113_near_zero_partial.
(** At 0 it is 1, the value of the Faddeeva function. *)
Example C113_zero_ex : code_fad (0, 0) = (1, 0).
Proof.
  destruct (C113_near_zero_partial (0, 0)) as (k & t & b & _ & _ & _ & _ & _ & ->); [cbn [fst snd]; lra|].
  assert (E : Cexp ((0, 0) * (0, 0))%C = RtoC 1).
  { unfold Cexp, Cmult, Re, Im. cbn [fst snd]. replace (0 * 0 - 0 * 0) with 0 by ring. replace (0 * 0 + 0 * 0) with 0 by ring. rewrite exp_0, cos_0, sin_0. unfold RtoC. f_equal; ring. }
  rewrite E. change (0, 0) with (RtoC 0). change (1, 0) with (RtoC 1). unfold Cdiv. rewrite Cmult_0_r, Cmult_0_l, Cplus_0_r. apply Cinv_r. intro H. injection H. lra.
Qed.
(** Two points for which the conditions of C113_rule_partial hold and the tables differ. *)
Example C113_ex : near_pole R_ops 1 (/ 1000) = true /\ near_pole R_ops (1 / 4) (/ 1000) = false.
Proof.
  split.
  - destruct (near_pole_spec 1 (/ 1000)) as (g & G & B & H). destruct (near_pole R_ops 1 (/ 1000)); [reflexivity|]. exfalso.
    rewrite Rabs_R1 in *. rewrite Rabs_pos_eq in H by lra. assert (g = 2)%Z by (destruct B as [B1 B2]; assert (IZR g < 3) by lra; assert (1 < IZR g) by lra; apply lt_IZR in H0; apply lt_IZR in H1; lia).
    subst g. destruct H as [H|[H|H]]; lra.
  - destruct (near_pole_spec (1 / 4) (/ 1000)) as (g & G & B & H). destruct (near_pole R_ops (1 / 4) (/ 1000)); [|reflexivity]. exfalso.
    rewrite Rabs_pos_eq in * by lra. assert (g = 0)%Z by (destruct B as [B1 B2]; assert (IZR g < 1) by lra; apply lt_IZR in H0; lia). subst g. lra.
Qed.

(** C114: the value at -conj z is the conjugate of the value at z, for every z; so a Voigtian is symmetric about its mean, whatever its
    widths, and it is positive where the width of the Breit-Wigner is at least 18 times the resolution (which of the two is which: C56). *)
Theorem C114_reflection : forall x y, code_fad (mirrored (x, y)) = Cconj (code_fad (x, y)).
Proof. intros x y. exact (faddeeva_rf (fun _ _ => 0) x y). Qed.
Print Assumptions C114_reflection.
Theorem C114_symmetric : forall V (lims : V -> R * R) (v : V -> R) x m s G d,
  density code_W lims v (LVoigtian x m s G) (v m + d) = density code_W lims v (LVoigtian x m s G) (v m - d).
Proof.
  intros V lims v x m s G d. unfold density. cbn [PdfSpec.leaf_value_in PdfSpec.obind]. unfold LeafGen.voigt.
  replace (LeafGen.o_sub R_ops (v m + d) (v m)) with d by (rops; ring). replace (LeafGen.o_sub R_ops (v m - d) (v m)) with (- d) by (rops; ring).
  set (c := LeafGen.o_div R_ops (LeafGen.o_lit R_ops 796131459066231 (-50)) (v G)). cbn [R_lib LeafGen.m_faddeeva_re]. unfold code_W.
  replace (LeafGen.o_mul R_ops c (- d)) with (- LeafGen.o_mul R_ops c d) by (rops; ring). rewrite faddeeva_rf. cbn [cj fst]. rops.
  replace (- d * - d) with (d * d) by ring. set (k := LeafGen.minus_half R_ops / _). replace (k * - d * - d) with (k * d * d) by ring. reflexivity.
Qed.
Print Assumptions C114_symmetric.
Theorem C114_positive_partial : forall V (lims : V -> R * R) (v : V -> R) x m s G t, 0 < v G -> 18 * v G <= v s ->
  0 < density code_W lims v (LVoigtian x m s G) t.
Proof.
  intros V lims v x m s G t PG H. unfold density. cbn [PdfSpec.leaf_value_in PdfSpec.obind]. unfold LeafGen.voigt. rops. unfold Reqb.
  destruct (Req_EM_T 0 (v G)) as [E|_]; [lra|]. destruct (Req_EM_T 0 (v s)) as [E|_]; [lra|]. cbn [andb].
  cbn [R_lib LeafGen.m_faddeeva_re]. change (IZR 796131459066231 * powerRZ 2 (-50)) with (LeafGen.o_lit R_ops 796131459066231 (-50)).
  change (IZR 5081767996463981 * powerRZ 2 (-53)) with (LeafGen.o_lit R_ops 5081767996463981 (-53)). rewrite !lit2.
  set (k := IZR 796131459066231 / 2 ^ Pos.to_nat 50). assert (K : 7071 / 10000 < k) by (unfold k; pos_nat; lra). clearbody k.
  assert (I : 0 < / v G) by now apply Rinv_0_lt_compat. assert (C : 0 < k / v G) by (apply Rmult_lt_0_compat; lra).
  apply Rmult_lt_0_compat; [apply Rmult_lt_0_compat; [exact C|pos_nat; lra]|]. apply far_up.
  assert (Y : 63639 / 10000 <= / 2 * (k / v G) * v s).
  { replace (/ 2 * (k / v G) * v s) with (/ 2 * k * (v s / v G)) by (field; lra).
    assert (18 <= v s / v G) by (apply Rmult_le_reg_r with (v G); [exact PG|]; unfold Rdiv; rewrite Rmult_assoc, Rinv_l by lra; lra). nra. }
  pose proof bound2pi_near as B. apply Rabs_le_inv in B. pose proof PI_tight. rops. lra.
Qed.
Print Assumptions C114_positive_partial.
(** Parameters for which the conditions hold: mean 0, 20 and 1. *)
Example C114_ex : 0 < density code_W (fun _ : nat => (0, 0)) (fun i => nth i [0; 0; 20; 1] 0) (LVoigtian 0%nat 1%nat 2%nat 3%nat) 5.
Proof. apply C114_positive_partial; cbn [nth]; lra. Qed.

(** C115: the Voigtian of the host is the profile of the device (with 1 / sqrt 2 exact) for positive widths; the limits for a zero width,
    which its comments announce and the device has, are refused. *)
Theorem C115_positive_partial : forall x m w s, 0 < w -> 0 < s -> exists rpi, Rabs (rpi - / sqrt PI) <= / 1000000 /\
  cpuvoigtian R_ops (R_lib (fun _ _ => 0)) x m w s = Some (voigt_profile code_W (/ sqrt 2) rpi x m s w).
Proof.
  intros x m w s PW PS. exists (k_irpi code_consts). split; [apply code_consts_near|]. unfold cpuvoigtian, voigt_profile. rops. unfold Reqb, Rleb.
  destruct (Req_EM_T 0 s); [lra|]. destruct (Req_EM_T s 0); [lra|]. destruct (Req_EM_T 0 w); [lra|]. destruct (Req_EM_T w 0); [lra|]. cbn [andb].
  destruct (Rle_dec s 0); [lra|]. destruct (Rle_dec w 0); [lra|]. cbn [orb]. f_equal. pose proof (Rlt_sqrt2_0) as Q.
  replace (1 / (sqrt 2 * s)) with (/ sqrt 2 / s) by (field; split; lra). replace (/ 2 * (/ sqrt 2 / s) * w) with (/ sqrt 2 / s * w / 2) by (unfold Rdiv; ring). reflexivity.
Qed.
Print Assumptions C115_positive_partial.
(** The device with the same arguments: PDF parameters s and G are the width and the resolution (C56_voigtian_refuted). *)
Theorem C115_device_partial : forall V (lims : V -> R * R) (v : V -> R) x m s G t, exists r2 rpi, Rabs (r2 - / sqrt 2) <= / 1000000 /\ Rabs (rpi - / sqrt PI) <= / 1000000 /\
  density code_W lims v (LVoigtian x m s G) t = voigt_profile code_W r2 rpi t (v m) (v G) (v s).
Proof.
  intros V lims v x m s G t. exists (k_ir2 code_consts), (k_irpi code_consts). split; [apply code_consts_near|]. split; [apply code_consts_near|].
  unfold density. cbn [PdfSpec.leaf_value_in PdfSpec.obind]. unfold LeafGen.voigt, LeafGen.minus_half, voigt_profile, gaussian. rops. unfold Reqb.
  destruct (Req_EM_T 0 (v G)) as [EG|NG].
  - destruct (Req_EM_T (v G) 0); [|congruence]. destruct (Req_EM_T 0 (v s)) as [ES|NS]; destruct (Req_EM_T (v s) 0); try congruence; cbn [andb]; [reflexivity|].
    f_equal. cbn [powerRZ]. pos_nat. field.
  - destruct (Req_EM_T (v G) 0); [congruence|]. cbn [andb]. destruct (Req_EM_T 0 (v s)) as [ES|NS]; destruct (Req_EM_T (v s) 0); try congruence.
    + f_equal. field. lra.
    + replace (/ 2 * (k_ir2 code_consts / v G) * v s) with (k_ir2 code_consts / v G * v s / 2) by (unfold Rdiv; ring).
      change (IZR 796131459066231 * powerRZ 2 (-50)) with (k_ir2 code_consts). change (IZR 5081767996463981 * powerRZ 2 (-53)) with (k_irpi code_consts).
      replace (/ 2 * (k_ir2 code_consts / v G) * v s) with (k_ir2 code_consts / v G * v s / 2) by (unfold Rdiv; ring). reflexivity.
Qed.
Print Assumptions C115_device_partial.
Theorem C115_limits_refuted : forall x m a, a <> 0 ->
  cpuvoigtian R_ops (R_lib (fun _ _ => 0)) x m a 0 = None /\ cpuvoigtian R_ops (R_lib (fun _ _ => 0)) x m 0 a = None.
Proof.
  intros x m a H. unfold cpuvoigtian. rops. unfold Reqb, Rleb. destruct (Req_EM_T 0 0) as [_|N]; [|congruence]. destruct (Req_EM_T 0 a); [congruence|]. cbn [andb].
  destruct (Rle_dec 0 0) as [_|N]; [|lra]. rewrite orb_true_r. split; reflexivity.
Qed.
Print Assumptions C115_limits_refuted.
