(** The four vectors of get4Vecs. *)
From Coq Require Import List ZArith Reals Lra Psatz Bool.
From Verif Require Import FormulaSpec KinModel KinSpec KinProofs.
From Verif Require LeafGen.
Import ListNotations.
Open Scope R_scope.
Local Arguments LeafGen.o_add : simpl nomatch.

Definition boostR (g b : R) (p : vec4 R) : vec4 R := mkV (g * (vx p + b * ve p)) (vy p) (vz p) (g * (ve p + b * vx p)).
Definition rotR (c s : R) (p : vec4 R) : vec4 R := mkV (vx p) (c * vy p) (s * vy p) (ve p).
Lemma boost_minv : forall g b p, g * g * (1 - b * b) = 1 -> minv (boostR g b p) = minv p.
Proof.
  intros g b [x y z e] H. unfold minv, boostR. cbn [vx vy vz ve].
  replace ((g * (e + b * x)) ^ 2 - (g * (x + b * e)) ^ 2 - y ^ 2 - z ^ 2) with (g * g * (1 - b * b) * (e ^ 2 - x ^ 2) - y ^ 2 - z ^ 2) by ring. rewrite H. ring.
Qed.
Lemma rot_minv : forall c s p, c * c + s * s = 1 -> vz p = 0 -> minv (rotR c s p) = minv p.
Proof.
  intros c s [x y z e] H E. cbn in E. subst z. unfold minv, rotR. cbn [vx vy vz ve].
  replace (e ^ 2 - x ^ 2 - (c * y) ^ 2 - (s * y) ^ 2) with (e ^ 2 - x ^ 2 - (c * c + s * s) * y ^ 2) by ring. rewrite H. ring.
Qed.
Section Two.
(** Two-body decay m -> a b. *)
Variables m a b : R.
Hypothesis Hm : 0 < m. Hypothesis Ha : 0 <= a. Hypothesis Hb : 0 <= b. Hypothesis Hs : a + b <= m.
Lemma e_ge : a <= (m * m + a * a - b * b) / (2 * m).
Proof. apply (Rmult_le_reg_r (2 * m)); [lra|]. replace ((m * m + a * a - b * b) / (2 * m) * (2 * m)) with (m * m + a * a - b * b) by (field; lra). nra. Qed.
Lemma p_ge : 0 <= (m * m + a * a - b * b) / (2 * m) * ((m * m + a * a - b * b) / (2 * m)) - a * a.
Proof. pose proof e_ge. nra. Qed.
Lemma e_other : (m * m - a * a + b * b) / (2 * m) * ((m * m - a * a + b * b) / (2 * m)) - b * b = (m * m + a * a - b * b) / (2 * m) * ((m * m + a * a - b * b) / (2 * m)) - a * a.
Proof. field. lra. Qed.
Lemma e_sum : (m * m + a * a - b * b) / (2 * m) + (m * m - a * a + b * b) / (2 * m) = m.
Proof. field. lra. Qed.
End Two.
Section Boost.
Variables M E P : R.
Hypothesis HM : 0 < M. Hypothesis HE : M <= E. Hypothesis HP : P * P = E * E - M * M.
Lemma gamma_val : 1 / sqrt (1 - P / E * (P / E)) = E / M.
Proof.
  replace (1 - P / E * (P / E)) with ((M / E) * (M / E)).
  - rewrite sqrt_square; [field; lra|]. apply Rmult_le_pos; [lra|]. apply Rlt_le, Rinv_0_lt_compat. lra.
  - replace (1 - P / E * (P / E)) with ((E * E - P * P) / (E * E)) by (field; lra). rewrite HP. field. lra.
Qed.
Lemma gamma_one : E / M * (E / M) * (1 - P / E * (P / E)) = 1.
Proof. replace (E / M * (E / M) * (1 - P / E * (P / E))) with ((E * E - P * P) / (M * M)) by (field; lra). rewrite HP. field. lra. Qed.
Lemma boost_pos : forall x y e k, 0 <= e -> x * x <= e * e -> k = P / E \/ k = - P / E -> 0 <= ve (boostR (E / M) k (mkV x y 0 e)).
Proof.
  intros x y e k He Hx Hk. unfold boostR. cbn [ve vx].
  assert (A : Rabs x <= e) by (rewrite <- (Rabs_right e) by lra; apply Rsqr_le_abs_0; unfold Rsqr; exact Hx).
  assert (B : Rabs k <= 1).
  { rewrite <- Rabs_R1. apply Rsqr_le_abs_0. unfold Rsqr. assert (KK : k * k = P * P / (E * E)) by (destruct Hk as [->| ->]; field; lra). rewrite KK, HP.
    apply (Rmult_le_reg_r (E * E)); [nra|]. replace ((E * E - M * M) / (E * E) * (E * E)) with (E * E - M * M) by (field; lra). nra. }
  apply Rmult_le_pos; [apply Rmult_le_pos; [lra|apply Rlt_le, Rinv_0_lt_compat; lra]|].
  assert (Rabs (k * x) <= 1 * e) by (rewrite Rabs_mult; apply Rmult_le_compat; try apply Rabs_pos; assumption).
  pose proof (Rle_abs (- (k * x))) as X. rewrite Rabs_Ropp in X. lra.
Qed.
End Boost.

Section Four.
Variables M m12 m34 m1 m2 m3 m4 cos12 cos34 phi : R.
Hypothesis HF : four_body M m12 m34 m1 m2 m3 m4.
Hypothesis HC : cos12 * cos12 <= 1. Hypothesis HD : cos34 * cos34 <= 1.
Let E1 := (m12 * m12 + m1 * m1 - m2 * m2) / (2 * m12).
Let E2 := (m12 * m12 - m1 * m1 + m2 * m2) / (2 * m12).
Let E3 := (m34 * m34 + m3 * m3 - m4 * m4) / (2 * m34).
Let E4 := (m34 * m34 - m3 * m3 + m4 * m4) / (2 * m34).
Let k1 := sqrt (E1 * E1 - m1 * m1).
Let k3 := sqrt (E3 * E3 - m3 * m3).
Let s12 := sqrt (1 - cos12 * cos12).
Let s34 := sqrt (1 - cos34 * cos34).
Let ED1 := (M * M + m12 * m12 - m34 * m34) / (2 * m12).
Let ED2 := (M * M - m12 * m12 + m34 * m34) / (2 * m34).
Let PD1 := sqrt (ED1 * ED1 - M * M).
Let PD2 := sqrt (ED2 * ED2 - M * M).
Let HM : 0 < M. Proof. destruct HF as (A & B & C & _). lra. Qed.
Lemma ED1_ge : M <= ED1.
Proof.
  destruct HF as (A & B & C & _). apply (Rmult_le_reg_r (2 * m12)); [lra|]. replace (ED1 * (2 * m12)) with (M * M + m12 * m12 - m34 * m34) by (unfold ED1; field; lra). nra.
Qed.
Lemma ED2_ge : M <= ED2.
Proof.
  destruct HF as (A & B & C & _). apply (Rmult_le_reg_r (2 * m34)); [lra|]. replace (ED2 * (2 * m34)) with (M * M - m12 * m12 + m34 * m34) by (unfold ED2; field; lra). nra.
Qed.
Lemma PD1_sq : PD1 * PD1 = ED1 * ED1 - M * M. Proof. apply sqrt_sqrt. pose proof ED1_ge. pose proof HM. nra. Qed.
Lemma PD2_sq : PD2 * PD2 = ED2 * ED2 - M * M. Proof. apply sqrt_sqrt. pose proof ED2_ge. pose proof HM. nra. Qed.
Lemma same_momentum : PD1 * m12 = PD2 * m34.
Proof.
  destruct HF as (A & B & C & _). apply Rsqr_inj.
  - apply Rmult_le_pos; [apply sqrt_pos|lra].
  - apply Rmult_le_pos; [apply sqrt_pos|lra].
  - unfold Rsqr. replace (PD1 * m12 * (PD1 * m12)) with (PD1 * PD1 * (m12 * m12)) by ring. replace (PD2 * m34 * (PD2 * m34)) with (PD2 * PD2 * (m34 * m34)) by ring.
    rewrite PD1_sq, PD2_sq. unfold ED1, ED2. field. lra.
Qed.
Lemma vecs_R : forall W, get_4_vecs R_ops (R_lib W) m12 m34 cos12 cos34 phi M m1 m2 m3 m4 =
  (rotR (cos phi) (sin phi) (boostR (ED1 / M) (PD1 / ED1) (mkV (cos12 * k1) (s12 * k1) 0 E1)),
   rotR (cos phi) (sin phi) (boostR (ED1 / M) (PD1 / ED1) (mkV (- cos12 * k1) (- s12 * k1) 0 E2)),
   boostR (ED2 / M) (- PD2 / ED2) (mkV (- cos34 * k3) (- s34 * k3) 0 E3),
   boostR (ED2 / M) (- PD2 / ED2) (mkV (cos34 * k3) (s34 * k3) 0 E4)).
Proof.
  intro W. unfold get_4_vecs, rotate_x, boost_x. cbn [LeafGen.o_add LeafGen.o_sub LeafGen.o_mul LeafGen.o_div LeafGen.o_sqrt LeafGen.o_opp LeafGen.o_zero LeafGen.o_one LeafGen.o_ofZ R_ops LeafGen.m_cos LeafGen.m_sin R_lib].
  fold E1 E2 E3 E4 k1 k3 s12 s34 ED1 ED2 PD1 PD2.
  rewrite (gamma_val M ED1 PD1 HM ED1_ge PD1_sq).
  assert (N : - PD2 * - PD2 = ED2 * ED2 - M * M) by (rewrite <- PD2_sq; ring).
  rewrite (gamma_val M ED2 (- PD2) HM ED2_ge N). reflexivity.
Qed.
Lemma k1_sq : k1 * k1 = E1 * E1 - m1 * m1.
Proof. destruct HF as (A & B & C & F1 & F2 & F3 & F4 & G1 & G2). apply sqrt_sqrt. apply p_ge; assumption. Qed.
Lemma k3_sq : k3 * k3 = E3 * E3 - m3 * m3.
Proof. destruct HF as (A & B & C & F1 & F2 & F3 & F4 & G1 & G2). apply sqrt_sqrt. apply p_ge; assumption. Qed.
Lemma s12_sq : s12 * s12 = 1 - cos12 * cos12. Proof. apply sqrt_sqrt. lra. Qed.
Lemma s34_sq : s34 * s34 = 1 - cos34 * cos34. Proof. apply sqrt_sqrt. lra. Qed.
Lemma len12 : (cos12 * k1) ^ 2 + (s12 * k1) ^ 2 = k1 * k1.
Proof. replace ((cos12 * k1) ^ 2 + (s12 * k1) ^ 2) with ((cos12 * cos12 + s12 * s12) * (k1 * k1)) by ring. rewrite s12_sq. ring. Qed.
Lemma len34 : (cos34 * k3) ^ 2 + (s34 * k3) ^ 2 = k3 * k3.
Proof. replace ((cos34 * k3) ^ 2 + (s34 * k3) ^ 2) with ((cos34 * cos34 + s34 * s34) * (k3 * k3)) by ring. rewrite s34_sq. ring. Qed.
Lemma cs : cos phi * cos phi + sin phi * sin phi = 1.
Proof. pose proof (sin2_cos2 phi) as H. unfold Rsqr in H. lra. Qed.
Lemma g1 : ED1 / M * (ED1 / M) * (1 - PD1 / ED1 * (PD1 / ED1)) = 1. Proof. exact (gamma_one M ED1 PD1 HM ED1_ge PD1_sq). Qed.
Lemma g2 : ED2 / M * (ED2 / M) * (1 - - PD2 / ED2 * (- PD2 / ED2)) = 1.
Proof. apply (gamma_one M ED2 (- PD2) HM ED2_ge). rewrite <- PD2_sq. ring. Qed.
Lemma bound12 : forall e, 0 <= e -> k1 * k1 <= e * e -> forall c, c = 1 \/ c = -1 -> (c * cos12 * k1) * (c * cos12 * k1) <= e * e.
Proof.
  intros e He Hk c Hc. pose proof len12 as H. pose proof (pow2_ge_0 (s12 * k1)). assert (c * c = 1) by (destruct Hc as [->| ->]; ring).
  replace (c * cos12 * k1 * (c * cos12 * k1)) with (c * c * (cos12 * k1) ^ 2) by ring. rewrite H1. lra.
Qed.
Lemma bound34 : forall e, 0 <= e -> k3 * k3 <= e * e -> forall c, c = 1 \/ c = -1 -> (c * cos34 * k3) * (c * cos34 * k3) <= e * e.
Proof.
  intros e He Hk c Hc. pose proof len34 as H. pose proof (pow2_ge_0 (s34 * k3)). assert (c * c = 1) by (destruct Hc as [->| ->]; ring).
  replace (c * cos34 * k3 * (c * cos34 * k3)) with (c * c * (cos34 * k3) ^ 2) by ring. rewrite H1. lra.
Qed.
Theorem four_vectors : forall W p1 p2 p3 p4, get_4_vecs R_ops (R_lib W) m12 m34 cos12 cos34 phi M m1 m2 m3 m4 = (p1, p2, p3, p4) ->
  on_shell p1 m1 /\ on_shell p2 m2 /\ on_shell p3 m3 /\ on_shell p4 m4 /\ vadd (vadd p1 p2) (vadd p3 p4) = at_rest M /\
  minv (vadd p1 p2) = m12 ^ 2 /\ minv (vadd p3 p4) = m34 ^ 2.
Proof.
  intros W p1 p2 p3 p4 H. rewrite vecs_R in H. injection H as <- <- <- <-.
  destruct HF as (A & B & C & F1 & F2 & F3 & F4 & G1 & G2).
  assert (PE1 : 0 <= E1) by (pose proof (e_ge m12 m1 m2 A F2 G1); unfold E1; lra).
  assert (PE2 : 0 <= E2) by (pose proof (e_ge m12 m2 m1 A F1 ltac:(lra)); unfold E2; replace (m12 * m12 - m1 * m1 + m2 * m2) with (m12 * m12 + m2 * m2 - m1 * m1) by ring; lra).
  assert (PE3 : 0 <= E3) by (pose proof (e_ge m34 m3 m4 B F4 G2); unfold E3; lra).
  assert (PE4 : 0 <= E4) by (pose proof (e_ge m34 m4 m3 B F3 ltac:(lra)); unfold E4; replace (m34 * m34 - m3 * m3 + m4 * m4) with (m34 * m34 + m4 * m4 - m3 * m3) by ring; lra).
  assert (Q1 : E1 * E1 - m1 * m1 = k1 * k1) by (symmetry; exact k1_sq). assert (Q2 : E2 * E2 - m2 * m2 = k1 * k1) by (unfold E2; rewrite (e_other m12 m1 m2 A); exact Q1).
  assert (Q3 : E3 * E3 - m3 * m3 = k3 * k3) by (symmetry; exact k3_sq). assert (Q4 : E4 * E4 - m4 * m4 = k3 * k3) by (unfold E4; rewrite (e_other m34 m3 m4 B); exact Q3).
  pose proof HM as HM'. pose proof ED1_ge as D1. pose proof ED2_ge as D2. pose proof PD1_sq as R1. pose proof PD2_sq as R2.
  pose proof len12 as L12. pose proof len34 as L34.
  assert (X1 : forall c e, c = 1 \/ c = -1 -> minv (mkV (c * cos12 * k1) (c * s12 * k1) 0 e) = e ^ 2 - k1 * k1).
  { intros c e Hc. unfold minv. cbn [vx vy vz ve]. replace (e ^ 2 - (c * cos12 * k1) ^ 2 - (c * s12 * k1) ^ 2 - 0 ^ 2) with (e ^ 2 - c * c * ((cos12 * k1) ^ 2 + (s12 * k1) ^ 2)) by ring. rewrite L12. destruct Hc as [->| ->]; ring. }
  assert (X3 : forall c e, c = 1 \/ c = -1 -> minv (mkV (c * cos34 * k3) (c * s34 * k3) 0 e) = e ^ 2 - k3 * k3).
  { intros c e Hc. unfold minv. cbn [vx vy vz ve]. replace (e ^ 2 - (c * cos34 * k3) ^ 2 - (c * s34 * k3) ^ 2 - 0 ^ 2) with (e ^ 2 - c * c * ((cos34 * k3) ^ 2 + (s34 * k3) ^ 2)) by ring. rewrite L34. destruct Hc as [->| ->]; ring. }
  replace (mkV (cos12 * k1) (s12 * k1) 0 E1) with (mkV (1 * cos12 * k1) (1 * s12 * k1) 0 E1) by (f_equal; ring).
  replace (mkV (- cos12 * k1) (- s12 * k1) 0 E2) with (mkV (-1 * cos12 * k1) (-1 * s12 * k1) 0 E2) by (f_equal; ring).
  replace (mkV (- cos34 * k3) (- s34 * k3) 0 E3) with (mkV (-1 * cos34 * k3) (-1 * s34 * k3) 0 E3) by (f_equal; ring).
  replace (mkV (cos34 * k3) (s34 * k3) 0 E4) with (mkV (1 * cos34 * k3) (1 * s34 * k3) 0 E4) by (f_equal; ring).
  assert (N2 : - PD2 * - PD2 = ED2 * ED2 - M * M) by (rewrite <- R2; ring).
  split; [|split; [|split; [|split; [|split; [|split]]]]].
  - split; [rewrite rot_minv, boost_minv, X1 by (try exact g1; try exact cs; try reflexivity; now left); rewrite <- Q1; ring|].
    apply (boost_pos M ED1 PD1 HM' D1 R1); [exact PE1|apply bound12; [exact PE1|nra|now left]|now left].
  - split; [rewrite rot_minv, boost_minv, X1 by (try exact g1; try exact cs; try reflexivity; now right); rewrite <- Q2; ring|].
    apply (boost_pos M ED1 PD1 HM' D1 R1); [exact PE2|apply bound12; [exact PE2|nra|now right]|now left].
  - split; [rewrite boost_minv, X3 by (try exact g2; now right); rewrite <- Q3; ring|].
    apply (boost_pos M ED2 PD2 HM' D2 R2); [exact PE3|apply bound34; [exact PE3|nra|now right]|now right].
  - split; [rewrite boost_minv, X3 by (try exact g2; now left); rewrite <- Q4; ring|].
    apply (boost_pos M ED2 PD2 HM' D2 R2); [exact PE4|apply bound34; [exact PE4|nra|now left]|now right].
  - pose proof (e_sum m12 m1 m2 A) as S1. pose proof (e_sum m34 m3 m4 B) as S3. fold E1 E2 in S1. fold E3 E4 in S3. pose proof same_momentum as SM.
    unfold vadd, rotR, boostR, at_rest. cbn [vx vy vz ve]. f_equal.
    + replace (ED1 / M * (1 * cos12 * k1 + PD1 / ED1 * E1) + ED1 / M * (-1 * cos12 * k1 + PD1 / ED1 * E2) + (ED2 / M * (-1 * cos34 * k3 + - PD2 / ED2 * E3) + ED2 / M * (1 * cos34 * k3 + - PD2 / ED2 * E4)))
        with ((PD1 * (E1 + E2) - PD2 * (E3 + E4)) / M) by (field; lra). rewrite S1, S3, SM. field. lra.
    + ring.
    + ring.
    + replace (ED1 / M * (E1 + PD1 / ED1 * (1 * cos12 * k1)) + ED1 / M * (E2 + PD1 / ED1 * (-1 * cos12 * k1)) + (ED2 / M * (E3 + - PD2 / ED2 * (-1 * cos34 * k3)) + ED2 / M * (E4 + - PD2 / ED2 * (1 * cos34 * k3))))
        with ((ED1 * (E1 + E2) + ED2 * (E3 + E4)) / M) by (field; lra). rewrite S1, S3. unfold ED1, ED2. field. lra.
  - pose proof (e_sum m12 m1 m2 A) as S1. fold E1 E2 in S1. unfold minv, vadd, rotR, boostR. cbn [vx vy vz ve].
    match goal with |- ?l = _ => replace l with ((ED1 / M * (ED1 / M) * (1 - PD1 / ED1 * (PD1 / ED1))) * (E1 + E2) ^ 2) by ring end. rewrite g1, S1. ring.
  - pose proof (e_sum m34 m3 m4 B) as S3. fold E3 E4 in S3. unfold minv, vadd, rotR, boostR. cbn [vx vy vz ve].
    match goal with |- ?l = _ => replace l with ((ED2 / M * (ED2 / M) * (1 - - PD2 / ED2 * (- PD2 / ED2))) * (E3 + E4) ^ 2) by ring end. rewrite g2, S3. ring.
Qed.
End Four.
