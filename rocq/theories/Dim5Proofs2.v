(** Round trips between the five variables and the four momenta. *)
From Coq Require Import List ZArith Reals Lra Psatz Bool Lia.
From Verif Require Import FormulaSpec KinModel KinSpec KinProofs KinProofs2 Dim5Model Dim5Spec Dim5Proofs.
From Verif Require LeafGen.
Open Scope R_scope.

Lemma sq_zero : forall x, x * x = 0 -> x = 0. Proof. intros x H. apply Rsqr_0_uniq. exact H. Qed.
(** ** Variables of explicit momenta *)
Lemma hel_val : forall M E P m e k c mm, P * P = E * E - M * M -> k * k = e * e - mm * mm -> 0 < P -> 0 < k -> 0 < m ->
  ((E * e + P * c * k) * (m * m) - E * m * (m * e)) / sqrt ((E * m * (E * m) - m * m * (M * M)) * (m * e * (m * e) - m * m * (mm * mm))) = c.
Proof.
  intros M E P m e k c mm HP HK P0 K0 M0.
  replace ((E * m * (E * m) - m * m * (M * M)) * (m * e * (m * e) - m * m * (mm * mm))) with ((m * m * (P * k)) * (m * m * (P * k))).
  2:{ replace (m * m * (P * k) * (m * m * (P * k))) with (m * m * (m * m) * (P * P) * (k * k)) by ring. rewrite HP, HK. ring. }
  rewrite sqrt_square by (apply Rlt_le; repeat apply Rmult_lt_0_compat; assumption). field. lra.
Qed.
Lemma phi_explicit : forall P Y Z f x1 x2 x3 x4 e1 e2 e3 e4, x1 + x2 = P -> x3 + x4 = - P -> 0 < P -> 0 < Y -> 0 < Z ->
  let p1 := mkV x1 (cos f * Y) (sin f * Y) e1 in let p2 := mkV x2 (cos f * - Y) (sin f * - Y) e2 in
  let p3 := mkV x3 (- Z) 0 e3 in let p4 := mkV x4 Z 0 e4 in
  plane p1 p2 /\ plane p3 p4 /\ cp_of p1 p2 p3 p4 = cos f /\ sp_of p1 p2 p3 p4 = sin f.
Proof.
  intros P Y Z f x1 x2 x3 x4 e1 e2 e3 e4 H1 H2 P0 Y0 Z0 p1 p2 p3 p4.
  assert (TR : sin f * sin f = 1 - cos f * cos f) by (pose proof (sin2_cos2 f) as T; unfold Rsqr in T; lra).
  assert (PY : 0 < P * Y) by (now apply Rmult_lt_0_compat). assert (PZ : 0 < P * Z) by (now apply Rmult_lt_0_compat).
  assert (A : cross3 p1 p2 = mkV 0 (P * Y * sin f) (- (P * Y * cos f)) 0).
  { unfold cross3, p1, p2. cbn [vx vy vz ve]. rewrite <- H1. f_equal; ring. }
  assert (B : cross3 p3 p4 = mkV 0 0 (- (P * Z)) 0).
  { unfold cross3, p3, p4. cbn [vx vy vz ve]. replace P with (- (x3 + x4)) by lra. f_equal; ring. }
  assert (LA : len3 (cross3 p1 p2) = P * Y).
  { rewrite A. unfold len3, dot3. cbn [vx vy vz]. replace (0 * 0 + P * Y * sin f * (P * Y * sin f) + - (P * Y * cos f) * - (P * Y * cos f)) with (P * Y * (P * Y) * (sin f * sin f + cos f * cos f)) by ring.
    rewrite TR. replace (1 - cos f * cos f + cos f * cos f) with 1 by ring. rewrite Rmult_1_r. apply sqrt_square. lra. }
  assert (LB : len3 (cross3 p3 p4) = P * Z).
  { rewrite B. unfold len3, dot3. cbn [vx vy vz]. replace (0 * 0 + 0 * 0 + - (P * Z) * - (P * Z)) with (P * Z * (P * Z)) by ring. apply sqrt_square. lra. }
  assert (LH : len3 (vadd p3 p4) = P).
  { unfold len3, dot3, vadd, p3, p4. cbn [vx vy vz]. rewrite H2. replace (- P * - P + (- Z + Z) * (- Z + Z) + (0 + 0) * (0 + 0)) with (P * P) by ring. apply sqrt_square. lra. }
  split; [|split; [|split]].
  - unfold plane. intro E. assert (len3 (cross3 p1 p2) * len3 (cross3 p1 p2) = 0) by (rewrite len3_sq, cross_sq; lra). rewrite LA in H. apply sq_zero in H. lra.
  - unfold plane. intro E. assert (len3 (cross3 p3 p4) * len3 (cross3 p3 p4) = 0) by (rewrite len3_sq, cross_sq; lra). rewrite LB in H. apply sq_zero in H. lra.
  - unfold cp_of. rewrite LA, LB, A, B. unfold dot3. cbn [vx vy vz]. field. lra.
  - unfold sp_of. rewrite LA, LB, LH, A, B. unfold triple, vadd, p3, p4. cbn [vx vy vz]. rewrite H2. field. lra.
Qed.

Section Four.
Variables M m12 m34 m1 m2 m3 m4 cos12 cos34 phi : R.
Hypothesis HF : four_body M m12 m34 m1 m2 m3 m4.
Hypothesis G0 : m12 + m34 < M. Hypothesis G1 : m1 + m2 < m12. Hypothesis G2 : m3 + m4 < m34.
Hypothesis HC : cos12 * cos12 < 1. Hypothesis HD : cos34 * cos34 < 1. Hypothesis HPHI : - PI < phi <= PI.
Let E1 := (m12 * m12 + m1 * m1 - m2 * m2) / (2 * m12).
Let E2 := (m12 * m12 - m1 * m1 + m2 * m2) / (2 * m12).
Let E3 := (m34 * m34 + m3 * m3 - m4 * m4) / (2 * m34).
Let E4 := (m34 * m34 - m3 * m3 + m4 * m4) / (2 * m34).
Let k1 := sqrt (E1 * E1 - m1 * m1).
Let k3 := sqrt (E3 * E3 - m3 * m3).
Let s12 := sqrt (1 - cos12 * cos12).
Let s34 := sqrt (1 - cos34 * cos34).
Let ED1 := (M * M + m12 * m12 - m34 * m34) / (2 * m12).
Let ED2 := (M * M - m12 * m12 + m34 * m34) / (2 * m34).
Let PD1 := sqrt (ED1 * ED1 - M * M).
Let PD2 := sqrt (ED2 * ED2 - M * M).
Lemma strict : forall m a b, 0 < m -> 0 <= a -> 0 <= b -> a + b < m -> 0 < sqrt ((m * m + a * a - b * b) / (2 * m) * ((m * m + a * a - b * b) / (2 * m)) - a * a).
Proof.
  intros m a b Hm Ha Hb Hs. apply sqrt_lt_R0.
  assert (a < (m * m + a * a - b * b) / (2 * m)).
  { apply (Rmult_lt_reg_r (2 * m)); [lra|]. replace ((m * m + a * a - b * b) / (2 * m) * (2 * m)) with (m * m + a * a - b * b) by (field; lra). nra. }
  nra.
Qed.
Lemma k1_pos : 0 < k1. Proof. destruct HF as (A & B & C & F1 & F2 & _). now apply strict. Qed.
Lemma k3_pos : 0 < k3. Proof. destruct HF as (A & B & C & F1 & F2 & F3 & F4 & _). now apply strict. Qed.
Lemma s12_pos : 0 < s12. Proof. apply sqrt_lt_R0. lra. Qed.
Lemma s34_pos : 0 < s34. Proof. apply sqrt_lt_R0. lra. Qed.
Lemma PD1_pos : 0 < PD1.
Proof.
  destruct HF as (A & B & _). apply sqrt_lt_R0.
  assert (M < ED1).
  { apply (Rmult_lt_reg_r (2 * m12)); [lra|]. replace (ED1 * (2 * m12)) with (M * M + m12 * m12 - m34 * m34) by (unfold ED1; field; lra). nra. }
  nra.
Qed.
Lemma PD2_pos : 0 < PD2.
Proof.
  destruct HF as (A & B & _). apply sqrt_lt_R0.
  assert (M < ED2).
  { apply (Rmult_lt_reg_r (2 * m34)); [lra|]. replace (ED2 * (2 * m34)) with (M * M - m12 * m12 + m34 * m34) by (unfold ED2; field; lra). nra. }
  nra.
Qed.
Lemma boost_form : forall E P x y e, 0 < E -> 0 < M -> boostR (E / M) (P / E) (mkV x y 0 e) = mkV ((E * x + P * e) / M) y 0 ((E * e + P * x) / M).
Proof. intros E P x y e H0 H1. unfold boostR. cbn [vx vy vz ve]. f_equal; field; lra. Qed.
Theorem round_trip : forall W p1 p2 p3 p4,
  get_4_vecs R_ops (R_lib W) m12 m34 cos12 cos34 phi M m1 m2 m3 m4 = (p1, p2, p3, p4) ->
  plane p1 p2 /\ plane p3 p4 /\ dim5 R_ops acos p1 p2 p3 p4 = (m12, m34, cos12, cos34, phi).
Proof.
  intros W p1 p2 p3 p4 H.
  assert (HC' : cos12 * cos12 <= 1) by lra. assert (HD' : cos34 * cos34 <= 1) by lra.
  destruct (four_vectors M m12 m34 m1 m2 m3 m4 cos12 cos34 phi HF HC' HD' W p1 p2 p3 p4 H) as ([S1 _] & [S2 _] & [S3 _] & [S4 _] & SUM & I12 & I34).
  rewrite (vecs_R M m12 m34 m1 m2 m3 m4 cos12 cos34 phi HF W) in H. fold E1 E2 E3 E4 in H. fold k1 k3 s12 s34 ED1 ED2 in H. fold PD1 PD2 in H.
  destruct HF as (A & B & C & F1 & F2 & F3 & F4 & F5 & F6).
  assert (M0 : 0 < M) by lra. pose proof (ED1_ge M m12 m34 m1 m2 m3 m4 HF) as D1. pose proof (ED2_ge M m12 m34 m1 m2 m3 m4 HF) as D2. fold ED1 in D1. fold ED2 in D2.
  pose proof (PD1_sq M m12 m34 m1 m2 m3 m4 HF) as P1S. pose proof (PD2_sq M m12 m34 m1 m2 m3 m4 HF) as P2S. fold ED1 PD1 in P1S. fold ED2 PD2 in P2S. fold PD1 in P1S. fold PD2 in P2S.
  pose proof (k1_sq M m12 m34 m1 m2 m3 m4 HF) as K1S. pose proof (k3_sq M m12 m34 m1 m2 m3 m4 HF) as K3S. fold E1 k1 in K1S. fold E3 k3 in K3S. fold k1 in K1S. fold k3 in K3S.
  pose proof (same_momentum M m12 m34 m1 m2 m3 m4 HF) as SM. fold ED1 ED2 in SM. fold PD1 PD2 in SM.
  pose proof k1_pos. pose proof k3_pos. pose proof s12_pos. pose proof s34_pos. pose proof PD1_pos. pose proof PD2_pos.
  rewrite !boost_form in H by lra. unfold rotR in H. cbn [vx vy vz ve] in H. injection H as V1 V2 V3 V4.
  assert (ES1 : E1 + E2 = m12) by (unfold E1, E2; field; lra). assert (ES2 : E3 + E4 = m34) by (unfold E3, E4; field; lra).
  assert (Q12 : vadd p1 p2 = mkV (PD1 * m12 / M) 0 0 (ED1 * m12 / M)).
  { rewrite <- V1, <- V2, <- ES1. unfold vadd. cbn [vx vy vz ve]. f_equal; field; lra. }
  assert (Q34 : vadd p3 p4 = mkV (- PD2 * m34 / M) 0 0 (ED2 * m34 / M)).
  { rewrite <- V3, <- V4, <- ES2. unfold vadd. cbn [vx vy vz ve]. f_equal; field; lra. }
  assert (PHI : plane p1 p2 /\ plane p3 p4 /\ cp_of p1 p2 p3 p4 = cos phi /\ sp_of p1 p2 p3 p4 = sin phi).
  { rewrite <- V1, <- V2, <- V3, <- V4. replace (- s12 * k1) with (- (s12 * k1)) by ring. replace (- s34 * k3) with (- (s34 * k3)) by ring.
    apply (phi_explicit (PD1 * m12 / M)).
    - rewrite <- ES1. field. lra.
    - rewrite SM, <- ES2. field. lra.
    - apply Rmult_lt_0_compat; [now apply Rmult_lt_0_compat|now apply Rinv_0_lt_compat].
    - now apply Rmult_lt_0_compat.
    - now apply Rmult_lt_0_compat. }
  destruct PHI as (PL1 & PL2 & CP & SP). split; [exact PL1|]. split; [exact PL2|].
  assert (PM : vadd (vadd (vadd p1 p2) p3) p4 = at_rest M) by (rewrite <- SUM; unfold vadd; cbn [vx vy vz ve]; f_equal; ring).
  unfold dim5. change (v_add R_ops) with vadd. cbv zeta. rewrite PM. f_equal; [f_equal; [f_equal; [f_equal|]|]|].
  - unfold v_mass, v_mass2. change (v_mul R_ops) with lor. rops. replace (lor (vadd p1 p2) (vadd p1 p2)) with (minv (vadd p1 p2)) by (unfold minv, lor; ring). rewrite I12. replace (m12 ^ 2) with (m12 * m12) by ring. apply sqrt_square. lra.
  - unfold v_mass, v_mass2. change (v_mul R_ops) with lor. rops. replace (lor (vadd p3 p4) (vadd p3 p4)) with (minv (vadd p3 p4)) by (unfold minv, lor; ring). rewrite I34. replace (m34 ^ 2) with (m34 * m34) by ring. apply sqrt_square. lra.
  - unfold cos_helang, v_mass2. change (v_mul R_ops) with lor. cbv zeta. rops.
    replace (lor (at_rest M) p1) with (ED1 * E1 + PD1 * cos12 * k1) by (rewrite <- V1; unfold lor, at_rest; cbn [vx vy vz ve]; field; lra).
    replace (lor (at_rest M) (vadd p1 p2)) with (ED1 * m12) by (rewrite Q12; unfold lor, at_rest; cbn [vx vy vz ve]; field; lra).
    replace (lor (vadd p1 p2) p1) with (m12 * E1).
    2:{ rewrite Q12, <- V1. unfold lor. cbn [vx vy vz ve]. transitivity ((ED1 * ED1 - PD1 * PD1) * (m12 * E1) / (M * M)); [rewrite P1S; field; lra|field; lra]. }
    replace (lor (vadd p1 p2) (vadd p1 p2)) with (m12 * m12) by (transitivity (minv (vadd p1 p2)); [rewrite I12; ring|unfold minv, lor; ring]).
    replace (lor p1 p1) with (m1 * m1) by (transitivity (minv p1); [rewrite S1; ring|unfold minv, lor; ring]).
    replace (lor (at_rest M) (at_rest M)) with (M * M) by (unfold lor, at_rest; cbn [vx vy vz ve]; ring).
    apply (hel_val M ED1 PD1 m12 E1 k1 cos12 m1); assumption.
  - unfold cos_helang, v_mass2. change (v_mul R_ops) with lor. cbv zeta. rops.
    replace (lor (at_rest M) p3) with (ED2 * E3 + PD2 * cos34 * k3) by (rewrite <- V3; unfold lor, at_rest; cbn [vx vy vz ve]; field; lra).
    replace (lor (at_rest M) (vadd p3 p4)) with (ED2 * m34) by (rewrite Q34; unfold lor, at_rest; cbn [vx vy vz ve]; field; lra).
    replace (lor (vadd p3 p4) p3) with (m34 * E3).
    2:{ rewrite Q34, <- V3. unfold lor. cbn [vx vy vz ve]. transitivity ((ED2 * ED2 - PD2 * PD2) * (m34 * E3) / (M * M)); [rewrite P2S; field; lra|field; lra]. }
    replace (lor (vadd p3 p4) (vadd p3 p4)) with (m34 * m34) by (transitivity (minv (vadd p3 p4)); [rewrite I34; ring|unfold minv, lor; ring]).
    replace (lor p3 p3) with (m3 * m3) by (transitivity (minv p3); [rewrite S3; ring|unfold minv, lor; ring]).
    replace (lor (at_rest M) (at_rest M)) with (M * M) by (unfold lor, at_rest; cbn [vx vy vz ve]; ring).
    apply (hel_val M ED2 PD2 m34 E3 k3 cos34 m3); assumption.
  - destruct (phi5_angle p1 p2 p3 p4 PL1 PL2 ltac:(now exists M)) as (X & Y & Z). apply angle_unique; [exact X|exact HPHI|now rewrite Y|now rewrite Z].
Qed.
End Four.
