(** Kinematics: the Dalitz boundary, and the four vectors. *)
From Coq Require Import List ZArith Reals Lra Psatz Bool.
From Verif Require Import FormulaSpec KinModel KinSpec.
From Verif Require LeafGen.
Import ListNotations.
Open Scope R_scope.

Lemma sq_le : forall a b, 0 <= b -> a ^ 2 <= b ^ 2 -> a <= b.
Proof. intros a b Hb H. destruct (Rle_dec a b); [assumption|]. exfalso. nra. Qed.
Lemma cauchy3 : forall a b c x y z, (a * x + b * y + c * z) ^ 2 <= (a ^ 2 + b ^ 2 + c ^ 2) * (x ^ 2 + y ^ 2 + z ^ 2).
Proof.
  intros. assert (E : (a ^ 2 + b ^ 2 + c ^ 2) * (x ^ 2 + y ^ 2 + z ^ 2) - (a * x + b * y + c * z) ^ 2 = (a * y - b * x) ^ 2 + (a * z - c * x) ^ 2 + (b * z - c * y) ^ 2) by ring.
  pose proof (pow2_ge_0 (a * y - b * x)). pose proof (pow2_ge_0 (a * z - c * x)). pose proof (pow2_ge_0 (b * z - c * y)). lra.
Qed.
Lemma energies : forall m n a b d e f, 0 <= m -> 0 <= n -> 0 <= e -> 0 <= f -> 0 <= a -> 0 <= b -> e ^ 2 = m ^ 2 + a -> f ^ 2 = n ^ 2 + b -> d ^ 2 <= a * b -> m * n + d <= e * f.
Proof.
  intros m n a b d e f Hm Hn He Hf Ha Hb Ee Ef Hd. apply sq_le; [now apply Rmult_le_pos|].
  replace ((e * f) ^ 2) with ((m ^ 2 + a) * (n ^ 2 + b)) by (rewrite <- Ee, <- Ef; ring).
  assert (X : 2 * (m * n) * d <= m ^ 2 * b + n ^ 2 * a).
  { apply sq_le. - pose proof (pow2_ge_0 m). pose proof (pow2_ge_0 n). assert (0 <= m ^ 2 * b) by (apply Rmult_le_pos; lra). assert (0 <= n ^ 2 * a) by (apply Rmult_le_pos; lra). lra.
    - replace ((2 * (m * n) * d) ^ 2) with (4 * (m * n) ^ 2 * d ^ 2) by ring.
      assert (4 * (m * n) ^ 2 * d ^ 2 <= 4 * (m * n) ^ 2 * (a * b)) by (apply Rmult_le_compat_l; [pose proof (pow2_ge_0 (m * n)); lra|exact Hd]).
      assert (Q : (m ^ 2 * b + n ^ 2 * a) ^ 2 - 4 * (m * n) ^ 2 * (a * b) = (m ^ 2 * b - n ^ 2 * a) ^ 2) by ring. pose proof (pow2_ge_0 (m ^ 2 * b - n ^ 2 * a)). lra. }
  replace ((m * n + d) ^ 2) with ((m * n) ^ 2 + 2 * (m * n) * d + d ^ 2) by ring. replace ((m ^ 2 + a) * (n ^ 2 + b)) with ((m * n) ^ 2 + (m ^ 2 * b + n ^ 2 * a) + a * b) by ring. lra.
Qed.
Lemma pair_bound : forall p q m n, 0 <= m -> 0 <= n -> on_shell p m -> on_shell q n -> (m + n) ^ 2 <= minv (vadd p q).
Proof.
  intros p q m n Hm Hn [Ep Pp] [Eq Pq]. unfold minv, vadd in *. cbn [vx vy vz ve].
  pose proof (energies m n (vx p ^ 2 + vy p ^ 2 + vz p ^ 2) (vx q ^ 2 + vy q ^ 2 + vz q ^ 2) (vx p * vx q + vy p * vy q + vz p * vz q) (ve p) (ve q) Hm Hn Pp Pq) as H.
  assert (m * n + (vx p * vx q + vy p * vy q + vz p * vz q) <= ve p * ve q).
  { apply H; try lra.
    - pose proof (pow2_ge_0 (vx p)). pose proof (pow2_ge_0 (vy p)). pose proof (pow2_ge_0 (vz p)). lra.
    - pose proof (pow2_ge_0 (vx q)). pose proof (pow2_ge_0 (vy q)). pose proof (pow2_ge_0 (vz q)). lra.
    - apply cauchy3. }
  lra.
Qed.
Lemma pair_bound0 : forall p m, 0 <= m -> on_shell p m -> m <= ve p.
Proof.
  intros p m Hm [E P]. apply sq_le; [exact P|]. unfold minv in E. pose proof (pow2_ge_0 (vx p)). pose proof (pow2_ge_0 (vy p)). pose proof (pow2_ge_0 (vz p)). lra.
Qed.

(** ** inDalitz as inequalities *)
Lemma Rltb_neg : forall x y, negb (Rltb x y) = true <-> y <= x.
Proof. intros x y. unfold Rltb. destruct (Rlt_dec x y); cbn; split; intro; try discriminate; try lra; reflexivity. Qed.
Section Dalitz.
Variables M m1 m2 m3 s12 s13 : R.
Hypothesis HM : 0 < M. Hypothesis H1 : 0 <= m1. Hypothesis H2 : 0 <= m2. Hypothesis H3 : 0 <= m3. Hypothesis HS : m1 + m2 + m3 <= M.
Let s23 := M * M + m1 * m1 + m2 * m2 + m3 * m3 - s12 - s13.
Let s := sqrt s12.
Let e1 := / 2 * (s12 - m2 * m2 + m1 * m1) / s.
Let e3 := / 2 * (M * M - s12 - m3 * m3) / s.
Let D := (e1 + e3) * (e1 + e3) - (e1 * e1 - m1 * m1) - (e3 * e3 - m3 * m3) - s13.
Lemma in_dalitz_R : 0 < s12 -> LeafGen.in_dalitz R_ops s12 s13 M m1 m2 m3 = true <->
  (m1 + m2) ^ 2 <= s12 <= (M - m3) ^ 2 /\ 0 <= s23 <= (M - m1) ^ 2 /\ D ^ 2 <= 4 * (e1 * e1 - m1 * m1) * (e3 * e3 - m3 * m3).
Proof.
  intro P. unfold LeafGen.in_dalitz. cbn [LeafGen.o_add LeafGen.o_sub LeafGen.o_mul LeafGen.o_div LeafGen.o_sqrt LeafGen.o_lt LeafGen.o_zero LeafGen.o_half R_ops].
  fold s23 s. change (/ 2 * (s12 - m2 * m2 + m1 * m1) / s) with e1. change (/ 2 * (M * M - s12 - m3 * m3) / s) with e3.
  assert (Ps : 0 < s) by now apply sqrt_lt_R0. assert (Es : s * s = s12) by (apply sqrt_sqrt; lra).
  assert (BB : (m1 + m2) ^ 2 <= s12 <= (M - m3) ^ 2 -> 0 <= e1 * e1 - m1 * m1 /\ 0 <= e3 * e3 - m3 * m3).
  { intros [L1 L2]. assert (m1 + m2 <= s) by (apply sq_le; [lra|]; replace (s ^ 2) with s12 by (rewrite <- Es; ring); exact L1).
    assert (s <= M - m3) by (apply sq_le; [lra|]; replace (s ^ 2) with s12 by (rewrite <- Es; ring); exact L2).
    assert (m1 <= e1). { apply (Rmult_le_reg_r s); [exact Ps|]. replace (e1 * s) with (/ 2 * (s12 - m2 * m2 + m1 * m1)) by (unfold e1; field; lra). rewrite <- Es. nra. }
    assert (m3 <= e3). { apply (Rmult_le_reg_r s); [exact Ps|]. replace (e3 * s) with (/ 2 * (M * M - s12 - m3 * m3)) by (unfold e3; field; lra). rewrite <- Es. nra. }
    split; nra. }
  set (a := e1 * e1 - m1 * m1) in *. set (b := e3 * e3 - m3 * m3) in *.
  destruct (Rltb s23 0 || Rltb ((M - m1) * (M - m1)) s23) eqn:C.
  - split; [discriminate|]. intros (_ & B & _). exfalso. apply orb_prop in C. unfold Rltb in C.
    destruct (Rlt_dec s23 0); [lra|]. destruct (Rlt_dec ((M - m1) * (M - m1)) s23); [|destruct C; discriminate]. cbn in B. nra.
  - apply orb_false_elim in C. destruct C as [C1 C2]. unfold Rltb in C1, C2. destruct (Rlt_dec s23 0); [discriminate|]. destruct (Rlt_dec ((M - m1) * (M - m1)) s23); [discriminate|].
    rewrite !andb_true_iff, !Rltb_neg.
    assert (SQ : 0 <= a -> 0 <= b -> ((e1 + e3) * (e1 + e3) - (sqrt a + sqrt b) * (sqrt a + sqrt b) <= s13 /\ s13 <= (e1 + e3) * (e1 + e3) - (sqrt a - sqrt b) * (sqrt a - sqrt b)) <-> D ^ 2 <= 4 * a * b).
    { intros Ha Hb. pose proof (sqrt_sqrt a Ha) as Sa. pose proof (sqrt_sqrt b Hb) as Sb. pose proof (sqrt_pos a). pose proof (sqrt_pos b). set (x := sqrt a) in *. set (y := sqrt b) in *.
      assert (ED : D = (e1 + e3) * (e1 + e3) - x * x - y * y - s13) by (unfold D; fold a b; rewrite <- Sa, <- Sb; ring).
      assert (XY : 0 <= x * y) by now apply Rmult_le_pos.
      replace (4 * a * b) with ((2 * (x * y)) ^ 2) by (rewrite <- Sa, <- Sb; ring).
      split; intro Q.
      - assert (- (2 * (x * y)) <= D <= 2 * (x * y)) by lra. nra.
      - assert (D <= 2 * (x * y)) by (apply sq_le; [lra|exact Q]). assert (- D <= 2 * (x * y)) by (apply sq_le; [lra|]; replace ((- D) ^ 2) with (D ^ 2) by ring; exact Q). lra. }
    split.
    + intros (((L1 & L2) & L3) & L4). assert (L : (m1 + m2) ^ 2 <= s12 <= (M - m3) ^ 2) by lra. destruct (BB L) as [Ha Hb].
      split; [exact L|]. split; [cbn; lra|]. apply (SQ Ha Hb). split; assumption.
    + intros (L & B & Q). destruct (BB L) as [Ha Hb]. apply (SQ Ha Hb) in Q. destruct Q. repeat split; try assumption; lra.
Qed.
Lemma not_dalitz : s12 < (m1 + m2) ^ 2 -> LeafGen.in_dalitz R_ops s12 s13 M m1 m2 m3 = false.
Proof.
  intro H. unfold LeafGen.in_dalitz. cbn [LeafGen.o_add LeafGen.o_sub LeafGen.o_mul LeafGen.o_div LeafGen.o_sqrt LeafGen.o_lt LeafGen.o_zero LeafGen.o_half R_ops].
  destruct (_ || _); [reflexivity|]. assert (C : Rltb s12 ((m1 + m2) * (m1 + m2)) = true) by (unfold Rltb; destruct (Rlt_dec s12 ((m1 + m2) * (m1 + m2))); [reflexivity|lra]).
  rewrite C. reflexivity.
Qed.
(** Energies and momenta in the rest frame of the mother. *)
Let E1 := (M * M + m1 * m1 - s23) / (2 * M).
Let E3 := (M * M + m3 * m3 - s12) / (2 * M).
Let q := E1 * E3 - (s13 - m1 * m1 - m3 * m3) / 2.
Lemma gram : 0 < s12 -> s12 * (4 * (e1 * e1 - m1 * m1) * (e3 * e3 - m3 * m3) - D ^ 2) = 4 * M ^ 2 * ((E1 ^ 2 - m1 ^ 2) * (E3 ^ 2 - m3 ^ 2) - q ^ 2).
Proof.
  intro P. assert (Ps : 0 < s) by now apply sqrt_lt_R0. assert (Es : s12 = s * s) by (symmetry; apply sqrt_sqrt; lra).
  unfold D, q, E1, E3, e1, e3, s23. fold s. rewrite Es. field. lra.
Qed.
Lemma dalitz_accepts : dalitz_point M m1 m2 m3 s12 s13 -> 0 < s12 -> LeafGen.in_dalitz R_ops s12 s13 M m1 m2 m3 = true.
Proof.
  intros (p1 & p2 & p3 & S1 & S2 & S3 & SUM & E12 & E13) P. apply in_dalitz_R; [exact P|].
  unfold vadd, at_rest in SUM. cbn [vx vy vz ve] in SUM. injection SUM as X Y Z E.
  pose proof (pair_bound _ _ _ _ H1 H2 S1 S2) as B12. pose proof (pair_bound _ _ _ _ H2 H3 S2 S3) as B23.
  pose proof (pair_bound0 _ _ H1 S1) as L1. pose proof (pair_bound0 _ _ H3 S3) as L3.
  destruct S1 as [S1 _]. destruct S2 as [S2 _]. destruct S3 as [S3 _]. unfold minv, vadd in *. cbn [vx vy vz ve] in *.
  destruct p1 as [x1 y1 z1 t1], p2 as [x2 y2 z2 t2], p3 as [x3 y3 z3 t3]. cbn [vx vy vz ve] in *.
  assert (x2 = - x1 - x3) by lra. assert (y2 = - y1 - y3) by lra. assert (z2 = - z1 - z3) by lra. assert (t2 = M - t1 - t3) by lra. subst x2 y2 z2 t2.
  assert (F12 : s12 = M * M + m3 * m3 - 2 * M * t3) by (rewrite <- E12; ring_simplify; lra).
  assert (F23 : s23 = M * M + m1 * m1 - 2 * M * t1) by (unfold s23; rewrite <- E12, <- E13; ring_simplify; lra).
  assert (G1 : E1 = t1) by (unfold E1; rewrite F23; field; lra). assert (G3 : E3 = t3) by (unfold E3; rewrite F12; field; lra).
  assert (Gq : q = x1 * x3 + y1 * y3 + z1 * z3) by (unfold q; rewrite G1, G3; rewrite <- E13; ring_simplify; lra).
  split; [|split].
  - split; [rewrite <- E12; exact B12|]. rewrite F12. nra.
  - split; [|rewrite F23; nra]. assert (s23 = (M - t1 - t3 + t3) ^ 2 - (- x1 - x3 + x3) ^ 2 - (- y1 - y3 + y3) ^ 2 - (- z1 - z3 + z3) ^ 2) by (rewrite F23; ring_simplify; lra).
    pose proof (pow2_ge_0 (m2 + m3)). lra.
  - pose proof (gram P) as G. rewrite G1, G3, Gq in G. pose proof (cauchy3 x1 y1 z1 x3 y3 z3) as CS.
    assert (Q : 0 <= (t1 ^ 2 - m1 ^ 2) * (t3 ^ 2 - m3 ^ 2) - (x1 * x3 + y1 * y3 + z1 * z3) ^ 2).
    { replace (t1 ^ 2 - m1 ^ 2) with (x1 ^ 2 + y1 ^ 2 + z1 ^ 2) by lra. replace (t3 ^ 2 - m3 ^ 2) with (x3 ^ 2 + y3 ^ 2 + z3 ^ 2) by lra. lra. }
    assert (0 <= 4 * M ^ 2 * ((t1 ^ 2 - m1 ^ 2) * (t3 ^ 2 - m3 ^ 2) - (x1 * x3 + y1 * y3 + z1 * z3) ^ 2)) by (apply Rmult_le_pos; [pose proof (pow2_ge_0 M); lra|exact Q]).
    rewrite <- G in H. set (w := 4 * (e1 * e1 - m1 * m1) * (e3 * e3 - m3 * m3) - D ^ 2) in *. assert (0 <= w); [|unfold w in *; lra].
    destruct (Rle_dec 0 w); [assumption|]. exfalso. nra.
Qed.
Lemma two_vectors : forall a b c, 0 <= a -> 0 <= b -> c ^ 2 <= a * b -> exists x u v : R, x ^ 2 = a /\ x * u = c /\ u ^ 2 + v ^ 2 = b.
Proof.
  intros a b c Ha Hb H. destruct (Req_dec a 0) as [->|Na].
  - exists 0, (sqrt b), 0. assert (c = 0) by nra. subst c. rewrite pow2_sqrt by assumption. repeat split; ring.
  - assert (Pa : 0 < a) by lra. pose proof (sqrt_lt_R0 a Pa) as Pr. assert (Sa : sqrt a ^ 2 = a) by (apply pow2_sqrt; lra).
    exists (sqrt a), (c / sqrt a), (sqrt (b - c ^ 2 / a)).
    assert (PB : 0 <= b - c ^ 2 / a). { apply (Rmult_le_reg_r a); [exact Pa|]. replace ((b - c ^ 2 / a) * a) with (a * b - c ^ 2) by (field; lra). lra. }
    split; [exact Sa|]. split; [field; lra|]. rewrite (pow2_sqrt (b - c ^ 2 / a)) by exact PB.
    replace ((c / sqrt a) ^ 2) with (c ^ 2 / sqrt a ^ 2) by (field; lra). rewrite Sa. field. lra.
Qed.
Lemma dalitz_exists : LeafGen.in_dalitz R_ops s12 s13 M m1 m2 m3 = true -> 0 < s12 -> dalitz_point M m1 m2 m3 s12 s13.
Proof.
  intros A P. apply in_dalitz_R in A; [|exact P]. destruct A as ([L1 L2] & [L3 L4] & Q).
  assert (NM : m3 < M). { destruct (Req_dec M m3) as [EM|]; [rewrite EM in L2; replace ((m3 - m3) ^ 2) with 0 in L2 by ring; lra|lra]. }
  assert (I1 : m1 <= E1) by (apply (Rmult_le_reg_r (2 * M)); [lra|]; replace (E1 * (2 * M)) with (M * M + m1 * m1 - s23) by (unfold E1; field; lra); nra).
  assert (I3 : m3 <= E3) by (apply (Rmult_le_reg_r (2 * M)); [lra|]; replace (E3 * (2 * M)) with (M * M + m3 * m3 - s12) by (unfold E3; field; lra); nra).
  assert (K1 : 2 * M * E1 = M * M + m1 * m1 - s23) by (unfold E1; field; lra). assert (K3 : 2 * M * E3 = M * M + m3 * m3 - s12) by (unfold E3; field; lra).
  assert (Kq : s13 = m1 * m1 + m3 * m3 + 2 * (E1 * E3) - 2 * q) by (unfold q; field).
  assert (G : 0 <= (E1 ^ 2 - m1 ^ 2) * (E3 ^ 2 - m3 ^ 2) - q ^ 2).
  { pose proof (gram P) as G. assert (0 <= s12 * (4 * (e1 * e1 - m1 * m1) * (e3 * e3 - m3 * m3) - D ^ 2)) by (apply Rmult_le_pos; lra). rewrite G in H.
    assert (0 < 4 * M ^ 2) by (assert (0 < M ^ 2) by (apply pow_lt; exact HM); lra). set (w := (E1 ^ 2 - m1 ^ 2) * (E3 ^ 2 - m3 ^ 2) - q ^ 2) in *. destruct (Rle_dec 0 w); [assumption|]. exfalso. nra. }
  assert (PA : 0 <= E1 ^ 2 - m1 ^ 2) by nra. assert (PB : 0 <= E3 ^ 2 - m3 ^ 2) by nra.
  destruct (two_vectors (E1 ^ 2 - m1 ^ 2) (E3 ^ 2 - m3 ^ 2) q PA PB ltac:(lra)) as (x & u & v & Ex & Eu & Ev).
  set (E2 := M - E1 - E3). assert (EE2 : E2 ^ 2 - (x + u) ^ 2 - v ^ 2 = m2 ^ 2).
  { unfold E2. replace ((M - E1 - E3) ^ 2) with (M * M + E1 ^ 2 + E3 ^ 2 - 2 * M * E1 - 2 * M * E3 + 2 * (E1 * E3)) by ring. rewrite K1, K3. replace ((x + u) ^ 2) with (x ^ 2 + u ^ 2 + 2 * (x * u)) by ring. rewrite Eu.
    unfold s23. rewrite Ex. assert (u ^ 2 = E3 ^ 2 - m3 ^ 2 - v ^ 2) by lra. rewrite H, Kq. ring. }
  assert (T12 : (M - E3) ^ 2 - u ^ 2 - v ^ 2 = s12). { replace ((M - E3) ^ 2) with (M * M - 2 * M * E3 + E3 ^ 2) by ring. rewrite K3. lra. }
  assert (PE : 0 <= E2).
  { destruct (Rle_dec 0 E2) as [|NE]; [assumption|]. exfalso. apply Rnot_le_lt in NE.
    assert (P12 : 0 < M - E3). { apply (Rmult_lt_reg_r (2 * M)); [lra|]. replace ((M - E3) * (2 * M)) with (2 * M * M - 2 * M * E3) by ring. rewrite K3. nra. }
    assert (DD : 2 * ((M - E3) * E2 - (u * (x + u) + v * v)) = s12 + m2 ^ 2 - m1 ^ 2).
    { unfold E2. replace (2 * ((M - E3) * (M - E1 - E3) - (u * (x + u) + v * v))) with ((M - E3) ^ 2 - u ^ 2 - v ^ 2 + (M * M + E1 ^ 2 + E3 ^ 2 - 2 * M * E1 - 2 * M * E3 + 2 * (E1 * E3) - (x ^ 2 + u ^ 2 + v ^ 2 + 2 * (x * u))) - (E1 ^ 2 - x ^ 2)) by ring.
      rewrite T12. replace (M * M + E1 ^ 2 + E3 ^ 2 - 2 * M * E1 - 2 * M * E3 + 2 * (E1 * E3) - (x ^ 2 + u ^ 2 + v ^ 2 + 2 * (x * u))) with (E2 ^ 2 - (x + u) ^ 2 - v ^ 2) by (unfold E2; ring). rewrite EE2, Ex. ring. }
    assert (0 <= s12 + m2 ^ 2 - m1 ^ 2) by nra.
    set (k := - (u * (x + u) + v * v)). assert (K : (M - E3) * - E2 <= k) by (unfold k; lra).
    assert (0 < (M - E3) * - E2) by (apply Rmult_lt_0_compat; lra).
    assert (CS : k ^ 2 <= (u ^ 2 + v ^ 2) * ((x + u) ^ 2 + v ^ 2)).
    { unfold k. pose proof (cauchy3 u v 0 (x + u) v 0) as C. replace ((- (u * (x + u) + v * v)) ^ 2) with ((u * (x + u) + v * v + 0 * 0) ^ 2) by ring.
      replace ((u ^ 2 + v ^ 2) * ((x + u) ^ 2 + v ^ 2)) with ((u ^ 2 + v ^ 2 + 0 ^ 2) * ((x + u) ^ 2 + v ^ 2 + 0 ^ 2)) by ring. exact C. }
    assert (X1 : ((M - E3) * - E2) ^ 2 <= k ^ 2) by nra.
    assert (B1 : u ^ 2 + v ^ 2 < (M - E3) ^ 2) by lra. assert (B2 : (x + u) ^ 2 + v ^ 2 <= E2 ^ 2) by (pose proof (pow2_ge_0 m2); lra).
    assert (0 < E2 ^ 2) by nra. assert (0 <= u ^ 2 + v ^ 2) by (pose proof (pow2_ge_0 u); pose proof (pow2_ge_0 v); lra).
    assert ((u ^ 2 + v ^ 2) * ((x + u) ^ 2 + v ^ 2) <= (u ^ 2 + v ^ 2) * E2 ^ 2) by (apply Rmult_le_compat_l; assumption).
    assert ((u ^ 2 + v ^ 2) * E2 ^ 2 < (M - E3) ^ 2 * E2 ^ 2) by (apply Rmult_lt_compat_r; assumption).
    assert (((M - E3) * - E2) ^ 2 = (M - E3) ^ 2 * E2 ^ 2) by ring. lra. }
  exists (mkV x 0 0 E1), (mkV (- x - u) (- v) 0 E2), (mkV u v 0 E3). unfold on_shell, vadd, at_rest, minv. cbn [vx vy vz ve].
  split; [split; [rewrite Ex; ring|lra]|]. split; [split; [rewrite <- EE2; ring|exact PE]|].
  split; [split; [lra|lra]|]. split; [f_equal; unfold E2; ring|]. split.
  - rewrite <- T12. unfold E2. ring.
  - rewrite Kq. replace ((E1 + E3) ^ 2) with (E1 ^ 2 + E3 ^ 2 + 2 * (E1 * E3)) by ring. replace ((x + u) ^ 2) with (x ^ 2 + u ^ 2 + 2 * (x * u)) by ring. rewrite Eu, Ex. assert (u ^ 2 = E3 ^ 2 - m3 ^ 2 - v ^ 2) by lra. rewrite H. ring.
Qed.
End Dalitz.
