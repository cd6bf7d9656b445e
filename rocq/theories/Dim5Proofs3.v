(** The five variables of an event determine it up to a rotation. *)
From Coq Require Import List ZArith Reals Lra Psatz Bool Lia.
From Verif Require Import FormulaSpec KinModel KinSpec KinProofs KinProofs2 Dim5Model Dim5Spec Dim5Proofs Dim5Proofs2.
From Verif Require LeafGen.
Open Scope R_scope.

Lemma lor_minv : forall p, lor p p = minv p. Proof. intros [x y z e]. unfold lor, minv. cbn [vx vy vz ve]. ring. Qed.
Lemma lor_comm : forall p q, lor p q = lor q p. Proof. intros [x y z e] [x' y' z' e']. unfold lor. cbn [vx vy vz ve]. ring. Qed.
Lemma lor_dot : forall p q, lor p q = ve p * ve q - dot3 p q. Proof. intros [x y z e] [x' y' z' e']. unfold lor, dot3. cbn [vx vy vz ve]. ring. Qed.
Lemma dot_shell : forall p m, on_shell p m -> dot3 p p = ve p * ve p - m * m.
Proof. intros p m [H _]. rewrite <- lor_minv, lor_dot in H. lra. Qed.
(** Two particles that are not along one line: their product exceeds the product of the masses. *)
Lemma lor_gt : forall p q m n, 0 <= m -> 0 <= n -> on_shell p m -> on_shell q n -> plane p q -> m * n < lor p q.
Proof.
  intros p q m n Hm Hn Sp Sq H. apply plane_cross_sq in H. pose proof (dot3_nonneg p) as A. pose proof (dot3_nonneg q) as B.
  rewrite lor_dot. pose proof (dot_shell _ _ Sp) as P. pose proof (dot_shell _ _ Sq) as Q. destruct Sp as [_ Ep], Sq as [_ Eq].
  set (a := dot3 p p) in *. set (b := dot3 q q) in *. set (c := dot3 p q) in *.
  assert (X : (m * n + c) * (m * n + c) < ve p * ve q * (ve p * ve q)).
  { replace (ve p * ve q * (ve p * ve q)) with ((ve p * ve p) * (ve q * ve q)) by ring. replace (ve p * ve p) with (a + m * m) by lra. replace (ve q * ve q) with (b + n * n) by lra.
    assert (Y : 2 * (m * n) * c <= a * (n * n) + b * (m * m)).
    { assert (S0 : 0 <= a * (n * n) + b * (m * m)) by (apply Rplus_le_le_0_compat; apply Rmult_le_pos; try assumption; apply Rle_0_sqr).
      apply Rnot_lt_le. intro L. assert (K : (a * (n * n) + b * (m * m)) * (a * (n * n) + b * (m * m)) < 2 * (m * n) * c * (2 * (m * n) * c)) by (apply Rmult_le_0_lt_compat; assumption).
      pose proof (Rle_0_sqr (a * (n * n) - b * (m * m))) as T. unfold Rsqr in T.
      assert (U : 4 * (m * m * (n * n)) * (c ^ 2) <= 4 * (m * m * (n * n)) * (a * b)).
      { apply Rmult_le_compat_l; [|lra]. apply Rmult_le_pos; [lra|]. apply Rmult_le_pos; apply Rle_0_sqr. }
      lra. }
    lra. }
  apply Rnot_le_lt. intro L.
  assert (0 <= ve p * ve q) by (now apply Rmult_le_pos). assert (ve p * ve q * (ve p * ve q) <= (m * n + c) * (m * n + c)) by (apply Rmult_le_compat; lra). lra.
Qed.
Lemma lor_add : forall p q r, lor (vadd p q) r = lor p r + lor q r.
Proof. intros [x y z e] [x' y' z' e'] [u v w t]. unfold lor, vadd. cbn [vx vy vz ve]. ring. Qed.
Lemma minv_add : forall p q, minv (vadd p q) = minv p + minv q + 2 * lor p q.
Proof. intros [x y z e] [x' y' z' e']. unfold lor, vadd, minv. cbn [vx vy vz ve]. ring. Qed.

(** ** One pair of an event: q = a + b, mother at rest *)
Section Pair.
Variables (a b : vec4 R) (m n M : R).
Hypothesis Hm : 0 <= m. Hypothesis Hn : 0 <= n. Hypothesis Sa : on_shell a m. Hypothesis Sb : on_shell b n. Hypothesis PL : plane a b.
Hypothesis HM : 0 < M.
Let q := vadd a b.
Lemma pair_strict : (m + n) * (m + n) < minv q.
Proof. pose proof (lor_gt a b m n Hm Hn Sa Sb PL). unfold q. rewrite minv_add. destruct Sa as [-> _], Sb as [-> _]. lra. Qed.
Lemma pair_pos : 0 < minv q. Proof. pose proof pair_strict. nra. Qed.
Lemma pair_mass : m + n < sqrt (minv q).
Proof. rewrite <- (sqrt_square (m + n)) by lra. apply sqrt_lt_1_alt. split; [nra|exact pair_strict]. Qed.
Lemma pair_lor : lor q a = m * m + lor a b.
Proof. unfold q. rewrite lor_add, lor_minv, (lor_comm b a). destruct Sa as [-> _]. ring. Qed.
Lemma pair_mom : 0 < lor q a * lor q a - minv q * (m * m).
Proof.
  pose proof (lor_gt a b m n Hm Hn Sa Sb PL) as X. rewrite pair_lor. unfold q. rewrite minv_add. destruct Sa as [-> _], Sb as [-> _].
  replace ((m * m + lor a b) * (m * m + lor a b) - (m ^ 2 + n ^ 2 + 2 * lor a b) * (m * m)) with ((lor a b - m * n) * (lor a b + m * n)) by ring.
  apply Rmult_lt_0_compat; nra.
Qed.
Lemma pair_energy : 0 < ve q.
Proof.
  pose proof pair_pos as P. destruct Sa as [_ A], Sb as [_ B]. unfold q, vadd in *. cbn [ve]. destruct (Req_dec (ve a + ve b) 0) as [E|E]; [|lra].
  unfold minv in P. cbn [vx vy vz ve] in P. rewrite E in P.
  pose proof (pow2_ge_0 (vx a + vx b)). pose proof (pow2_ge_0 (vy a + vy b)). pose proof (pow2_ge_0 (vz a + vz b)). lra.
Qed.
Lemma pair_k : dot3 q q = ve q * ve q - minv q.
Proof. rewrite <- lor_minv, lor_dot. ring. Qed.
Lemma pair_k_pos : 0 < dot3 q q. Proof. pose proof (plane_sum _ _ PL) as L. fold q in L. rewrite <- len3_sq. now apply Rmult_lt_0_compat. Qed.
(** cosHELANG for a mother at rest. *)
Lemma hel_rest : cos_helang R_ops (at_rest M) q a = (ve a * minv q - ve q * lor q a) / (len3 q * sqrt (lor q a * lor q a - minv q * (m * m))).
Proof.
  unfold cos_helang, v_mass2. change (v_mul R_ops) with lor. cbv zeta. rops. rewrite !lor_minv. destruct Sa as [HA _]. rewrite HA.
  assert (R1 : forall p, lor (at_rest M) p = M * ve p) by (intros [x y z e]; unfold lor, at_rest; cbn [vx vy vz ve]; ring). rewrite !R1.
  replace (minv (at_rest M)) with (M * M) by (unfold minv, at_rest; cbn [vx vy vz ve]; ring).
  replace ((M * ve q * (M * ve q) - minv q * (M * M)) * (lor q a * lor q a - minv q * m ^ 2)) with ((M * len3 q) * (M * len3 q) * (lor q a * lor q a - minv q * (m * m))).
  2:{ replace (M * len3 q * (M * len3 q)) with (M * M * (len3 q * len3 q)) by ring. rewrite len3_sq, pair_k. ring. }
  pose proof (plane_sum _ _ PL) as L. fold q in L. pose proof pair_mom as X. apply sqrt_lt_R0 in X.
  rewrite sqrt_mult_alt by (apply Rlt_le, Rmult_lt_0_compat; now apply Rmult_lt_0_compat). rewrite sqrt_square by (apply Rlt_le; now apply Rmult_lt_0_compat).
  field. lra.
Qed.
(** ... it is the cosine of the helicity angle. *)
Lemma hel_spec : cos_helang R_ops (at_rest M) q a = helicity_cos q a.
Proof.
  rewrite hel_rest. unfold helicity_cos. pose proof pair_pos as P. pose proof pair_mom as X. pose proof pair_energy as EQ. pose proof (sqrt_lt_R0 _ P) as Q0.
  pose proof (sqrt_sqrt _ (Rlt_le _ _ P)) as QQ. pose proof (plane_sum _ _ PL) as L. fold q in L. pose proof (sqrt_lt_R0 _ X) as X0. pose proof pair_k as K.
  assert (D1 : dot3 (to_rest q a) q = (ve a * minv q - ve q * lor q a) / sqrt (minv q)).
  { transitivity (dot3 a q - (ve a + lor q a / sqrt (minv q)) / (ve q + sqrt (minv q)) * dot3 q q); [unfold to_rest, dot3; cbn [vx vy vz]; ring|].
    rewrite K. replace (dot3 a q) with (ve q * ve a - lor q a) by (rewrite lor_comm, lor_dot; ring).
    replace (ve q * ve q - minv q) with ((ve q - sqrt (minv q)) * (ve q + sqrt (minv q))) by (rewrite <- QQ at 3; ring).
    replace (ve a * minv q) with (ve a * (sqrt (minv q) * sqrt (minv q))) by now rewrite QQ. field. lra. }
  assert (D2 : dot3 (to_rest q a) (to_rest q a) = (lor q a * lor q a - minv q * (m * m)) / (sqrt (minv q) * sqrt (minv q))).
  { transitivity (dot3 a a - 2 * ((ve a + lor q a / sqrt (minv q)) / (ve q + sqrt (minv q))) * dot3 a q + ((ve a + lor q a / sqrt (minv q)) / (ve q + sqrt (minv q))) ^ 2 * dot3 q q); [unfold to_rest, dot3; cbn [vx vy vz]; ring|].
    rewrite K, (dot_shell _ _ Sa). replace (dot3 a q) with (ve q * ve a - lor q a) by (rewrite lor_comm, lor_dot; ring).
    replace (ve q * ve q - minv q) with ((ve q - sqrt (minv q)) * (ve q + sqrt (minv q))) by (rewrite <- QQ at 3; ring).
    replace (minv q * (m * m)) with (sqrt (minv q) * sqrt (minv q) * (m * m)) by now rewrite QQ. field. lra. }
  assert (D3 : len3 (to_rest q a) = sqrt (lor q a * lor q a - minv q * (m * m)) / sqrt (minv q)).
  { unfold len3. rewrite D2. rewrite sqrt_div_alt by (apply Rmult_lt_0_compat; exact Q0). f_equal. apply sqrt_square. lra. }
  rewrite D1, D3. field. lra.
Qed.
Lemma hel_bound : cos_helang R_ops (at_rest M) q a * cos_helang R_ops (at_rest M) q a < 1.
Proof.
  rewrite hel_rest. pose proof pair_mom as X. pose proof (sqrt_lt_R0 _ X) as X0. pose proof (sqrt_sqrt _ (Rlt_le _ _ X)) as XX.
  pose proof (plane_sum _ _ PL) as L. fold q in L. pose proof (len3_sq q) as LL. pose proof pair_k as K. pose proof pair_pos as P.
  set (s := sqrt (lor q a * lor q a - minv q * (m * m))) in *.
  replace ((ve a * minv q - ve q * lor q a) / (len3 q * s) * ((ve a * minv q - ve q * lor q a) / (len3 q * s)))
    with ((ve a * minv q - ve q * lor q a) * (ve a * minv q - ve q * lor q a) / (len3 q * len3 q * (s * s))) by (field; lra).
  rewrite LL, XX.
  apply (Rmult_lt_reg_r (dot3 q q * (lor q a * lor q a - minv q * (m * m)))); [apply Rmult_lt_0_compat; [exact pair_k_pos|exact X]|].
  unfold Rdiv. rewrite Rmult_assoc, Rinv_l, Rmult_1_r, Rmult_1_l by (apply Rgt_not_eq, Rmult_lt_0_compat; [exact pair_k_pos|exact X]).
  (* the difference is minv q times the square of the area *)
  assert (G : dot3 q q * (lor q a * lor q a - minv q * (m * m)) - (ve a * minv q - ve q * lor q a) * (ve a * minv q - ve q * lor q a) = minv q * (dot3 a a * dot3 q q - dot3 a q ^ 2)).
  { rewrite (dot_shell _ _ Sa). replace (dot3 a q) with (ve q * ve a - lor q a) by (rewrite lor_comm, lor_dot; ring). rewrite K. ring. }
  assert (AR : dot3 a a * dot3 q q - dot3 a q ^ 2 = dot3 a a * dot3 b b - dot3 a b ^ 2).
  { unfold q. clear. destruct a as [x y z e], b as [x' y' z' e']. unfold vadd, dot3. cbn [vx vy vz]. ring. }
  pose proof (plane_cross_sq _ _ PL). rewrite <- AR in *. assert (0 < minv q * (dot3 a a * dot3 q q - dot3 a q ^ 2)) by (now apply Rmult_lt_0_compat). lra.
Qed.
End Pair.
