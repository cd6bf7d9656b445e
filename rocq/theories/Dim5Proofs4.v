(** The five variables of an event determine it up to a rotation: two events. *)
From Coq Require Import List ZArith Reals Lra Psatz Bool Lia.
From Verif Require Import FormulaSpec KinModel KinSpec KinProofs KinProofs2 Dim5Model Dim5Spec Dim5Proofs Dim5Proofs2 Dim5Proofs3.
From Verif Require LeafGen.
Open Scope R_scope.

Section Event.
Variables (M m1 m2 m3 m4 : R).
Hypothesis H1 : 0 <= m1. Hypothesis H2 : 0 <= m2. Hypothesis H3 : 0 <= m3. Hypothesis H4 : 0 <= m4.
Definition good (p1 p2 p3 p4 : vec4 R) : Prop := decay4 M m1 m2 m3 m4 p1 p2 p3 p4 /\ plane p1 p2 /\ plane p3 p4.
Lemma rest_parts : forall p1 p2 p3 p4, vadd (vadd p1 p2) (vadd p3 p4) = at_rest M ->
  ve (vadd p1 p2) + ve (vadd p3 p4) = M /\ dot3 (vadd p1 p2) (vadd p1 p2) = dot3 (vadd p3 p4) (vadd p3 p4).
Proof.
  intros [x1 y1 z1 e1] [x2 y2 z2 e2] [x3 y3 z3 e3] [x4 y4 z4 e4] E. unfold vadd, at_rest in *. cbn [vx vy vz ve] in *. injection E as E1 E2 E3 E4. split; [lra|].
  unfold dot3. cbn [vx vy vz]. replace (x3 + x4) with (- (x1 + x2)) by lra. replace (y3 + y4) with (- (y1 + y2)) by lra. replace (z3 + z4) with (- (z1 + z2)) by lra. ring.
Qed.
Lemma good_M : forall p1 p2 p3 p4, good p1 p2 p3 p4 -> 0 < M.
Proof.
  intros p1 p2 p3 p4 ((S1 & S2 & S3 & S4 & E) & P1 & P2). destruct (rest_parts _ _ _ _ E) as [A _].
  pose proof (pair_energy p1 p2 m1 m2 H1 H2 S1 S2 P1). pose proof (pair_energy p3 p4 m3 m4 H3 H4 S3 S4 P2). lra.
Qed.
Lemma below_energy : forall q, 0 < minv q -> 0 < ve q -> 0 < dot3 q q -> sqrt (minv q) < ve q.
Proof.
  intros q P a b. assert (c : dot3 q q = ve q * ve q - minv q) by (rewrite <- lor_minv, lor_dot; ring).
  rewrite <- (sqrt_square (ve q)) by lra. apply sqrt_lt_1_alt. lra.
Qed.
Lemma good_sum : forall p1 p2 p3 p4, good p1 p2 p3 p4 -> sqrt (minv (vadd p1 p2)) + sqrt (minv (vadd p3 p4)) < M.
Proof.
  intros p1 p2 p3 p4 ((S1 & S2 & S3 & S4 & E) & P1 & P2). destruct (rest_parts _ _ _ _ E) as [A _].
  pose proof (below_energy _ (pair_pos p1 p2 m1 m2 H1 H2 S1 S2 P1) (pair_energy p1 p2 m1 m2 H1 H2 S1 S2 P1) (pair_k_pos p1 p2 P1)).
  pose proof (below_energy _ (pair_pos p3 p4 m3 m4 H3 H4 S3 S4 P2) (pair_energy p3 p4 m3 m4 H3 H4 S3 S4 P2) (pair_k_pos p3 p4 P2)). lra.
Qed.
(** The energy of a pair follows from the two pair masses. *)
Lemma good_energy : forall p1 p2 p3 p4, good p1 p2 p3 p4 ->
  ve (vadd p1 p2) = (M * M + minv (vadd p1 p2) - minv (vadd p3 p4)) / (2 * M) /\ ve (vadd p3 p4) = (M * M + minv (vadd p3 p4) - minv (vadd p1 p2)) / (2 * M).
Proof.
  intros p1 p2 p3 p4 G. pose proof (good_M _ _ _ _ G). destruct G as ((S1 & S2 & S3 & S4 & E) & P1 & P2). destruct (rest_parts _ _ _ _ E) as [A B].
  rewrite !pair_k in B. assert (C : ve (vadd p3 p4) = M - ve (vadd p1 p2)) by lra. rewrite C in B. assert (D : 2 * M * ve (vadd p1 p2) = M * M + minv (vadd p1 p2) - minv (vadd p3 p4)) by lra.
  split; [|rewrite C]; apply (Rmult_eq_reg_l (2 * M)); try lra; [rewrite D|rewrite Rmult_minus_distr_l, D]; field; lra.
Qed.
Lemma energy_of_hel : forall a b a' b' m n, 0 <= m -> 0 <= n -> 0 < M -> on_shell a m -> on_shell b n -> on_shell a' m -> on_shell b' n -> plane a b -> plane a' b' ->
  minv (vadd a b) = minv (vadd a' b') -> ve (vadd a b) = ve (vadd a' b') ->
  cos_helang R_ops (at_rest M) (vadd a b) a = cos_helang R_ops (at_rest M) (vadd a' b') a' ->
  lor a b = lor a' b' /\ ve a = ve a' /\ ve b = ve b'.
Proof.
  intros a b a' b' m n Hm Hn HM Sa Sb Sa' Sb' P P' I V C.
  assert (L : lor a b = lor a' b').
  { rewrite !minv_add in I. destruct Sa as [A _], Sb as [B _], Sa' as [A' _], Sb' as [B' _]. rewrite A, B, A', B' in I. lra. }
  assert (E : ve a = ve a').
  { rewrite (hel_rest a b m n M Hm Hn Sa Sb P HM), (hel_rest a' b' m n M Hm Hn Sa' Sb' P' HM) in C.
    pose proof (pair_mom a b m n Hm Hn Sa Sb P) as X. rewrite (pair_lor a b m Sa) in *. rewrite (pair_lor a' b' m Sa') in C. rewrite <- L, <- I, <- V in C.
    pose proof (plane_sum _ _ P) as K.
    assert (KK : len3 (vadd a' b') = len3 (vadd a b)) by (unfold len3; rewrite !pair_k, <- I, <- V; reflexivity). rewrite KK in C. apply sqrt_lt_R0 in X.
    pose proof (pair_pos a b m n Hm Hn Sa Sb P) as Y.
    set (s := sqrt _) in *. apply (Rmult_eq_compat_r (len3 (vadd a b) * s)) in C. unfold Rdiv in C. rewrite !Rmult_assoc, !Rinv_l, !Rmult_1_r in C by (apply Rgt_not_eq, Rmult_lt_0_compat; lra).
    apply (Rmult_eq_reg_r (minv (vadd a b))); lra. }
  split; [exact L|]. split; [exact E|]. unfold vadd in V. cbn [ve] in V. lra.
Qed.
(** The products of the two planes. *)
Lemma normals : forall p1 p2 p3 p4, vadd (vadd p1 p2) (vadd p3 p4) = at_rest M -> let P := vadd p1 p2 in
  dot3 (cross3 p1 p2) (cross3 p1 p2) = dot3 p1 p1 * dot3 P P - dot3 p1 P ^ 2 /\
  dot3 (cross3 p3 p4) (cross3 p3 p4) = dot3 p3 p3 * dot3 P P - dot3 p3 P ^ 2 /\
  dot3 (cross3 p1 p2) (cross3 p3 p4) = dot3 p1 P * dot3 p3 P - dot3 p1 p3 * dot3 P P /\
  triple (cross3 p1 p2) (cross3 p3 p4) (vadd p3 p4) = - dot3 P P * triple p1 p2 p3 /\
  dot3 p3 (vadd p3 p4) = - dot3 p3 P /\ dot3 (vadd p3 p4) (vadd p3 p4) = dot3 P P.
Proof.
  intros [x1 y1 z1 e1] [x2 y2 z2 e2] [x3 y3 z3 e3] [x4 y4 z4 e4] E. unfold vadd, at_rest in E. cbn [vx vy vz ve] in E. injection E as E1 E2 E3 E4.
  assert (x4 = - x1 - x2 - x3) by lra. assert (y4 = - y1 - y2 - y3) by lra. assert (z4 = - z1 - z2 - z3) by lra. subst x4 y4 z4.
  cbv zeta. unfold vadd, dot3, cross3, triple. cbn [vx vy vz ve]. repeat split; ring.
Qed.
Theorem same_variables : forall p1 p2 p3 p4 q1 q2 q3 q4, good p1 p2 p3 p4 -> good q1 q2 q3 q4 ->
  dim5 R_ops acos p1 p2 p3 p4 = dim5 R_ops acos q1 q2 q3 q4 ->
  same_event (particle (p1, p2, p3, p4)) (particle (q1, q2, q3, q4)).
Proof.
  intros p1 p2 p3 p4 q1 q2 q3 q4 GP GQ D. pose proof (good_M _ _ _ _ GP) as HM. pose proof (good_energy _ _ _ _ GP) as [EP EP']. pose proof (good_energy _ _ _ _ GQ) as [EQ EQ'].
  destruct GP as ((S1 & S2 & S3 & S4 & E) & P1 & P2). destruct GQ as ((T1 & T2 & T3 & T4 & F) & Q1 & Q2).
  assert (PM : vadd (vadd (vadd p1 p2) p3) p4 = at_rest M) by (rewrite <- E; unfold vadd; cbn [vx vy vz ve]; f_equal; ring).
  assert (QM : vadd (vadd (vadd q1 q2) q3) q4 = at_rest M) by (rewrite <- F; unfold vadd; cbn [vx vy vz ve]; f_equal; ring).
  unfold dim5 in D. change (v_add R_ops) with vadd in D. cbv zeta in D. rewrite PM, QM in D. apply pair_equal_spec in D as [D D5]. apply pair_equal_spec in D as [D D4]. apply pair_equal_spec in D as [D D3]. apply pair_equal_spec in D as [D1 D2].
  unfold v_mass, v_mass2 in D1, D2. change (v_mul R_ops) with lor in D1, D2. cbn [LeafGen.o_sqrt R_ops] in D1, D2. rewrite !lor_minv in D1, D2.
  apply sqrt_inj in D1; [|exact (Rlt_le _ _ (pair_pos p1 p2 m1 m2 H1 H2 S1 S2 P1))|exact (Rlt_le _ _ (pair_pos q1 q2 m1 m2 H1 H2 T1 T2 Q1))].
  apply sqrt_inj in D2; [|exact (Rlt_le _ _ (pair_pos p3 p4 m3 m4 H3 H4 S3 S4 P2))|exact (Rlt_le _ _ (pair_pos q3 q4 m3 m4 H3 H4 T3 T4 Q2))].
  assert (V12 : ve (vadd p1 p2) = ve (vadd q1 q2)) by (rewrite EP, EQ, D1, D2; reflexivity).
  assert (V34 : ve (vadd p3 p4) = ve (vadd q3 q4)) by (rewrite EP', EQ', D1, D2; reflexivity).
  destruct (energy_of_hel p1 p2 q1 q2 m1 m2 H1 H2 HM S1 S2 T1 T2 P1 Q1 D1 V12 D3) as (L12 & e1 & e2).
  destruct (energy_of_hel p3 p4 q3 q4 m3 m4 H3 H4 HM S3 S4 T3 T4 P2 Q2 D2 V34 D4) as (L34 & e3 & e4).
  (* scalar products with the line of flight *)
  assert (K : dot3 (vadd p1 p2) (vadd p1 p2) = dot3 (vadd q1 q2) (vadd q1 q2)) by (rewrite !pair_k, D1, V12; reflexivity).
  assert (A1 : dot3 p1 p1 = dot3 q1 q1) by (rewrite (dot_shell _ _ S1), (dot_shell _ _ T1), e1; reflexivity).
  assert (A3 : dot3 p3 p3 = dot3 q3 q3) by (rewrite (dot_shell _ _ S3), (dot_shell _ _ T3), e3; reflexivity).
  assert (DL : forall u v, dot3 u v = ve u * ve v - lor u v) by (intros; rewrite lor_dot; ring).
  assert (B1 : dot3 p1 (vadd p1 p2) = dot3 q1 (vadd q1 q2)).
  { rewrite !DL, e1, V12, (lor_comm p1), (lor_comm q1), (pair_lor _ _ _ S1), (pair_lor _ _ _ T1), L12. reflexivity. }
  assert (B3 : dot3 p3 (vadd p3 p4) = dot3 q3 (vadd q3 q4)).
  { rewrite !DL, e3, V34, (lor_comm p3), (lor_comm q3), (pair_lor _ _ _ S3), (pair_lor _ _ _ T3), L34. reflexivity. }
  destruct (normals _ _ _ _ E) as (N1 & N2 & N3 & N4 & N5 & N6). destruct (normals _ _ _ _ F) as (O1 & O2 & O3 & O4 & O5 & O6).
  assert (B3' : dot3 p3 (vadd p1 p2) = dot3 q3 (vadd q1 q2)) by lra.
  assert (LA : len3 (cross3 p1 p2) = len3 (cross3 q1 q2)) by (unfold len3; rewrite N1, O1, A1, K, B1; reflexivity).
  assert (LB : len3 (cross3 p3 p4) = len3 (cross3 q3 q4)) by (unfold len3; rewrite N2, O2, A3, K, B3'; reflexivity).
  assert (LC : len3 (vadd p3 p4) = len3 (vadd q3 q4)) by (unfold len3; rewrite N6, O6, K; reflexivity).
  pose proof (plane_cross _ _ P1) as LA0. pose proof (plane_cross _ _ P2) as LB0. pose proof (plane_sum _ _ P2) as LC0. pose proof (pair_k_pos _ _ P1) as K0.
  destruct (phi5_angle p1 p2 p3 p4 P1 P2 ltac:(now exists M)) as (_ & CP & SP). destruct (phi5_angle q1 q2 q3 q4 Q1 Q2 ltac:(now exists M)) as (_ & CQ & SQ).
  rewrite <- D5, CP in CQ. rewrite <- D5, SP in SQ. unfold cp_of in CQ. unfold sp_of in SQ. rewrite <- LA, <- LB in CQ, SQ. rewrite <- LC in SQ.
  assert (CQ' : dot3 (cross3 p1 p2) (cross3 p3 p4) = dot3 (cross3 q1 q2) (cross3 q3 q4)).
  { apply (Rmult_eq_reg_r (/ (len3 (cross3 p1 p2) * len3 (cross3 p3 p4)))); [exact CQ|]. apply Rinv_neq_0_compat, Rgt_not_eq, Rmult_lt_0_compat; assumption. }
  assert (SQ' : triple (cross3 p1 p2) (cross3 p3 p4) (vadd p3 p4) = triple (cross3 q1 q2) (cross3 q3 q4) (vadd q3 q4)).
  { apply (Rmult_eq_reg_r (/ (len3 (cross3 p1 p2) * len3 (cross3 p3 p4) * len3 (vadd p3 p4)))); [exact SQ|]. apply Rinv_neq_0_compat, Rgt_not_eq. repeat apply Rmult_lt_0_compat; assumption. }
  assert (A13 : dot3 p1 p3 = dot3 q1 q3).
  { rewrite N3, O3, B1, B3', K in CQ'. apply (Rmult_eq_reg_r (dot3 (vadd q1 q2) (vadd q1 q2))); lra. }
  assert (L11 : lor p1 p1 = lor q1 q1) by (rewrite !lor_minv; destruct S1 as [-> _], T1 as [-> _]; reflexivity).
  assert (L22 : lor p2 p2 = lor q2 q2) by (rewrite !lor_minv; destruct S2 as [-> _], T2 as [-> _]; reflexivity).
  assert (L33 : lor p3 p3 = lor q3 q3) by (rewrite !lor_minv; destruct S3 as [-> _], T3 as [-> _]; reflexivity).
  assert (L44 : lor p4 p4 = lor q4 q4) by (rewrite !lor_minv; destruct S4 as [-> _], T4 as [-> _]; reflexivity).
  assert (L13 : lor p1 p3 = lor q1 q3) by (rewrite !lor_dot, e1, e3, A13; reflexivity).
  assert (RM : forall u, lor (at_rest M) u = M * ve u) by (intros [x y z e]; unfold lor, at_rest; cbn [vx vy vz ve]; ring).
  assert (U : forall u, lor p1 u + lor p2 u + (lor p3 u + lor p4 u) = M * ve u) by (intro u; rewrite <- RM, <- E, !lor_add; ring).
  assert (V : forall u, lor q1 u + lor q2 u + (lor q3 u + lor q4 u) = M * ve u) by (intro u; rewrite <- RM, <- F, !lor_add; ring).
  pose proof (U p1) as U1. pose proof (U p2) as U2. pose proof (U p3) as U3. pose proof (U p4) as U4. pose proof (V q1) as V1. pose proof (V q2) as V2. pose proof (V q3) as V3. pose proof (V q4) as V4.
  rewrite (lor_comm p2 p1), (lor_comm p3 p1), (lor_comm p4 p1) in U1. rewrite (lor_comm q2 q1), (lor_comm q3 q1), (lor_comm q4 q1) in V1.
  rewrite (lor_comm p3 p2), (lor_comm p4 p2) in U2. rewrite (lor_comm q3 q2), (lor_comm q4 q2) in V2.
  rewrite (lor_comm p4 p3) in U3. rewrite (lor_comm q4 q3) in V3. rewrite e1 in U1. rewrite e2 in U2. rewrite e3 in U3. rewrite e4 in U4.
  assert (L14 : lor p1 p4 = lor q1 q4) by lra. assert (L23 : lor p2 p3 = lor q2 q3) by lra. assert (L24 : lor p2 p4 = lor q2 q4) by lra.
  split.
  - intros i j Hi Hj. assert (I : (i = 1 \/ i = 2 \/ i = 3 \/ i = 4)%nat) by lia. assert (J : (j = 1 \/ j = 2 \/ j = 3 \/ j = 4)%nat) by lia.
    destruct I as [->|[->|[->| ->]]], J as [->|[->|[->| ->]]]; cbn [particle]; try assumption; (etransitivity; [apply lor_comm|]; etransitivity; [|apply lor_comm]); assumption.
  - cbn [particle]. rewrite N4, O4, K in SQ'. apply (Rmult_eq_reg_l (- dot3 (vadd q1 q2) (vadd q1 q2))); [exact SQ'|lra].
Qed.
(** From the momenta to the variables and back. *)
Theorem back_to_event : forall W p1 p2 p3 p4 m12 m34 c12 c34 f q1 q2 q3 q4, good p1 p2 p3 p4 ->
  dim5 R_ops acos p1 p2 p3 p4 = (m12, m34, c12, c34, f) ->
  get_4_vecs R_ops (R_lib W) m12 m34 c12 c34 f M m1 m2 m3 m4 = (q1, q2, q3, q4) ->
  same_event (particle (p1, p2, p3, p4)) (particle (q1, q2, q3, q4)).
Proof.
  intros W p1 p2 p3 p4 m12 m34 c12 c34 f q1 q2 q3 q4 GP D H. pose proof GP as ((S1 & S2 & S3 & S4 & E) & P1 & P2). pose proof (good_M _ _ _ _ GP) as HM. pose proof (good_sum _ _ _ _ GP) as GS.
  assert (PM : vadd (vadd (vadd p1 p2) p3) p4 = at_rest M) by (rewrite <- E; unfold vadd; cbn [vx vy vz ve]; f_equal; ring).
  pose proof D as D0. unfold dim5 in D. change (v_add R_ops) with vadd in D. cbv zeta in D. rewrite PM in D. apply pair_equal_spec in D as [D D5]. apply pair_equal_spec in D as [D D4]. apply pair_equal_spec in D as [D D3]. apply pair_equal_spec in D as [D1 D2].
  unfold v_mass, v_mass2 in D1, D2. change (v_mul R_ops) with lor in D1, D2. cbn [LeafGen.o_sqrt R_ops] in D1, D2. rewrite !lor_minv in D1, D2.
  pose proof (pair_mass p1 p2 m1 m2 H1 H2 S1 S2 P1) as G1. pose proof (pair_mass p3 p4 m3 m4 H3 H4 S3 S4 P2) as G2. rewrite D1 in *. rewrite D2 in *.
  pose proof (hel_bound p1 p2 m1 m2 M H1 H2 S1 S2 P1 HM) as C1. pose proof (hel_bound p3 p4 m3 m4 M H3 H4 S3 S4 P2 HM) as C2. rewrite D3 in C1. rewrite D4 in C2.
  destruct (phi5_angle p1 p2 p3 p4 P1 P2 ltac:(now exists M)) as (B & _ & _). rewrite D5 in B.
  assert (HF : four_body M m12 m34 m1 m2 m3 m4) by (unfold four_body; lra).
  destruct (four_vectors M m12 m34 m1 m2 m3 m4 c12 c34 f HF ltac:(lra) ltac:(lra) W q1 q2 q3 q4 H) as (T1 & T2 & T3 & T4 & SUM & _).
  destruct (round_trip M m12 m34 m1 m2 m3 m4 c12 c34 f HF GS G1 G2 C1 C2 B W q1 q2 q3 q4 H) as (Q1 & Q2 & D').
  apply same_variables; [exact GP| |rewrite D0, D'; reflexivity]. split; [exact (conj T1 (conj T2 (conj T3 (conj T4 SUM))))|split; assumption].
Qed.
End Event.
