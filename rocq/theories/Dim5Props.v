(** C107: the five variables of a four-body event. *)
From Coq Require Import List ZArith Reals Lra Psatz Bool Lia.
From Verif Require Import FormulaSpec KinModel KinSpec KinProofs KinProofs2 Dim5Model Dim5Spec Dim5Proofs Dim5Proofs2 Dim5Proofs3 Dim5Proofs4.
From Verif Require LeafGen.
Open Scope R_scope.

(** The variables of an event of a mother at rest whose pairs are not collinear: the masses of the pairs, the cosines of the helicity
    angles of particles 1 and 3, and the angle between the decay planes. *)
Theorem C107_variables : forall M m1 m2 m3 m4 p1 p2 p3 p4 m12 m34 c12 c34 f,
  0 <= m1 -> 0 <= m2 -> 0 <= m3 -> 0 <= m4 -> decay4 M m1 m2 m3 m4 p1 p2 p3 p4 -> plane p1 p2 -> plane p3 p4 ->
  dim5 R_ops acos p1 p2 p3 p4 = (m12, m34, c12, c34, f) ->
  0 < m12 /\ m12 ^ 2 = minv (vadd p1 p2) /\ 0 < m34 /\ m34 ^ 2 = minv (vadd p3 p4) /\
  c12 = helicity_cos (vadd p1 p2) p1 /\ c34 = helicity_cos (vadd p3 p4) p3 /\ plane_angle p1 p2 p3 p4 f.
Proof.
  intros M m1 m2 m3 m4 p1 p2 p3 p4 m12 m34 c12 c34 f H1 H2 H3 H4 (S1 & S2 & S3 & S4 & E) P1 P2 D.
  pose proof (good_M M m1 m2 m3 m4 H1 H2 H3 H4 p1 p2 p3 p4 (conj (conj S1 (conj S2 (conj S3 (conj S4 E)))) (conj P1 P2))) as HM.
  assert (PM : vadd (vadd (vadd p1 p2) p3) p4 = at_rest M) by (rewrite <- E; unfold vadd; cbn [vx vy vz ve]; f_equal; ring).
  unfold dim5 in D. change (v_add R_ops) with vadd in D. cbv zeta in D. rewrite PM in D.
  apply pair_equal_spec in D as [D D5]. apply pair_equal_spec in D as [D D4]. apply pair_equal_spec in D as [D D3]. apply pair_equal_spec in D as [D1 D2].
  unfold v_mass, v_mass2 in D1, D2. change (v_mul R_ops) with lor in D1, D2. cbn [LeafGen.o_sqrt R_ops] in D1, D2. rewrite !lor_minv in D1, D2.
  pose proof (pair_pos p1 p2 m1 m2 H1 H2 S1 S2 P1) as Q1. pose proof (pair_pos p3 p4 m3 m4 H3 H4 S3 S4 P2) as Q2.
  subst m12 m34 c12 c34 f. split; [now apply sqrt_lt_R0|]. split; [apply pow2_sqrt; lra|]. split; [now apply sqrt_lt_R0|]. split; [apply pow2_sqrt; lra|].
  split; [eapply (hel_spec p1 p2 m1 m2 M); assumption|]. split; [eapply (hel_spec p3 p4 m3 m4 M); assumption|].
  destruct (phi5_angle p1 p2 p3 p4 P1 P2 ltac:(now exists M)) as (B & C & S). pose proof (plane_cross _ _ P1). pose proof (plane_cross _ _ P2). pose proof (plane_sum _ _ P2).
  split; [exact B|]. rewrite C, S. unfold cp_of, sp_of. split; field; lra.
Qed.
Print Assumptions C107_variables.

(** From variables to momenta (get4Vecs) and back: the variables, for every point inside the phase space. *)
Theorem C107_variables_back : forall W M m1 m2 m3 m4 m12 m34 c12 c34 f p1 p2 p3 p4,
  0 <= m1 -> 0 <= m2 -> 0 <= m3 -> 0 <= m4 -> m1 + m2 < m12 -> m3 + m4 < m34 -> m12 + m34 < M -> -1 < c12 < 1 -> -1 < c34 < 1 -> - PI < f <= PI ->
  get_4_vecs R_ops (R_lib W) m12 m34 c12 c34 f M m1 m2 m3 m4 = (p1, p2, p3, p4) ->
  dim5 R_ops acos p1 p2 p3 p4 = (m12, m34, c12, c34, f).
Proof.
  intros W M m1 m2 m3 m4 m12 m34 c12 c34 f p1 p2 p3 p4 H1 H2 H3 H4 G1 G2 G0 C1 C2 B H.
  assert (HF : four_body M m12 m34 m1 m2 m3 m4) by (unfold four_body; lra).
  destruct (round_trip M m12 m34 m1 m2 m3 m4 c12 c34 f HF G0 G1 G2 ltac:(nra) ltac:(nra) B W p1 p2 p3 p4 H) as (_ & _ & D). exact D.
Qed.
Print Assumptions C107_variables_back.

(** From momenta to variables and back: the same event up to a rotation, and not its mirror image. *)
Theorem C107_event_back : forall W M m1 m2 m3 m4 p1 p2 p3 p4 m12 m34 c12 c34 f q1 q2 q3 q4,
  0 <= m1 -> 0 <= m2 -> 0 <= m3 -> 0 <= m4 -> decay4 M m1 m2 m3 m4 p1 p2 p3 p4 -> plane p1 p2 -> plane p3 p4 ->
  dim5 R_ops acos p1 p2 p3 p4 = (m12, m34, c12, c34, f) ->
  get_4_vecs R_ops (R_lib W) m12 m34 c12 c34 f M m1 m2 m3 m4 = (q1, q2, q3, q4) ->
  same_event (particle (p1, p2, p3, p4)) (particle (q1, q2, q3, q4)).
Proof.
  intros W M m1 m2 m3 m4 p1 p2 p3 p4 m12 m34 c12 c34 f q1 q2 q3 q4 H1 H2 H3 H4 DE P1 P2 D H.
  exact (back_to_event M m1 m2 m3 m4 H1 H2 H3 H4 W p1 p2 p3 p4 m12 m34 c12 c34 f q1 q2 q3 q4 (conj DE (conj P1 P2)) D H).
Qed.
Print Assumptions C107_event_back.

(** Three massless particles and one of mass 8 from a mother of mass 18; and a point inside the phase space. *)
Example C107_ex : decay4 18 0 0 0 8 (mkV 2 2 1 3) (mkV (-1) (-2) 2 3) (mkV 2 (-2) (-1) 3) (mkV (-3) 2 (-2) 9) /\
  plane (mkV 2 2 1 3) (mkV (-1) (-2) 2 3) /\ plane (mkV 2 (-2) (-1) 3) (mkV (-3) 2 (-2) 9).
Proof.
  unfold decay4, on_shell, plane, minv, dot3, vadd, at_rest. cbn [vx vy vz ve]. repeat split; try lra. f_equal; lra.
Qed.
Example C107_back_ex : 0 <= / 2 /\ 0 <= / 8 /\ / 2 + / 8 < 9 / 10 /\ / 8 + / 8 < 7 / 10 /\ 9 / 10 + 7 / 10 < 2 /\ - PI < 1 <= PI.
Proof. pose proof PI2_1. pose proof PI_RGT_0. repeat split; lra. Qed.
