(** C46, C47, C60: kinematics of three- and four-body decays. *)
From Coq Require Import List ZArith Reals Lra Lia Bool.
From Verif Require Import F64 LeafFormulas FormulaSpec KinModel KinSpec KinProofs KinProofs2.
From Verif Require LeafGen.
Import ListNotations.
Open Scope R_scope.

(** ** C46 *)

(** In exact arithmetic, for every possible decay (except at m12 = 0 with massless daughters 1 and 2), inDalitz accepts exactly the
    squared pair masses some decay has. *)
Theorem C46_boundary_partial : forall M m1 m2 m3 s12 s13, 0 < M -> 0 <= m1 -> 0 <= m2 -> 0 <= m3 -> m1 + m2 + m3 <= M ->
  0 < m1 + m2 \/ s12 <> 0 -> LeafGen.in_dalitz R_ops s12 s13 M m1 m2 m3 = true <-> dalitz_point M m1 m2 m3 s12 s13.
Proof.
  intros M m1 m2 m3 s12 s13 HM H1 H2 H3 HS HZ. destruct (Rlt_dec s12 ((m1 + m2) ^ 2)) as [L|L].
  - rewrite not_dalitz by exact L. split; [discriminate|]. intros (p1 & p2 & p3 & S1 & S2 & _ & _ & E & _). exfalso.
    pose proof (pair_bound _ _ _ _ H1 H2 S1 S2). lra.
  - assert (P : 0 < s12). { pose proof (pow2_ge_0 (m1 + m2)). destruct HZ as [Z|Z]; [assert (0 < (m1 + m2) ^ 2) by (apply pow_lt; exact Z); lra|lra]. }
    split; intro H; [now apply dalitz_exists|now apply dalitz_accepts].
Qed.
Print Assumptions C46_boundary_partial.
(** M = 2, masses 1/2, 1/4, 1/4: (1, 2) is a point of the Dalitz plot, (1, 3) is not. *)
Example C46_ex : LeafGen.in_dalitz R_ops 1 2 2 (/ 2) (/ 4) (/ 4) = true /\ LeafGen.in_dalitz R_ops 1 3 2 (/ 2) (/ 4) (/ 4) = false /\ 0 < / 2 + / 4 /\ / 2 + / 4 + / 4 <= 2.
Proof.
  split; [|split; [|lra]].
  - apply in_dalitz_R; try lra. rewrite sqrt_1. repeat split; lra.
  - destruct (LeafGen.in_dalitz R_ops 1 3 2 (/ 2) (/ 4) (/ 4)) eqn:E; [|reflexivity]. exfalso. apply in_dalitz_R in E; try lra. rewrite sqrt_1 in E. lra.
Qed.

(** With massless daughters 1 and 2 and m12 = 0 the code divides 0 by 0, and the comparisons with NaN accept points outside: M = 2,
    m3 = 1, s13 = 5, whereas s13 is at most 4. *)
Theorem C46_massless_refuted : LeafGen.in_dalitz f64_ops fzero (f_of_Z 5) (f_of_Z 2) fzero fzero (f_of_Z 1) = true /\ ~ dalitz_point 2 0 0 1 0 5.
Proof.
  split; [vm_compute; reflexivity|]. intros (p1 & p2 & p3 & S1 & S2 & S3 & SUM & E12 & E13).
  pose proof (pair_bound _ _ 0 1 ltac:(lra) ltac:(lra) S2 S3) as B. destruct S1 as [S1 _], S2 as [S2 _], S3 as [S3 _].
  unfold vadd, at_rest, minv in *. cbn [vx vy vz ve] in *. injection SUM as X Y Z E.
  destruct p1 as [x1 y1 z1 t1], p2 as [x2 y2 z2 t2], p3 as [x3 y3 z3 t3]. cbn [vx vy vz ve] in *.
  assert (x3 = - x1 - x2) by lra. assert (y3 = - y1 - y2) by lra. assert (z3 = - z1 - z2) by lra. assert (t3 = 2 - t1 - t2) by lra. subst x3 y3 z3 t3. lra.
Qed.
Print Assumptions C46_massless_refuted.

(** ** C47 *)

(** In exact arithmetic, for every possible decay and all angles: the four vectors are those of particles with the given masses that
    come from a mother at rest, and the pair masses are m12 and m34. *)
Theorem C47_four_vectors : forall W M m12 m34 m1 m2 m3 m4 cos12 cos34 phi p1 p2 p3 p4,
  four_body M m12 m34 m1 m2 m3 m4 -> -1 <= cos12 <= 1 -> -1 <= cos34 <= 1 ->
  get_4_vecs R_ops (R_lib W) m12 m34 cos12 cos34 phi M m1 m2 m3 m4 = (p1, p2, p3, p4) ->
  on_shell p1 m1 /\ on_shell p2 m2 /\ on_shell p3 m3 /\ on_shell p4 m4 /\ vadd (vadd p1 p2) (vadd p3 p4) = at_rest M /\
  minv (vadd p1 p2) = m12 ^ 2 /\ minv (vadd p3 p4) = m34 ^ 2.
Proof.
  intros W M m12 m34 m1 m2 m3 m4 cos12 cos34 phi p1 p2 p3 p4 HF HC HD. apply four_vectors; [exact HF| |]; nra.
Qed.
Print Assumptions C47_four_vectors.
Example C47_ex : four_body 2 (9 / 10) (7 / 10) (/ 2) (/ 8) (/ 8) (/ 8).
Proof. unfold four_body. lra. Qed.

(** ** C60 *)

(** Every lineshape is given the mass of its own pair and of the pair's two daughters, for every DP4Pair. *)
Theorem C60_lineshape_masses : forall W M m12 m34 m1 m2 m3 m4 cos12 cos34 phi k g1 g2,
  four_body M m12 m34 m1 m2 m3 m4 -> -1 <= cos12 <= 1 -> -1 <= cos34 <= 1 -> nth_error pairs k = Some (g1, g2) ->
  let vs := get_4_vecs R_ops (R_lib W) m12 m34 cos12 cos34 phi M m1 m2 m3 m4 in
  resonance_masses R_ops (Z.of_nat k) m12 m34 vs m1 m2 m3 m4 = Some (system_mass vs (g1 ++ g2), system_mass vs g1, system_mass vs g2).
Proof.
  intros W M m12 m34 m1 m2 m3 m4 cos12 cos34 phi k g1 g2 HF HC HD HK vs.
  destruct vs as [[[p1 p2] p3] p4] eqn:EV. destruct (C47_four_vectors W _ _ _ _ _ _ _ _ _ _ _ _ _ _ HF HC HD EV) as ([S1 _] & [S2 _] & [S3 _] & [S4 _] & _ & P1 & P2).
  destruct HF as (A & B & _ & F1 & F2 & F3 & F4 & _).
  assert (V : forall v, vadd v vzero = v) by (intros [x y z e]; unfold vadd, vzero; cbn [vx vy vz ve]; f_equal; ring).
  assert (Q : forall m, 0 <= m -> sqrt (m ^ 2) = m) by (intros m Hm; replace (m ^ 2) with (m * m) by ring; now apply sqrt_square).
  assert (M2 : forall p q, mass2 R_ops p q = sqrt (minv (vadd p q))).
  { intros p q. unfold mass2, minv, vadd. cbn [LeafGen.o_add LeafGen.o_sub LeafGen.o_mul LeafGen.o_sqrt LeafGen.o_opp R_ops vx vy vz ve]. f_equal. ring. }
  assert (M3 : forall p q r, mass3 R_ops p q r = sqrt (minv (vadd p (vadd q r)))).
  { intros p q r. unfold mass3, minv, vadd. cbn [LeafGen.o_add LeafGen.o_sub LeafGen.o_mul LeafGen.o_sqrt LeafGen.o_opp R_ops vx vy vz ve]. f_equal. ring. }
  assert (C3 : forall a b c, sqrt (minv (vadd a (vadd b c))) = sqrt (minv (vadd b (vadd a c))) /\ sqrt (minv (vadd a (vadd b c))) = sqrt (minv (vadd c (vadd a b))) /\ sqrt (minv (vadd a (vadd b c))) = sqrt (minv (vadd a (vadd c b)))
     /\ sqrt (minv (vadd a (vadd b c))) = sqrt (minv (vadd b (vadd c a)))).
  { intros a b c. unfold minv, vadd. cbn [vx vy vz ve]. repeat split; f_equal; ring. }
  do 18 (destruct k as [|k]; [cbn in HK; injection HK as <- <-; unfold system_mass; cbn [fold_right map particle app]; rewrite !V, ?S1, ?S2, ?S3, ?S4, ?P1, ?P2, ?Q by lra;
    cbn [Z.of_nat Pos.of_succ_nat Pos.succ resonance_masses]; rewrite ?M2, ?M3, ?P1, ?P2, ?Q by lra; try reflexivity; f_equal; f_equal; f_equal; apply C3|]).
  destruct k; discriminate.
Qed.
Print Assumptions C60_lineshape_masses.
Example C60_ex : nth_error pairs 16 = Some ([2; 4], [3])%nat. Proof. reflexivity. Qed.
