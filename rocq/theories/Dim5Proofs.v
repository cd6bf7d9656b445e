(** Proofs about the five variables. *)
From Coq Require Import List ZArith Reals Lra Psatz Bool.
From Verif Require Import FormulaSpec KinModel KinSpec KinProofs KinProofs2 Dim5Model Dim5Spec.
From Verif Require LeafGen.
Open Scope R_scope.

Lemma sqrt_mul_self : forall x, 0 <= x -> sqrt x * sqrt x = x. Proof. exact sqrt_sqrt. Qed.
Lemma dot3_nonneg : forall p, 0 <= dot3 p p. Proof. intros [x y z e]. unfold dot3. cbn [vx vy vz]. nra. Qed.
Lemma len3_sq : forall p, len3 p * len3 p = dot3 p p. Proof. intros. apply sqrt_sqrt, dot3_nonneg. Qed.
Lemma len3_pos : forall p, dot3 p p <> 0 -> 0 < len3 p.
Proof. intros p H. apply sqrt_lt_R0. pose proof (dot3_nonneg p). lra. Qed.
Lemma cross_sq : forall p q, dot3 (cross3 p q) (cross3 p q) = dot3 p p * dot3 q q - dot3 p q ^ 2.
Proof. intros [x y z e] [x' y' z' e']. unfold dot3, cross3. cbn [vx vy vz]. ring. Qed.
Lemma plane_cross : forall p q, plane p q -> 0 < len3 (cross3 p q).
Proof. intros p q H. apply len3_pos. rewrite cross_sq. unfold plane in H. lra. Qed.
Lemma plane_cross_sq : forall p q, plane p q -> 0 < dot3 p p * dot3 q q - dot3 p q ^ 2.
Proof. intros p q H. rewrite <- cross_sq. pose proof (dot3_nonneg (cross3 p q)). rewrite cross_sq in *. unfold plane in H. lra. Qed.
Lemma plane_len : forall p q, plane p q -> 0 < len3 p /\ 0 < len3 q.
Proof.
  intros p q H. apply plane_cross_sq in H. pose proof (dot3_nonneg p). pose proof (dot3_nonneg q). split; apply len3_pos; intro E; rewrite E in H; nra.
Qed.
(** The norm of p + q when p, q span a plane. *)
Lemma plane_sum : forall p q, plane p q -> 0 < len3 (vadd p q).
Proof.
  intros [x y z e] [x' y' z' e'] H. apply plane_cross_sq in H. apply len3_pos. unfold dot3, vadd in *. cbn [vx vy vz] in *. intro E.
  pose proof (Rle_0_sqr (x + x')). pose proof (Rle_0_sqr (y + y')). pose proof (Rle_0_sqr (z + z')). fold (Rsqr (x + x')) (Rsqr (y + y')) (Rsqr (z + z')) in E.
  assert (x + x' = 0) by (apply Rsqr_0_uniq; lra). assert (y + y' = 0) by (apply Rsqr_0_uniq; lra). assert (z + z' = 0) by (apply Rsqr_0_uniq; lra).
  assert (x' = - x) by lra. assert (y' = - y) by lra. assert (z' = - z) by lra. subst. nra.
Qed.

(** ** phi *)
Ltac rops := cbn [LeafGen.o_add LeafGen.o_sub LeafGen.o_mul LeafGen.o_div LeafGen.o_opp LeafGen.o_sqrt LeafGen.o_one LeafGen.o_zero LeafGen.o_lt R_ops].
Lemma d3mag_len : forall p, d3mag R_ops p = len3 p. Proof. reflexivity. Qed.
Lemma v_cross_R : forall p q, v_cross R_ops p q = cross3 p q. Proof. reflexivity. Qed.
Lemma v_dot_R : forall p q, v_dot R_ops p q = dot3 p q. Proof. reflexivity. Qed.
Lemma v_add_R : forall p q, v_add R_ops p q = vadd p q. Proof. reflexivity. Qed.
Lemma v_mul_R : forall p q, v_mul R_ops p q = lor p q. Proof. reflexivity. Qed.
Definition scale (k : R) (p : vec4 R) : vec4 R := mkV (k * vx p) (k * vy p) (k * vz p) (k * ve p).
Lemma v_div_R : forall p c, v_div R_ops p c = scale (/ c) p.
Proof. intros [x y z e] c. unfold v_div, scale. rops. cbn [vx vy vz ve]. f_equal; unfold Rdiv; ring. Qed.
Lemma v_times_R : forall p c, v_times R_ops p c = scale c p.
Proof. intros [x y z e] c. unfold v_times, scale. rops. cbn [vx vy vz ve]. f_equal; ring. Qed.
Lemma cross_scale : forall a b p q, cross3 (scale a p) (scale b q) = scale (a * b) (cross3 p q).
Proof. intros a b [x y z e] [x' y' z' e']. unfold cross3, scale. cbn [vx vy vz ve]. f_equal; ring. Qed.
Lemma dot_scale : forall a b p q, dot3 (scale a p) (scale b q) = a * b * dot3 p q.
Proof. intros a b [x y z e] [x' y' z' e']. unfold dot3, scale. cbn [vx vy vz ve]. ring. Qed.
Lemma len_scale : forall a p, 0 <= a -> len3 (scale a p) = a * len3 p.
Proof. intros a p H. unfold len3. rewrite dot_scale. rewrite sqrt_mult_alt by nra. now rewrite sqrt_square. Qed.
Lemma scale_scale : forall a b p, scale a (scale b p) = scale (a * b) p.
Proof. intros a b [x y z e]. unfold scale. cbn [vx vy vz ve]. f_equal; ring. Qed.
Lemma dot_cross : forall p q r, dot3 (cross3 p q) r = triple p q r.
Proof. intros [x y z e] [x' y' z' e'] [x'' y'' z'' e'']. unfold dot3, cross3, triple. cbn [vx vy vz ve]. ring. Qed.

Definition cp_of (p1 p2 p3 p4 : vec4 R) : R := dot3 (cross3 p1 p2) (cross3 p3 p4) / (len3 (cross3 p1 p2) * len3 (cross3 p3 p4)).
Definition sp_of (p1 p2 p3 p4 : vec4 R) : R :=
  triple (cross3 p1 p2) (cross3 p3 p4) (vadd p3 p4) / (len3 (cross3 p1 p2) * len3 (cross3 p3 p4) * len3 (vadd p3 p4)).
Lemma phi5_val : forall p1 p2 p3 p4, plane p1 p2 -> plane p3 p4 ->
  phi5 R_ops acos p1 p2 p3 p4 = if Rltb (sp_of p1 p2 p3 p4) 0 then - acos (cp_of p1 p2 p3 p4) else acos (cp_of p1 p2 p3 p4).
Proof.
  intros p1 p2 p3 p4 H1 H2. destruct (plane_len _ _ H1) as [L1 L2]. destruct (plane_len _ _ H2) as [L3 L4].
  pose proof (plane_cross _ _ H1) as N1. pose proof (plane_cross _ _ H2) as N2. pose proof (plane_sum _ _ H2) as L34.
  pose proof (Rinv_0_lt_compat _ L1) as I1. pose proof (Rinv_0_lt_compat _ L2) as I2. pose proof (Rinv_0_lt_compat _ L3) as I3. pose proof (Rinv_0_lt_compat _ L4) as I4.
  unfold phi5. cbv zeta. rewrite !v_add_R, !d3mag_len, !v_div_R, !v_times_R, !v_cross_R, !d3mag_len, !v_dot_R. rewrite !cross_scale.
  rewrite !len_scale by (apply Rlt_le, Rmult_lt_0_compat; assumption). rewrite ?cross_scale, ?scale_scale, ?cross_scale, ?scale_scale, ?dot_scale, dot_cross. rops.
  change (d3mag R_ops) with len3. match goal with |- (if Rltb ?a 0 then acos ?b * _ else _) = _ => replace a with (sp_of p1 p2 p3 p4); [replace b with (cp_of p1 p2 p3 p4)|] end.
  2, 3: unfold sp_of, cp_of; field; lra.
  destruct (Rltb (sp_of p1 p2 p3 p4) 0); [ring|reflexivity].
Qed.
(** For a mother at rest the normals are orthogonal to the line of flight, so that sp is the sine. *)
Lemma cp_sp : forall p1 p2 p3 p4, plane p1 p2 -> plane p3 p4 -> (exists M, vadd (vadd p1 p2) (vadd p3 p4) = at_rest M) ->
  cp_of p1 p2 p3 p4 ^ 2 + sp_of p1 p2 p3 p4 ^ 2 = 1.
Proof.
  intros p1 p2 p3 p4 H1 H2 [M E]. pose proof (plane_cross _ _ H1) as N1. pose proof (plane_cross _ _ H2) as N2. pose proof (plane_sum _ _ H2) as L34.
  assert (KEY : (dot3 (cross3 p1 p2) (cross3 p3 p4)) ^ 2 * dot3 (vadd p3 p4) (vadd p3 p4) + triple (cross3 p1 p2) (cross3 p3 p4) (vadd p3 p4) ^ 2
     = dot3 (cross3 p1 p2) (cross3 p1 p2) * dot3 (cross3 p3 p4) (cross3 p3 p4) * dot3 (vadd p3 p4) (vadd p3 p4)).
  { destruct p1 as [x1 y1 z1 e1], p2 as [x2 y2 z2 e2], p3 as [x3 y3 z3 e3], p4 as [x4 y4 z4 e4]. unfold vadd, at_rest in E. cbn [vx vy vz ve] in E. injection E as E1 E2 E3 E4.
    assert (x2 = - x1 - x3 - x4) by lra. assert (y2 = - y1 - y3 - y4) by lra. assert (z2 = - z1 - z3 - z4) by lra. subst x2 y2 z2.
    unfold triple, dot3, cross3, vadd. cbn [vx vy vz ve]. ring. }
  rewrite <- !len3_sq in KEY. unfold cp_of, sp_of.
  apply (Rmult_eq_reg_r ((len3 (cross3 p1 p2) * len3 (cross3 p3 p4) * len3 (vadd p3 p4)) ^ 2)).
  2:{ apply Rgt_not_eq, Rlt_gt, pow_lt. repeat apply Rmult_lt_0_compat; assumption. }
  transitivity ((dot3 (cross3 p1 p2) (cross3 p3 p4)) ^ 2 * (len3 (vadd p3 p4) * len3 (vadd p3 p4)) + triple (cross3 p1 p2) (cross3 p3 p4) (vadd p3 p4) ^ 2); [field; lra|].
  rewrite KEY. ring.
Qed.
(** The angle: its cosine and sine. *)
Lemma signed_acos : forall c s, c ^ 2 + s ^ 2 = 1 -> let f := if Rltb s 0 then - acos c else acos c in
  - PI < f <= PI /\ cos f = c /\ sin f = s.
Proof.
  intros c s H f. assert (C : -1 <= c <= 1) by nra. pose proof (acos_bound c) as B. pose proof (cos_acos c C) as CC. pose proof (sin_acos c C) as SC.
  assert (Q : sqrt (1 - Rsqr c) = Rabs s) by (replace (1 - Rsqr c) with (Rsqr s) by (unfold Rsqr; nra); apply sqrt_Rsqr_abs). rewrite Q in SC. clear Q.
  pose proof PI_RGT_0. subst f. unfold Rltb. destruct (Rlt_dec s 0) as [L|L].
  - rewrite cos_neg, sin_neg, CC, SC, Rabs_left by lra. repeat split; try lra. destruct (Req_dec (acos c) PI) as [E|E]; [|lra].
    rewrite E, sin_PI in SC. rewrite Rabs_left in SC by lra. lra.
  - rewrite CC, SC, Rabs_right by lra. repeat split; lra.
Qed.
Lemma phi5_angle : forall p1 p2 p3 p4, plane p1 p2 -> plane p3 p4 -> (exists M, vadd (vadd p1 p2) (vadd p3 p4) = at_rest M) ->
  let f := phi5 R_ops acos p1 p2 p3 p4 in - PI < f <= PI /\ cos f = cp_of p1 p2 p3 p4 /\ sin f = sp_of p1 p2 p3 p4.
Proof. intros p1 p2 p3 p4 H1 H2 HM f. subst f. rewrite phi5_val by assumption. apply signed_acos. now apply cp_sp. Qed.
Lemma angle_unique : forall a b, - PI < a <= PI -> - PI < b <= PI -> cos a = cos b -> sin a = sin b -> a = b.
Proof.
  intros a b A B C D. assert (X : cos (a - b) = 1) by (rewrite cos_minus, C, D; pose proof (sin2_cos2 b) as T; unfold Rsqr in T; lra).
  assert (Y : sin (a - b) = 0) by (rewrite sin_minus, C, D; ring). pose proof PI_RGT_0.
  destruct (Rtotal_order (a - b) 0) as [L|[L|L]]; [|lra|].
  - destruct (Rlt_dec (- PI) (a - b)) as [Q|Q].
    + assert (Z : 0 < sin (- (a - b))) by (apply sin_gt_0; lra). rewrite sin_neg in Z. lra.
    + destruct (Req_dec (a - b) (- PI)) as [E|E]; [rewrite E, cos_neg, cos_PI in X; lra|].
      assert (Z : 0 < sin (a - b + 2 * PI)) by (apply sin_gt_0; lra). rewrite sin_plus, sin_2PI, cos_2PI, X, Y in Z. lra.
  - destruct (Rlt_dec (a - b) PI) as [Q|Q].
    + assert (0 < sin (a - b)) by (apply sin_gt_0; lra). lra.
    + destruct (Req_dec (a - b) PI) as [E|E]; [rewrite E, cos_PI in X; lra|].
      assert (Z : 0 < sin (a - b - PI)) by (apply sin_gt_0; lra). rewrite sin_minus, sin_PI, cos_PI, X, Y in Z. lra.
Qed.
