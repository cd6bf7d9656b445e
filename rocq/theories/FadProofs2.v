(** Proofs about the Faddeeva function of the code. *)
From Coq Require Import Reals List Lra Lia Psatz Arith Bool ZArith.
From Coquelicot Require Import Coquelicot.
From Verif Require Import FormulaSpec FormulaProofs AmpModel WaveModel WaveProofs LineProofs2 FadModel FadSpec FadProofs.
From Verif Require LeafGen.
Import ListNotations.
Open Scope R_scope.

Notation R_fad := (faddeeva R_ops (R_lib (fun _ _ => 0))).

(** ** The trapezoidal rule *)
Lemma Cdiv_eq : forall a b c : C, b <> RtoC 0 -> a = (c * b)%C -> (a / b)%C = c.
Proof. intros a b c B ->. field. exact B. Qed.
Lemma up_nonzero : forall x y : R, 0 < y -> (x, y) <> RtoC 0.
Proof. intros x y P E. injection E. lra. Qed.
Lemma pair_value : forall x y n e, 0 < y -> 0 <= n ->
  let s := x * x + y * y in let t := (y - x) * (y + x) + n in let u := e / (t * t + 4 * x * x * y * y) in
  pair_term (x, y) (n, e) = (2 * (x * ((s - n) * u)), - (2 * (y * ((s + n) * u)))).
Proof.
  intros x y n e P N s t u. unfold pair_term. cbn [fst snd]. set (k := sqrt n). assert (K : k * k = n) by (apply sqrt_sqrt; exact N). clearbody k.
  assert (Z1 : ((x, y) - RtoC k)%C <> RtoC 0) by (intro E; injection E; lra). assert (Z2 : ((x, y) + RtoC k)%C <> RtoC 0) by (intro E; injection E; lra).
  assert (Q : t * t + 4 * x * x * y * y <> 0).
  { assert (0 <= t * t) by nra. assert (0 <= 4 * x * x * y * y) by (replace (4 * x * x * y * y) with ((2 * (x * y)) * (2 * (x * y))) by ring; apply Rle_0_sqr).
    destruct (Req_dec x 0) as [->|X].
    - unfold t in *. assert (0 < (y - 0) * (y + 0) + n) by nra. nra.
    - assert (NZ : 2 * (x * y) <> 0) by (apply Rmult_integral_contrapositive; split; [lra|]; apply Rmult_integral_contrapositive; split; lra).
      pose proof (Rsqr_pos_lt _ NZ) as SQ. unfold Rsqr in SQ. lra. }
  transitivity (((RtoC e + RtoC e) * (x, y)) / (((x, y) - RtoC k) * ((x, y) + RtoC k)))%C; [field; split; assumption|].
  apply Cdiv_eq; [apply Cmult_neq_0; assumption|].
  unfold u. subst n. unfold Cmult, Cminus, Cplus, Copp, RtoC. cbn [fst snd]. f_equal; unfold s, t in *; field; exact Q.
Qed.
Lemma sums_value : forall x y, 0 < y -> forall n e g h, List.Forall (fun a => 0 <= a) n ->
  let r := sums R_ops (x * x + y * y) ((y - x) * (y + x)) (4 * x * x * y * y) n e g h in
  fold_right (fun p acc => pair_term (x, y) p + acc)%C 0%C (combine n e) = (2 * (x * (snd r - h)), - (2 * (y * (fst r - g)))).
Proof.
  intros x y P n. induction n as [|a n IH]; intros e g h F.
  - cbn [sums combine fold_right fst snd]. unfold RtoC. f_equal; ring.
  - destruct e as [|b e]; [cbn [sums combine fold_right fst snd]; unfold RtoC; f_equal; ring|]. inversion F as [|? ? A F']; subst.
    cbn [sums combine fold_right]. rops. set (u := b / (((y - x) * (y + x) + a) * ((y - x) * (y + x) + a) + 4 * x * x * y * y)).
    rewrite (IH e (g + (x * x + y * y + a) * u) (h + (x * x + y * y - a) * u) F'). rewrite (pair_value x y a b P A). cbv zeta. fold u. unfold Cplus. cbn [fst snd]. f_equal; ring.
Qed.
Lemma pole_value : forall x y r, 0 < y -> 0 < r ->
  let u := 2 / r * y in let t := 2 / r * x in let f := exp (- u) - cos t in
  let g := 2 * exp ((y - x) * (y + x) - u) / (sin t * sin t + f * f) in let v := 2 * x * y in
  pole r (x, y) = (g * (cos v * f - sin v * sin t), g * - (cos v * sin t + sin v * f)).
Proof.
  intros x y r P PR u t f g v. unfold pole.
  assert (U : 0 < u) by (unfold u; apply Rmult_lt_0_compat; [apply Rdiv_lt_0_compat; lra|exact P]).
  assert (E1 : exp (- u) < 1) by (rewrite <- exp_0; apply exp_increasing; lra). pose proof (exp_pos (- u)) as E0.
  assert (Q : sin t * sin t + f * f <> 0).
  { unfold f. pose proof (sin2_cos2 t) as SC. unfold Rsqr in SC. pose proof (COS_bound t). nra. }
  assert (B : (1 - Cexp (- (Ci * RtoC (2 / r) * (x, y))))%C = (f / exp (- u), sin t / exp (- u))).
  { unfold Cexp, Re, Im, Ci, Cmult, Cminus, Cplus, Copp, RtoC. cbn [fst snd].
    replace (- ((0 * (2 / r) - 1 * 0) * x - (0 * 0 + 1 * (2 / r)) * y)) with (- (- u)) by (unfold u; ring).
    replace (- ((0 * (2 / r) - 1 * 0) * y + (0 * 0 + 1 * (2 / r)) * x)) with (- t) by (unfold t; ring).
    rewrite (exp_Ropp (- u)), cos_neg, sin_neg. unfold f. f_equal; field; lra. }
  rewrite B. apply Cdiv_eq.
  - intro E. injection E as E2 E3. apply Q. unfold Rdiv in E2, E3. apply Rmult_integral in E2. apply Rmult_integral in E3.
    pose proof (Rinv_0_lt_compat _ E0). destruct E2 as [E2|E2]; [|lra]. destruct E3 as [E3|E3]; [|lra]. rewrite E2, E3. ring.
  - unfold g, Rminus. rewrite exp_plus. fold (Rminus y x). unfold Cexp, Re, Im, Cmult, Copp, RtoC. cbn [fst snd].
    replace (- (x * x - y * y)) with ((y - x) * (y + x)) by ring. replace (- (x * y + y * x)) with (- v) by (unfold v; ring).
    rewrite cos_neg, sin_neg. f_equal; field; split; lra.
Qed.
Definition bound2pi : R := M_2PI R_ops.
Lemma trapezoid_value : forall x y n e r, 0 < y -> 0 < r -> List.Forall (fun a => 0 <= a) n ->
  trapezoid R_ops (R_lib (fun _ _ => 0)) n e r (x, y) =
  (rule r (combine n e) (x, y) + (if Rlt_dec y bound2pi then pole r (x, y) else 0))%C.
Proof.
  intros x y n e r P PR F. assert (Q : x * x + y * y <> 0) by nra. unfold trapezoid. cbn [fst snd]. unfold c_norm. rops. cbn [fst snd].
  pose proof (sums_value x y P n e 0 0 F) as SV. cbv zeta in SV.
  destruct (sums R_ops (x * x + y * y) ((y - x) * (y + x)) (4 * x * x * y * y) n e 0 0) as [g h]. cbn [fst snd] in SV.
  assert (RV : rule r (combine n e) (x, y) = (r * (y * (1 / (x * x + y * y) + 2 * g)), r * (x * (1 / (x * x + y * y) + 2 * h)))).
  { unfold rule. rewrite SV. assert (D : (1 / (x, y))%C = (x / (x * x + y * y), - (y / (x * x + y * y)))).
    { apply Cdiv_eq; [now apply up_nonzero|]. unfold Cmult, RtoC. cbn [fst snd]. f_equal; field; exact Q. }
    rewrite D. unfold Ci, Cmult, Cplus, RtoC. cbn [fst snd]. f_equal; field; exact Q. }
  rewrite RV. unfold Rltb, bound2pi. destruct (Rlt_dec y (M_2PI R_ops)) as [H|H].
  - rewrite (pole_value x y r P PR). reflexivity.
  - unfold Cplus, RtoC. cbn [fst snd]. f_equal; ring.
Qed.

(** ** The reflection *)
Definition cj (z : R * R) : R * R := (fst z, - snd z).
Definition rf (z : R * R) : R * R := (- fst z, snd z).
Lemma mul_cj : forall a b, c_mul R_ops (cj a) (cj b) = cj (c_mul R_ops a b).
Proof. intros [] []. unfold c_mul, cj. rops. cbn [fst snd]. f_equal; ring. Qed.
Lemma mul_rr : forall a b, c_mul R_ops (rf a) (rf b) = cj (c_mul R_ops a b).
Proof. intros [] []. unfold c_mul, cj, rf. rops. cbn [fst snd]. f_equal; ring. Qed.
Lemma mul_rc : forall a b, c_mul R_ops (rf a) (cj b) = rf (c_mul R_ops a b).
Proof. intros [] []. unfold c_mul, cj, rf. rops. cbn [fst snd]. f_equal; ring. Qed.
Lemma add_cj : forall a b, c_add R_ops (cj a) (cj b) = cj (c_add R_ops a b).
Proof. intros [] []. unfold c_add, cj. rops. cbn [fst snd]. f_equal; ring. Qed.
Lemma norm_cj : forall a, c_norm R_ops (cj a) = c_norm R_ops a.
Proof. intros []. unfold c_norm, cj. rops. cbn [fst snd]. ring. Qed.
Lemma div_cj : forall a b, c_div R_ops (cj a) (cj b) = cj (c_div R_ops a b).
Proof. intros a b. unfold c_div. rewrite norm_cj. destruct a, b. unfold cj. rops. cbn [fst snd]. unfold Rdiv. f_equal; ring. Qed.
Lemma div_rc : forall a b, c_div R_ops (rf a) (cj b) = rf (c_div R_ops a b).
Proof. intros a b. unfold c_div. rewrite norm_cj. destruct a, b. unfold cj, rf. rops. cbn [fst snd]. unfold Rdiv. f_equal; ring. Qed.
Lemma exp_cj : forall W a, c_exp R_ops (R_lib W) (cj a) = cj (c_exp R_ops (R_lib W) a).
Proof. intros W []. unfold c_exp, cj. rops. cbn [fst snd]. rewrite cos_neg, sin_neg. f_equal; ring. Qed.
Lemma horner_cj : forall t zz c, horner R_ops (cj zz) (cj c) t = cj (horner R_ops zz c t).
Proof.
  induction t as [|k t IH]; intros zz c; [reflexivity|]. cbn [horner]. rewrite mul_cj.
  replace (k, LeafGen.o_zero R_ops) with (cj (k, LeafGen.o_zero R_ops)) at 1 by (unfold cj; rops; cbn [fst snd]; now rewrite Ropp_0). rewrite add_cj. apply IH.
Qed.
Lemma real_cj : forall k, cj (k, 0) = (k, 0).
Proof. intro k. unfold cj. cbn [fst snd]. now rewrite Ropp_0. Qed.
Lemma poly_cj : forall t zz, table_poly R_ops t (cj zz) = cj (table_poly R_ops t zz).
Proof.
  intros [|k t] zz; [symmetry; apply real_cj|]. cbn [table_poly]. rewrite <- horner_cj. f_equal. symmetry. apply real_cj.
Qed.
Lemma pade_rf : forall W z, pade R_ops (R_lib W) (rf z) = cj (pade R_ops (R_lib W) z).
Proof.
  intros W z. unfold pade. cbv zeta. rewrite mul_rr, exp_cj, !poly_cj.
  replace (LeafGen.o_one R_ops, LeafGen.o_zero R_ops) with (cj (LeafGen.o_one R_ops, LeafGen.o_zero R_ops)) at 1 by apply real_cj.
  replace (LeafGen.o_zero R_ops, M_2_SQRTPI R_ops) with (rf (LeafGen.o_zero R_ops, M_2_SQRTPI R_ops)) at 1 by (unfold rf; rops; cbn [fst snd]; now rewrite Ropp_0).
  rewrite mul_rc, div_rc, mul_rr, mul_cj, div_cj, add_cj. reflexivity.
Qed.
Lemma trapezoid_rf : forall W n e r z, trapezoid R_ops (R_lib W) n e r (rf z) = cj (trapezoid R_ops (R_lib W) n e r z).
Proof.
  intros W n e r [x y]. unfold trapezoid, rf, cj, c_norm. rops. cbn [fst snd].
  replace (- x * - x + y * y) with (x * x + y * y) by ring. replace ((y - - x) * (y + - x)) with ((y - x) * (y + x)) by ring.
  replace (4 * - x * - x * y * y) with (4 * x * x * y * y) by ring.
  destruct (sums R_ops (x * x + y * y) ((y - x) * (y + x)) (4 * x * x * y * y) n e 0 0) as [g h].
  destruct (Rltb y (M_2PI R_ops)); [|cbn [fst snd]; f_equal; ring].
  replace (2 / r * - x) with (- (2 / r * x)) by ring. replace (2 * - x * y) with (- (2 * x * y)) by ring. rewrite !sin_neg, !cos_neg. unfold c_add. rops. cbn [fst snd].
  replace (- sin (2 / r * x) * - sin (2 / r * x)) with (sin (2 / r * x) * sin (2 / r * x)) by ring. f_equal; ring.
Qed.
Lemma faddeeva_rf : forall W x y, faddeeva R_ops (R_lib W) (- x, y) = cj (faddeeva R_ops (R_lib W) (x, y)).
Proof.
  intros W x y. change (- x, y) with (rf (x, y)). unfold faddeeva. replace (c_norm R_ops (rf (x, y))) with (c_norm R_ops (x, y)) by (unfold c_norm, rf; rops; cbn [fst snd]; ring).
  replace (near_pole R_ops (fst (rf (x, y))) (snd (rf (x, y)))) with (near_pole R_ops (fst (x, y)) (snd (x, y))) by (unfold near_pole, rf; rops; cbn [fst snd]; now rewrite Rabs_Ropp).
  rewrite pade_rf, !trapezoid_rf. destruct (LeafGen.o_lt R_ops _ _); [reflexivity|]. destruct (near_pole _ _ _); reflexivity.
Qed.
