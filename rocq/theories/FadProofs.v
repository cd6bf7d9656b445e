(** The tables of the Faddeeva function of the code. *)
From Coq Require Import Reals List Lra Lia Psatz Arith Bool ZArith.
From Coquelicot Require Import Coquelicot.
From Verif Require Import FormulaSpec FormulaProofs AmpModel WaveModel WaveProofs LineProofs2 FadModel FadSpec.
From Verif Require LeafGen.
Import ListNotations.
Open Scope R_scope.

(** ** Bounds of exp at the squares of the nodes *)
Lemma exp_alt : forall a N, 0 <= a <= 1 ->
  sum_f_R0 (tg_alt (fun n => a ^ n / INR (fact n))) (S (2 * N)) <= exp (- a) <= sum_f_R0 (tg_alt (fun n => a ^ n / INR (fact n))) (2 * N).
Proof.
  intros a N [A B]. apply alternated_series_ineq.
  - intro n. rewrite fact_simpl, mult_INR. cbn [pow]. pose proof (INR_fact_lt_0 n). pose proof (pos_INR n). rewrite S_INR.
    apply Rmult_le_reg_r with ((INR n + 1) * INR (fact n)); [nra|]. field_simplify; [|lra|split; lra].
    pose proof (pow_le a n A). nra.
  - apply cv_speed_pow_fact.
  - assert (H : infinite_sum (fun i => / INR (fact i) * (- a) ^ i) (exp (- a))) by (unfold exp; destruct (exist_exp (- a)); assumption).
    intros e E. destruct (H e E) as (M & HM). exists M. intros n Hn. specialize (HM n Hn).
    replace (sum_f_R0 (tg_alt (fun n => a ^ n / INR (fact n))) n) with (sum_f_R0 (fun i => / INR (fact i) * (- a) ^ i) n); [exact HM|].
    apply sum_eq. intros i _. unfold tg_alt. replace (- a) with (-1 * a) by ring. rewrite Rpow_mult_distr. unfold Rdiv. ring.
Qed.
Lemma fact_S : forall n, INR (fact (S n)) = INR (S n) * INR (fact n).
Proof. intro n. rewrite fact_simpl, mult_INR. reflexivity. Qed.
Lemma facts : INR (fact 0) = 1 /\ INR (fact 1) = 1 /\ INR (fact 2) = 2 /\ INR (fact 3) = 6 /\ INR (fact 4) = 24 /\ INR (fact 5) = 120 /\
  INR (fact 6) = 720 /\ INR (fact 7) = 5040 /\ INR (fact 8) = 40320 /\ INR (fact 9) = 362880 /\ INR (fact 10) = 3628800 /\
  INR (fact 11) = 39916800 /\ INR (fact 12) = 479001600 /\ INR (fact 13) = 6227020800.
Proof.
  repeat match goal with |- _ /\ _ => split end; rewrite ?fact_S; rewrite ?INR_IZR_INZ;
  change (Z.of_nat (fact 0)) with 1%Z; cbn [Z.of_nat Pos.of_succ_nat Pos.succ]; rewrite <- ?mult_IZR; reflexivity.
Qed.
Ltac exp_bounds a := let H := fresh in pose proof (exp_alt a 6 ltac:(lra)) as H; cbn [sum_f_R0 Nat.mul Nat.add] in H; unfold tg_alt in H;
  destruct facts as (F0 & F1 & F2 & F3 & F4 & F5 & F6 & F7 & F8 & F9 & F10 & F11 & F12 & F13);
  rewrite F0, F1, F2, F3, F4, F5, F6, F7, F8, F9, F10, F11, F12, F13 in H; cbn [pow] in H; lra.
Lemma exp_quarter : IZR 77880078307140484 / 10 ^ 17 <= exp (- (1 / 4)) <= IZR 77880078307140489 / 10 ^ 17.
Proof. exp_bounds (1 / 4). Qed.
Lemma exp_53 : IZR 75510384208902350 / 10 ^ 17 <= exp (- (2809 / 10000)) <= IZR 75510384208902360 / 10 ^ 17.
Proof. exp_bounds (2809 / 10000). Qed.
(** Bounds of q^n to 35 digits, if A and B bound q to 17 digits. *)
Fixpoint pow_lo (A : Z) (n : nat) : Z := match n with O => (10 ^ 35)%Z | S n => (pow_lo A n * A / 10 ^ 17)%Z end.
Fixpoint pow_hi (B : Z) (n : nat) : Z := match n with O => (10 ^ 35)%Z | S n => (pow_hi B n * B / 10 ^ 17 + 1)%Z end.
Lemma pow_bounds : forall q A B, 0 < q -> (0 <= A)%Z -> IZR A / 10 ^ 17 <= q <= IZR B / 10 ^ 17 -> forall n,
  (0 <= pow_lo A n)%Z /\ IZR (pow_lo A n) / IZR (10 ^ 35) <= q ^ n <= IZR (pow_hi B n) / IZR (10 ^ 35).
Proof.
  intros q A B Q PA [LA LB]. assert (PS : 0 < IZR (10 ^ 35)) by (apply IZR_lt; reflexivity). induction n as [|n (P & L & H)].
  - cbn [pow_lo pow_hi pow]. split; [discriminate|]. unfold Rdiv. rewrite Rinv_r by lra. lra.
  - cbn [pow_lo pow_hi pow]. pose proof (Z.div_mod (pow_lo A n * A) (10 ^ 17) ltac:(discriminate)) as D1. pose proof (Z.mod_pos_bound (pow_lo A n * A) (10 ^ 17) ltac:(reflexivity)) as M1.
    pose proof (Z.div_mod (pow_hi B n * B) (10 ^ 17) ltac:(discriminate)) as D2. pose proof (Z.mod_pos_bound (pow_hi B n * B) (10 ^ 17) ltac:(reflexivity)) as M2.
    set (l := (pow_lo A n * A / 10 ^ 17)%Z) in *. set (h := (pow_hi B n * B / 10 ^ 17)%Z) in *.
    assert (X1 : (10 ^ 17 * l <= pow_lo A n * A)%Z) by lia. assert (X2 : (pow_hi B n * B <= 10 ^ 17 * (h + 1))%Z) by lia.
    split. { apply Z.div_pos; [now apply Z.mul_nonneg_nonneg|reflexivity]. }
    clear D1 M1 D2 M2. clearbody l h. apply IZR_le in X1. apply IZR_le in X2. apply IZR_le in P. apply IZR_le in PA. rewrite !mult_IZR in X1, X2.
    change (IZR (10 ^ 17)) with 100000000000000000 in X1, X2. set (Y := IZR (h + 1)) in *. set (S := IZR (10 ^ 35)) in *. set (lo := IZR (pow_lo A n)) in *. set (hi := IZR (pow_hi B n)) in *. set (x := IZR l) in *. set (u := IZR A) in *. set (w := IZR B) in *. set (qq := q ^ n) in *.
    assert (QQ : 0 < qq) by (apply pow_lt; exact Q). clearbody Y S lo hi x u w qq. replace (10 ^ 17) with 100000000000000000 in LA, LB by ring.
    assert (L' : lo <= qq * S) by (apply Rmult_le_reg_r with (/ S); [now apply Rinv_0_lt_compat|]; rewrite Rmult_assoc, Rinv_r by lra; lra).
    assert (H' : qq * S <= hi) by (apply Rmult_le_reg_r with (/ S); [now apply Rinv_0_lt_compat|]; rewrite Rmult_assoc, Rinv_r by lra; lra).
    assert (U' : u <= q * 100000000000000000) by lra. assert (W' : q * 100000000000000000 <= w) by lra.
    assert (B1 : lo * u <= (qq * S) * (q * 100000000000000000)) by (apply Rmult_le_compat; lra).
    assert (B2 : (qq * S) * (q * 100000000000000000) <= hi * w) by (apply Rmult_le_compat; nra).
    split.
    + apply Rmult_le_reg_r with S; [exact PS|]. replace (x / S * S) with x by (field; lra). nra.
    + apply Rmult_le_reg_r with S; [exact PS|]. replace (Y / S * S) with Y by (field; lra). nra.
Qed.
(** m * 2^-p is within 10^-12 of q^n if A and B bound q *)
Lemma entry : forall q (A B m : Z) (p n : nat), 0 < q -> (0 <= A)%Z -> IZR A / 10 ^ 17 <= q <= IZR B / 10 ^ 17 ->
  (Z.leb (m * 10 ^ 35 * 10 ^ 12) ((10 ^ 12 + 1) * pow_lo A n * 2 ^ Z.of_nat p) &&
   Z.leb ((10 ^ 12 - 1) * pow_hi B n * 2 ^ Z.of_nat p) (m * 10 ^ 35 * 10 ^ 12))%Z = true ->
  Rabs (IZR m / 2 ^ p - q ^ n) <= / 10 ^ 12 * q ^ n.
Proof.
  intros q A B m p n Q PA LAB H. apply andb_prop in H. destruct H as [H1 H2]. apply Z.leb_le, IZR_le in H1. apply Z.leb_le, IZR_le in H2.
  destruct (pow_bounds q A B Q PA LAB n) as (_ & LO & HI).
  rewrite !mult_IZR in H1, H2. rewrite <- !(pow_IZR 2) in H1, H2.
  change (IZR (10 ^ 12 + 1)) with 1000000000001 in H1. change (IZR (10 ^ 12)) with 1000000000000 in H1, H2.
  change (IZR (10 ^ 12 - 1)) with 999999999999 in H2.
  assert (PD : 0 < IZR (10 ^ 35)) by (apply IZR_lt; reflexivity). assert (P2 : 0 < 2 ^ p) by (apply pow_lt; lra).
  set (a := IZR (pow_lo A n)) in *. set (b := IZR (pow_hi B n)) in *. set (d := IZR (10 ^ 35)) in *. set (t := 2 ^ p) in *. set (qq := q ^ n) in *. clearbody a b d t qq.
  assert (U : IZR m / t <= 1000000000001 / 1000000000000 * (a / d)).
  { apply Rmult_le_reg_r with (t * d); [nra|]. field_simplify; [|lra|lra]. lra. }
  assert (V : 999999999999 / 1000000000000 * (b / d) <= IZR m / t).
  { apply Rmult_le_reg_r with (t * d); [nra|]. field_simplify; [|lra|lra]. lra. }
  apply Rabs_le. lra.
Qed.
Lemma exp_nat : forall n x, exp (INR n * x) = exp x ^ n.
Proof.
  induction n as [|n IH]; intro x; [rewrite Rmult_0_l; apply exp_0|]. rewrite S_INR, Rmult_plus_distr_r, exp_plus, IH, Rmult_1_l. cbn [pow]. ring.
Qed.
Lemma exp_node : forall h a j, h ^ 2 = a -> exp (- (INR j * h) ^ 2) = exp (- a) ^ (j * j).
Proof. intros h a j E. rewrite <- exp_nat, mult_INR, <- E. f_equal. ring. Qed.

Definition table1 : list (R * R) := combine (n1 R_ops) (e1 R_ops).
Definition table2 : list (R * R) := combine (n2 R_ops) (e2 R_ops).
Lemma lit_neg : forall m p, IZR m * powerRZ 2 (Z.neg p) = IZR m / 2 ^ Pos.to_nat p.
Proof. reflexivity. Qed.
Ltac pos_nat := cbn [powerRZ]; repeat match goal with |- context [Pos.to_nat ?p] => let v := eval vm_compute in (Pos.to_nat p) in change (Pos.to_nat p) with v end;
  cbn [INR pow].
Lemma some_eq : forall A (a b : A), Some a = Some b -> b = a.
Proof. congruence. Qed.
Lemma table1_gauss : gauss_table (1 / 2) (/ 10 ^ 12) table1.
Proof.
  split; [reflexivity|]. intros k p E t. subst t. rewrite (exp_node (1 / 2) (1 / 4)) by field. unfold table1, n1, e1 in E. cbn [combine] in E. rops. rewrite ?lit_neg in E.
  do 12 (destruct k as [|k]; [cbn [nth_error] in E; apply some_eq in E; subst p; cbn [fst snd]; split;
    [pos_nat; apply Rabs_le; lra
    |apply (entry _ 77880078307140484 77880078307140489); [apply exp_pos|lia|exact exp_quarter|vm_compute; reflexivity]]|]).
  destruct k; discriminate E.
Qed.
Lemma table2_gauss : gauss_table (53 / 100) (/ 10 ^ 12) table2.
Proof.
  split; [reflexivity|]. intros k p E t. subst t. rewrite (exp_node (53 / 100) (2809 / 10000)) by field. unfold table2, n2, e2 in E. cbn [combine] in E. rops. rewrite ?lit_neg in E.
  do 12 (destruct k as [|k]; [cbn [nth_error] in E; apply some_eq in E; subst p; cbn [fst snd]; split;
    [pos_nat; apply Rabs_le; lra
    |apply (entry _ 75510384208902350 75510384208902360); [apply exp_pos|lia|exact exp_53|vm_compute; reflexivity]]|]).
  destruct k; discriminate E.
Qed.
