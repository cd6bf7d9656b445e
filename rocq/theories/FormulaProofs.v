(** Proofs for FormulaSpec.v: constants, powers, polynomials, and the class by class comparison. *)
From Coq Require Import List ZArith Reals Bool Lia Lra Machin Ratan.
From Coquelicot Require Import Coquelicot.
From Flocq Require Import Core.
From Verif Require Import F64 PdfModel PdfSpec FormulaSpec.
From Verif Require LeafGen.
Import ListNotations.
Open Scope R_scope.

(** ** Comparisons *)
Lemma Rltb_spec : forall x y, (x < y /\ Rltb x y = true) \/ (y <= x /\ Rltb x y = false).
Proof. intros. unfold Rltb. destruct (Rlt_dec x y); [left|right]; split; auto; lra. Qed.
Lemma Rleb_spec : forall x y, (x <= y /\ Rleb x y = true) \/ (y < x /\ Rleb x y = false).
Proof. intros. unfold Rleb. destruct (Rle_dec x y); [left|right]; split; auto; lra. Qed.
Lemma Reqb_spec : forall x y, (x = y /\ Reqb x y = true) \/ (x <> y /\ Reqb x y = false).
Proof. intros. unfold Reqb. destruct (Req_EM_T x y); [left|right]; split; auto. Qed.
Ltac rcase x y := let H := fresh "HC" in let E := fresh "EC" in
  first [ match goal with |- context [Rltb x y] => destruct (Rltb_spec x y) as [[H E]|[H E]]; rewrite E end
        | match goal with |- context [Rleb x y] => destruct (Rleb_spec x y) as [[H E]|[H E]]; rewrite E end
        | match goal with |- context [Reqb x y] => destruct (Reqb_spec x y) as [[H E]|[H E]]; rewrite E end ].

(** ** Constants *)
Lemma PI_tight : 3141592 / 1000000 <= PI <= 3141593 / 1000000.
Proof.
  pose proof (PI_2_3_7_ineq 3) as H.
  change (S (2 * 3))%nat with 7%nat in H. change (2 * 3)%nat with 6%nat in H.
  unfold sum_f_R0, tg_alt, PI_2_3_7_tg, Ratan_seq in H.
  rewrite !INR_IZR_INZ in H. cbn [Z.of_nat Pos.of_succ_nat Nat.mul Nat.add Pos.succ pow] in H.
  split; lra.
Qed.
Lemma sqrt_between : forall x a b, 0 <= a -> 0 <= b -> a * a <= x -> x <= b * b -> a <= sqrt x <= b.
Proof.
  intros x a b Ha Hb H1 H2. split.
  - rewrite <- (sqrt_square a) by assumption. apply sqrt_le_1_alt. exact H1.
  - rewrite <- (sqrt_square b) by assumption. apply sqrt_le_1_alt. exact H2.
Qed.
Lemma lit_neg : forall m p, IZR m * powerRZ 2 (Zneg p) = IZR m / IZR (Z.pow_pos 2 p).
Proof.
  intros m p. unfold Rdiv. f_equal. cbn [powerRZ]. f_equal.
  rewrite Zpower_pos_nat, Zpower_nat_Z, <- pow_IZR. reflexivity.
Qed.
Definition code_consts : consts :=
  let lit := LeafGen.o_lit R_ops in
  mkConsts (lit 3184525836098291%Z (-51)%Z) (lit 2822212231689113%Z (-50)%Z) (lit 7074237743944945%Z (-51)%Z)
           (lit 796131459066231%Z (-50)%Z) (lit 5081767996463981%Z (-53)%Z) (lit 5764607523034235%Z (-51)%Z).
Ltac lits := cbn [LeafGen.o_lit R_ops]; rewrite ?lit_neg;
  repeat match goal with |- context [IZR (Z.pow_pos 2 ?p)] => let z := eval vm_compute in (Z.pow_pos 2 p) in change (Z.pow_pos 2 p) with z end.
Lemma sqrt2_tight : 14142135 / 10000000 <= sqrt 2 <= 14142136 / 10000000.
Proof. apply sqrt_between; lra. Qed.
Lemma inv_between : forall x a b, 0 < a -> a <= x <= b -> / b <= / x <= / a.
Proof. intros x a b Ha [H1 H2]. split; apply Rinv_le_contravar; lra. Qed.
Lemma code_consts_near : near (/ 1000000) code_consts.
Proof.
  pose proof PI_tight as HP. pose proof sqrt2_tight as H2.
  assert (H2P : 25066275 / 10000000 <= sqrt (2 * PI) <= 25066285 / 10000000) by (apply sqrt_between; lra).
  assert (HSP : 17724536 / 10000000 <= sqrt PI <= 17724540 / 10000000) by (apply sqrt_between; lra).
  apply inv_between in H2 as I2; [|lra]. apply inv_between in HSP as IP; [|lra].
  unfold near, code_consts; cbn [k_r2 k_r2pi k_pi k_ir2 k_irpi k_rr]. lits.
  repeat split; apply Rabs_le; split; lra.
Qed.

(** ** Powers *)
Lemma Zfloor_IZR' : forall z, Zfloor (IZR z) = z.
Proof. intro z. apply Zfloor_IZR. Qed.
Lemma Rpow_nat : forall x n, Rpow x (IZR (Z.of_nat n)) = x ^ n.
Proof.
  intros x n. unfold Rpow. destruct (Rlt_dec 0 x) as [H|H].
  - rewrite <- INR_IZR_INZ. apply Rpower_pow. exact H.
  - rewrite Zfloor_IZR'. destruct (Req_EM_T _ _) as [_|N]; [|now elim N]. now rewrite <- pow_powerRZ.
Qed.
Lemma powi_nat : forall W x n, LeafGen.powi R_ops (R_lib W) x (Z.of_nat n) = x ^ n.
Proof. intros. unfold LeafGen.powi. cbn. apply Rpow_nat. Qed.
Lemma half_R : LeafGen.o_half R_ops = / 2. Proof. reflexivity. Qed.

Lemma poly_from : forall W x cs n acc,
  LeafGen.polynomial_from R_ops (R_lib W) x (Z.of_nat n) cs acc = acc + power_series x n cs.
Proof.
  intros W x cs. induction cs as [|c cs IH]; intros n acc; cbn [LeafGen.polynomial_from power_series]; [lra|].
  replace (Z.of_nat n + 1)%Z with (Z.of_nat (S n)) by lia. rewrite IH, powi_nat. cbn. lra.
Qed.
Lemma exp_poly_from : forall W x cs n acc,
  LeafGen.exp_poly_arg R_ops (R_lib W) x (Z.of_nat n) cs acc = acc + power_series x n cs.
Proof.
  intros W x cs. induction cs as [|c cs IH]; intros n acc; cbn [LeafGen.exp_poly_arg power_series]; [lra|].
  replace (Z.of_nat n + 1)%Z with (Z.of_nat (S n)) by lia. rewrite IH, powi_nat. cbn. lra.
Qed.

(** ** Bernstein polynomials *)
Lemma factorial_R : forall n, LeafGen.factorial R_ops n = INR (fact n).
Proof.
  induction n as [|n IH]; [reflexivity|]. cbn [LeafGen.factorial]. rewrite IH.
  change (fact (S n)) with (S n * fact n)%nat. rewrite mult_INR, (INR_IZR_INZ (S n)). reflexivity.
Qed.
Lemma binomial_R : forall k n, (k <= n)%nat -> LeafGen.binomial R_ops k n = Binomial.C n k.
Proof.
  intros k n H. unfold LeafGen.binomial. destruct (Nat.ltb_spec n k); [lia|]. rewrite !factorial_R. reflexivity.
Qed.
Lemma bernstein_loop : forall W t w n cs i acc, (i + length cs <= S n)%nat -> w <> 0 ->
  LeafGen.bernstein_from R_ops (R_lib W) t w n i cs acc = acc + bernstein_sum t n i cs / w.
Proof.
  intros W t w n cs. induction cs as [|c cs IH]; intros i acc H Hw; cbn [LeafGen.bernstein_from bernstein_sum length] in *; [field; assumption|].
  rewrite IH by (lia || assumption). rewrite binomial_R, powi_nat by lia.
  replace (Z.of_nat n - Z.of_nat i)%Z with (Z.of_nat (n - i)) by lia. rewrite powi_nat. cbn. field. exact Hw.
Qed.

(** ** Global bins *)
Lemma global_bin_R : forall axes ret prev,
  List.Forall (fun a : R * R * R * Z => let b := Zfloor ((fst (fst (fst a)) - snd (fst (fst a))) / snd (fst a)) in
                 (-2147483648 <= b <= 2147483647)%Z) axes ->
  LeafGen.bin_number R_ops axes ret prev = Some (ret + prev * global_bin axes)%Z.
Proof.
  intros axes. induction axes as [|[[[x l] s] n] axes IH]; intros ret prev H; cbn [LeafGen.bin_number global_bin]; [f_equal; lia|].
  inversion H as [|a b H1 H2]; subst. cbn in H1.
  assert (E : LeafGen.o_floor R_ops (LeafGen.o_div R_ops (LeafGen.o_sub R_ops x l) s) = Some (Zfloor ((x - l) / s))).
  { cbn. unfold Rfloor_int. destruct H1 as [H1 H3]. apply Z.leb_le in H1. apply Z.leb_le in H3. rewrite H1, H3. reflexivity. }
  rewrite E. rewrite IH by assumption. f_equal. lia.
Qed.
