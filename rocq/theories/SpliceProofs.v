(** Moments of the normal distribution and one piece of the spliced acceptance. *)
From Coq Require Import List ZArith Reals Lra Lia Arith.
From Coquelicot Require Import Coquelicot.
From Flocq Require Import Core.
From Verif Require Import FormulaSpec ResolModel ResolSpec ResolMoment ResolProofs ResolProofs2 ResolProofs3 SpliceModel SpliceSpec.
From Verif Require LeafGen.
Import ListNotations.
Open Scope R_scope.

Ltac rops := cbn [R_ops R_lib R_extra x_cosh x_erf x_sqrt2 x_1_pi x_2_sqrtpi LeafGen.o_zero LeafGen.o_one LeafGen.o_half LeafGen.o_add LeafGen.o_sub
  LeafGen.o_mul LeafGen.o_div LeafGen.o_opp LeafGen.o_ofZ LeafGen.o_sqrt LeafGen.m_exp LeafGen.m_cos LeafGen.m_sin LeafGen.m_sinh LeafGen.m_erfc LeafGen.m_pow].

Lemma Rpow_nat (x : R) (n : nat) : Rpow x (IZR (Z.of_nat n)) = x ^ n.
Proof.
  unfold Rpow. destruct Rlt_dec as [P|P].
  - rewrite <- INR_IZR_INZ. now apply Rpower_pow.
  - rewrite Zfloor_IZR. destruct Req_EM_T as [_|N]; [|now destruct N]. symmetry. apply pow_powerRZ.
Qed.
(** Sums over 0 .. n-1. *)
Fixpoint rs (f : nat -> R) (n : nat) : R := match n with O => 0 | S m => rs f m + f m end.
Lemma fold_rs (f : nat -> R) n r : fold_left (fun r j => r + f j) (seq 0 n) r = r + rs f n.
Proof. induction n as [|n IH]; [cbn; ring|]. rewrite seq_S, fold_left_app, IH. cbn. ring. Qed.
Lemma rs_ext f h n : (forall i, (i < n)%nat -> f i = h i) -> rs f n = rs h n.
Proof. intros E. induction n as [|n IH]; [reflexivity|]. cbn. rewrite IH by (intros; apply E; lia). now rewrite E by lia. Qed.
Lemma rs_sum f n : rs f (S n) = sum_f_R0 f n.
Proof. induction n as [|n IH]; [cbn; ring|]. change (rs f (S (S n))) with (rs f (S n) + f (S n)). rewrite IH. reflexivity. Qed.
Lemma rs_scal c f n : rs (fun i => c * f i) n = c * rs f n.
Proof. induction n as [|n IH]; cbn; [ring|rewrite IH; ring]. Qed.
Lemma rs_first f n : rs f (S n) = f O + rs (fun i => f (S i)) n.
Proof. induction n as [|n IH]; [cbn; ring|]. change (rs f (S (S n))) with (rs f (S n) + f (S n)). rewrite IH. cbn. ring. Qed.

Section Moments.
Variable W : R -> R -> R.
Let phi := small_phi R_ops (R_lib W) R_extra.
Let Phi := big_phi R_ops R_extra.
Lemma phi_value u : phi u = exp (- (u ^ 2 / 2)) / (sqrt 2 * sqrt PI).
Proof. unfold phi, small_phi, sqrt1o2pi. rops. rewrite norm_const. replace (- / 2 * u * u) with (- (u ^ 2 / 2)) by field. unfold Rdiv. ring. Qed.
Lemma Phi_value u : Phi u = 1 - / 2 * Rerfc (u / sqrt 2).
Proof. unfold Phi, big_phi. rops. field. Qed.
Lemma phi_derive u : is_derive phi u (- u * phi u).
Proof.
  apply is_derive_ext with (fun u => exp (- (u ^ 2 / 2)) / (sqrt 2 * sqrt PI)). { intros t. symmetry. apply phi_value. }
  rewrite phi_value. pose proof s2_pos. pose proof spi_pos. auto_derive; [exact I|]. eqR.
  replace (u * (u * 1) * / 2) with (u ^ 2 / 2) by (unfold Rdiv; ring). generalize (exp (- (u ^ 2 / 2))). intros e. field. lra.
Qed.
Lemma Phi_derive u : is_derive Phi u (phi u).
Proof.
  apply is_derive_ext with (fun u => 1 - / 2 * Rerfc (u / sqrt 2)). { intros t. symmetry. apply Phi_value. }
  pose proof s2_pos as P2. pose proof spi_pos as PP. pose proof s2_sq as Q.
  assert (Du : is_derive (fun u => u / sqrt 2) u (/ sqrt 2)) by (auto_derive; [exact I|]; eqR; field; lra).
  rewrite phi_value.
  pose proof (is_derive_scal (fun u => Rerfc (u / sqrt 2)) u (/ 2) _ (erfc_d _ u _ Du)) as D.
  eapply dval; [exact (is_derive_minus (fun _ => 1) _ u _ _ (is_derive_const 1 u) D)|]. change (@zero R_NormedModule) with 0.
  unfold minus, plus, opp, scal; cbn; unfold mult; cbn.
  replace (u / sqrt 2 * (u / sqrt 2 * 1)) with (u ^ 2 / 2) by (replace (u ^ 2 / 2) with (u ^ 2 / (sqrt 2 * sqrt 2)) by (rewrite Q; field); field; lra).
  change (u * (u * 1)) with (u ^ 2). generalize (exp (- (u ^ 2 / 2))). intros e. eqR. field. lra.
Qed.
(** An antiderivative of v^n phi(v). *)
Fixpoint anti (n : nat) (u : R) : R :=
  match n with O => Phi u | S O => - phi u | S (S m) => INR (S m) * anti m u - u ^ S m * phi u end.
Lemma anti_derive u : forall n, is_derive (anti n) u (u ^ n * phi u) /\ is_derive (anti (S n)) u (u ^ S n * phi u).
Proof.
  induction n as [|n [IH0 IH1]].
  - split; [eapply dval; [exact (Phi_derive u)|]; cbn; ring|].
    eapply dval; [exact (is_derive_opp phi u _ (phi_derive u))|]. unfold opp; cbn. ring.
  - split; [exact IH1|].
    change (anti (S (S n))) with (fun u => INR (S n) * anti n u - u ^ S n * phi u).
    assert (Dp : is_derive (fun u => u ^ S n) u (INR (S n) * u ^ n)). { auto_derive; [exact I|]. eqR. replace (Init.Nat.pred (S n)) with n by reflexivity. change (match n with O => 1 | S _ => INR n + 1 end) with (INR (S n)). ring. }
    eapply dval; [apply (is_derive_minus (fun u => INR (S n) * anti n u) (fun u => u ^ S n * phi u) u (INR (S n) * (u ^ n * phi u))); [exact (is_derive_scal (anti n) u (INR (S n)) _ IH0)|exact (is_derive_mult (fun u => u ^ S n) phi u _ _ Dp (phi_derive u) Rmult_comm)]|].
    unfold minus, plus, opp; cbn -[INR pow]; unfold mult; cbn -[INR pow]. change (u ^ S (S n)) with (u * (u * u ^ n)). change (u ^ S n) with (u * u ^ n). ring.
Qed.
Lemma anti_int n a b : is_RInt (fun u => u ^ n * phi u) a b (anti n b - anti n a).
Proof.
  apply (is_RInt_derive (anti n)).
  - intros u _. apply anti_derive.
  - intros u _. apply gcont. apply ex_derive_mult; [auto_derive; exact I|eexists; apply phi_derive].
Qed.
(** Double factorials. *)
Let DF := double_factorial R_ops.
Lemma df_loop j : forall r, double_factorial_loop R_ops r j = r * DF j.
Proof.
  unfold DF, double_factorial. induction j as [j IH] using (well_founded_ind Wf_nat.lt_wf). intros r. destruct j as [|[|j]].
  - cbn [double_factorial_loop]. rops. ring.
  - cbn [double_factorial_loop]. rops. ring.
  - cbn [double_factorial_loop]. rops. assert (Lt : (j < S (S j))%nat) by lia. rewrite (IH j Lt (r * _)), (IH j Lt (1 * _)). rops. ring.
Qed.
Lemma df_SS j : DF (S (S j)) = INR (S (S j)) * DF j.
Proof.
  unfold DF at 1, double_factorial. cbn [double_factorial_loop]. rops. rewrite df_loop, <- INR_IZR_INZ. ring.
Qed.
Lemma df_pos j : 0 < DF j.
Proof.
  induction j as [j IH] using (well_founded_ind Wf_nat.lt_wf). destruct j as [|[|j]].
  - cbn. rops. lra.
  - unfold DF, double_factorial. cbn. rops. lra.
  - rewrite df_SS. apply Rmult_lt_0_compat; [apply lt_0_INR; lia|apply IH; lia].
Qed.
(** The two closed forms. *)
Lemma anti_odd u k : anti (2 * k + 1) u = - (DF (2 * k) * rs (fun j => / DF (2 * j) * (phi u * u ^ (2 * j))) (S k)).
Proof.
  induction k as [|k IH].
  - cbn [Nat.mul Nat.add anti rs]. unfold DF, double_factorial. cbn [double_factorial_loop]. rops. cbn [pow]. field.
  - replace (2 * S k + 1)%nat with (S (S (2 * k + 1))) by lia. cbn [anti]. rewrite IH.
    change (rs (fun j => / DF (2 * j) * (phi u * u ^ (2 * j))) (S (S k))) with (rs (fun j => / DF (2 * j) * (phi u * u ^ (2 * j))) (S k) + / DF (2 * S k) * (phi u * u ^ (2 * S k))).
    generalize (rs (fun j => / DF (2 * j) * (phi u * u ^ (2 * j))) (S k)). intros r.
    replace (2 * S k)%nat with (S (S (2 * k))) by lia. replace (S (2 * k + 1)) with (S (S (2 * k))) by lia. rewrite df_SS.
    pose proof (df_pos (2 * k)). assert (0 < INR (S (S (2 * k)))) by (apply lt_0_INR; lia). field. split; lra.
Qed.
Lemma anti_even u k : anti (2 * k + 2) u = DF (2 * k + 1) * (Phi u - rs (fun j => / DF (2 * j + 1) * (phi u * u ^ (2 * j + 1))) (S k)).
Proof.
  induction k as [|k IH].
  - cbn [Nat.mul Nat.add anti rs]. unfold DF, double_factorial. cbn [double_factorial_loop]. rops. cbn [pow INR Z.of_nat Pos.of_succ_nat]. field.
  - replace (2 * S k + 2)%nat with (S (S (2 * k + 2))) by lia. cbn [anti]. rewrite IH.
    change (rs (fun j => / DF (2 * j + 1) * (phi u * u ^ (2 * j + 1))) (S (S k))) with (rs (fun j => / DF (2 * j + 1) * (phi u * u ^ (2 * j + 1))) (S k) + / DF (2 * S k + 1) * (phi u * u ^ (2 * S k + 1))).
    generalize (rs (fun j => / DF (2 * j + 1) * (phi u * u ^ (2 * j + 1))) (S k)). intros r.
    replace (2 * S k + 1)%nat with (S (S (2 * k + 1))) by lia. replace (S (2 * k + 2)) with (S (S (2 * k + 1))) by lia. rewrite df_SS.
    pose proof (df_pos (2 * k + 1)). assert (0 < INR (S (S (2 * k + 1)))) by (apply lt_0_INR; lia). field. split; lra.
Qed.
Lemma sum_form (c : nat -> R) (e : nat -> nat) a b n :
  rs (fun j => 1 / c j * (- phi b * Rpow b (IZR (Z.of_nat (e j))) + phi a * Rpow a (IZR (Z.of_nat (e j))))) n =
  rs (fun j => / c j * (phi a * a ^ e j)) n - rs (fun j => / c j * (phi b * b ^ e j)) n.
Proof. induction n as [|n IH]; cbn [rs]; [ring|]. rewrite IH, !Rpow_nat. unfold Rdiv. ring. Qed.
Lemma convo_anti n a b : evaluate_convo R_ops (R_lib W) R_extra n a b = anti n b - anti n a.
Proof.
  unfold evaluate_convo. destruct (Nat.eqb_spec n 0) as [->|N0]; [reflexivity|]. destruct (Nat.eqb_spec n 1) as [->|N1]; [cbn [anti]; rops; fold phi; ring|].
  destruct (Nat.even n) eqn:E.
  - apply Nat.even_spec in E. destruct E as [m Em]. assert (Q : n = (2 * (m - 1) + 2)%nat) by lia. set (k := (m - 1)%nat) in Q. clearbody k. clear Em N0 N1. subst n.
    unfold factorial_even. replace ((2 * k + 2 - 2) / 2)%nat with k by (replace (2 * k + 2 - 2)%nat with (k * 2)%nat by lia; symmetry; apply Nat.div_mul; lia).
    rops. fold DF. fold phi. fold Phi. rewrite (fold_rs (fun j => 1 / DF (2 * j + 1) * (- phi b * Rpow b (IZR (Z.of_nat (2 * j + 1))) + phi a * Rpow a (IZR (Z.of_nat (2 * j + 1)))))).
    rewrite (sum_form (fun j => DF (2 * j + 1)) (fun j => (2 * j + 1)%nat)). rewrite !anti_even. ring.
  - assert (O : Nat.odd n = true) by (unfold Nat.odd; now rewrite E). apply Nat.odd_spec in O. destruct O as [k Ek]. subst n.
    unfold factorial_odd. replace ((2 * k + 1 - 1) / 2)%nat with k by (replace (2 * k + 1 - 1)%nat with (k * 2)%nat by lia; symmetry; apply Nat.div_mul; lia).
    rops. fold DF. fold phi. rewrite (fold_rs (fun j => 1 / DF (2 * j) * (- phi b * Rpow b (IZR (Z.of_nat (2 * j))) + phi a * Rpow a (IZR (Z.of_nat (2 * j)))))).
    rewrite (sum_form (fun j => DF (2 * j)) (fun j => (2 * j)%nat)). rewrite !anti_odd. ring.
Qed.
(** EvaluateConvo is the moment of the normal distribution, for every order. *)
Lemma convo_moment n a b : is_RInt (fun v => v ^ n * normal 1 v) a b (evaluate_convo R_ops (R_lib W) R_extra n a b).
Proof.
  rewrite convo_anti. apply is_RInt_ext with (2 := anti_int n a b). intros u _. f_equal. rewrite phi_value. unfold normal. rewrite s2pi.
  replace (u ^ 2 / (2 * 1 ^ 2)) with (u ^ 2 / 2) by field. f_equal. ring.
Qed.

(** ** The shifted moments *)
Lemma fact_loop j : forall r, factorial_loop R_ops r j = r * INR (fact j).
Proof.
  induction j as [|j IH]; intros r; cbn [factorial_loop fact]; [cbn; rops; ring|]. rewrite IH. rops. rewrite <- INR_IZR_INZ.
  change (fact j + j * fact j)%nat with (S j * fact j)%nat. rewrite mult_INR. ring.
Qed.
Lemma factorial_value j : factorial R_ops j = INR (fact j).
Proof. unfold factorial. destruct (Nat.eqb_spec j 0) as [->|_]; [rops; reflexivity|]. rewrite fact_loop. rops. ring. Qed.
Lemma binom_value n k : binom_coeff R_ops n k = Binomial.C n k.
Proof. unfold binom_coeff, Binomial.C. rewrite !factorial_value. reflexivity. Qed.
Lemma powu_value u n : pow_u0 R_ops u n = (- u) ^ n.
Proof. induction n as [|n IH]; [reflexivity|]. cbn [pow_u0]. rewrite IH. rops. cbn. ring. Qed.
Lemma shifted n u0 a b : is_RInt (fun v => (v - u0) ^ n * phi v) a b
  (rs (fun i => Binomial.C n i * (evaluate_convo R_ops (R_lib W) R_extra (n - i) a b) * (- u0) ^ i) (S n)).
Proof.
  assert (A : forall m, is_RInt (fun v => rs (fun i => Binomial.C n i * (- u0) ^ i * (v ^ (n - i) * phi v)) m) a b
                (rs (fun i => Binomial.C n i * (evaluate_convo R_ops (R_lib W) R_extra (n - i) a b) * (- u0) ^ i) m)).
  { induction m as [|m IH]; cbn [rs].
    - pose proof (is_RInt_const a b 0) as Z. unfold scal in Z; cbn in Z; unfold mult in Z; cbn in Z. now rewrite Rmult_0_r in Z.
    - apply (is_RInt_plus (V := R_NormedModule)); [exact IH|]. rewrite convo_anti.
      replace (Binomial.C n m * (anti (n - m) b - anti (n - m) a) * (- u0) ^ m) with (Binomial.C n m * (- u0) ^ m * (anti (n - m) b - anti (n - m) a)) by ring.
      apply (is_RInt_scal (V := R_NormedModule)). apply anti_int. }
  apply is_RInt_ext with (2 := A (S n)). intros v _. replace (v - u0) with (- u0 + v) by ring. rewrite binomial, rs_sum.
  rewrite Rmult_comm, scal_sum. apply sum_eq. intros i _. ring.
Qed.
Section Piece.
Variables (k s T lo hi : R).
Hypothesis Hs : 0 < s.
Let u0 := k * s - T / s.
Let pre := exp (- / 2 * (T * T * (1 / s * (1 / s)) - u0 * u0)).
Let convo := fun i => evaluate_convo R_ops (R_lib W) R_extra i (1 / s * lo + u0) (1 / s * hi + u0).
Lemma shift_moment n : pre * (s ^ n * rs (fun i => Binomial.C n i * convo (n - i)%nat * (- u0) ^ i) (S n)) = H k s n lo T - H k s n hi T.
Proof.
  pose proof (shifted n u0 (1 / s * lo + u0) (1 / s * hi + u0)) as A.
  pose proof (is_RInt_comp_lin (fun v => (v - u0) ^ n * phi v) (1 / s) u0 lo hi _ A) as B.
  pose proof (is_RInt_scal (V := R_NormedModule) _ lo hi (pre * s ^ n) _ B) as D.
  pose proof (H_smear_fin k s Hs n lo hi T) as E.
  assert (F : is_RInt (fun t => t ^ n * (exp (- k * t) * normal s (T - t))) lo hi (scal (pre * s ^ n) (rs (fun i => Binomial.C n i * convo (n - i)%nat * (- u0) ^ i) (S n)))).
  { apply is_RInt_ext with (2 := D). intros t _. cbv beta. rewrite phi_value. repeat change (scal ?x ?y) with (x * y). unfold scal; cbn -[pow pre u0]; unfold mult; cbn -[pow pre u0].
    replace (1 / s * t + u0 - u0) with (t / s) by (field; lra). unfold normal. rewrite s2pi.
    replace ((t / s) ^ n) with (t ^ n * (/ s) ^ n) by (unfold Rdiv; now rewrite Rpow_mult_distr).
    assert (X : exp (- k * t) * exp (- ((T - t) ^ 2 / (2 * s ^ 2))) = pre * exp (- ((1 / s * t + u0) ^ 2 / 2))).
    { unfold pre. rewrite <- !exp_plus. f_equal. unfold u0. field. lra. }
    pose proof s2_pos as P2. pose proof spi_pos as PP.
    transitivity ((pre * exp (- ((1 / s * t + u0) ^ 2 / 2))) * ((s ^ n * (/ s) ^ n) * t ^ n * / s * / (sqrt 2 * sqrt PI))). { eqR. field. lra. }
    rewrite <- X. rewrite <- Rpow_mult_distr, Rinv_r, pow1 by lra. eqR. field. lra. }
  pose proof (is_RInt_unique _ _ _ _ E) as U1. pose proof (is_RInt_unique _ _ _ _ F) as U2. rewrite U1 in U2. rewrite U2.
  unfold scal; cbn -[pow rs]; unfold mult; cbn -[pow rs]. ring.
Qed.
Lemma acc_fold n : fold_left (fun res i => res + binom_coeff R_ops n i * convo (n - i)%nat * pow_u0 R_ops u0 i) (seq 0 (S n)) 0
  = rs (fun i => Binomial.C n i * convo (n - i)%nat * (- u0) ^ i) (S n).
Proof.
  rewrite (fold_rs (fun i => binom_coeff R_ops n i * convo (n - i)%nat * pow_u0 R_ops u0 i)). rewrite Rplus_0_l. apply rs_ext.
  intros i _. now rewrite binom_value, powu_value.
Qed.
Lemma inv_inv : 1 / (1 / s) = s. Proof. field. lra. Qed.
Lemma acceptance_value n : pre * evaluate_acceptance R_ops (R_lib W) n (1 / s) convo (pow_u0 R_ops u0) = H k s n lo T - H k s n hi T.
Proof.
  rewrite <- shift_moment. unfold evaluate_acceptance. rops. rewrite acc_fold, Rpow_nat, inv_inv. ring.
Qed.
Lemma acceptance_gn_value n j : pre * evaluate_acceptance_gn R_ops (R_lib W) n j (1 / s) convo (pow_u0 R_ops u0) = (H k s (n + j) lo T - H k s (n + j) hi T) / s ^ n.
Proof.
  rewrite <- shift_moment. unfold evaluate_acceptance_gn. rops. rewrite acc_fold, Rpow_nat, inv_inv. rewrite pow_add. field. apply pow_nonzero. lra.
Qed.
End Piece.
End Moments.
