(** C56, C44, C45, C24: the formulas of the basic PDFs.
    The code of every basic PDF is LeafGen.v, read in double arithmetic (LeafFormulas.v); the evaluation theorems C12-C22 say
    that this is what the flattened arrays give.  Here the same text is read in exact real arithmetic ([R_ops], [R_lib]) and
    compared with the header of the class ([documented], FormulaSpec.v). *)
From Coq Require Import List ZArith Reals Bool Lia Lra Psatz.
From Coquelicot Require Import Coquelicot.
From Flocq Require Import Core.
From Verif Require Import F64 PdfModel PdfSpec NormSpec FormulaSpec FormulaProofs PolyProofs FormulaProofs2 AnalyticProofs.
From Verif Require LeafGen.
Import ListNotations.
Open Scope R_scope.

(** The value the code of a basic PDF computes, in exact arithmetic, when every observable and parameter has the value [v]. *)
Local Notation code W lims v l := (leaf_value_in R_ops (R_lib W) f2R lims (fun h => Some (v h)) v l).
(** Variables in the examples are numbered. *)
Local Notation vals l := (fun i : nat => nth i l 0).
Local Notation anylims := (fun _ : nat => (0, 1)).

(** ** C56 *)
(** Sixteen classes compute the formula of their header; constants such as sqrt(2 pi), which the code writes with a finite
    number of digits, are right to 10^-6. *)
Theorem C56_formulas_partial : exists k, near (/ 1000000) k /\
  forall (V : Type) W (lims : V -> R * R) (v : V -> R) (l : leaf V), as_documented l = true -> in_domain lims v l ->
  code W lims v l = documented W k lims v l.
Proof. exists code_consts. split; [exact code_consts_near|]. intros. now apply documented_ok. Qed.
Print Assumptions C56_formulas_partial.
(** A Crystal Ball in its tail, and a JohnsonSU. *)
Example C56_formulas_ex : forall lims, in_domain lims (vals [-4; 0; 1; -1; 2]) (LCrystalBall 0%nat 1%nat 2%nat 3%nat 4%nat) /\
  in_domain lims (vals [3; 0; 2; 1; 1]) (LJohnsonSU 0%nat 1%nat 2%nat 3%nat 4%nat).
Proof. intros. cbn. repeat split; intros; lra. Qed.
(** For instance the Gaussian, with the arguments in the order of the constructor. *)
Corollary C56_gaussian : forall W (lims : nat -> R * R) x m s, s <> 0 ->
  code W lims (vals [x; m; s]) (LGaussian 0%nat 1%nat 2%nat) = Some (exp (- ((x - m) ^ 2 / (2 * s ^ 2)))).
Proof. intros. rewrite documented_ok; [reflexivity|reflexivity|assumption]. Qed.

(** The other classes with a formula in their header compute something else: *)
Theorem C56_other_formulas_partial : exists k, near (/ 1000000) k /\
  forall (V : Type) W (lims : V -> R * R) (v : V -> R) (l : leaf V) r, instead W k v l = Some r -> instead_domain v l ->
  code W lims v l = Some r.
Proof. exists code_consts. split; [exact code_consts_near|]. intros. now apply instead_ok. Qed.
Print Assumptions C56_other_formulas_partial.
Example C56_other_ex : instead_domain (vals [1; 0; 1; 1; 0]) (LScaledGaussian 0%nat 1%nat 2%nat 3%nat 4%nat).
Proof. cbn. lra. Qed.

(** ... which differs from the header: *)
Definition contradicts (v : nat -> R) (l : leaf nat) : Prop :=
  forall W lims, exists r d, code W lims v l = Some r /\ documented W exact_consts lims v l = Some d /\ r <> d.
Lemma contradicts_by : forall v l, instead_domain v l ->
  (forall W lims, exists r d, instead W code_consts v l = Some r /\ documented W exact_consts lims v l = Some d /\ r <> d) -> contradicts v l.
Proof. intros v l HD H W lims. destruct (H W lims) as (r & d & H1 & H2 & H3). exists r, d. split; [now apply instead_ok|]. now split. Qed.
(** The relativistic prefactor of BWPdf.h is 1/(2 sqrt pi); the code has 1/(2 pi).  Header and code differ everywhere. *)
Theorem C56_breit_wigner_refuted : forall x m g, g <> 0 -> contradicts (vals [x; m; g]) (LBW 0%nat 1%nat 2%nat).
Proof.
  intros x m g Hg. apply contradicts_by; [exact Hg|]. intros W lims. do 2 eexists. split; [reflexivity|]. split; [reflexivity|].
  cbn [nth]. intro E. assert (HB : g / ((x - m) ^ 2 + g ^ 2 / 4) <> 0).
  { pose proof (pow2_ge_0 (x - m)). pose proof (pow2_gt_0 g Hg). unfold Rdiv. apply Rmult_integral_contrapositive_currified; [exact Hg|]. apply Rinv_neq_0_compat. lra. }
  apply Rmult_eq_reg_r in E; [|exact HB]. pose proof PI_tight as HP.
  assert (S : sqrt PI < PI). { rewrite <- (sqrt_pow2 PI) at 2 by lra. apply sqrt_lt_1; nra. }
  assert (0 < sqrt PI) by (apply sqrt_lt_R0; lra).
  assert (1 / (2 * PI) < 1 / (2 * sqrt PI)); [|lra]. unfold Rdiv. rewrite !Rmult_1_l. apply Rinv_lt_contravar; nra.
Qed.
Lemma gaussian_neq : forall a b, a <> b -> exp (- a) <> exp (- b).
Proof. intros a b H E. apply H. apply exp_inv in E. lra. Qed.
(** ScaledGaussianPdf.h shifts the observable by the bias, x + b - m; the code shifts the mean the other way, x - (m + b). *)
Theorem C56_scaled_gaussian_refuted : contradicts (vals [1; 0; 1; 1; 0]) (LScaledGaussian 0%nat 1%nat 2%nat 3%nat 4%nat).
Proof.
  apply contradicts_by; [cbn; lra|]. intros W lims. do 2 eexists. split; [reflexivity|]. split; [reflexivity|].
  cbn [nth]. unfold gaussian. apply gaussian_neq. lra.
Qed.
(** CorrGaussianPdf.h scales the variance in y by (1 + k dx^2); the code scales the width. *)
Theorem C56_corr_gaussian_refuted : contradicts (vals [1; 1; 0; 1; 0; 1; 1]) (LCorrGaussian 0%nat 1%nat 2%nat 3%nat 4%nat 5%nat 6%nat).
Proof.
  apply contradicts_by; [cbn; lra|]. intros W lims. do 2 eexists. split; [reflexivity|]. split; [reflexivity|].
  cbn [nth]. unfold gaussian. intro E. apply Rmult_eq_reg_l in E; [|apply Rgt_not_eq, exp_pos]. revert E. apply gaussian_neq. lra.
Qed.
(** ExpPdf with offset and coefficients: the header starts at the power 0, the code at the power 1. *)
Theorem C56_exp_poly_offset_refuted : contradicts (vals [2; 1; 0]) (LExpPolyOffset 0%nat [1%nat] 2%nat).
Proof.
  apply contradicts_by; [exact I|]. intros W lims. do 2 eexists. split; [reflexivity|]. split; [reflexivity|].
  cbn [nth map power_series pow]. intro E. apply exp_inv in E. lra.
Qed.
(** PolynomialPdf around a centre: the code takes the coefficients from position 2 on and never uses the centre. *)
Theorem C56_offset_polynomial_refuted : contradicts (vals [1; 1; 0]) (LOffsetPolynomial 0%nat [1%nat] 2%nat 0%nat).
Proof.
  apply contradicts_by; [exact I|]. intros W lims. do 2 eexists. split; [reflexivity|]. split; [reflexivity|].
  cbn [nth map power_series pow skipn app]. lra.
Qed.
(** VoigtianPdf: sigma and Gamma are exchanged; with Gamma = 0 the header is a Gaussian, the code a Breit-Wigner. *)
Theorem C56_voigtian_refuted : contradicts (vals [0; 0; 1; 0]) (LVoigtian 0%nat 1%nat 2%nat 3%nat).
Proof.
  apply contradicts_by; [exact I|]. intros W lims. do 2 eexists. split; [reflexivity|]. split; [reflexivity|].
  cbn [nth]. unfold voigt_profile, gaussian. destruct (Req_EM_T 0 0); [|lra]. destruct (Req_EM_T 1 0); [lra|].
  replace (- ((0 - 0) ^ 2 / (2 * 1 ^ 2))) with 0 by field. rewrite exp_0. lra.
Qed.
(** NovosibirskPdf.h divides the squared logarithm by t; the code by t^2. *)
Theorem C56_novosibirsk_refuted : exists x, contradicts (vals [x; 0; 1; 2]) (LNovosibirsk 0%nat 1%nat 2%nat 3%nat).
Proof.
  assert (HL : 0 < sqrt (ln 4)) by (apply sqrt_lt_R0; rewrite <- ln_1; apply ln_increasing; lra).
  set (h := sinh (2 * sqrt (ln 4)) / sqrt (ln 4)).
  assert (HS : 0 < sinh (2 * sqrt (ln 4))).
  { unfold sinh. assert (exp (- (2 * sqrt (ln 4))) < exp (2 * sqrt (ln 4))) by (apply exp_increasing; lra). lra. }
  assert (Hh : 0 < h) by (unfold h; apply Rdiv_lt_0_compat; assumption).
  assert (E1 : 2 < exp 1) by (pose proof (exp_ineq1 1); lra).
  exists ((exp 1 - 1) / h).
  assert (EY : 1 + ((exp 1 - 1) / h - 0) / 1 * h = exp 1) by (field; lra).
  apply contradicts_by.
  - cbn [instead_domain nth]. fold h. rewrite EY. rewrite Rabs_pos_eq by lra. repeat split; lra.
  - intros W lims. do 2 eexists. split; [reflexivity|]. split; [reflexivity|]. cbn [nth]. unfold novosibirsk_documented. fold h. rewrite EY, ln_exp.
    replace (2 * (((exp 1 - 1) / h - 0) / 1) * h) with (2 * (exp 1 - 1)) by (field; lra).
    set (a := ln (1 + 2 * (exp 1 - 1))).
    assert (1 < a). { unfold a. rewrite <- (ln_exp 1) at 1. apply ln_increasing; [apply exp_pos|lra]. }
    intro E. apply exp_inv in E. nra.
Qed.
(** KinLimitBWPdf.h has x0' where the code has its square. *)
Theorem C56_kin_limit_refuted : contradicts (vals [1; 1; 1]) (LKinLimitBW 0%nat 1%nat 2%nat fone fzero).
Proof.
  assert (F1 : f2R fone = 1) by (cbv [f2R fone]; vm_compute; lra).
  assert (F0 : f2R fzero = 0) by reflexivity.
  apply contradicts_by; [cbn [instead_domain nth]; rewrite F1; lra|].
  intros W lims. do 2 eexists. split; [reflexivity|]. split; [reflexivity|]. cbn [nth]. rewrite F1, F0. unfold kin_limit_documented.
  destruct (Rle_dec (kl_lambda 1 1 0) 0) as [N|N]; [exfalso; unfold kl_lambda in N; lra|].
  assert (P : 0 < kl_p 1 1 0). { unfold kl_p. apply sqrt_lt_R0. unfold kl_lambda in *. lra. }
  assert (Q : 0 < kl_q 1 1 0). { unfold kl_q. apply sqrt_lt_R0. unfold kl_lambda in *. lra. }
  assert (B0 : 0 < kl_bW 1 1 0). { unfold kl_bW. apply Rdiv_lt_0_compat; [lra|]. apply sqrt_lt_R0. pose proof (pow2_ge_0 (kl_p 1 1 0)). lra. }
  assert (B1 : 0 < kl_bW' code_consts 1 1 0).
  { unfold kl_bW'. apply Rdiv_lt_0_compat; [lra|]. apply sqrt_lt_R0. pose proof (pow2_ge_0 (kl_q 1 1 0)).
    destruct code_consts_near as (_ & _ & _ & _ & _ & K). apply Rabs_le_inv in K. nra. }
  assert (S1 : kl_S 1 1 1 0 = 1) by (unfold kl_S; field; lra).
  assert (S2 : kl_S' code_consts 1 1 1 0 = 1) by (unfold kl_S'; field; lra).
  rewrite S1, S2. lra.
Qed.
Print Assumptions C56_kin_limit_refuted.
Print Assumptions C56_novosibirsk_refuted.
Print Assumptions C56_breit_wigner_refuted.
Print Assumptions C56_voigtian_refuted.

(** ** C44: multi-dimensional polynomials *)
(** The monomials of total degree at most N in n observables, each once. *)
Theorem C44_monomials : forall n N, NoDup (monomials n N) /\
  (forall e, In e (monomials n N) <-> length e = n /\ (list_sum e <= N)%nat).
Proof. intros. split; [apply monomials_NoDup|apply monomials_In]. Qed.
Print Assumptions C44_monomials.
(** The constructor asks for one coefficient per monomial while (N+1)(N+2)...(N+n) fits an unsigned int ... *)
Theorem C44_count_partial : forall n N,
  (fold_right Z.mul 1 (map (fun i => Z.of_nat N + 1 + Z.of_nat i) (seq 0 n)) < 2 ^ 32)%Z ->
  demanded_terms n N = Z.of_nat (length (monomials n N)).
Proof.
  intros n N H. apply demanded_terms_count. eapply Z.le_lt_trans; [|exact H]. apply Z.eq_le_incl.
  clear H. unfold rising. assert (G : forall l a, Z.of_nat (fold_left (fun a i => (a * (N + 1 + i))%nat) l a) =
    (Z.of_nat a * fold_right Z.mul 1 (map (fun i => Z.of_nat N + 1 + Z.of_nat i) l))%Z).
  { induction l as [|i l IH]; intro a; cbn [fold_left fold_right map]; [lia|]. rewrite IH. rewrite Nat2Z.inj_mul. rewrite !Nat2Z.inj_add. cbn [Z.of_nat Pos.of_succ_nat]. ring. }
  rewrite G. lia.
Qed.
Print Assumptions C44_count_partial.
Example C44_count_ex : (fold_right Z.mul 1 (map (fun i => Z.of_nat 3 + 1 + Z.of_nat i) (seq 0 2)) < 2 ^ 32)%Z /\ demanded_terms 2 3 = 10%Z.
Proof. split; reflexivity. Qed.
(** ... and for too few beyond that: 10 observables, degree 5. *)
Theorem C44_count_refuted : exists n N, (demanded_terms n N < Z.of_nat (length (monomials n N)))%Z.
Proof. exists 10%nat, 5%nat. vm_compute. reflexivity. Qed.
Print Assumptions C44_count_refuted.
(** Evaluation: coefficient k multiplies the k-th monomial in (observable - offset). *)
Theorem C44_evaluation : forall (V : Type) W lims (v : V -> R) xs cs offs N,
  length offs = length xs -> (length (monomials (length xs) N) <= length cs)%nat ->
  code W lims v (LMultiPolynomial xs cs offs N) =
  Some (poly_sum (map (fun p => v (fst p) - v (snd p)) (combine xs offs)) (monomials (length xs) N) (map v cs)).
Proof.
  intros V W lims v xs cs offs N H1 H2. rewrite documented_ok; [|reflexivity|now split]. cbn [documented].
  do 2 f_equal. clear. revert offs. induction xs as [|x xs IH]; intros [|o offs]; cbn [combine map]; try reflexivity. rewrite IH. reflexivity.
Qed.
Print Assumptions C44_evaluation.
(** Two observables, degree 1, monomials 1, x, y: 5 + 7(2 - 0) + 11(3 - 1) = 41. *)
Example C44_evaluation_ex : forall W lims,
  code W lims (vals [2; 3; 5; 7; 11; 0; 1]) (LMultiPolynomial [0; 1] [2; 3; 4] [5; 6] 1)%nat = Some 41.
Proof. intros. rewrite C44_evaluation; [|reflexivity|cbn; lia]. cbn. f_equal. ring. Qed.

(** ** C45: Bernstein polynomials *)
Lemma bern_const : forall t n m i c, (i + m = S n)%nat ->
  bernstein_sum t n i (repeat c m) = c * (fold_right Rplus 0 (map (fun j => Binomial.C n j * t ^ j * (1 - t) ^ (n - j)) (seq i m))).
Proof.
  induction m as [|m IH]; intros i c H; cbn [repeat bernstein_sum seq map fold_right]; [ring|]. rewrite IH by lia. ring.
Qed.
Lemma fold_sum : forall f n, fold_right Rplus 0 (map f (seq 0 (S n))) = sum_f_R0 f n.
Proof.
  intros f n. assert (G : forall m i a, fold_right Rplus a (map f (seq i m)) = fold_right Rplus 0 (map f (seq i m)) + a).
  { induction m as [|m IH]; intros; cbn [seq map fold_right]; [ring|]. rewrite IH. ring. }
  induction n as [|n IH]; [cbn; ring|]. rewrite seq_S, map_app, fold_right_app, G, IH. cbn. ring.
Qed.
(** With mindeg = 0 and coefficients all equal to c: c / (upper - lower), at every point and every degree. *)
Theorem C45_partition_of_unity_partial : forall (V : Type) W (lims : V -> R * R) (v : V -> R) x cs c,
  fst (lims x) < snd (lims x) -> cs <> [] -> (forall h, In h cs -> v h = c) ->
  code W lims v (LBernstein x cs 0) = Some (c / (snd (lims x) - fst (lims x))).
Proof.
  intros V W lims v x cs c HL HN HC. rewrite documented_ok; [|reflexivity|exact HL]. cbn [documented].
  destruct (lims x) as [lo up] eqn:EL. cbn [fst snd] in *. set (t := (v x - lo) / (up - lo)).
  assert (E : map v cs = repeat c (length cs)).
  { clear HN. induction cs as [|a cs IH]; [reflexivity|]. cbn [map length repeat]. rewrite (HC a (or_introl eq_refl)), IH; [reflexivity|]. intros h Hh. apply HC. now right. }
  rewrite E. destruct cs as [|a cs]; [contradiction|]. cbn [length]. rewrite bern_const by lia.
  replace (S (length cs) + 0 - 1)%nat with (length cs) by lia. rewrite fold_sum, <- binomial.
  replace (t + (1 - t)) with 1 by ring. rewrite pow1. f_equal. field. lra.
Qed.
Print Assumptions C45_partition_of_unity_partial.
Example C45_partition_ex : forall W,
  code W anylims (vals [/ 3; 6]) (LBernstein 0 [1; 1; 1; 1] 0)%nat = Some (6 / (1 - 0)).
Proof. intros. apply (C45_partition_of_unity_partial nat W anylims (vals [/ 3; 6])); [cbn; lra|discriminate|]. intros h [<-|[<-|[<-|[<-|[]]]]]; reflexivity. Qed.
(** In range and with coefficients >= 0 the value is >= 0, for every mindeg. *)
Theorem C45_nonnegative : forall (V : Type) W (lims : V -> R * R) (v : V -> R) x cs mindeg,
  fst (lims x) < snd (lims x) -> fst (lims x) <= v x <= snd (lims x) -> (forall h, In h cs -> 0 <= v h) ->
  exists r, code W lims v (LBernstein x cs mindeg) = Some r /\ 0 <= r.
Proof.
  intros V W lims v x cs d HL HX HC. rewrite documented_ok; [|reflexivity|exact HL]. cbn [documented].
  destruct (lims x) as [lo up]. cbn [fst snd] in *. eexists. split; [reflexivity|]. apply Rdiv_le_0_compat; [|lra].
  assert (T : 0 <= (v x - lo) / (up - lo) <= 1). { split; [apply Rdiv_le_0_compat; lra|]. apply Rle_div_l; lra. }
  generalize T. generalize ((v x - lo) / (up - lo)). clear - HC. intros t T. generalize (length cs + d - 1)%nat. intro n.
  assert (HC' : forall c, In c (map v cs) -> 0 <= c). { intros c Hc. apply in_map_iff in Hc. destruct Hc as (h & <- & Hh). now apply HC. }
  clear HC. generalize 0%nat. induction (map v cs) as [|c l IH]; intro i; cbn [bernstein_sum]; [lra|].
  apply Rplus_le_le_0_compat; [|apply IH; intros; apply HC'; now right].
  apply Rmult_le_pos; [apply HC'; now left|]. apply Rmult_le_pos; [apply Rmult_le_pos|]; [|apply pow_le; lra|apply pow_le; lra].
  unfold Binomial.C. apply Rmult_le_pos; [apply pos_INR|]. left. apply Rinv_0_lt_compat. apply Rmult_lt_0_compat; apply INR_fact_lt_0.
Qed.
Print Assumptions C45_nonnegative.
Example C45_nonnegative_ex : fst (anylims 0%nat) < snd (anylims 0%nat) /\ fst (anylims 0%nat) <= vals [/ 3; 6] 0%nat <= snd (anylims 0%nat) /\
  (forall h, In h [1%nat; 1%nat] -> 0 <= vals [/ 3; 6] h).
Proof. cbn. repeat split; try lra. intros h [<-|[<-|[]]]; lra. Qed.
(** With mindeg > 0 the degree is raised but the basis functions still start at the first: no partition of unity. *)
Theorem C45_mindeg_refuted : forall W,
  code W anylims (vals [1; 6]) (LBernstein 0 [1] 1)%nat = Some 0.
Proof. intros. rewrite documented_ok; [|reflexivity|cbn; lra]. cbn [documented]. f_equal. cbn. field. Qed.
Print Assumptions C45_mindeg_refuted.

(** ** C24: analytic integrals *)
(** ExpPdf with one coefficient: every coefficient, every range. *)
Theorem C24_exp : forall (V : Type) W lims (v : V -> R) x a lo hi, integrates W lims v (LExp x a) lo hi.
Proof. intros. apply exp_ok. Qed.
Print Assumptions C24_exp.
(** StepPdf: exactly when the step is in the range. *)
Theorem C24_step : forall (V : Type) W lims (v : V -> R) x x0 up lo hi, lo < hi ->
  integrates W lims v (LStep x x0 up) lo hi <-> lo <= v x0 <= hi.
Proof.
  intros. split; [|apply step_ok]. intro HI. destruct (Rlt_dec (v x0) lo) as [L|L]; [exfalso; revert HI; apply step_outside; auto|].
  destruct (Rlt_dec hi (v x0)) as [L'|L']; [exfalso; revert HI; apply step_outside; auto|]. lra.
Qed.
Print Assumptions C24_step.
(** GaussianPdf declares (up to the digits of sqrt 2) the integral over the whole line ... *)
Theorem C24_gaussian_whole_line_partial : forall (V : Type) W lims (v : V -> R) x m s lo hi, 0 < v s ->
  exists I J, declared W v (LGaussian x m s) lo hi = Some I /\ whole_line (density W lims v (LGaussian x m s)) J /\
    J = v s * sqrt (2 * PI) /\ Rabs (I - J) <= / 100000 * v s.
Proof.
  intros V W lims v x m s lo hi H. exists (v s * (LeafGen.root2 R_ops * sqrt PI)), (v s * sqrt (2 * PI)).
  split; [apply declared_gauss|]. split; [now apply gauss_whole|]. split; [reflexivity|].
  pose proof PI_tight. rewrite sqrt_mult by lra. replace (v s * (LeafGen.root2 R_ops * sqrt PI) - v s * (sqrt 2 * sqrt PI)) with (v s * (sqrt PI * (LeafGen.root2 R_ops - sqrt 2))) by ring.
  rewrite !Rabs_mult, (Rabs_pos_eq (v s)), (Rabs_pos_eq (sqrt PI)) by (apply sqrt_pos || lra).
  assert (SP : 177 / 100 <= sqrt PI <= 18 / 10) by (apply sqrt_between; lra). pose proof root2_near as R2.
  pose proof (Rabs_pos (LeafGen.root2 R_ops - sqrt 2)). rewrite (Rmult_comm (/ 100000)). apply Rmult_le_compat_l; [lra|]. nra.
Qed.
Print Assumptions C24_gaussian_whole_line_partial.
(** ... and so JohnsonSUPdf, which declares 1. *)
Theorem C24_johnson_whole_line_partial : forall (V : Type) W lims (v : V -> R) x m s g d lo hi, 0 < v s -> 0 < v d ->
  declared W v (LJohnsonSU x m s g d) lo hi = Some 1 /\
  exists J, whole_line (density W lims v (LJohnsonSU x m s g d)) J /\ Rabs (J - 1) <= / 1000000.
Proof.
  intros V W lims v x m s g d lo hi Hs Hd. split; [reflexivity|]. eexists. split; [now apply johnson_whole|].
  destruct code_consts_near as (_ & K & _). set (k := k_r2pi code_consts) in *.
  assert (2 <= sqrt (2 * PI)). { replace 2 with (sqrt (2 * 2)) at 1 by (apply sqrt_square; lra). apply sqrt_le_1; try lra; pose proof PI_tight; lra. }
  apply Rabs_le_inv in K as K'. replace (sqrt (2 * PI) / k - 1) with ((sqrt (2 * PI) - k) / k) by (field; lra).
  unfold Rdiv. rewrite Rabs_mult, Rabs_inv, (Rabs_pos_eq k), Rabs_minus_sym by lra. apply Rle_div_l; lra.
Qed.
Print Assumptions C24_johnson_whole_line_partial.
Example C24_whole_line_ex : 0 < vals [0; 0; 2; 1; 3] 2%nat /\ 0 < vals [0; 0; 2; 1; 3] 4%nat. Proof. cbn. lra. Qed.
(** On a bounded range they are not the integrals: for the Gaussian on every range of at most 2.5 standard deviations, *)
Theorem C24_gaussian_refuted : forall (V : Type) W lims (v : V -> R) x m s lo hi,
  0 < v s -> lo < hi -> hi - lo <= 5 / 2 * v s -> ~ integrates W lims v (LGaussian x m s) lo hi.
Proof. intros. now apply gauss_bounded. Qed.
Print Assumptions C24_gaussian_refuted.
(** for JohnsonSU on every range shorter than 2.5 sigma / delta. *)
Theorem C24_johnson_refuted : forall (V : Type) W lims (v : V -> R) x m s g d lo hi,
  0 < v s -> 0 < v d -> lo < hi -> (hi - lo) * v d <= 5 / 2 * v s -> ~ integrates W lims v (LJohnsonSU x m s g d) lo hi.
Proof.
  intros V W lims v x m s g d lo hi Hs Hd HL HB (I & HD & HI). change (Some 1 = Some I) in HD. injection HD as <-.
  destruct code_consts_near as (_ & K & _). set (k := k_r2pi code_consts) in *. apply Rabs_le_inv in K.
  assert (H2P : 25066275 / 10000000 <= sqrt (2 * PI) <= 25066285 / 10000000) by (pose proof PI_tight; apply sqrt_between; lra).
  assert (HK : 0 < v s * k) by nra.
  assert (E : 1 <= (hi - lo) * (v d / (v s * k))).
  { eapply (is_RInt_le _ (fun _ => v d / (v s * k)) lo hi); [lra|exact HI|apply is_const|]. intros t _.
    unfold density. cbn [leaf_value_in obind]. rewrite johnson_R by lra. fold k.
    set (r := sqrt (1 + (t - v m) ^ 2 / v s ^ 2)).
    assert (HR : 1 <= r). { unfold r. rewrite <- sqrt_1 at 1. apply sqrt_le_1; try lra. all: pose proof (pow2_ge_0 ((t - v m) / v s)) as X; replace (((t - v m) / v s) ^ 2) with ((t - v m) ^ 2 / v s ^ 2) in X by (field; lra); lra. }
    rewrite <- (Rmult_1_r (v d / (v s * k))). apply Rmult_le_compat.
    - apply Rdiv_le_0_compat; [lra|]. apply Rmult_lt_0_compat; [nra|lra].
    - left. apply exp_pos.
    - unfold Rdiv. apply Rmult_le_compat_l; [lra|]. revert HK. generalize (v s * k). intros q HK. apply Rinv_le_contravar; nra.
    - apply Rle_trans with (exp 0); [|rewrite exp_0; lra]. match goal with |- exp (- (1 / 2) * ?u ^ 2) <= _ => pose proof (pow2_ge_0 u); destruct (Req_dec u 0) as [Z|Z] end.
      + rewrite Z. right. f_equal. ring.
      + left. apply exp_increasing. pose proof (pow2_gt_0 _ Z). lra. }
  assert (E2 : v s * k <= (hi - lo) * v d).
  { apply Rmult_le_compat_r with (r := v s * k) in E; [|lra]. replace ((hi - lo) * (v d / (v s * k)) * (v s * k)) with ((hi - lo) * v d) in E by (field; lra). lra. }
  nra.
Qed.
Print Assumptions C24_johnson_refuted.
(** ExpPdf given a vector of one coefficient is the constant e^w but declares the integral of e^(wx). *)
Theorem C24_exp_vector_refuted : forall W lims, ~ integrates W lims (vals [0; 1]) (LExpPoly 0%nat [1%nat]) 0 1.
Proof. intros. apply exp_poly_one; try reflexivity. lra. Qed.
Print Assumptions C24_exp_vector_refuted.
