(** The Gaussian integral over the whole line, by the classical argument of two functions with opposite derivatives. *)
From Coq Require Import Reals Lra Lia Psatz.
From Coquelicot Require Import Coquelicot.
Open Scope R_scope.

Definition bell (t : R) : R := exp (- t ^ 2).
Definition B (x : R) : R := RInt bell 0 x.
Definition g (x t : R) : R := exp (- x ^ 2 * (1 + t ^ 2)) / (1 + t ^ 2).
Definition G (x : R) : R := RInt (g x) 0 1.

Lemma pos1 t : 0 < 1 + t ^ 2. Proof. pose proof (pow2_ge_0 t). lra. Qed.
Lemma bell_cont x : continuous bell x.
Proof. apply (ex_derive_continuous bell). unfold bell. auto_derive. exact I. Qed.
Lemma bell_int a b : ex_RInt bell a b. Proof. apply (@ex_RInt_continuous R_CompleteNormedModule). intros z _. apply bell_cont. Qed.
Lemma B_derive x : is_derive B x (bell x).
Proof.
  apply is_derive_RInt with (a := 0).
  - apply filter_forall. intros y. apply (@RInt_correct R_CompleteNormedModule), bell_int.
  - apply bell_cont.
Qed.
Lemma g_cont x t : continuous (g x) t.
Proof. apply (ex_derive_continuous (g x)). unfold g. auto_derive. pose proof (pos1 t). lra. Qed.
Lemma g_int x a b : ex_RInt (g x) a b. Proof. apply (@ex_RInt_continuous R_CompleteNormedModule). intros z _. apply g_cont. Qed.
Definition dg (x t : R) : R := - 2 * x * exp (- x ^ 2 * (1 + t ^ 2)).
Lemma g_derive (x t : R) : is_derive (fun u => g u t) x (dg x t).
Proof. unfold g, dg. pose proof (pos1 t). auto_derive; [lra|].
  replace (x * (x * 1)) with (x ^ 2) by ring. replace (t * (t * 1)) with (t ^ 2) by ring.
  generalize (exp (- x ^ 2 * (1 + t ^ 2))). intros e. field. lra. Qed.
Lemma dg_cont2 x t : continuity_2d_pt (fun u v => Derive (fun z => g z v) u) x t.
Proof.
  apply continuity_2d_pt_ext with dg.
  - intros u v. symmetry. apply is_derive_unique, g_derive.
  - unfold dg. apply continuity_2d_pt_mult.
    + apply continuity_2d_pt_mult; [apply continuity_2d_pt_const|apply continuity_2d_pt_id1].
    + apply continuity_1d_2d_pt_comp.
      * apply continuity_pt_filterlim, (ex_derive_continuous exp). auto_derive. exact I.
      * apply continuity_2d_pt_mult.
        { apply continuity_2d_pt_opp. cbn [pow]. apply continuity_2d_pt_mult; [apply continuity_2d_pt_id1|].
          apply continuity_2d_pt_mult; [apply continuity_2d_pt_id1|apply continuity_2d_pt_const]. }
        apply continuity_2d_pt_plus; [apply continuity_2d_pt_const|].
        cbn [pow]. apply continuity_2d_pt_mult; [apply continuity_2d_pt_id2|].
        apply continuity_2d_pt_mult; [apply continuity_2d_pt_id2|apply continuity_2d_pt_const].
Qed.
Lemma G_derive x : is_derive G x (RInt (fun t => dg x t) 0 1).
Proof.
  rewrite (RInt_ext (fun t => dg x t) (fun t => Derive (fun u => g u t) x)).
  2:{ intros t _. symmetry. apply is_derive_unique, g_derive. }
  apply is_derive_RInt_param.
  - apply filter_forall. intros y t _. exists (dg y t). apply g_derive.
  - intros t _. apply dg_cont2.
  - apply filter_forall. intros y. apply g_int.
Qed.
(** int_0^1 -2x exp(-x^2(1+t^2)) dt = -2 exp(-x^2) * int_0^x exp(-u^2) du *)
Lemma dg_int x : RInt (fun t => dg x t) 0 1 = - 2 * bell x * B x.
Proof.
  unfold B.
  replace (RInt bell 0 x) with (RInt bell (x * 0 + 0) (x * 1 + 0)) by (f_equal; ring).
  rewrite <- (RInt_comp_lin bell x 0 0 1).
  2:{ apply bell_int. }
  change (RInt (fun t => dg x t) 0 1 = scal (- 2 * bell x) (RInt (fun y => scal x (bell (x * y + 0))) 0 1)).
  rewrite <- RInt_scal.
  2:{ apply (@ex_RInt_continuous R_CompleteNormedModule). intros z _. apply (ex_derive_continuous (fun y => scal x (bell (x * y + 0)))).
      unfold scal. cbn. unfold mult. cbn. unfold bell. auto_derive. exact I. }
  apply RInt_ext. intros t _. unfold scal. cbn. unfold mult. cbn. unfold dg, bell.
  replace (- x ^ 2 * (1 + t ^ 2)) with (- x ^ 2 + - (x * t + 0) ^ 2) by ring. rewrite exp_plus. ring.
Qed.
Lemma zero_derive (x : R) : is_derive (fun y => B y ^ 2 + G y) x 0.
Proof.
  apply (is_derive_ext (fun y => plus (mult (B y) (B y)) (G y))).
  { intros t. unfold plus, mult. cbn. ring. }
  replace 0 with (plus (plus (mult (bell x) (B x)) (mult (B x) (bell x))) (RInt (fun t => dg x t) 0 1)).
  - apply @is_derive_plus; [|apply G_derive]. apply @is_derive_mult; [apply B_derive|apply B_derive|intros; apply Rmult_comm].
  - rewrite dg_int. unfold plus, mult. cbn. ring.
Qed.
Lemma G0 : G 0 = PI / 4.
Proof.
  unfold G. rewrite (RInt_ext (g 0) (fun t => / (1 + t ^ 2))).
  2:{ intros t _. unfold g. replace (- 0 ^ 2 * (1 + t ^ 2)) with 0 by ring. rewrite exp_0. change (1 / (1 + t ^ 2) = / (1 + t ^ 2)). unfold Rdiv. ring. }
  apply is_RInt_unique.
  replace (PI / 4) with (minus (atan 1) (atan 0)) by (rewrite atan_0, atan_1; unfold minus, plus, opp; cbn; ring). apply (is_RInt_derive atan (fun t => / (1 + t ^ 2))).
  - intros x _. auto_derive; [exact I|]. unfold Rsqr. field. pose proof (pos1 x). lra.
  - intros x _. apply (ex_derive_continuous (fun t => / (1 + t ^ 2))). auto_derive. pose proof (pos1 x). lra.
Qed.
Lemma B2 x : B x ^ 2 + G x = PI / 4.
Proof.
  assert (H : B 0 ^ 2 + G 0 = PI / 4).
  { assert (E : B 0 = 0) by exact (RInt_point 0 bell). rewrite E, G0. ring. }
  rewrite <- H.
  destruct (MVT_gen (fun y => B y ^ 2 + G y) 0 x (fun _ => 0)) as [c [_ E]].
  - intros y _. apply zero_derive.
  - intros y _. apply continuity_pt_filterlim, (ex_derive_continuous (fun y => B y ^ 2 + G y)). exists 0. apply zero_derive.
  - cbn beta in E. lra.
Qed.
Lemma G_bounds x : 0 <= G x <= bell x.
Proof.
  unfold G. split.
  - apply RInt_ge_0; [lra|apply g_int|]. intros t _. unfold g. apply Rlt_le, Rdiv_lt_0_compat; [apply exp_pos|apply pos1].
  - replace (bell x) with (RInt (fun _ => bell x) 0 1) by (rewrite RInt_const; unfold scal; cbn; unfold mult; cbn; ring).
    apply RInt_le; [lra|apply g_int|apply ex_RInt_const|]. intros t _. unfold g, bell.
    apply Rle_div_l; [apply pos1|]. rewrite <- (Rmult_1_r (exp (- x ^ 2 * (1 + t ^ 2)))).
    apply Rmult_le_compat; [left; apply exp_pos|lra| |pose proof (pow2_ge_0 t); lra].
    destruct (Req_dec (x * t) 0) as [Z|Z].
    + right. f_equal. replace (- x ^ 2 * (1 + t ^ 2)) with (- x ^ 2 - (x * t) ^ 2) by ring. rewrite Z. ring.
    + left. apply exp_increasing. replace (- x ^ 2 * (1 + t ^ 2)) with (- x ^ 2 - (x * t) ^ 2) by ring.
      pose proof (pow2_gt_0 (x * t) Z). lra.
Qed.
Lemma bell_small x : 1 <= x -> bell x <= / (1 + x).
Proof.
  intros H. unfold bell. replace (- x ^ 2) with (- (x ^ 2)) by ring. rewrite exp_Ropp. apply Rinv_le_contravar; [lra|].
  pose proof (exp_ineq1_le (x ^ 2)). nra.
Qed.
Lemma B_pos x : 0 <= x -> 0 <= B x.
Proof. intros H. apply RInt_ge_0; [exact H|apply bell_int|]. intros t _. left. apply exp_pos. Qed.
Lemma B_limit : filterlim B (Rbar_locally p_infty) (locally (sqrt PI / 2)).
Proof.
  assert (S : forall x, 0 <= x -> B x = sqrt (PI / 4 - G x)).
  { intros x H. rewrite <- (B2 x). replace (B x ^ 2 + G x - G x) with (B x ^ 2) by ring. symmetry. apply sqrt_pow2. now apply B_pos. }
  assert (LG : filterlim G (Rbar_locally p_infty) (locally 0)).
  { apply filterlim_locally. intros eps. exists (Rmax 1 (/ eps)). intros x H.
    assert (1 <= x) by (eapply Rle_trans; [apply Rmax_l|left; apply H]).
    assert (E : / eps < x) by (eapply Rle_lt_trans; [apply Rmax_r|apply H]).
    destruct (G_bounds x) as [A1 A2]. pose proof (bell_small x H0). 
    change (Rabs (G x - 0) < eps). rewrite Rminus_0_r. rewrite Rabs_pos_eq by exact A1.
    assert (/ (1 + x) < eps); [|lra].
    rewrite <- (Rinv_inv eps). apply Rinv_lt_contravar; [|lra].
    apply Rmult_lt_0_compat; [apply Rinv_0_lt_compat, cond_pos|lra]. }
  apply filterlim_ext_loc with (fun x => sqrt (PI / 4 - G x)).
  { exists 0. intros x H. symmetry. apply S. now left. }
  replace (sqrt PI / 2) with (sqrt (PI / 4 - 0)).
  2:{ rewrite Rminus_0_r. rewrite sqrt_div_alt by lra. f_equal. replace 4 with (2 * 2) by ring. apply sqrt_square. lra. }
  apply (filterlim_comp _ _ _ G (fun u => sqrt (PI / 4 - u)) (Rbar_locally p_infty) (locally 0)); [exact LG|].
  apply (continuous_comp (fun u => PI / 4 - u) sqrt 0).
  - apply (ex_derive_continuous (fun u => PI / 4 - u)). auto_derive. exact I.
  - apply continuity_pt_filterlim, continuity_pt_sqrt. pose proof PI_RGT_0. lra.
Qed.
Lemma B_odd x : B (- x) = - B x.
Proof.
  unfold B. replace (RInt bell 0 (- x)) with (RInt bell (-1 * 0 + 0) (-1 * x + 0)) by (f_equal; ring).
  rewrite <- (RInt_comp_lin bell (-1) 0 0 x) by apply bell_int.
  rewrite (RInt_ext _ (fun y => scal (-1) (bell y))).
  - pose proof (RInt_scal bell 0 x (-1) (bell_int 0 x)) as E. etransitivity; [exact E|]. change (-1 * RInt bell 0 x = - RInt bell 0 x). ring.
  - intros y _. change (-1 * bell (-1 * y + 0) = -1 * bell y). unfold bell. f_equal. f_equal. ring.
Qed.
Lemma B_limit_m : filterlim B (Rbar_locally m_infty) (locally (- (sqrt PI / 2))).
Proof.
  apply filterlim_ext with (fun x => - B (- x)).
  { intros x. rewrite B_odd. ring. }
  apply (filterlim_comp _ _ _ (fun x => B (- x)) Ropp (Rbar_locally m_infty) (locally (sqrt PI / 2))).
  - apply (filterlim_comp _ _ _ Ropp B (Rbar_locally m_infty) (Rbar_locally p_infty)); [|exact B_limit].
    intros P [M HM]. exists (- M). intros x Hx. apply HM. lra.
  - apply (filterlim_opp (sqrt PI / 2)).
Qed.
