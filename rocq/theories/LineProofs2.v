(** Proofs about the lineshapes, continued: Bugg's sigma and the FOCUS K-matrix. *)
From Coq Require Import Reals List Lra Lia Psatz Arith Bool ZArith.
From Coquelicot Require Import Coquelicot.
From Verif Require Import FormulaSpec FormulaProofs AmpModel WaveModel KmModel WaveSpec WaveProofs LineModel LineSpec LineProofs.
Import ListNotations.
Open Scope R_scope.

(** ** Constants *)
Lemma lit_dbl : forall m p, IZR m * powerRZ 2 (Z.neg p) = dbl m (Pos.to_nat p).
Proof. intros. reflexivity. Qed.
Lemma dbl_pos : forall m e, (0 < m)%Z -> 0 < dbl m e.
Proof. intros m e P. unfold dbl. apply Rdiv_lt_0_compat; [now apply IZR_lt|]. apply pow_lt. lra. Qed.
Ltac dbl_bounds x := (* bounds of a constant by evaluation *)
  unfold x, dbl; cbn [pow].
Ltac lits := rops; rewrite ?lit_dbl; cbn [Pos.to_nat Pos.iter_op Nat.add Init.Nat.add].
Lemma bugg_constants : b_M R_ops = bg_M /\ m_pi R_ops = bg_pi /\ m_k R_ops = bg_k /\ m_eta R_ops = bg_eta /\ m_etap R_ops = fo_etap.
Proof. repeat split; unfold b_M, m_pi, m_k, m_eta, m_etap; rops; rewrite lit_dbl; reflexivity. Qed.
Lemma pi_small : 13 / 100 < bg_pi < 14 / 100.
Proof. unfold bg_pi, dbl. lra. Qed.
Lemma M_bounds : 95 / 100 < bg_M < 96 / 100.
Proof. unfold bg_M, dbl. lra. Qed.
Lemma k_bounds : 49 / 100 < bg_k < 1 / 2.
Proof. unfold bg_k, dbl. lra. Qed.
Lemma eta_bounds : 54 / 100 < bg_eta < 55 / 100.
Proof. unfold bg_eta, dbl. lra. Qed.
Lemma etap_bounds : 96 / 100 < fo_etap < 97 / 100.
Proof. unfold fo_etap, dbl. lra. Qed.
Lemma sA_bounds : 0 < bg_sA < bg_pi ^ 2.
Proof.
  unfold bg_sA. pose proof pi_small. assert (0 < bg_pi ^ 2) by nra. assert (A : 0 < dbl 7385903388887613 54 < 1) by (unfold dbl; lra). nra.
Qed.

(** ** Bugg *)
Lemma bugg_rho_phase : forall s m, 0 < s -> bugg_rho2 R_ops s m = phase_space (4 * m ^ 2) s.
Proof.
  intros s m Ps. rewrite phase_space_sqrt by assumption. unfold bugg_rho2. rops. replace (4 * m * m / s) with (4 * m ^ 2 / s) by (unfold Rdiv; ring).
  set (x := 4 * m ^ 2 / s). clearbody x. unfold Rleb, c_scale. rops. cbn [fst snd]. destruct (Rle_dec 0 (1 - x)) as [H|H].
  - rewrite (sqrt_neg_0 (x - 1)) by lra. f_equal; ring.
  - rewrite (sqrt_neg_0 (1 - x)) by lra. replace (- (1 - x)) with (x - 1) by ring. f_equal; ring.
Qed.
Lemma bugg_j1_value : forall s, 0 < s -> bugg_j1 R_ops LL s bg_pi = bg_j1 s.
Proof.
  intros s Ps. unfold bugg_j1, bg_j1. rewrite bugg_rho_phase by assumption. rewrite pi_const_value. rops. cbv zeta.
  change (fst (phase_space (4 * bg_pi ^ 2) s)) with (Re (phase_space (4 * bg_pi ^ 2) s)).
  destruct (phase_nonneg (4 * bg_pi ^ 2) s) as [P _]. set (rho := Re _) in *. clearbody rho.
  unfold Rltb. destruct (Rlt_dec 0 rho) as [H|H]; [reflexivity|]. replace rho with 0 by lra. unfold Rdiv. ring.
Qed.
Lemma bugg_four_value : forall s, bugg_gamma_4pi R_ops LL s bg_pi (b_g4pi R_ops) bg_M (b_lambda R_ops) (b_s0 R_ops) = bg_four s.
Proof.
  intro s. unfold bugg_gamma_4pi, bg_four, bg_fermi, b_g4pi, b_s0, b_lambda. rops. rewrite !lit_dbl. unfold Rltb.
  change (Pos.to_nat 58) with 58%nat. change (Pos.to_nat 51) with 51%nat. change (Pos.to_nat 50) with 50%nat.
  replace (16 * bg_pi * bg_pi) with (16 * bg_pi ^ 2) by ring. replace (bg_M * bg_M) with (bg_M ^ 2) by ring.
  destruct (Rlt_dec s (16 * bg_pi ^ 2)); [reflexivity|]. unfold Rdiv. rewrite !Rmult_assoc. reflexivity.
Qed.
Lemma bg_g_pos : forall s, 0 < s -> 0 < bg_g s.
Proof.
  intros s Ps. unfold bg_g. apply Rmult_lt_0_compat; [|apply exp_pos]. pose proof M_bounds.
  assert (0 < dbl 2931843357418193 51) by now apply dbl_pos. assert (B : 0 < dbl 6124895493223875 54) by now apply dbl_pos.
  pose proof (Rmult_lt_0_compat _ _ B Ps). apply Rmult_lt_0_compat; lra.
Qed.
Lemma channel_parts : forall r m s, bg_channel r m s =
  c_scale R_ops (phase_space (4 * m ^ 2) s) (r * bg_g s * s / bg_M ^ 2 * exp (- dbl 5854679515581645 52 * Rabs (s - 4 * m ^ 2))).
Proof.
  intros. unfold bg_channel, c_scale. destruct (phase_space (4 * m ^ 2) s) as [x y]. rops. unfold Cmult, RtoC. cbn [fst snd]. f_equal; ring.
Qed.
(** The widths with [y] times g1^2 in the place of M g1^2. *)
Lemma widths_value : forall y s, 0 < s -> let g := y * bg_g s in
  bugg_widths R_ops LL g (bg_adler s) (Rabs (s - 4 * bg_k ^ 2)) (Rabs (s - 4 * bg_eta ^ 2)) s =
  (RtoC y * (RtoC (bg_g s * bg_adler s * Re (phase_space (4 * bg_pi ^ 2) s)) + bg_channel (dbl 5404319552844595 53) bg_k s
           + bg_channel (dbl 3602879701896397 54) bg_eta s) + RtoC (bg_four s))%C.
Proof.
  intros y s Ps g. unfold bugg_widths. destruct bugg_constants as (-> & -> & -> & -> & _). cbv zeta. rewrite !bugg_rho_phase by assumption.
  rewrite bugg_four_value. rewrite !channel_parts. unfold b_g2k, b_g2eta, b_alpha. rops. rewrite !lit_dbl.
  change (Pos.to_nat 53) with 53%nat. change (Pos.to_nat 54) with 54%nat. change (Pos.to_nat 52) with 52%nat.
  replace (- (1) * dbl 5854679515581645 52) with (- dbl 5854679515581645 52) by ring.
  replace (bg_M * bg_M) with (bg_M ^ 2) by ring. pose proof M_bounds.
  change (fst (phase_space (4 * bg_pi ^ 2) s)) with (Re (phase_space (4 * bg_pi ^ 2) s)). unfold g.
  set (e1 := exp _). set (e2 := exp _). set (p := Re _). set (f := bg_four s). set (G := bg_g s). set (Ad := bg_adler s).
  set (r1 := dbl 5404319552844595 53). set (r2 := dbl 3602879701896397 54).
  destruct (phase_space (4 * bg_k ^ 2) s) as [x1 y1], (phase_space (4 * bg_eta ^ 2) s) as [x2 y2]. clearbody e1 e2 p f G Ad r1 r2.
  unfold c_scale, c_add, Cplus, Cmult, RtoC. rops. cbn [fst snd]. f_equal; field; lra.
Qed.
Lemma abs_sqrt : forall x, sqrt (x * x) = Rabs x.
Proof. intro x. apply sqrt_Rsqr_abs. Qed.
Lemma abs_cases : forall a b, (if Rltb a b then b - a else a - b) = Rabs (b - a).
Proof.
  intros a b. unfold Rltb. destruct (Rlt_dec a b); [rewrite Rabs_pos_eq by lra; reflexivity|]. rewrite Rabs_left1 by lra. ring.
Qed.
Lemma one_over : forall z : C, c_div R_ops (1, 0) z = (/ z)%C.
Proof. intros [a b]. unfold c_div, c_norm, Cinv. rops. cbn [fst snd]. rewrite <- !Rsqr_pow2. unfold Rsqr, Rdiv. f_equal; ring. Qed.
Lemma scale_RtoC : forall (z : C) (y : R), c_scale R_ops z y = (RtoC y * z)%C.
Proof. intros [u v] y. unfold c_scale, Cmult, RtoC. rops. cbn [fst snd]. f_equal; ring. Qed.
Lemma bugg3_value : forall M, 0 < M -> R_Bugg3 M = (/ bg_denominator 1 (M ^ 2))%C.
Proof.
  intros M PM. unfold bugg3_line. destruct bugg_constants as (-> & -> & -> & -> & _). cbv zeta. rops. rewrite abs_cases, abs_cases.
  replace (M * M) with (M ^ 2) by ring. assert (Ps : 0 < M ^ 2) by nra. pose proof M_bounds. assert (Pm : 0 < bg_M ^ 2) by nra.
  replace (bg_M * bg_M) with (bg_M ^ 2) by ring. rewrite !bugg_j1_value by assumption.
  replace (4 * bg_k * bg_k) with (4 * bg_k ^ 2) by ring. replace (4 * bg_eta * bg_eta) with (4 * bg_eta ^ 2) by ring.
  unfold b_b1, b_b2, b_A, b_sA. rops. rewrite !lit_dbl.
  change (Pos.to_nat 51) with 51%nat. change (Pos.to_nat 54) with 54%nat. change (Pos.to_nat 49) with 49%nat.
  change (bg_M * (dbl 2931843357418193 51 + dbl 6124895493223875 54 * M ^ 2) * exp (- (M ^ 2 - bg_M ^ 2) / dbl 1365716587000103 49)) with (bg_g (M ^ 2)).
  replace (dbl 7385903388887613 54 * bg_pi * bg_pi) with bg_sA by (unfold bg_sA; ring).
  change ((M ^ 2 - bg_sA) / (bg_M ^ 2 - bg_sA)) with (bg_adler (M ^ 2)).
  pose proof (widths_value 1 (M ^ 2) Ps) as W. cbv zeta in W. rewrite Rmult_1_l in W. rewrite W. clear W.
  rewrite one_over. f_equal. unfold bg_denominator.
  destruct (bg_channel _ bg_k _) as [x1 y1], (bg_channel _ bg_eta _) as [x2 y2]. set (p := Re _).
  unfold c_sub, c_mul, Cminus. unfold Cplus, Cmult, Copp, Ci, RtoC. rops. cbn [fst snd]. f_equal; ring.
Qed.
Lemma bugg_value : forall M, 0 < M -> R_Bugg M = (RtoC (sqrt 1000) / bg_denominator bg_M (M ^ 2)%R)%C.
Proof.
  intros M PM. unfold bugg_line. destruct bugg_constants as (-> & -> & -> & -> & _). cbv zeta. rops. rewrite !abs_sqrt.
  replace (M * M) with (M ^ 2) by ring. assert (Ps : 0 < M ^ 2) by nra. pose proof M_bounds. assert (Pm : 0 < bg_M ^ 2) by nra.
  replace (bg_M * bg_M) with (bg_M ^ 2) by ring. rewrite !bugg_j1_value by assumption.
  replace (4 * bg_k * bg_k) with (4 * bg_k ^ 2) by ring. replace (4 * bg_eta * bg_eta) with (4 * bg_eta ^ 2) by ring.
  unfold b_b1, b_b2, b_A, b_sA. rops. rewrite !lit_dbl.
  change (Pos.to_nat 51) with 51%nat. change (Pos.to_nat 54) with 54%nat. change (Pos.to_nat 49) with 49%nat.
  replace ((dbl 2931843357418193 51 + dbl 6124895493223875 54 * M ^ 2) * exp (- (M ^ 2 - bg_M ^ 2) / dbl 1365716587000103 49)) with (/ bg_M * bg_g (M ^ 2))
    by (unfold bg_g; set (ee := exp _); clearbody ee; field; lra).
  replace (dbl 7385903388887613 54 * bg_pi * bg_pi) with bg_sA by (unfold bg_sA; ring).
  change ((M ^ 2 - bg_sA) / (bg_M ^ 2 - bg_sA)) with (bg_adler (M ^ 2)).
  pose proof (widths_value (/ bg_M) (M ^ 2) Ps) as W. cbv zeta in W. rewrite W. clear W.
  rewrite one_over. unfold bg_denominator.
  rewrite scale_RtoC. unfold Cdiv. do 2 f_equal.
  destruct (bg_channel _ bg_k _) as [x1 y1], (bg_channel _ bg_eta _) as [x2 y2]. set (p := Re _).
  unfold c_sub, c_mul, c_scale, Cminus. unfold Cplus, Cmult, Copp, Ci, RtoC. rops. cbn [fst snd]. f_equal; field; lra.
Qed.

(** ** Finiteness and continuity of Bugg's sigma *)
Definition cont (f : R -> R) (s : R) : Prop := continuous f s.
Lemma k_const : forall (c : R) s, cont (fun _ => c) s.
Proof. intros. apply continuous_const. Qed.
Lemma k_id : forall s, cont (fun x => x) s.
Proof. intros. apply continuous_id. Qed.
Lemma k_plus : forall f g s, cont f s -> cont g s -> cont (fun x => f x + g x) s.
Proof. intros f g s. exact (continuous_plus f g s). Qed.
Lemma k_minus : forall f g s, cont f s -> cont g s -> cont (fun x => f x - g x) s.
Proof. intros f g s. exact (continuous_minus f g s). Qed.
Lemma k_mult : forall f g s, cont f s -> cont g s -> cont (fun x => f x * g x) s.
Proof. intros f g s. exact (continuous_mult f g s). Qed.
Lemma k_opp : forall f s, cont f s -> cont (fun x => - f x) s.
Proof. intros f s. exact (continuous_opp f s). Qed.
Lemma k_inv : forall f s, cont f s -> f s <> 0 -> cont (fun x => / f x) s.
Proof. intros f s H N. apply (continuous_comp f Rinv); [exact H|]. now apply continuous_Rinv. Qed.
Lemma k_div : forall f g s, cont f s -> cont g s -> g s <> 0 -> cont (fun x => f x / g x) s.
Proof. intros f g s F G N. apply k_mult; [exact F|now apply k_inv]. Qed.
Lemma k_exp : forall f s, cont f s -> cont (fun x => exp (f x)) s.
Proof. intros f s H. apply (continuous_comp f exp); [exact H|]. apply continuity_pt_filterlim, derivable_continuous_pt, derivable_pt_exp. Qed.
Lemma k_abs : forall f s, cont f s -> cont (fun x => Rabs (f x)) s.
Proof. intros f s H. apply (continuous_comp f Rabs); [exact H|]. apply continuity_pt_filterlim, Rcontinuity_abs. Qed.
Lemma k_ln : forall f s, cont f s -> 0 < f s -> cont (fun x => ln (f x)) s.
Proof.
  intros f s H P. apply (continuous_comp f ln); [exact H|]. apply continuity_pt_filterlim, derivable_continuous_pt. exists (/ f s). now apply derivable_pt_lim_ln.
Qed.
Lemma k_sq : forall f s, cont f s -> cont (fun x => f x ^ 2) s.
Proof. intros f s H. cbn [pow]. apply k_mult; [exact H|]. apply k_mult; [exact H|apply k_const]. Qed.
Lemma rho_below_one : forall s, 0 < s -> 0 <= Re (phase_space (4 * bg_pi ^ 2) s) < 1.
Proof.
  intros s Ps. destruct (phase_nonneg (4 * bg_pi ^ 2) s) as [P _]. split; [exact P|]. rewrite phase_space_sqrt by assumption. cbn [Re fst].
  rewrite <- sqrt_1 at 2. pose proof pi_small. assert (0 < 4 * bg_pi ^ 2 / s) by (apply Rdiv_lt_0_compat; nra).
  destruct (Rle_dec 0 (1 - 4 * bg_pi ^ 2 / s)) as [H1|H1]; [apply sqrt_lt_1; lra|]. rewrite sqrt_neg_0 by lra. rewrite sqrt_1. lra.
Qed.
Lemma j1_cont : forall s, 0 < s -> cont bg_j1 s.
Proof.
  intros s Ps. unfold bg_j1. cbv zeta. destruct (phase_continuous (4 * bg_pi ^ 2) s Ps) as [C1 _]. pose proof (rho_below_one s Ps) as B.
  pose proof m_PI_pos. apply k_div; [|apply k_const|lra]. apply k_plus; [apply k_const|]. apply k_mult; [exact C1|]. apply k_ln.
  - apply k_div; [apply k_minus; [apply k_const|exact C1]|apply k_plus; [apply k_const|exact C1]|lra].
  - apply Rdiv_lt_0_compat; lra.
Qed.
Lemma g_cont : forall s, cont bg_g s.
Proof.
  intro s. unfold bg_g. apply k_mult.
  - apply k_mult; [apply k_const|]. apply k_plus; [apply k_const|]. apply k_mult; [apply k_const|apply k_id].
  - apply k_exp. apply k_div; [|apply k_const|apply Rgt_not_eq; now apply dbl_pos]. apply k_opp. apply k_minus; [apply k_id|apply k_const].
Qed.
Lemma adler_den : 0 < bg_M ^ 2 - bg_sA.
Proof. pose proof sA_bounds. pose proof pi_small. pose proof M_bounds. nra. Qed.
Lemma adler_cont : forall s, cont bg_adler s.
Proof.
  intro s. unfold bg_adler. pose proof adler_den. apply k_div; [|apply k_const|lra]. apply k_minus; [apply k_id|apply k_const].
Qed.
Lemma channel_cont : forall r m s, 0 < s -> cont (fun x => Re (bg_channel r m x)) s /\ cont (fun x => Im (bg_channel r m x)) s.
Proof.
  intros r m s Ps. destruct (phase_continuous (4 * m ^ 2) s Ps) as [C1 C2]. pose proof M_bounds.
  assert (A : cont (fun x => r * bg_g x * x / bg_M ^ 2 * exp (- dbl 5854679515581645 52 * Rabs (x - 4 * m ^ 2))) s).
  { apply k_mult.
    - apply k_div; [|apply k_const|nra]. apply k_mult; [|apply k_id]. apply k_mult; [apply k_const|apply g_cont].
    - apply k_exp. apply k_mult; [apply k_const|]. apply k_abs. apply k_minus; [apply k_id|apply k_const]. }
  split.
  - apply (continuous_ext (fun x => Re (phase_space (4 * m ^ 2) x) * (r * bg_g x * x / bg_M ^ 2 * exp (- dbl 5854679515581645 52 * Rabs (x - 4 * m ^ 2))))).
    + intro x. rewrite channel_parts. reflexivity.
    + now apply k_mult.
  - apply (continuous_ext (fun x => Im (phase_space (4 * m ^ 2) x) * (r * bg_g x * x / bg_M ^ 2 * exp (- dbl 5854679515581645 52 * Rabs (x - 4 * m ^ 2))))).
    + intro x. rewrite channel_parts. reflexivity.
    + now apply k_mult.
Qed.
(** Real and imaginary part of the denominator, without the four pions *)
Definition bg_re (s : R) : R :=
  bg_M ^ 2 - s - bg_adler s * bg_g s * (bg_j1 s - bg_j1 (bg_M ^ 2)) + (Im (bg_channel (dbl 5404319552844595 53) bg_k s) + Im (bg_channel (dbl 3602879701896397 54) bg_eta s)).
Definition bg_im (s : R) : R :=
  bg_g s * bg_adler s * Re (phase_space (4 * bg_pi ^ 2) s) + (Re (bg_channel (dbl 5404319552844595 53) bg_k s) + Re (bg_channel (dbl 3602879701896397 54) bg_eta s)).
Lemma denominator_parts : forall x s, bg_denominator x s = ((bg_re s)%R, (- (bg_im s + x * bg_four s))%R).
Proof.
  intros x s. unfold bg_denominator, bg_re, bg_im. destruct (bg_channel _ bg_k s) as [x1 y1], (bg_channel _ bg_eta s) as [x2 y2]. set (p := Re (phase_space _ _)).
  unfold Cminus. unfold Cplus, Cmult, Copp, Ci, RtoC, Re, Im. cbn [fst snd]. f_equal; ring.
Qed.
Lemma re_im_cont : forall s, 0 < s -> cont bg_re s /\ cont bg_im s.
Proof.
  intros s Ps. destruct (channel_cont (dbl 5404319552844595 53) bg_k s Ps) as [A1 A2]. destruct (channel_cont (dbl 3602879701896397 54) bg_eta s Ps) as [B1 B2].
  destruct (phase_continuous (4 * bg_pi ^ 2) s Ps) as [C1 _]. split; unfold bg_re, bg_im; apply k_plus.
  - apply k_minus; [apply k_minus; [apply k_const|apply k_id]|]. apply k_mult; [apply k_mult; [apply adler_cont|apply g_cont]|].
    apply k_minus; [now apply j1_cont|apply k_const].
  - now apply k_plus.
  - apply k_mult; [|exact C1]. apply k_mult; [apply g_cont|apply adler_cont].
  - now apply k_plus.
Qed.
Lemma channel_re_nonneg : forall r m s, 0 < r -> 0 < s -> 0 <= Re (bg_channel r m s).
Proof.
  intros r m s Pr Ps. rewrite channel_parts. destruct (phase_nonneg (4 * m ^ 2) s) as [P _]. pose proof (bg_g_pos s Ps). pose proof M_bounds.
  unfold c_scale, Re. rops. cbn [fst]. apply Rmult_le_pos; [exact P|]. left. apply Rmult_lt_0_compat; [|apply exp_pos].
  apply Rdiv_lt_0_compat; [|nra]. apply Rmult_lt_0_compat; [|assumption]. now apply Rmult_lt_0_compat.
Qed.
Lemma bg_im_pos : forall s, 4 * bg_pi ^ 2 < s -> 0 < bg_im s.
Proof.
  intros s Ps. pose proof pi_small. assert (S0 : 0 < s) by nra. unfold bg_im.
  pose proof (channel_re_nonneg (dbl 5404319552844595 53) bg_k s ltac:(now apply dbl_pos) S0).
  pose proof (channel_re_nonneg (dbl 3602879701896397 54) bg_eta s ltac:(now apply dbl_pos) S0).
  assert (0 < bg_g s * bg_adler s * Re (phase_space (4 * bg_pi ^ 2) s)); [|lra].
  apply Rmult_lt_0_compat; [apply Rmult_lt_0_compat; [now apply bg_g_pos|]|].
  - unfold bg_adler. pose proof adler_den. pose proof sA_bounds. apply Rdiv_lt_0_compat; [|assumption]. nra.
  - rewrite phase_space_sqrt by assumption. cbn [Re fst]. apply sqrt_lt_R0. assert (4 * bg_pi ^ 2 / s < 1) by (apply Rcomplements.Rlt_div_l; lra). lra.
Qed.
Lemma fermi_pos : forall s, 0 < bg_fermi s.
Proof. intro s. unfold bg_fermi. cbv zeta. apply Rdiv_lt_0_compat; [lra|]. pose proof (exp_pos (dbl 6406370469934531 51 * (dbl 7973623140259463 50 / dbl 6406370469934531 51 - s))). lra. Qed.
Lemma four_open : forall s, 16 * bg_pi ^ 2 <= s -> 0 < bg_four s.
Proof.
  intros s H. unfold bg_four. destruct (Rlt_dec s (16 * bg_pi ^ 2)); [lra|]. apply Rmult_lt_0_compat; [now apply dbl_pos|].
  apply Rdiv_lt_0_compat; apply fermi_pos.
Qed.
Lemma four_nonneg : forall s, 0 <= bg_four s.
Proof. intro s. destruct (Rlt_dec s (16 * bg_pi ^ 2)) as [H|H]; [|left; apply four_open; lra]. unfold bg_four. destruct (Rlt_dec s (16 * bg_pi ^ 2)); lra. Qed.
Lemma bugg_finite : forall x s, 0 <= x -> 4 * bg_pi ^ 2 < s -> Im (bg_denominator x s) < 0.
Proof.
  intros x s Px Ps. rewrite denominator_parts. cbn [Im snd]. pose proof (bg_im_pos s Ps). pose proof (four_nonneg s). nra.
Qed.
Lemma inv_cont : forall (u v : R -> R) s, cont u s -> cont v s -> 0 < u s ^ 2 + v s ^ 2 ->
  cont (fun x => Re (/ (u x, v x))%C) s /\ cont (fun x => Im (/ (u x, v x))%C) s.
Proof.
  intros u v s U V P. unfold Cinv, Re, Im. cbn [fst snd]. split; apply k_div; try (apply k_plus; apply k_sq); try apply k_opp; try assumption; lra.
Qed.
Lemma four_cont : forall s, s <> 16 * bg_pi ^ 2 -> cont bg_four s.
Proof.
  intros s N. destruct (Rtotal_order s (16 * bg_pi ^ 2)) as [H|[H|H]]; [|contradiction|].
  - apply (continuous_ext_loc _ (fun _ => 0)); [|apply continuous_const].
    assert (P : 0 < 16 * bg_pi ^ 2 - s) by lra. exists (mkposreal _ P). intros y By. unfold ball in By. cbn in By. unfold AbsRing_ball, abs, minus, plus, opp in By. cbn in By.
    apply Rabs_def2 in By. unfold bg_four. destruct (Rlt_dec y (16 * bg_pi ^ 2)) as [|C]; [reflexivity|]. exfalso. apply C. cbn [pow] in *. lra.
  - apply (continuous_ext_loc _ (fun s => dbl 3170534137668829 58 * (bg_fermi s / bg_fermi (bg_M ^ 2)))).
    + assert (P : 0 < s - 16 * bg_pi ^ 2) by lra. exists (mkposreal _ P). intros y By. unfold ball in By. cbn in By. unfold AbsRing_ball, abs, minus, plus, opp in By. cbn in By.
      apply Rabs_def2 in By. unfold bg_four. destruct (Rlt_dec y (16 * bg_pi ^ 2)) as [C|]; [|reflexivity]. exfalso. cbn [pow] in *. lra.
    + pose proof (fermi_pos (bg_M ^ 2)). apply k_mult; [apply k_const|]. apply k_div; [|apply k_const|lra]. unfold bg_fermi. cbv zeta.
      pose proof (exp_pos (dbl 6406370469934531 51 * (dbl 7973623140259463 50 / dbl 6406370469934531 51 - s))).
      apply k_div; [apply k_const| |lra]. apply k_plus; [apply k_const|]. apply k_exp. apply k_mult; [apply k_const|]. apply k_minus; [apply k_const|apply k_id].
Qed.
Lemma den_cont : forall x s, 0 <= x -> 4 * bg_pi ^ 2 < s -> s <> 16 * bg_pi ^ 2 ->
  cont (fun s => Re (/ bg_denominator x s)%C) s /\ cont (fun s => Im (/ bg_denominator x s)%C) s.
Proof.
  intros x s Px Ps N. pose proof pi_small. assert (S0 : 0 < s) by nra. destruct (re_im_cont s S0) as [A B]. pose proof (four_cont s N) as F.
  pose proof (bugg_finite x s Px Ps) as I. rewrite denominator_parts in I. cbn [Im snd] in I.
  destruct (inv_cont bg_re (fun s => - (bg_im s + x * bg_four s)) s) as [U V].
  - exact A.
  - apply k_opp. apply k_plus; [exact B|]. apply k_mult; [apply k_const|exact F].
  - nra.
  - split; [apply (continuous_ext (fun s => Re (/ (bg_re s, - (bg_im s + x * bg_four s))%R)%C))|apply (continuous_ext (fun s => Im (/ (bg_re s, - (bg_im s + x * bg_four s))%R)%C))];
    try (intro y; rewrite denominator_parts; reflexivity); assumption.
Qed.
(** A function that is zero below and positive at a point is not continuous there. *)
Lemma jump_left : forall (h : R -> R) s, cont h s -> (forall y, 0 < y < s -> h y = 0) -> 0 < s -> h s = 0.
Proof.
  intros h s Hc H Ps. destruct (Req_dec (h s) 0) as [E|E]; [exact E|exfalso].
  assert (P : 0 < Rabs (h s)) by (apply Rabs_pos_lt; exact E).
  apply continuity_pt_filterlim in Hc. destruct (Hc (Rabs (h s)) P) as (d & Pd & Hd).
  set (e := Rmin d s). assert (Pe : 0 < e) by (apply Rmin_pos; assumption). pose proof (Rmin_l d s). pose proof (Rmin_r d s). fold e in H0, H1.
  specialize (Hd (s - e / 2)). cbn in Hd. unfold R_dist in Hd. rewrite (H (s - e / 2)) in Hd by lra.
  rewrite Rminus_0_l, Rabs_Ropp in Hd. apply (Rlt_irrefl (Rabs (h s))). apply Hd. split.
  - split; [exact I|]. lra.
  - replace (s - e / 2 - s) with (- (e / 2)) by ring. rewrite Rabs_Ropp, Rabs_pos_eq by lra. lra.
Qed.
Lemma inv_inv : forall z : C, z <> RtoC 0 -> (/ / z)%C = z.
Proof.
  intros [a b] N. assert (P : a ^ 2 + b ^ 2 <> 0).
  { intro E. apply N. assert (a = 0) by nra. assert (b = 0) by nra. subst. reflexivity. }
  unfold Cinv. cbn [fst snd]. assert (0 < a ^ 2 + b ^ 2) by nra. f_equal; field; repeat split; try lra; nra.
Qed.
Lemma bugg_jump : forall x, 0 < x -> let M := 4 * bg_pi in
  ~ (cont (fun m => Re (/ bg_denominator x (m ^ 2))%C) M /\ cont (fun m => Im (/ bg_denominator x (m ^ 2))%C) M).
Proof.
  intros x Px M [A B]. pose proof pi_small as PS. assert (PM : 0 < M) by (unfold M; lra).
  assert (M2 : M ^ 2 = 16 * bg_pi ^ 2) by (unfold M; ring).
  pose proof (bugg_finite x (M ^ 2) ltac:(lra) ltac:(nra)) as Nz.
  assert (D : cont (fun m => Im (/ / bg_denominator x (m ^ 2)%R)%C) M).
  { destruct (inv_cont (fun m => Re (/ bg_denominator x (m ^ 2)%R)%C) (fun m => Im (/ bg_denominator x (m ^ 2)%R)%C) M A B) as [_ V].
    - destruct (bg_denominator x (M ^ 2)) as [u v]. cbn [Im snd] in Nz. unfold Cinv, Re, Im. cbn [fst snd].
      assert (0 < u ^ 2 + v ^ 2) by nra. replace ((u / (u ^ 2 + v ^ 2)) ^ 2 + (- v / (u ^ 2 + v ^ 2)) ^ 2) with (/ (u ^ 2 + v ^ 2)) by (field; lra).
      now apply Rinv_0_lt_compat.
    - apply (continuous_ext (fun m => Im (/ (Re (/ bg_denominator x (m ^ 2)%R)%C, Im (/ bg_denominator x (m ^ 2)%R)%C))%C)); [|exact V].
      intro y. rewrite <- surjective_pairing. reflexivity. }
  assert (E : forall y, 4 * bg_pi ^ 2 < y ^ 2 -> Im (/ / bg_denominator x (y ^ 2)%R)%C = - (bg_im (y ^ 2) + x * bg_four (y ^ 2))).
  { intros y Hy. assert (Z : bg_denominator x (y ^ 2) <> RtoC 0).
    { intro Z. pose proof (bugg_finite x (y ^ 2) ltac:(lra) Hy) as I. rewrite Z in I. cbn in I. lra. }
    rewrite inv_inv by exact Z. rewrite denominator_parts. reflexivity. }
  assert (K : cont (fun m => - (Im (/ / bg_denominator x (m ^ 2)%R)%C) - bg_im (m ^ 2)) M).
  { apply k_minus; [apply k_opp; exact D|]. apply (continuous_comp (fun m => m ^ 2) bg_im).
    - apply k_sq, k_id.
    - apply re_im_cont. nra. }
  assert (Kz : cont (fun m => if Rlt_dec (3 * bg_pi) m then - (Im (/ / bg_denominator x (m ^ 2)%R)%C) - bg_im (m ^ 2) else 0) M).
  { apply (continuous_ext_loc _ (fun m => - (Im (/ / bg_denominator x (m ^ 2)%R)%C) - bg_im (m ^ 2))); [|exact K].
    assert (Pp : 0 < bg_pi) by lra. exists (mkposreal _ Pp). intros y By. unfold ball in By. cbn in By. unfold AbsRing_ball, abs, minus, plus, opp in By. cbn in By.
    apply Rabs_def2 in By. destruct (Rlt_dec (3 * bg_pi) y) as [|C]; [reflexivity|]. exfalso. unfold M in By. lra. }
  apply jump_left in Kz; [| |exact PM].
  - destruct (Rlt_dec (3 * bg_pi) M) as [H|H]; [|unfold M in H; lra]. rewrite E in Kz by nra.
    pose proof (four_open (M ^ 2) ltac:(lra)). nra.
  - intros y Hy. destruct (Rlt_dec (3 * bg_pi) y) as [H|H]; [|reflexivity]. rewrite E by nra.
    assert (F : bg_four (y ^ 2) = 0). { unfold bg_four. destruct (Rlt_dec (y ^ 2) (16 * bg_pi ^ 2)) as [|C]; [reflexivity|]. exfalso. apply C. rewrite <- M2. nra. }
    rewrite F. ring.
Qed.

(** ** FOCUS *)
Lemma focus_k_value : forall s, focus_k R_ops s = (fo_11 s, fo_12 s, fo_22 s, fo_32 s).
Proof.
  intro s. unfold focus_k, f_norm, f_c1, f_c0, f_pmass, fo_11, fo_12, fo_22, fo_32, fo_element, fo_g1, fo_g2, fo_norm, sq.
  destruct bugg_constants as (_ & -> & -> & _ & _). rops. rewrite !lit_dbl.
  change (Pos.to_nat 55) with 55%nat. change (Pos.to_nat 53) with 53%nat. change (Pos.to_nat 49) with 49%nat. change (Pos.to_nat 54) with 54%nat.
  change (Pos.to_nat 57) with 57%nat. change (Pos.to_nat 58) with 58%nat. change (Pos.to_nat 62) with 62%nat. change (Pos.to_nat 61) with 61%nat.
  change (Pos.to_nat 51) with 51%nat. change (Pos.to_nat 63) with 63%nat.
  replace (bg_k * bg_k + bg_pi * bg_pi) with (bg_k ^ 2 + bg_pi ^ 2) by ring. cbv zeta. set (x := s / _ - 1). replace (x ^ 2) with (x * x) by ring.
  repeat apply injective_projections; cbn [fst snd]; unfold Rdiv; ring.
Qed.
Lemma phsp_focus_value : forall s m1 m2, phsp_focus R_ops s m1 m2 = unequal m1 m2 s.
Proof.
  intros s m1 m2. unfold phsp_focus, unequal. rops. replace ((m1 + m2) * (m1 + m2)) with ((m1 + m2) ^ 2) by ring.
  replace ((m1 - m2) * (m1 - m2)) with ((m1 - m2) ^ 2) by ring. cbv zeta. unfold Rleb. destruct (Rle_dec 0 _); reflexivity.
Qed.
Lemma unequal_open : forall m1 m2 s, 0 < m1 -> 0 < m2 -> (m1 + m2) ^ 2 < s -> exists r, 0 < r /\ unequal m1 m2 s = RtoC r.
Proof.
  intros m1 m2 s P1 P2 H. assert (Ps : 0 < s) by nra. unfold unequal. cbv zeta.
  assert (A : 0 < 1 - (m1 + m2) ^ 2 / s) by (assert ((m1 + m2) ^ 2 / s < 1) by (apply Rcomplements.Rlt_div_l; lra); lra).
  assert (B : 0 < 1 - (m1 - m2) ^ 2 / s) by (assert ((m1 - m2) ^ 2 / s < 1) by (apply Rcomplements.Rlt_div_l; nra); lra).
  pose proof (Rmult_lt_0_compat _ _ A B) as C. destruct (Rle_dec 0 _) as [_|N]; [|lra]. eexists. split; [apply sqrt_lt_R0; exact C|reflexivity].
Qed.
Lemma unequal_closed : forall m1 m2 s, (m1 - m2) ^ 2 < s -> s < (m1 + m2) ^ 2 -> exists k : R, 0 < k /\ unequal m1 m2 s = (0, k).
Proof.
  intros m1 m2 s P H. assert (Ps : 0 < s) by (pose proof (sq_nonneg (m1 - m2)); lra). unfold unequal. cbv zeta.
  assert (A : 0 < (m1 + m2) ^ 2 / s - 1) by (assert (1 < (m1 + m2) ^ 2 / s) by (apply Rcomplements.Rlt_div_r; lra); lra).
  assert (B : 0 < 1 - (m1 - m2) ^ 2 / s) by (assert ((m1 - m2) ^ 2 / s < 1) by (apply Rcomplements.Rlt_div_l; lra); lra).
  pose proof (Rmult_lt_0_compat _ _ A B) as C. destruct (Rle_dec 0 _) as [N|_]; [nra|].
  eexists. split; [|reflexivity]. apply sqrt_lt_R0. nra.
Qed.
Definition window (s : R) : Prop := (bg_k + bg_pi) ^ 2 < s < (bg_k + fo_etap) ^ 2.
Lemma in_window : forall s, window s -> exists r k, 0 < r /\ 0 < k /\ rho_kpi s = RtoC r /\ rho_keta s = (0, k).
Proof.
  intros s [A B]. pose proof pi_small. pose proof k_bounds. pose proof etap_bounds. unfold rho_kpi, rho_keta.
  destruct (unequal_open bg_k bg_pi s ltac:(lra) ltac:(lra) A) as (r & Pr & Er). destruct (unequal_closed bg_k fo_etap s ltac:(nra) B) as (k & Pk & Ek).
  exists r, k. auto.
Qed.
Lemma above_window : forall s, (bg_k + fo_etap) ^ 2 < s -> exists r k, 0 < r /\ 0 < k /\ rho_kpi s = RtoC r /\ rho_keta s = RtoC k.
Proof.
  intros s A. pose proof pi_small. pose proof k_bounds. pose proof etap_bounds. unfold rho_kpi, rho_keta.
  destruct (unequal_open bg_k bg_pi s ltac:(lra) ltac:(lra) ltac:(nra)) as (r & Pr & Er). destruct (unequal_open bg_k fo_etap s ltac:(lra) ltac:(lra) A) as (k & Pk & Ek).
  exists r, k. auto.
Qed.
Lemma div_Cdiv : forall a b : C, c_div R_ops a b = (a / b)%C.
Proof.
  intros [a b] [c d]. unfold c_div, c_norm, Cdiv, Cinv, Cmult. rops. cbn [fst snd]. replace (c ^ 2 + d ^ 2) with (c * c + d * d) by ring. unfold Rdiv. f_equal; ring.
Qed.
Definition del (k11 k12 k22 : R) (r1 r2 : C) : C := (1 - r1 * r2 * RtoC (k11 * k22 - k12 * k12)%R - Ci * (r1 * RtoC k11 + r2 * RtoC k22))%C.
Lemma focus_value : forall M, let s := M ^ 2 in
  R_FOCUS Kpi M = ((RtoC (fo_11 s) - Ci * rho_keta s * RtoC (fo_11 s * fo_22 s - fo_12 s * fo_12 s)%R) / del (fo_11 s) (fo_12 s) (fo_22 s) (rho_kpi s) (rho_keta s))%C /\
  R_FOCUS KEta M = (RtoC (fo_12 s) / del (fo_11 s) (fo_12 s) (fo_22 s) (rho_kpi s) (rho_keta s))%C /\
  R_FOCUS I32 M = (/ (1 - Ci * rho_keta s * RtoC (fo_32 s)))%C.
Proof.
  intros M s. unfold focus_line, sq. rops. replace (M * M) with s by (unfold s; ring). rewrite focus_k_value, !phsp_focus_value.
  destruct bugg_constants as (_ & -> & -> & _ & ->). change (unequal bg_k bg_pi s) with (rho_kpi s). change (unequal bg_k fo_etap s) with (rho_keta s).
  destruct (rho_kpi s) as [a b], (rho_keta s) as [c d]. set (k11 := fo_11 s). set (k12 := fo_12 s). set (k22 := fo_22 s). set (k32 := fo_32 s). clearbody k11 k12 k22 k32.
  rewrite !div_Cdiv. cbv zeta. unfold del.
  assert (D : c_sub R_ops (c_rsub R_ops 1 (c_scale R_ops (c_mul R_ops (a, b) (c, d)) (k11 * k22 - k12 * k12)))
    (c_mul R_ops (0, 1) (c_add R_ops (c_scale R_ops (a, b) k11) (c_scale R_ops (c, d) k22))) =
    (1 - (a, b) * (c, d) * RtoC (k11 * k22 - k12 * k12)%R - Ci * ((a, b) * RtoC k11 + (c, d) * RtoC k22))%C).
  { unfold c_sub, c_rsub, c_scale, c_mul, c_add, Cminus. unfold Cplus, Cmult, Copp, Ci, RtoC. rops. cbn [fst snd]. f_equal; ring. }
  rewrite D. repeat split; f_equal.
  - unfold c_sub, c_rsub, c_scale, c_mul, c_add, Cminus. unfold Cplus, Cmult, Copp, Ci, RtoC. rops. cbn [fst snd]. f_equal; ring.
  - unfold Cdiv. rewrite Cmult_1_l. f_equal.
    unfold c_sub, c_rsub, c_scale, c_mul, c_add, Cminus. unfold Cplus, Cmult, Copp, Ci, RtoC. rops. cbn [fst snd]. f_equal; ring.
Qed.
Lemma Ci_sq : (Ci * Ci = - (1))%C.
Proof. unfold Ci, Cmult, RtoC, Copp. cbn. f_equal; ring. Qed.
Lemma column_solves : forall k11 k12 k22 (r1 r2 : C), del k11 k12 k22 r1 r2 <> RtoC 0 ->
  let t1 := ((RtoC k11 - Ci * r2 * RtoC (k11 * k22 - k12 * k12)%R) / del k11 k12 k22 r1 r2)%C in
  let t2 := (RtoC k12 / del k11 k12 k22 r1 r2)%C in
  ((1 - Ci * k11 * r1) * t1 - Ci * k12 * r2 * t2 = k11)%C /\ ((1 - Ci * k22 * r2) * t2 - Ci * k12 * r1 * t1 = k12)%C.
Proof.
  intros k11 k12 k22 r1 r2 N t1 t2. unfold t1, t2.
  assert (E1 : ((1 - Ci * k11 * r1) * (RtoC k11 - Ci * r2 * RtoC (k11 * k22 - k12 * k12)%R) - Ci * k12 * r2 * k12 = k11 * del k11 k12 k22 r1 r2)%C).
  { transitivity (k11 * del k11 k12 k22 r1 r2 + (Ci * Ci + 1) * (k11 * r1 * r2 * RtoC (k11 * k22 - k12 * k12)%R))%C; [|rewrite Ci_sq; ring].
    unfold del. rewrite RtoC_minus, !RtoC_mult. ring. }
  assert (E2 : ((1 - Ci * k22 * r2) * k12 - Ci * k12 * r1 * (RtoC k11 - Ci * r2 * RtoC (k11 * k22 - k12 * k12)%R) = k12 * del k11 k12 k22 r1 r2)%C).
  { transitivity (k12 * del k11 k12 k22 r1 r2 + (Ci * Ci + 1) * (k12 * r1 * r2 * RtoC (k11 * k22 - k12 * k12)%R))%C; [|rewrite Ci_sq; ring].
    unfold del. rewrite RtoC_minus, !RtoC_mult. ring. }
  set (dd := del k11 k12 k22 r1 r2) in *. clearbody dd. split.
  - transitivity (((1 - Ci * k11 * r1) * (RtoC k11 - Ci * r2 * RtoC (k11 * k22 - k12 * k12)%R) - Ci * k12 * r2 * k12) / dd)%C; [field; exact N|]. rewrite E1. field. exact N.
  - transitivity (((1 - Ci * k22 * r2) * k12 - Ci * k12 * r1 * (RtoC k11 - Ci * r2 * RtoC (k11 * k22 - k12 * k12)%R)) / dd)%C; [field; exact N|]. rewrite E2. field. exact N.
Qed.
Lemma del_open : forall k11 k12 k22 r1 r2, 0 < r1 -> 0 < r2 -> del k11 k12 k22 (RtoC r1) (RtoC r2) <> RtoC 0.
Proof.
  intros k11 k12 k22 r1 r2 P1 P2 E. unfold del in E. pose proof (f_equal fst E) as A. pose proof (f_equal snd E) as B.
  unfold Cminus in A, B. unfold Cplus, Cmult, Copp, Ci, RtoC in A, B. cbn [fst snd] in A, B.
  assert (A' : r1 * r2 * (k11 * k22 - k12 * k12) = 1) by lra. assert (B' : r1 * k11 + r2 * k22 = 0) by lra.
  assert (X : r1 * r2 * k11 * k22 = - (r1 * k11) ^ 2) by (replace (r1 * r2 * k11 * k22) with (r1 * k11 * (r2 * k22)) by ring; replace (r2 * k22) with (- (r1 * k11)) by lra; ring).
  pose proof (sq_nonneg (r1 * k11)). assert (0 < r1 * r2) by nra. pose proof (sq_nonneg k12). nra.
Qed.
Lemma del_closed : forall k11 k12 k22 (r k : R), 0 < r -> 0 < k -> k12 <> 0 -> del k11 k12 k22 (RtoC r) (0, k) <> RtoC 0.
Proof.
  intros k11 k12 k22 r k Pr Pk N E. unfold del in E. pose proof (f_equal fst E) as A. pose proof (f_equal snd E) as B.
  unfold Cminus in A, B. unfold Cplus, Cmult, Copp, Ci, RtoC in A, B. cbn [fst snd] in A, B.
  assert (A' : 1 + k * k22 = 0) by lra. assert (B' : k11 + k * (k11 * k22 - k12 * k12) = 0) by nra.
  assert (X : k11 * (1 + k * k22) = k * (k12 * k12)) by nra. rewrite A' in X. assert (0 < k12 * k12) by nra. nra.
Qed.
Lemma closed_unitary : forall k11 k12 k22 (r k : R), 0 < r -> 0 < k -> k12 <> 0 ->
  unitary (RtoC r * ((RtoC k11 - Ci * (0, k) * RtoC (k11 * k22 - k12 * k12)%R) / del k11 k12 k22 (RtoC r) (0, k)))%C.
Proof.
  intros k11 k12 k22 r k Pr Pk N. pose proof (del_closed k11 k12 k22 r k Pr Pk N) as Z.
  assert (D : del k11 k12 k22 (RtoC r) (0, k) = ((1 + k * k22)%R, (- (r * (k11 + k * (k11 * k22 - k12 * k12))))%R)).
  { unfold del, Cminus. unfold Cplus, Cmult, Copp, Ci, RtoC. cbn [fst snd]. f_equal; ring. }
  rewrite D in *. set (a := k11 + k * (k11 * k22 - k12 * k12)) in *. set (b := 1 + k * k22) in *.
  assert (P : 0 < b ^ 2 + (r * a) ^ 2).
  { pose proof (sq_nonneg b). pose proof (sq_nonneg (r * a)). destruct (Rle_lt_or_eq_dec 0 (b ^ 2 + (r * a) ^ 2)) as [Y|Y]; [lra|exact Y|]. exfalso. apply Z.
    assert (b = 0) by nra. assert (r * a = 0) by nra. rewrite H1, H2. unfold RtoC. f_equal. ring. }
  assert (X : (RtoC r * ((RtoC k11 - Ci * (0, k) * RtoC (k11 * k22 - k12 * k12)%R) / (b, (- (r * a))%R)))%C
     = ((r * a * b / (b ^ 2 + (r * a) ^ 2))%R, ((r * a) ^ 2 / (b ^ 2 + (r * a) ^ 2))%R)).
  { unfold Cdiv, Cminus. unfold Cplus, Cmult, Copp, Cinv, Ci, RtoC. cbn [fst snd]. 
    replace (b ^ 2 + (- (r * a)) ^ 2) with (b ^ 2 + (r * a) ^ 2) by ring. set (d := b ^ 2 + (r * a) ^ 2) in *. clearbody d b. unfold a, Rdiv. f_equal; ring. }
  rewrite X. apply unitary_norm. field. lra.
Qed.
