(** The declared analytic integrals. *)
From Coq Require Import List ZArith Reals Bool Lia Lra Psatz.
From Coquelicot Require Import Coquelicot.
From Flocq Require Import Core.
From Verif Require Import F64 PdfModel PdfSpec NormSpec GaussInt FormulaSpec FormulaProofs FormulaProofs2.
From Verif Require LeafGen.
Import ListNotations.
Open Scope R_scope.

Ltac inR := match goal with |- @eq _ ?a ?b => change (@eq R a b) end.

Section Analytic.
Context {V : Type}.
Variable W : R -> R -> R.
Variable lims : V -> R * R.
Variable v : V -> R.

Lemma declared_exp a lo hi : LeafGen.exp_integral R_ops (R_lib W) a lo hi = if Req_EM_T a 0 then hi - lo else (exp (a * hi) - exp (a * lo)) / a.
Proof.
  unfold LeafGen.exp_integral. ex. destruct (Reqb_spec 0 a) as [[E1 E2]|[E1 E2]]; rewrite E2; destruct (Req_EM_T a 0) as [F|F]; try reflexivity; exfalso; auto.
Qed.
Lemma exp_ok x a lo hi : integrates W lims v (LExp x a) lo hi.
Proof.
  eexists. split; [reflexivity|]. rewrite declared_exp. unfold density. cbn [leaf_value_in obind].
  change (LeafGen.o_mul R_ops) with Rmult. set (c := v a).
  apply (is_RInt_ext (fun t => exp (c * t))); [reflexivity|].
  destruct (Req_EM_T c 0) as [E|E].
  - apply (is_RInt_ext (fun _ => 1)). { intros t _. rewrite E, Rmult_0_l, exp_0. reflexivity. }
    replace (hi - lo) with (scal (hi - lo) 1) by (unfold scal; cbn; unfold mult; cbn; ring). apply (@is_RInt_const R_NormedModule).
  - replace ((exp (c * hi) - exp (c * lo)) / c) with (minus (exp (c * hi) / c) (exp (c * lo) / c)) by (unfold minus, plus, opp; cbn; field; exact E).
    apply (is_RInt_derive (fun t => exp (c * t) / c) (fun t => exp (c * t))).
    + intros t _. auto_derive; [exact I|]. field. exact E.
    + intros t _. apply (ex_derive_continuous (fun t => exp (c * t))). auto_derive. exact I.
Qed.

Lemma is_const c lo hi : is_RInt (fun _ : R => c) lo hi ((hi - lo) * c).
Proof. apply (@is_RInt_const R_NormedModule). Qed.
Lemma step_ok x x0 up lo hi : lo <= v x0 <= hi -> integrates W lims v (LStep x x0 up) lo hi.
Proof.
  intros [H1 H2]. eexists. split; [reflexivity|]. unfold LeafGen.step_integral. unfold density. cbn [leaf_value_in obind].
  change (LeafGen.o_sub R_ops) with Rminus. set (c := v x0) in *.
  apply (is_RInt_ext (fun t => if Z.eqb up 1 then (if Rle_dec t c then 0 else 1) else (if Rle_dec t c then 1 else 0))).
  { intros t _. symmetry. apply step_R. }
  rewrite (Z.eqb_sym 1 up). destruct (Z.eqb up 1).
  - replace (hi - c) with (plus ((c - lo) * 0) ((hi - c) * 1)) by (unfold plus; cbn; ring).
    apply (@is_RInt_Chasles R_NormedModule _ lo c hi).
    + apply (is_RInt_ext (fun _ => 0)); [|apply is_const]. intros t Ht. rewrite Rmin_left, Rmax_right in Ht by lra. destruct (Rle_dec t c); [reflexivity|lra].
    + apply (is_RInt_ext (fun _ => 1)); [|apply is_const]. intros t Ht. rewrite Rmin_left, Rmax_right in Ht by lra. destruct (Rle_dec t c); [lra|reflexivity].
  - replace (c - lo) with (plus ((c - lo) * 1) ((hi - c) * 0)) by (unfold plus; cbn; ring).
    apply (@is_RInt_Chasles R_NormedModule _ lo c hi).
    + apply (is_RInt_ext (fun _ => 1)); [|apply is_const]. intros t Ht. rewrite Rmin_left, Rmax_right in Ht by lra. destruct (Rle_dec t c); [reflexivity|lra].
    + apply (is_RInt_ext (fun _ => 0)); [|apply is_const]. intros t Ht. rewrite Rmin_left, Rmax_right in Ht by lra. destruct (Rle_dec t c); [lra|reflexivity].
Qed.
(** With the step outside the range the number is not the integral: it is the length up to the step, wherever that is. *)
Lemma step_outside x x0 up lo hi : lo < hi -> (v x0 < lo \/ hi < v x0) -> ~ integrates W lims v (LStep x x0 up) lo hi.
Proof.
  intros HL HO (I & HD & HI). cbn in HD. injection HD as <-. unfold LeafGen.step_integral in HI. unfold density in HI. cbn [leaf_value_in obind] in HI.
  change (LeafGen.o_sub R_ops) with Rminus in HI. rewrite (Z.eqb_sym 1 up) in HI. set (c := v x0) in *.
  assert (X : forall d, (forall t, lo < t < hi -> LeafGen.step R_ops t c up = d) -> (if Z.eqb up 1 then hi - c else c - lo) = (hi - lo) * d).
  { intros d Hd. assert (E : is_RInt (fun t => LeafGen.step R_ops t c up) lo hi ((hi - lo) * d)).
    - apply (is_RInt_ext (fun _ => d)); [|apply is_const]. intros t Ht. rewrite Rmin_left, Rmax_right in Ht by lra. symmetry. now apply Hd.
    - apply (@is_RInt_unique R_CompleteNormedModule) in E. apply (@is_RInt_unique R_CompleteNormedModule) in HI. rewrite <- E. symmetry. exact HI. }
  destruct (Z.eqb up 1) eqn:EU; destruct HO as [HO|HO].
  - specialize (X 1). assert (hi - c = (hi - lo) * 1); [apply X|lra]. intros t Ht; rewrite step_R, EU; destruct (Rle_dec t c); lra.
  - specialize (X 0). assert (hi - c = (hi - lo) * 0); [apply X|lra]. intros t Ht; rewrite step_R, EU; destruct (Rle_dec t c); lra.
  - specialize (X 0). assert (c - lo = (hi - lo) * 0); [apply X|lra]. intros t Ht; rewrite step_R, EU; destruct (Rle_dec t c); lra.
  - specialize (X 1). assert (c - lo = (hi - lo) * 1); [apply X|lra]. intros t Ht; rewrite step_R, EU; destruct (Rle_dec t c); lra.
Qed.

(** ** Whole line *)
Definition whole_line (f : R -> R) (I : R) : Prop := is_RInt_gen f (Rbar_locally m_infty) (Rbar_locally p_infty) I.

Lemma wl_ext (f h : R -> R) I : (forall t, f t = h t) -> whole_line f I -> whole_line h I.
Proof.
  intros H. unfold whole_line. refine (@is_RInt_gen_ext R_NormedModule _ _ _ _ f h I _).
  apply filter_forall. intros ab t _. apply H.
Qed.
Lemma whole_line_comp (u u' : R -> R) c :
  (forall t, is_derive u t (u' t)) -> (forall t, continuous u' t) ->
  filterlim u (Rbar_locally p_infty) (Rbar_locally p_infty) -> filterlim u (Rbar_locally m_infty) (Rbar_locally m_infty) ->
  whole_line (fun t => c * (bell (u t) * u' t)) (c * sqrt PI).
Proof.
  intros HD HC Hp Hm. set (F := fun t => c * B (u t)).
  assert (DF : forall t, is_derive F t (c * (bell (u t) * u' t))).
  { intros t. unfold F. apply (is_derive_ext (fun t => scal c (B (u t)))); [reflexivity|].
    replace (c * (bell (u t) * u' t)) with (scal c (scal (u' t) (bell (u t)))) by (unfold scal; cbn; unfold mult; cbn; ring).
    apply @is_derive_scal. apply @is_derive_comp; [apply B_derive|apply HD]. }
  assert (L : forall s (F0 : (R -> Prop) -> Prop) l, Filter F0 -> filterlim u F0 (Rbar_locally s) -> filterlim B (Rbar_locally s) (locally l) -> filterlim F F0 (locally (c * l))).
  { intros s F0 l FF Hu HB. unfold F.
    apply (filterlim_comp _ _ _ (fun t => B (u t)) (fun y => c * y) F0 (locally l)).
    - apply (filterlim_comp _ _ _ u B F0 (Rbar_locally s)); assumption.
    - apply (filterlim_scal_r c l). }
  apply wl_ext with (Derive F).
  { intros t. apply is_derive_unique, DF. }
  replace (c * sqrt PI) with (c * (sqrt PI / 2) - c * (- (sqrt PI / 2))) by field.
  unfold whole_line. refine (is_RInt_gen_Derive F _ _ _ _ _ _).
  - apply filter_forall. intros ab t _. eexists. apply DF.
  - apply filter_forall. intros ab t _. apply (continuous_ext (fun t => c * (bell (u t) * u' t))).
    + intros y. symmetry. apply is_derive_unique, DF.
    + apply (continuous_mult (fun _ => c) (fun t => bell (u t) * u' t)); [apply continuous_const|].
      apply (continuous_mult (fun t => bell (u t)) u'); [|apply HC].
      apply (continuous_comp u bell); [|apply bell_cont]. apply (ex_derive_continuous u). eexists. apply HD.
  - apply (L m_infty); [apply Rbar_locally_filter|assumption|apply B_limit_m].
  - apply (L p_infty); [apply Rbar_locally_filter|assumption|apply B_limit].
Qed.

Lemma gauss_whole x m s : 0 < v s -> whole_line (density W lims v (LGaussian x m s)) (v s * sqrt (2 * PI)).
Proof.
  intros H. set (r := v s * sqrt 2). pose proof PI_RGT_0. assert (H2 : 0 < sqrt 2) by (apply sqrt_lt_R0; lra).
  assert (Hr : 0 < r) by (unfold r; nra).
  replace (v s * sqrt (2 * PI)) with (r * sqrt PI) by (unfold r; rewrite sqrt_mult by lra; ring).
  apply wl_ext with (fun t => r * (bell ((t - v m) / r) * / r)).
  { intros t. unfold density. cbn [leaf_value_in obind]. rewrite gauss_R by lra. unfold gaussian, bell.
    replace (- ((t - v m) / r) ^ 2) with (- ((t - v m) ^ 2 / (2 * v s ^ 2))).
    - inR. field. lra.
    - assert (E : 2 * v s ^ 2 = r ^ 2).
      { unfold r. replace ((v s * sqrt 2) ^ 2) with (v s ^ 2 * (sqrt 2 * sqrt 2)) by ring. rewrite sqrt_sqrt by lra. ring. }
      rewrite E. field. lra. }
  apply (whole_line_comp (fun t => (t - v m) / r) (fun _ => / r)).
  - intros t. auto_derive; [exact I|]. field. lra.
  - intros t. apply continuous_const.
  - intros P [M HM]. exists (M * r + v m). intros t Ht. apply HM. apply Rlt_div_r; lra.
  - intros P [M HM]. exists (M * r + v m). intros t Ht. apply HM. apply Rlt_div_l; lra.
Qed.

(** JohnsonSU: u = (gamma + delta * asinh((t - mu) / sigma)) / sqrt 2. *)
Lemma root_gt z : - z < sqrt (1 + z ^ 2).
Proof.
  destruct (Rle_dec 0 z) as [P|P].
  - assert (0 < sqrt (1 + z ^ 2)) by (apply sqrt_lt_R0; nra). lra.
  - replace (- z) with (sqrt ((- z) ^ 2)) by (apply sqrt_pow2; lra). apply sqrt_lt_1; nra.
Qed.
Lemma asinh_derive z : is_derive (fun z => ln (z + sqrt (1 + z ^ 2))) z (/ sqrt (1 + z ^ 2)).
Proof.
  pose proof (root_gt z). assert (0 < sqrt (1 + z ^ 2)) by (apply sqrt_lt_R0; nra).
  auto_derive.
  - replace (z * (z * 1)) with (z ^ 2) by ring. split; [nra|]. split; [lra|exact I].
  - replace (z * (z * 1)) with (z ^ 2) by ring. field. split; lra.
Qed.
Lemma asinh_p : filterlim (fun z => ln (z + sqrt (1 + z ^ 2))) (Rbar_locally p_infty) (Rbar_locally p_infty).
Proof.
  intros P [M HM]. exists (Rmax 1 (exp M)). intros z Hz. apply HM.
  assert (1 < z) by (eapply Rle_lt_trans; [apply Rmax_l|apply Hz]). assert (exp M < z) by (eapply Rle_lt_trans; [apply Rmax_r|apply Hz]).
  rewrite <- (ln_exp M). apply ln_increasing; [apply exp_pos|]. assert (0 <= sqrt (1 + z ^ 2)) by apply sqrt_pos. lra.
Qed.
Lemma asinh_odd z : ln (- z + sqrt (1 + (- z) ^ 2)) = - ln (z + sqrt (1 + z ^ 2)).
Proof.
  replace ((- z) ^ 2) with (z ^ 2) by ring. pose proof (root_gt z) as H1. pose proof (root_gt (- z)) as H2.
  replace ((- z) ^ 2) with (z ^ 2) in H2 by ring. rewrite <- ln_Rinv by lra. f_equal.
  apply Rmult_eq_reg_l with (z + sqrt (1 + z ^ 2)); [|lra]. rewrite Rinv_r by lra.
  assert (sqrt (1 + z ^ 2) * sqrt (1 + z ^ 2) = 1 + z ^ 2) by (apply sqrt_sqrt; nra). nra.
Qed.
Lemma asinh_m : filterlim (fun z => ln (z + sqrt (1 + z ^ 2))) (Rbar_locally m_infty) (Rbar_locally m_infty).
Proof.
  apply filterlim_ext with (fun z => - ln (- z + sqrt (1 + (- z) ^ 2))). { intros z. rewrite asinh_odd. ring. }
  intros P [M HM].
  destruct (asinh_p (fun y => P (- y))) as [N HN]. { exists (- M). intros y Hy. apply HM. lra. }
  exists (- N). intros z Hz. apply (HN (- z)). lra.
Qed.

Lemma johnson_whole x m s g d : 0 < v s -> 0 < v d ->
  whole_line (density W lims v (LJohnsonSU x m s g d)) (sqrt (2 * PI) / k_r2pi code_consts).
Proof.
  intros Hs Hd. assert (H2 : 0 < sqrt 2) by (apply sqrt_lt_R0; lra). pose proof PI_RGT_0 as HP.
  destruct code_consts_near as (_ & HN & _). set (k := k_r2pi code_consts) in *.
  assert (Hk : 0 < k).
  { assert (2 <= sqrt (2 * PI)). { replace 2 with (sqrt (2 * 2)) at 1 by (apply sqrt_square; lra). apply sqrt_le_1; try lra. pose proof PI2_1. lra. }
    apply Rabs_le_inv in HN. lra. }
  set (z := fun t => (t - v m) / v s). set (u := fun t => (v g + v d * ln (z t + sqrt (1 + z t ^ 2))) / sqrt 2).
  set (u' := fun t => v d * (/ sqrt (1 + z t ^ 2) * / v s) / sqrt 2).
  replace (sqrt (2 * PI) / k) with (sqrt 2 / k * sqrt PI) by (rewrite sqrt_mult by lra; field; lra).
  assert (RP : forall t, 0 < sqrt (1 + z t ^ 2)). { intros t. apply sqrt_lt_R0. nra. }
  apply wl_ext with (fun t => sqrt 2 / k * (bell (u t) * u' t)).
  { intros t. unfold density. cbn [leaf_value_in obind]. rewrite johnson_R by lra. fold k.
    replace ((t - v m) ^ 2 / v s ^ 2) with (z t ^ 2) by (unfold z; field; lra). fold (z t). unfold bell.
    replace (- u t ^ 2) with (- (1 / 2) * (v g + v d * ln (z t + sqrt (1 + z t ^ 2))) ^ 2).
    - unfold u'. specialize (RP t). inR. field. repeat split; lra.
    - unfold u. replace (1 / 2) with (/ (sqrt 2 * sqrt 2)) by (rewrite sqrt_sqrt by lra; field). field. lra. }
  assert (DZ : forall t, is_derive z t (/ v s)). { intros t. unfold z. auto_derive; [exact I|]. field. lra. }
  apply whole_line_comp.
  - intros t. unfold u, u'.
    apply (is_derive_ext (fun t => plus (v g / sqrt 2) (scal (v d / sqrt 2) (ln (z t + sqrt (1 + z t ^ 2)))))).
    { intros y. generalize (ln (z y + sqrt (1 + z y ^ 2))). intros e.
      change (v g / sqrt 2 + v d / sqrt 2 * e = (v g + v d * e) / sqrt 2). field. lra. }
    replace (v d * (/ sqrt (1 + z t ^ 2) * / v s) / sqrt 2) with (plus 0 (scal (v d / sqrt 2) (scal (/ v s) (/ sqrt (1 + z t ^ 2))))).
    2:{ specialize (RP t). change (0 + v d / sqrt 2 * (/ v s * / sqrt (1 + z t ^ 2)) = v d * (/ sqrt (1 + z t ^ 2) * / v s) / sqrt 2).
        field. repeat split; lra. }
    apply @is_derive_plus; [apply @is_derive_const|]. apply @is_derive_scal.
    apply (is_derive_comp (fun z => ln (z + sqrt (1 + z ^ 2))) z); [apply asinh_derive|apply DZ].
  - intros t. unfold u'.
    apply (continuous_ext (fun t => (v d / v s / sqrt 2) * / sqrt (1 + z t ^ 2))).
    { intros y. specialize (RP y). inR. field. repeat split; apply Rgt_not_eq; lra. }
    apply (continuous_mult (fun _ => v d / v s / sqrt 2) (fun t => / sqrt (1 + z t ^ 2))); [apply continuous_const|].
    apply (continuous_comp z (fun y => / sqrt (1 + y ^ 2))).
    + apply (ex_derive_continuous z). eexists. apply DZ.
    + specialize (RP t). apply (ex_derive_continuous (fun y => / sqrt (1 + y ^ 2))). generalize (z t) RP. intros y Hy. auto_derive.
      replace (y * (y * 1)) with (y ^ 2) by ring. split; [nra|]. split; [apply Rgt_not_eq; lra|exact I].
  - assert (LZ : filterlim z (Rbar_locally p_infty) (Rbar_locally p_infty)).
    { intros P [M HM]. exists (M * v s + v m). intros t Ht. apply HM. unfold z. apply Rlt_div_r; lra. }
    intros P [M HM]. destruct (filterlim_comp _ _ _ _ _ _ _ _ LZ asinh_p (fun y => P ((v g + v d * y) / sqrt 2))) as [N HN'].
    + exists ((M * sqrt 2 - v g) / v d). intros y Hy. apply HM. apply Rlt_div_r; [lra|]. apply Rlt_div_l in Hy; lra.
    + exists N. exact HN'.
  - assert (LZ : filterlim z (Rbar_locally m_infty) (Rbar_locally m_infty)).
    { intros P [M HM]. exists (M * v s + v m). intros t Ht. apply HM. unfold z. apply Rlt_div_l; lra. }
    intros P [M HM]. destruct (filterlim_comp _ _ _ _ _ _ _ _ LZ asinh_m (fun y => P ((v g + v d * y) / sqrt 2))) as [N HN'].
    + exists ((M * sqrt 2 - v g) / v d). intros y Hy. apply HM. apply Rlt_div_l; [lra|]. apply Rlt_div_r in Hy; lra.
    + exists N. exact HN'.
Qed.

(** ** Bounded ranges *)
Lemma declared_gauss x m s lo hi : declared W v (LGaussian x m s) lo hi = Some (v s * (LeafGen.root2 R_ops * sqrt PI)).
Proof.
  unfold declared, leaf_integral_in, LeafGen.gauss_integral. ex. unfold Ratan2.
  destruct (Rlt_dec 0 (Ropp 1)); [lra|]. destruct (Rlt_dec (Ropp 1) 0); [|lra]. destruct (Rle_dec 0 0); [|lra].
  replace (0 / Ropp 1) with 0 by field. rewrite atan_0, Rplus_0_l. reflexivity.
Qed.
Lemma root2_near : Rabs (LeafGen.root2 R_ops - sqrt 2) <= / 1000000.
Proof.
  unfold LeafGen.root2. ex. rewrite lit_neg. let z := eval vm_compute in (Z.pow_pos 2 52) in change (Z.pow_pos 2 52) with z.
  pose proof sqrt2_tight. apply Rabs_le. split; lra.
Qed.
Lemma gauss_le_1 x m s t : v s <> 0 -> 0 < density W lims v (LGaussian x m s) t <= 1.
Proof.
  intros H. unfold density. cbn [leaf_value_in obind]. rewrite gauss_R by exact H. unfold gaussian. split; [apply exp_pos|].
  assert (0 <= (t - v m) ^ 2 / (2 * v s ^ 2)).
  { apply Rdiv_le_0_compat; [apply pow2_ge_0|]. pose proof (pow2_gt_0 _ H). lra. }
  rewrite <- exp_0. destruct (Rle_lt_or_eq_dec _ _ H0) as [L|E]; [left; apply exp_increasing; lra|rewrite <- E, Ropp_0; lra].
Qed.
(** On every range shorter than 2.5 standard deviations the declared value exceeds the integral. *)
Lemma gauss_bounded x m s lo hi : 0 < v s -> lo < hi -> hi - lo <= 5 / 2 * v s -> ~ integrates W lims v (LGaussian x m s) lo hi.
Proof.
  intros Hs HL HB (I & HD & HI). rewrite declared_gauss in HD. injection HD as <-.
  assert (E : v s * (LeafGen.root2 R_ops * sqrt PI) <= (hi - lo) * 1).
  { eapply (is_RInt_le _ (fun _ => 1) lo hi); [lra|exact HI|apply is_const|]. intros t _. apply gauss_le_1. lra. }
  pose proof root2_near as R2. apply Rabs_le_inv in R2. pose proof sqrt2_tight as S2.
  assert (SP : 177 / 100 <= sqrt PI <= 18 / 10). { apply sqrt_between; try lra; pose proof PI_tight; lra. }
  assert (X : 5 / 2 < LeafGen.root2 R_ops * sqrt PI) by nra. nra.
Qed.
(** ExpPdf built with a vector of one coefficient w: the function is the constant e^w (a polynomial of degree 0). *)
Lemma exp_poly_one x w lo hi : lo < hi -> v w = 1 -> lo = 0 -> hi = 1 -> ~ integrates W lims v (LExpPoly x [w]) lo hi.
Proof.
  intros HL Hw -> -> (I & HD & HI). unfold declared, leaf_integral_in in HD. rewrite declared_exp in HD. injection HD as <-.
  rewrite Hw in HI. destruct (Req_EM_T 1 0); [lra|].
  assert (E : is_RInt (density W lims v (LExpPoly x [w])) 0 1 ((1 - 0) * exp 1)).
  { apply (is_RInt_ext (fun _ => exp 1)); [|apply is_const]. intros t _. unfold density. cbn [leaf_value_in obind map].
    unfold LeafGen.exp_poly. ex. rewrite (exp_poly_from W t [v w] 0). cbn [power_series pow]. rewrite Hw. f_equal. ring. }
  apply (@is_RInt_unique R_CompleteNormedModule) in E. apply (@is_RInt_unique R_CompleteNormedModule) in HI.
  rewrite E in HI. rewrite Rmult_1_r, Rmult_0_r, exp_0 in HI. lra.
Qed.
End Analytic.
