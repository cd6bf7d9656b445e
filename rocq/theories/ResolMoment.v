(** Moments of an exponential decay smeared with a Gaussian, over the real numbers: the integrals of t^n e^(-k t) times the normal
    density of T - t, from [a] to infinity, as a function of T and of [a]. *)
From Coq Require Import List Reals Lra Lia.
From Coquelicot Require Import Coquelicot.
From Verif Require Import FormulaSpec ResolSpec.
From Verif Require GaussInt.
Open Scope R_scope.

Lemma dval (f : R -> R) x l l' : is_derive f x l -> l = l' -> is_derive f x l'.
Proof. now intros H <-. Qed.

Ltac eqR := match goal with |- ?x = ?y => change (@eq R x y) end.

Lemma comb_T (f1 f2 f3 : R -> R) (x d1 d2 d3 c p q : R) : is_derive f1 x d1 -> is_derive f2 x d2 -> is_derive f3 x d3 ->
  is_derive (fun t => (t - c) * f1 t + p * f2 t + q * f3 t) x (f1 x + (x - c) * d1 + p * d2 + q * d3).
Proof.
  intros D1 D2 D3. auto_derive. { repeat split; eexists; eassumption. }
  rewrite (is_derive_unique (fun t : R => f1 t) _ _ D1), (is_derive_unique (fun t : R => f2 t) _ _ D2), (is_derive_unique (fun t : R => f3 t) _ _ D3). ring.
Qed.
Lemma comb_a (f1 f2 f3 : R -> R) (x d1 d2 d3 c p q : R) m : is_derive f1 x d1 -> is_derive f2 x d2 -> is_derive f3 x d3 ->
  is_derive (fun t => c * f1 t + p * f2 t + q * t ^ m * f3 t) x (c * d1 + p * d2 + q * (INR m * x ^ Nat.pred m * f3 x + x ^ m * d3)).
Proof.
  intros D1 D2 D3. auto_derive. { repeat split; eexists; eassumption. }
  rewrite (is_derive_unique (fun t : R => f1 t) _ _ D1), (is_derive_unique (fun t : R => f2 t) _ _ D2), (is_derive_unique (fun t : R => f3 t) _ _ D3). ring.
Qed.

(** ** erfc *)
Lemma spi_pos : 0 < sqrt PI. Proof. apply sqrt_lt_R0, PI_RGT_0. Qed.
Lemma spi_sq : sqrt PI * sqrt PI = PI. Proof. apply sqrt_sqrt. left. apply PI_RGT_0. Qed.
Lemma s2_pos : 0 < sqrt 2. Proof. apply sqrt_lt_R0. lra. Qed.
Lemma s2_sq : sqrt 2 * sqrt 2 = 2. Proof. apply sqrt_sqrt. lra. Qed.
Lemma s2pi : sqrt (2 * PI) = sqrt 2 * sqrt PI. Proof. apply sqrt_mult; [lra|left; apply PI_RGT_0]. Qed.

Lemma erfc_B x : Rerfc x = 1 - 2 / sqrt PI * GaussInt.B x. Proof. reflexivity. Qed.
Lemma erfc_derive x : is_derive Rerfc x (- (2 / sqrt PI) * exp (- x ^ 2)).
Proof.
  apply (is_derive_ext (fun x => 1 - 2 / sqrt PI * GaussInt.B x)); [intros t; reflexivity|].
  pose proof (GaussInt.B_derive x) as D. pose proof spi_pos as SP.
  auto_derive; [now exists (GaussInt.bell x)|].
  change (Derive _ x) with (Derive GaussInt.B x). rewrite (is_derive_unique _ _ _ D). unfold GaussInt.bell. simpl (x ^ 2). field. lra.
Qed.
Lemma B_le x : Rabs (GaussInt.B x) <= sqrt PI / 2.
Proof.
  pose proof (GaussInt.B2 x) as E. pose proof (GaussInt.G_bounds x) as [P _]. pose proof spi_pos. pose proof spi_sq.
  apply Rabs_le. split; nra.
Qed.
Lemma erfc_bound x : 0 <= Rerfc x <= 2.
Proof.
  rewrite erfc_B. pose proof (B_le x) as Q. apply Rabs_le_between in Q. pose proof spi_pos as S.
  assert (E : 2 / sqrt PI * (sqrt PI / 2) = 1) by (field; lra).
  assert (P : 0 < 2 / sqrt PI) by (apply Rdiv_lt_0_compat; lra). nra.
Qed.
Lemma erfc_small x : 0 <= x -> Rerfc x <= 4 / PI * exp (- x ^ 2).
Proof.
  intros Hx. rewrite erfc_B. pose proof (GaussInt.B2 x) as E. pose proof (GaussInt.G_bounds x) as [_ Q]. fold (GaussInt.bell x).
  pose proof (GaussInt.B_pos x Hx) as P. pose proof spi_pos as S. pose proof spi_sq as S2.
  set (b := GaussInt.B x) in *. set (e := GaussInt.bell x) in *. set (s := sqrt PI) in *.
  assert (K : (s / 2 - b) * (s / 2 + b) <= e) by (rewrite <- S2 in E; nra).
  assert (K2 : (s / 2 - b) * (s / 2) <= e).
  { destruct (Rle_dec (s / 2 - b) 0) as [N|N]; [|nra]. assert (0 <= e) by (left; apply exp_pos). nra. }
  rewrite <- S2. replace (1 - 2 / s * b) with ((s / 2 - b) * (2 / s)) by (field; lra).
  replace (4 / (s * s) * e) with (e * (2 / s) * (2 / s)) by (field; lra).
  assert (D : 0 < 2 / s) by (apply Rdiv_lt_0_compat; lra).
  apply Rmult_le_compat_r; [lra|]. replace (s / 2 - b) with ((s / 2 - b) * (s / 2) * (2 / s)) by (field; lra).
  apply Rmult_le_compat_r; lra.
Qed.
Lemma erfc_opp x : Rerfc (- x) = 2 - Rerfc x.
Proof. rewrite !erfc_B, GaussInt.B_odd. ring. Qed.
Lemma erfc_lim_p : filterlim Rerfc (Rbar_locally p_infty) (locally 0).
Proof.
  apply filterlim_ext with (fun x => 1 - 2 / sqrt PI * GaussInt.B x); [intros; reflexivity|].
  pose proof spi_pos. replace 0 with (1 - 2 / sqrt PI * (sqrt PI / 2)) by (field; lra).
  apply (is_lim_minus' (fun _ => 1) (fun x => 2 / sqrt PI * GaussInt.B x) p_infty 1 (2 / sqrt PI * (sqrt PI / 2))).
  - apply is_lim_const.
  - apply (is_lim_scal_l GaussInt.B (2 / sqrt PI) p_infty (sqrt PI / 2)). exact GaussInt.B_limit.
Qed.
Lemma erfc_lim_m : filterlim Rerfc (Rbar_locally m_infty) (locally 2).
Proof.
  apply filterlim_ext with (fun x => 1 - 2 / sqrt PI * GaussInt.B x); [intros; reflexivity|].
  pose proof spi_pos. replace (locally 2) with (locally (1 - 2 / sqrt PI * (- (sqrt PI / 2)))) by (f_equal; field; lra).
  apply (is_lim_minus' (fun _ => 1) (fun x => 2 / sqrt PI * GaussInt.B x) m_infty 1 (2 / sqrt PI * (- (sqrt PI / 2)))).
  - apply is_lim_const.
  - apply (is_lim_scal_l GaussInt.B (2 / sqrt PI) m_infty (- (sqrt PI / 2))). exact GaussInt.B_limit_m.
Qed.

(** ** Functions that go to zero faster than any power *)
Definition fast (F : (R -> Prop) -> Prop) (f : R -> R) : Prop := forall n, filterlim (fun t => t ^ n * f t) F (locally 0).
Lemma fast_0 (F : (R -> Prop) -> Prop) f : Filter F -> fast F f -> filterlim f F (locally 0).
Proof. intros HF H. apply filterlim_ext with (2 := H O). intros t. cbn. ring. Qed.
Lemma fast_ext (F : (R -> Prop) -> Prop) f h : Filter F -> (forall t, f t = h t) -> fast F f -> fast F h.
Proof. intros HF E H n. apply filterlim_ext with (2 := H n). intros t. now rewrite E. Qed.
Lemma fast_zero F : Filter F -> fast F (fun _ => 0).
Proof. intros HF n. apply filterlim_ext with (fun _ => 0); [intros; ring|]. apply filterlim_const. Qed.
Lemma fast_plus F f h : Filter F -> fast F f -> fast F h -> fast F (fun t => f t + h t).
Proof.
  intros HF H K n. apply filterlim_ext with (fun t => t ^ n * f t + t ^ n * h t); [intros; ring|].
  replace 0 with (0 + 0) by ring. apply (filterlim_comp_2 (H := locally 0) (G := locally 0)); [apply H|apply K|].
  apply (filterlim_plus 0 0).
Qed.
Lemma fast_scal F c f : Filter F -> fast F f -> fast F (fun t => c * f t).
Proof.
  intros HF H n. apply filterlim_ext with (fun t => c * (t ^ n * f t)); [intros; ring|].
  apply (filterlim_comp _ _ _ (fun t => t ^ n * f t) (fun z => c * z) F (locally 0)); [apply H|].
  replace 0 with (c * 0) at 2 by ring. apply (filterlim_scal_r c 0).
Qed.
Lemma fast_id F f : Filter F -> fast F f -> fast F (fun t => t * f t).
Proof. intros HF H n. apply filterlim_ext with (2 := H (S n)). intros t. cbn. ring. Qed.
Lemma fast_dom F f h : Filter F -> F (fun t => Rabs (f t) <= Rabs (h t)) -> fast F h -> fast F f.
Proof.
  intros HF D H n P [eps He]. unfold filtermap.
  apply (filter_imp (fun t => Rabs (f t) <= Rabs (h t) /\ Rabs (t ^ n * h t) < eps)).
  - intros t [A B]. apply He. unfold ball; cbn. unfold AbsRing_ball, abs, minus, plus, opp; cbn.
    replace (t ^ n * f t + - 0) with (t ^ n * f t) by ring. rewrite Rabs_mult in *.
    eapply Rle_lt_trans; [|exact B]. apply Rmult_le_compat_l; [apply Rabs_pos|exact A].
  - apply filter_and; [exact D|]. specialize (H n (fun z => Rabs z < eps)). apply H. exists eps. intros y.
    unfold ball; cbn. unfold AbsRing_ball, abs, minus, plus, opp; cbn. intros Q. replace y with (y + - 0) by ring. exact Q.
Qed.
Lemma fast_exp k : 0 < k -> fast (Rbar_locally p_infty) (fun t => exp (- k * t)).
Proof.
  intros Hk n. revert k Hk. induction n as [|n IH]; intros k Hk.
  - apply filterlim_ext with (fun t => exp (- k * t)); [intros; cbn; ring|].
    apply (filterlim_comp _ _ _ (fun t => - k * t) exp (Rbar_locally p_infty) (Rbar_locally m_infty)).
    + intros P [M HM]. exists (M / (- k)). intros t Ht. apply HM.
      assert (E : M = - k * (M / - k)) by (field; lra). nra.
    + exact is_lim_exp_m.
  - apply filterlim_ext with (fun t => (t ^ n * exp (- (k / 2) * t)) * (t * exp (- (k / 2) * t))).
    { intros t. replace (exp (- k * t)) with (exp (- (k / 2) * t) * exp (- (k / 2) * t)) by (rewrite <- exp_plus; f_equal; field).
      cbn. ring. }
    replace 0 with (0 * 0) by ring.
    apply (filterlim_comp_2 (H := locally 0) (G := locally 0) (F := Rbar_locally p_infty)).
    + apply IH. lra.
    + apply filterlim_ext with (fun t => - (2 / k) * ((- (k / 2) * t) * exp (- (k / 2) * t))); [intros; field; lra|].
      replace 0 with (- (2 / k) * 0) by ring. apply (is_lim_scal_l (fun t => - (k / 2) * t * exp (- (k / 2) * t)) (- (2 / k)) p_infty 0).
      apply (filterlim_comp _ _ _ (fun t => - (k / 2) * t) (fun z => z * exp z) (Rbar_locally p_infty) (Rbar_locally m_infty)).
      * intros P [M HM]. exists (M / (- (k / 2))). intros t Ht. apply HM.
        assert (E : M = - (k / 2) * (M / - (k / 2))) by (field; lra). nra.
      * exact is_lim_mul_exp_m.
    + apply (filterlim_mult 0 0).
Qed.
Lemma fast_exp_m k : 0 < k -> fast (Rbar_locally m_infty) (fun t => exp (k * t)).
Proof.
  intros Hk n. pose proof (fast_exp k Hk n) as H.
  apply filterlim_ext with (fun t => (-1) ^ n * ((- t) ^ n * exp (- k * (- t)))).
  { intros t. replace (- k * - t) with (k * t) by ring. rewrite <- Rmult_assoc, <- Rpow_mult_distr. f_equal. f_equal. ring. }
  replace 0 with ((-1) ^ n * 0) by ring.
  apply (is_lim_scal_l (fun t => (- t) ^ n * exp (- k * (- t))) ((-1) ^ n) m_infty 0).
  apply (filterlim_comp _ _ _ Ropp (fun z => z ^ n * exp (- k * z)) (Rbar_locally m_infty) (Rbar_locally p_infty)); [|exact H].
  intros P [M HM]. exists (- M). intros t Ht. apply HM. lra.
Qed.
(** A Gaussian is below any exponential. *)
Lemma gauss_dom s m d : 0 < s -> - (d ^ 2 / (2 * s ^ 2)) <= m * d + s ^ 2 * m ^ 2 / 2.
Proof.
  intros Hs. assert (E : m * d + s ^ 2 * m ^ 2 / 2 - - (d ^ 2 / (2 * s ^ 2)) = (d / s + m * s) ^ 2 / 2) by (field; lra).
  pose proof (pow2_ge_0 (d / s + m * s)). lra.
Qed.
Lemma exp_mono x y : x <= y -> exp x <= exp y.
Proof. intros [H|H]; [left; now apply exp_increasing|right; now rewrite H]. Qed.
Lemma fast_gauss_p s c : 0 < s -> fast (Rbar_locally p_infty) (fun t => exp (- ((t - c) ^ 2 / (2 * s ^ 2)))).
Proof.
  intros Hs. apply fast_dom with (h := fun t => exp (c + s ^ 2 / 2) * exp (- (1) * t)).
  - typeclasses eauto.
  - exists 0. intros t _. rewrite <- exp_plus, !(Rabs_pos_eq (exp _)) by (left; apply exp_pos). apply exp_mono.
    eapply Rle_trans; [apply (gauss_dom s (-1) (t - c) Hs)|]. right. field.
  - apply fast_scal; [typeclasses eauto|]. apply fast_exp. lra.
Qed.
Lemma fast_gauss_m s c : 0 < s -> fast (Rbar_locally m_infty) (fun t => exp (- ((t - c) ^ 2 / (2 * s ^ 2)))).
Proof.
  intros Hs. apply fast_dom with (h := fun t => exp (- c + s ^ 2 / 2) * exp (1 * t)).
  - typeclasses eauto.
  - exists 0. intros t _. rewrite <- exp_plus, !(Rabs_pos_eq (exp _)) by (left; apply exp_pos). apply exp_mono.
    eapply Rle_trans; [apply (gauss_dom s 1 (t - c) Hs)|]. right. field.
  - apply fast_scal; [typeclasses eauto|]. apply fast_exp_m. lra.
Qed.

(** ** The moments *)
Section Moments.
Variables (k s : R).
Hypothesis Hs : 0 < s.
Definition g (a T : R) : R := exp (- k * a) * normal s (T - a).
Definition H0 (a T : R) : R := / 2 * exp (k ^ 2 * s ^ 2 / 2 - k * T) * Rerfc ((k * s ^ 2 - T + a) / (s * sqrt 2)).
Fixpoint H (n : nat) (a T : R) : R :=
  match n with
  | O => H0 a T
  | S m => (T - k * s ^ 2) * H m a T + s ^ 2 * INR m * (match m with O => 0 | S q => H q a T end) + s ^ 2 * a ^ m * g a T
  end.
Definition Hm (n : nat) (a T : R) : R := match n with O => 0 | S q => H q a T end.
Lemma H_S m a T : H (S m) a T = (T - k * s ^ 2) * H m a T + s ^ 2 * INR m * Hm m a T + s ^ 2 * a ^ m * g a T.
Proof. reflexivity. Qed.

Lemma s2p : 0 < s * sqrt (2 * PI).
Proof. apply Rmult_lt_0_compat; [exact Hs|]. apply sqrt_lt_R0. pose proof PI_RGT_0. lra. Qed.
(** The product of the prefactor with the bell of erfc is the Gaussian. *)
Lemma bell_g a T : exp (k ^ 2 * s ^ 2 / 2 - k * T) * exp (- ((k * s ^ 2 - T + a) / (s * sqrt 2)) ^ 2) =
                   exp (- k * a) * exp (- ((T - a) ^ 2 / (2 * s ^ 2))).
Proof.
  rewrite <- !exp_plus. f_equal. pose proof s2_sq as E. pose proof s2_pos as P.
  replace (((k * s ^ 2 - T + a) / (s * sqrt 2)) ^ 2) with ((k * s ^ 2 - T + a) ^ 2 / (s ^ 2 * (sqrt 2 * sqrt 2))) by (field; lra).
  rewrite E. field. lra.
Qed.
Lemma g_dT (a T : R) : is_derive (fun T => g a T) T (- ((T - a) / s ^ 2) * g a T).
Proof.
  unfold g, normal. pose proof s2p as P. assert (sqrt (2 * PI) <> 0) by nra. auto_derive; [nra|].
  change (exp (- ((T + - a) * ((T + - a) * 1) * / (2 * (s * (s * 1)))))) with (exp (- ((T - a) ^ 2 / (2 * s ^ 2)))).
  generalize (exp (- ((T - a) ^ 2 / (2 * s ^ 2)))) (exp (- k * a)). intros e1 e2. eqR. field. repeat split; try lra; nra.
Qed.
Lemma g_da (a T : R) : is_derive (fun a => g a T) a ((- k + (T - a) / s ^ 2) * g a T).
Proof.
  unfold g, normal. pose proof s2p as P. assert (sqrt (2 * PI) <> 0) by nra. auto_derive; [nra|].
  change (exp (- ((T + - a) * ((T + - a) * 1) * / (2 * (s * (s * 1)))))) with (exp (- ((T - a) ^ 2 / (2 * s ^ 2)))).
  generalize (exp (- ((T - a) ^ 2 / (2 * s ^ 2)))) (exp (- k * a)). intros e1 e2. eqR. field. repeat split; try lra; nra.
Qed.
Lemma erfc_d (f : R -> R) x df : is_derive f x df -> is_derive (fun x => Rerfc (f x)) x (df * (- (2 / sqrt PI) * exp (- f x ^ 2))).
Proof. intros D. apply (is_derive_comp Rerfc f x _ df); [apply erfc_derive|exact D]. Qed.
Lemma H0_dT (a T : R) : is_derive (fun T => H0 a T) T (- k * H0 a T + g a T).
Proof.
  unfold H0. set (E := fun T => / 2 * exp (k ^ 2 * s ^ 2 / 2 - k * T)). set (u := fun T => (k * s ^ 2 - T + a) / (s * sqrt 2)).
  pose proof s2_pos as P. pose proof s2_sq as Q. pose proof spi_pos as P'. assert (W : s * sqrt 2 <> 0) by nra.
  assert (DE : is_derive E T (- k * E T)). { unfold E. auto_derive; [exact I|].
    change (k * (k * 1) * (s * (s * 1)) / 2 + - (k * T)) with (k ^ 2 * s ^ 2 / 2 - k * T). generalize (exp (k ^ 2 * s ^ 2 / 2 - k * T)). intros e. eqR. field. }
  assert (Du : is_derive u T (- / (s * sqrt 2))). { unfold u. auto_derive; [exact I|]. eqR. field. lra. }
  pose proof (erfc_d u T _ Du) as De.
  apply (is_derive_ext (fun T => mult (E T) (Rerfc (u T)))). { intros t. reflexivity. }
  eapply dval; [apply (is_derive_mult E (fun T => Rerfc (u T)) T _ _ DE De); intros; apply Rmult_comm|].
  unfold plus, mult; cbn.
  assert (B : E T * exp (- (u T * (u T * 1))) = / 2 * (exp (- k * a) * exp (- ((T - a) ^ 2 / (2 * s ^ 2))))).
  { unfold E. rewrite Rmult_assoc. f_equal. rewrite <- bell_g. do 2 f_equal. }
  transitivity (- k * (E T * Rerfc (u T)) + 2 / sqrt PI * / (s * sqrt 2) * (E T * exp (- (u T * (u T * 1))))).
  { ring. }
  rewrite B. unfold g, normal. rewrite s2pi. match goal with |- _ = - k * ?z + _ => change z with (E T * Rerfc (u T)) end.
  generalize (E T * Rerfc (u T)) (exp (- k * a)) (exp (- ((T - a) ^ 2 / (2 * s ^ 2)))). intros e1 e2 e3. eqR. field. repeat split; lra.
Qed.
Lemma H0_da (a T : R) : is_derive (fun a => H0 a T) a (- g a T).
Proof.
  unfold H0. set (E := / 2 * exp (k ^ 2 * s ^ 2 / 2 - k * T)). set (u := fun a => (k * s ^ 2 - T + a) / (s * sqrt 2)).
  pose proof s2_pos as P. pose proof spi_pos as P'. assert (W : s * sqrt 2 <> 0) by nra.
  assert (Du : is_derive u a (/ (s * sqrt 2))). { unfold u. auto_derive; [exact I|]. eqR. field. lra. }
  pose proof (erfc_d u a _ Du) as De.
  eapply dval; [apply (is_derive_scal (fun a => Rerfc (u a)) a E _ De)|].
  unfold scal; cbn; unfold mult; cbn.
  assert (B : E * exp (- (u a * (u a * 1))) = / 2 * (exp (- k * a) * exp (- ((T - a) ^ 2 / (2 * s ^ 2))))).
  { unfold E. rewrite Rmult_assoc. f_equal. rewrite <- bell_g. do 2 f_equal. }
  transitivity (- (2 / sqrt PI) * / (s * sqrt 2) * (E * exp (- (u a * (u a * 1))))); [ring|].
  rewrite B. unfold g, normal. rewrite s2pi.
  generalize (exp (- k * a)) (exp (- ((T - a) ^ 2 / (2 * s ^ 2)))). intros e2 e3. eqR. field. repeat split; lra.
Qed.
Lemma H_dT n : forall a T : R, is_derive (fun T => H n a T) T (INR n * Hm n a T - k * H n a T + a ^ n * g a T).
Proof.
  induction n as [n IH] using lt_wf_ind. intros a T. destruct n as [|m].
  - eapply dval; [apply H0_dT|]. cbn. ring.
  - assert (Dm := IH m ltac:(lia) a T). pose proof (g_dT a T) as Dg.
    assert (Dq : is_derive (fun T => Hm m a T) T
                  (match m with O => 0 | S q => INR q * Hm q a T - k * H q a T + a ^ q * g a T end)).
    { destruct m as [|q]; [apply (is_derive_const 0 T)|apply (IH q ltac:(lia) a T)]. }
    eapply dval; [exact (comb_T _ _ _ T _ _ _ (k * s ^ 2) (s ^ 2 * INR m) (s ^ 2 * a ^ m) Dm Dq Dg)|].
    rewrite H_S. change (Hm (S m) a T) with (H m a T). rewrite S_INR. destruct m as [|q].
    + cbn [Hm INR pow]. eqR. field. lra.
    + change (Hm (S q) a T) with (H q a T). rewrite H_S. cbn [pow]. eqR. field. lra.
Qed.
Lemma H_da n : forall a T : R, is_derive (fun a => H n a T) a (- (a ^ n * g a T)).
Proof.
  induction n as [n IH] using lt_wf_ind. intros a T. destruct n as [|m].
  - eapply dval; [apply H0_da|]. cbn. ring.
  - assert (Dm := IH m ltac:(lia) a T). pose proof (g_da a T) as Dg.
    assert (Dq : is_derive (fun a => Hm m a T) a (match m with O => 0 | S q => - (a ^ q * g a T) end)).
    { destruct m as [|q]; [apply (is_derive_const 0 a)|apply (IH q ltac:(lia) a T)]. }
    eapply dval; [exact (comb_a _ _ _ a _ _ _ (T - k * s ^ 2) (s ^ 2 * INR m) (s ^ 2) m Dm Dq Dg)|].
    destruct m as [|q].
    + cbn [INR pow Nat.pred]. eqR. field. lra.
    + cbn [pow Nat.pred]. eqR. field. lra.
Qed.

(** Limits: in T at both ends, in a at infinity. *)
Lemma u_pos a T : T <= k * s ^ 2 + a -> 0 <= (k * s ^ 2 - T + a) / (s * sqrt 2).
Proof. intros Q. pose proof s2_pos. apply Rdiv_le_0_compat; [lra|]. now apply Rmult_lt_0_compat. Qed.
Lemma H0_pos a T : 0 <= H0 a T.
Proof.
  unfold H0. apply Rmult_le_pos; [|apply erfc_bound]. apply Rmult_le_pos; [lra|left; apply exp_pos].
Qed.
Lemma H0_le a T : T <= k * s ^ 2 + a -> H0 a T <= 2 / PI * (exp (- k * a) * exp (- ((T - a) ^ 2 / (2 * s ^ 2)))).
Proof.
  intros Q. rewrite <- bell_g. unfold H0. pose proof (erfc_small _ (u_pos a T Q)) as E.
  set (u := (k * s ^ 2 - T + a) / (s * sqrt 2)) in *. set (e := exp (k ^ 2 * s ^ 2 / 2 - k * T)).
  assert (0 < e) by apply exp_pos. pose proof PI_RGT_0.
  replace (2 / PI * (e * exp (- u ^ 2))) with (/ 2 * e * (4 / PI * exp (- u ^ 2))) by (field; lra).
  apply Rmult_le_compat_l; [|exact E]. apply Rmult_le_pos; lra.
Qed.
Lemma g_fast_p a : fast (Rbar_locally p_infty) (fun T => g a T).
Proof.
  apply fast_ext with (fun T => (exp (- k * a) / (s * sqrt (2 * PI))) * exp (- ((T - a) ^ 2 / (2 * s ^ 2)))); [typeclasses eauto| |].
  { intros T. unfold g, normal. unfold Rdiv. ring. }
  apply fast_scal; [typeclasses eauto|]. now apply fast_gauss_p.
Qed.
Lemma g_fast_m a : fast (Rbar_locally m_infty) (fun T => g a T).
Proof.
  apply fast_ext with (fun T => (exp (- k * a) / (s * sqrt (2 * PI))) * exp (- ((T - a) ^ 2 / (2 * s ^ 2)))); [typeclasses eauto| |].
  { intros T. unfold g, normal. unfold Rdiv. ring. }
  apply fast_scal; [typeclasses eauto|]. now apply fast_gauss_m.
Qed.
Lemma fast_a T : fast (Rbar_locally p_infty) (fun a => exp (- k * a) * exp (- ((T - a) ^ 2 / (2 * s ^ 2)))).
Proof.
  apply fast_dom with (h := fun a => exp ((- k + 1) * T + s ^ 2 * (k - 1) ^ 2 / 2) * exp (- (1) * a)); [typeclasses eauto| |].
  - exists 0. intros a _. rewrite <- !exp_plus, !(Rabs_pos_eq (exp _)) by (left; apply exp_pos). apply exp_mono.
    pose proof (gauss_dom s (k - 1) (a - T) Hs) as D. replace ((T - a) ^ 2) with ((a - T) ^ 2) by ring.
    eapply Rle_trans; [apply Rplus_le_compat_l, D|]. right. field.
  - apply fast_scal; [typeclasses eauto|]. apply fast_exp. lra.
Qed.
Lemma g_fast_a T : fast (Rbar_locally p_infty) (fun a => g a T).
Proof.
  apply fast_ext with (fun a => / (s * sqrt (2 * PI)) * (exp (- k * a) * exp (- ((T - a) ^ 2 / (2 * s ^ 2))))); [typeclasses eauto| |].
  { intros a. unfold g, normal. unfold Rdiv. ring. }
  apply fast_scal; [typeclasses eauto|]. apply fast_a.
Qed.
Lemma H0_fast_p a : 0 < k -> fast (Rbar_locally p_infty) (fun T => H0 a T).
Proof.
  intros Hk. apply fast_dom with (h := fun T => exp (k ^ 2 * s ^ 2 / 2) * exp (- k * T)); [typeclasses eauto| |].
  - exists 0. intros T _. rewrite <- exp_plus, (Rabs_pos_eq (exp _)) by (left; apply exp_pos). rewrite Rabs_pos_eq by apply H0_pos.
    unfold H0. replace (k ^ 2 * s ^ 2 / 2 + - k * T) with (k ^ 2 * s ^ 2 / 2 - k * T) by ring.
    pose proof (erfc_bound ((k * s ^ 2 - T + a) / (s * sqrt 2))). pose proof (exp_pos (k ^ 2 * s ^ 2 / 2 - k * T)). nra.
  - apply fast_scal; [typeclasses eauto|]. now apply fast_exp.
Qed.
Lemma H0_fast_m a : fast (Rbar_locally m_infty) (fun T => H0 a T).
Proof.
  apply fast_dom with (h := fun T => (2 / PI * exp (- k * a)) * exp (- ((T - a) ^ 2 / (2 * s ^ 2)))); [typeclasses eauto| |].
  - exists (k * s ^ 2 + a). intros T HT. rewrite Rabs_pos_eq by apply H0_pos. eapply Rle_trans; [|apply Rle_abs].
    rewrite Rmult_assoc. apply H0_le. lra.
  - apply fast_scal; [typeclasses eauto|]. now apply fast_gauss_m.
Qed.
Lemma H0_fast_a T : fast (Rbar_locally p_infty) (fun a => H0 a T).
Proof.
  apply fast_dom with (h := fun a => 2 / PI * (exp (- k * a) * exp (- ((T - a) ^ 2 / (2 * s ^ 2))))); [typeclasses eauto| |].
  - exists (T - k * s ^ 2). intros a Ha. rewrite Rabs_pos_eq by apply H0_pos. eapply Rle_trans; [|apply Rle_abs]. apply H0_le. lra.
  - apply fast_scal; [typeclasses eauto|]. apply fast_a.
Qed.
(** In T. *)
Lemma H_fast_T (F : (R -> Prop) -> Prop) (HF : Filter F) a : fast F (fun T => H0 a T) -> fast F (fun T => g a T) ->
  forall n, fast F (fun T => H n a T).
Proof.
  intros F0 Fg. induction n as [n IH] using lt_wf_ind. destruct n as [|m]; [exact F0|].
  apply fast_ext with (fun T => (T * H m a T + - (k * s ^ 2) * H m a T) + ((s ^ 2 * INR m) * Hm m a T + (s ^ 2 * a ^ m) * g a T)); [exact HF| |].
  { intros T. rewrite H_S. ring. }
  assert (Fm := IH m ltac:(lia)).
  apply fast_plus; [exact HF| |].
  - apply fast_plus; [exact HF|now apply fast_id|now apply fast_scal].
  - apply fast_plus; [exact HF| |now apply fast_scal]. apply fast_scal; [exact HF|]. destruct m as [|q]; [now apply fast_zero|].
    exact (IH q ltac:(lia)).
Qed.
Lemma fast_pow F m f : Filter F -> fast F f -> fast F (fun t => t ^ m * f t).
Proof. intros HF Hf n. apply filterlim_ext with (2 := Hf (n + m)%nat). intros t. rewrite pow_add. ring. Qed.
Lemma H_fast_a T : forall n, fast (Rbar_locally p_infty) (fun a => H n a T).
Proof.
  assert (HF : Filter (Rbar_locally p_infty)) by typeclasses eauto.
  induction n as [n IH] using lt_wf_ind. destruct n as [|m]; [apply H0_fast_a|].
  apply fast_ext with (fun a => (T - k * s ^ 2) * H m a T + ((s ^ 2 * INR m) * Hm m a T + s ^ 2 * (a ^ m * g a T))); [exact HF| |].
  { intros a. rewrite H_S. ring. }
  assert (Fm := IH m ltac:(lia)).
  apply fast_plus; [exact HF|now apply fast_scal|].
  apply fast_plus; [exact HF| |].
  - apply fast_scal; [exact HF|]. destruct m as [|q]; [now apply fast_zero|]. exact (IH q ltac:(lia)).
  - apply fast_scal; [exact HF|]. apply fast_pow; [exact HF|]. apply g_fast_a.
Qed.
End Moments.

(** ** Improper integrals from antiderivatives *)
Lemma int_gen (f F : R -> R) (Fa Fb : (R -> Prop) -> Prop) (la lb : R) : ProperFilter' Fa -> ProperFilter' Fb ->
  (forall t, is_derive F t (f t)) -> (forall t, continuous f t) -> filterlim F Fa (locally la) -> filterlim F Fb (locally lb) ->
  is_RInt_gen f Fa Fb (lb - la).
Proof.
  intros PFa PFb D C La Lb.
  assert (FTa : Filter Fa) by apply filter_filter'. assert (FTb : Filter Fb) by apply filter_filter'.
  intros P HP.
  assert (Lim : filterlim (fun ab => F (snd ab) - F (fst ab)) (filter_prod Fa Fb) (locally (lb - la))).
  { apply (filterlim_comp_2 (F := filter_prod Fa Fb) (G := locally lb) (H := locally (- la)) (fun ab => F (snd ab)) (fun ab => - F (fst ab)) Rplus).
    - apply (filterlim_comp _ _ _ snd F (filter_prod Fa Fb) Fb); [apply filterlim_snd|exact Lb].
    - apply (filterlim_comp _ _ _ (fun ab => F (fst ab)) Ropp (filter_prod Fa Fb) (locally la)).
      + apply (filterlim_comp _ _ _ fst F (filter_prod Fa Fb) Fa); [apply filterlim_fst|exact La].
      + apply (filterlim_opp la).
    - apply (filterlim_plus lb (- la)). }
  specialize (Lim P HP). unfold filtermap in Lim. unfold filtermapi.
  apply (filter_imp (fun ab => P (F (snd ab) - F (fst ab)))); [|exact Lim].
  intros [a b] Hp. exists (F b - F a). split; [|exact Hp]. cbn [fst snd].
  apply (is_RInt_derive F f a b); intros; auto.
Qed.

Lemma gcont (f : R -> R) (x : R) : ex_derive f x -> continuous f x.
Proof. apply (ex_derive_continuous f). Qed.

Section Integrals.
Variables (k s : R).
Hypothesis Hs : 0 < s.
Lemma weight_derive n (T t : R) : ex_derive (fun t => t ^ n * g k s t T) t.
Proof.
  apply ex_derive_mult; [auto_derive; exact I|]. eexists. now apply g_da.
Qed.
(** The moments are the integrals they are named after. *)
Lemma H_smear n a T : is_RInt_gen (fun t => t ^ n * (exp (- k * t) * normal s (T - t))) (at_point a) (Rbar_locally p_infty) (H k s n a T).
Proof.
  replace (H k s n a T) with (0 - - H k s n a T) by ring.
  apply (int_gen _ (fun a => - H k s n a T)); try typeclasses eauto.
  - intros t. eapply dval; [apply (is_derive_opp (fun a => H k s n a T)); now apply H_da|]. unfold opp; cbn. unfold g. ring.
  - intros t. apply gcont. exact (weight_derive n T t).
  - intros P [e He]. apply He. apply ball_center.
  - replace 0 with (- 0) by ring. apply (filterlim_comp _ _ _ (fun a => H k s n a T) Ropp (Rbar_locally p_infty) (locally 0)).
    + apply fast_0; [typeclasses eauto|]. now apply H_fast_a.
    + apply (filterlim_opp 0).
Qed.
Lemma H_smear_fin n a b T : is_RInt (fun t => t ^ n * (exp (- k * t) * normal s (T - t))) a b (H k s n a T - H k s n b T).
Proof.
  replace (H k s n a T - H k s n b T) with (minus (- H k s n b T) (- H k s n a T)) by (unfold minus, plus, opp; cbn; ring).
  apply (is_RInt_derive (fun a => - H k s n a T)).
  - intros t _. eapply dval; [apply (is_derive_opp (fun a => H k s n a T)); now apply H_da|]. unfold opp; cbn. unfold g. ring.
  - intros t _. apply gcont. exact (weight_derive n T t).
Qed.
Lemma g_total a : is_RInt_gen (fun T => g k s a T) (Rbar_locally m_infty) (Rbar_locally p_infty) (exp (- k * a)).
Proof.
  set (F := fun T => exp (- k * a) / 2 * Rerfc (- ((T - a) / (s * sqrt 2)))).
  replace (exp (- k * a)) with (exp (- k * a) / 2 * 2 - exp (- k * a) / 2 * 0) by field.
  pose proof s2_pos as P. pose proof spi_pos as P'. assert (W : 0 < s * sqrt 2) by nra.
  apply (int_gen _ F); try typeclasses eauto.
  - intros T. unfold F.
    assert (Du : is_derive (fun T => - ((T - a) / (s * sqrt 2))) T (- / (s * sqrt 2))). { auto_derive; [exact I|]. eqR. field. lra. }
    eapply dval; [apply (is_derive_scal (fun T => Rerfc (- ((T - a) / (s * sqrt 2)))) T (exp (- k * a) / 2)); apply (erfc_d _ T _ Du)|].
    unfold scal; cbn; unfold mult; cbn. unfold g, normal. rewrite s2pi.
    replace (- (- ((T - a) / (s * sqrt 2)) * (- ((T - a) / (s * sqrt 2)) * 1))) with (- ((T - a) ^ 2 / (2 * s ^ 2))).
    2:{ pose proof s2_sq as Q. replace (- ((T - a) / (s * sqrt 2)) * (- ((T - a) / (s * sqrt 2)) * 1)) with ((T - a) ^ 2 / (s ^ 2 * (sqrt 2 * sqrt 2))) by (field; lra).
        rewrite Q. field. lra. }
    generalize (exp (- ((T - a) ^ 2 / (2 * s ^ 2)))) (exp (- k * a)). intros e1 e2. eqR. field. repeat split; lra.
  - intros T. apply gcont. eexists. now apply g_dT.
  - apply (is_lim_scal_l (fun T => Rerfc (- ((T - a) / (s * sqrt 2)))) (exp (- k * a) / 2) m_infty 0).
    apply (filterlim_comp _ _ _ (fun T => - ((T - a) / (s * sqrt 2))) Rerfc (Rbar_locally m_infty) (Rbar_locally p_infty)); [|exact erfc_lim_p].
    intros Q [M HM]. exists (a - M * (s * sqrt 2)). intros t Ht. apply HM.
    apply Rmult_lt_reg_r with (s * sqrt 2); [exact W|]. replace (- ((t - a) / (s * sqrt 2)) * (s * sqrt 2)) with (a - t) by (field; lra). lra.
  - apply (is_lim_scal_l (fun T => Rerfc (- ((T - a) / (s * sqrt 2)))) (exp (- k * a) / 2) p_infty 2).
    apply (filterlim_comp _ _ _ (fun T => - ((T - a) / (s * sqrt 2))) Rerfc (Rbar_locally p_infty) (Rbar_locally m_infty)); [|exact erfc_lim_m].
    intros Q [M HM]. exists (a - M * (s * sqrt 2)). intros t Ht. apply HM.
    apply Rmult_lt_reg_r with (s * sqrt 2); [exact W|]. replace (- ((t - a) / (s * sqrt 2)) * (s * sqrt 2)) with (a - t) by (field; lra). lra.
Qed.
Fixpoint total (n : nat) (a : R) : R :=
  match n with O => exp (- k * a) / k | S m => (INR (S m) * total m a + a ^ S m * exp (- k * a)) / k end.
Lemma H_total n a : 0 < k -> is_RInt_gen (fun T => H k s n a T) (Rbar_locally m_infty) (Rbar_locally p_infty) (total n a).
Proof.
  intros Hk.
  assert (Fz : forall n, is_RInt_gen (fun T => INR n * Hm k s n a T - k * H k s n a T + a ^ n * g k s a T) (Rbar_locally m_infty) (Rbar_locally p_infty) (0 - 0)).
  { intros m. apply (int_gen _ (fun T => H k s m a T)); try typeclasses eauto.
    - intros t. now apply H_dT.
    - intros t. apply gcont. apply (ex_derive_plus (fun T => INR m * Hm k s m a T - k * H k s m a T) (fun T => a ^ m * g k s a T)).
      + apply (ex_derive_minus (fun T => INR m * Hm k s m a T) (fun T => k * H k s m a T)).
        * apply (ex_derive_scal (fun T => Hm k s m a T)). destruct m as [|q]; [apply (ex_derive_const 0)|]. eexists. now apply H_dT.
        * apply (ex_derive_scal (fun T => H k s m a T)). eexists. now apply H_dT.
      + apply (ex_derive_scal (fun T => g k s a T)). eexists. now apply g_dT.
    - apply fast_0; [typeclasses eauto|]. apply H_fast_T; [typeclasses eauto| |]; [now apply H0_fast_m|now apply g_fast_m].
    - apply fast_0; [typeclasses eauto|]. apply H_fast_T; [typeclasses eauto| |]; [now apply H0_fast_p|now apply g_fast_p]. }
  induction n as [|m IH].
  - specialize (Fz O). pose proof (g_total a) as G.
    pose proof (is_RInt_gen_plus _ _ _ _ (is_RInt_gen_scal _ (- / k) _ Fz) (is_RInt_gen_scal _ (/ k) _ G)) as Q.
    replace (total 0 a) with (plus (scal (- / k) (0 - 0)) (scal (/ k) (exp (- k * a)))).
    2:{ unfold plus, scal; cbn; unfold mult; cbn. field. lra. }
    apply is_RInt_gen_ext with (2 := Q). apply filter_forall. intros [u v] x _.
    unfold plus, scal; cbn; unfold mult; cbn. change (H0 k s a x) with (H k s 0 a x). field. lra.
  - specialize (Fz (S m)). pose proof (g_total a) as G.
    pose proof (is_RInt_gen_plus _ _ _ _ (is_RInt_gen_plus _ _ _ _ (is_RInt_gen_scal _ (- / k) _ Fz) (is_RInt_gen_scal _ (INR (S m) / k) _ IH))
                  (is_RInt_gen_scal _ (a ^ S m / k) _ G)) as Q.
    replace (total (S m) a) with (plus (plus (scal (- / k) (0 - 0)) (scal (INR (S m) / k) (total m a))) (scal (a ^ S m / k) (exp (- k * a)))).
    2:{ unfold plus, scal; cbn [total]; cbn -[INR pow total]; unfold mult; cbn -[INR pow total]. field. lra. }
    apply is_RInt_gen_ext with (2 := Q). apply filter_forall. intros [u v] x _.
    change (Hm k s (S m) a x) with (H k s m a x).
    unfold plus, scal; cbn -[INR pow H]; unfold mult; cbn -[INR pow H]. field. lra.
Qed.
End Integrals.
