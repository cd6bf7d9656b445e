(** Properties of the resonance functions (C79 and following). *)
From Coq Require Import Reals List Lra Lia Arith Bool ZArith.
From Coquelicot Require Import Coquelicot.
From Verif Require Import FormulaSpec AmpModel WaveModel WaveSpec WaveProofs.
Import ListNotations.
Open Scope R_scope.

(** ** C79: a relativistic Breit-Wigner *)
(** Missing: normalised form factors of spin 1 or 2 where the mother has a radius (C79_mother_refuted), form factors that
    are not normalised (C79_width_refuted), symmetrised resonances (C82). *)
Theorem C79_value_partial : forall d m0 width l cyc norm a c m12 m13 m23 q q0 p p0,
  let s := pair_mass cyc m12 m13 m23 in
  (l <= 2)%nat -> (cyc <= 2)%nat -> l = 0%nat \/ norm = true /\ d_mother_radius d = 0 ->
  0 < s -> 0 < m0 -> seen d cyc a c m12 m13 m23 ->
  (let '(mA, mB, _) := pair_daughters d cyc in breakup (sqrt s) mA mB q /\ breakup m0 mA mB q0) ->
  value d (RBW m0 width l cyc norm false) m12 m13 m23
    (RtoC (angular l a c) * rbw_formula m0 width l (d_radius d) (d_mother_radius d) s q q0 p p0)%C.
Proof.
  intros d m0 width l cyc norm a c m12 m13 m23 q q0 p p0 s Pl Pc N Ps Pm S B. unfold value, amplitude. rewrite rbw_plain. f_equal.
  destruct N as [-> |[-> R0]].
  - rewrite (rbw_term_value _ _ _ _ _ _ _ _ _ _ _ _ _ Ps (factors_s d cyc norm m0 s q q0 Pc Ps Pm B)). fold s.
    unfold rbw_formula, running, scaled, spin_factor, angular, barrier, Cdiv. rops. now rewrite RtoC_mult, Cmult_assoc.
  - rewrite (rbw_norm _ _ _ _ _ _ _ _ _ _ _ _ Pl Pc Ps Pm S B). fold s. f_equal. unfold rbw_formula. do 3 f_equal.
    rewrite R0, !Rmult_0_r. now rewrite !barrier_same by lra.
Qed.
(** The phase: the imaginary part over the real part is m0 Gamma(s) / (m0^2 - s), Gamma(m0^2) being the width. *)
Theorem C79_phase_partial : forall d m0 width l cyc a c m12 m13 m23 q q0 z,
  let s := pair_mass cyc m12 m13 m23 in
  (l <= 2)%nat -> (cyc <= 2)%nat -> 0 < s -> 0 < m0 -> seen d cyc a c m12 m13 m23 ->
  (let '(mA, mB, _) := pair_daughters d cyc in breakup (sqrt s) mA mB q /\ breakup m0 mA mB q0) ->
  value d (RBW m0 width l cyc true false) m12 m13 m23 z ->
  Im z * (m0 ^ 2 - s) = Re z * running m0 width l (d_radius d) s q q0.
Proof.
  intros d m0 width l cyc a c m12 m13 m23 q q0 z s Pl Pc Ps Pm S B V. unfold value, amplitude in V. rewrite rbw_plain in V.
  rewrite (rbw_norm _ _ _ _ _ _ _ _ _ _ _ _ Pl Pc Ps Pm S B) in V. apply (f_equal (fun o => match o with Some y => y | None => z end)) in V.
  cbv beta iota in V. subst z. fold s. unfold rbw_formula, Cdiv, Cinv, Cmult, RtoC, Re, Im. cbn [fst snd].
  generalize (running m0 width l (d_radius d) s q q0). intro w. unfold Rdiv. ring.
Qed.
Corollary width_at_peak : forall m0 width l r q0, 0 < m0 -> q0 <> 0 -> running m0 width l r (m0 ^ 2) q0 q0 = m0 * width.
Proof.
  intros m0 width l r q0 P N. unfold running. rewrite barrier_same by apply sq_nonneg. replace (q0 / q0) with 1 by (field; lra).
  rewrite pow1. replace (m0 ^ 2) with (m0 * m0) by ring. rewrite sqrt_square by lra. field. lra.
Qed.

(** A decay whose momenta are whole numbers: mass 150 to 60, 21, 21; the pair (23) at mass 70. *)
Definition decay_x (r rm : R) : decay R := mkDecay 150 60 21 21 r rm.
Lemma event_x : forall r rm, seen (decay_x r rm) 2 (0, 0, 28) (0, 0, 80) 6561 15521 4900.
Proof.
  intros r rm. cbn [seen decay_x d_mother d_1 d_2 d_3]. unfold at_rest, mass2, energy, dot, plus, neg.
  rewrite (sqrt_of (21 ^ 2 + _) 35) by lra. rewrite (sqrt_of (60 ^ 2 + _) 100) by lra. rewrite (sqrt_of (21 ^ 2 + _) 35) by lra.
  repeat split; lra.
Qed.
Lemma momenta_x : breakup (sqrt 4900) 21 21 28 /\ breakup 90 21 21 (sqrt 1584) /\ breakup 70 21 21 28 /\
  recoil 150 (sqrt 4900) 60 80 /\ recoil 150 90 60 0.
Proof.
  unfold breakup, recoil. rewrite (sqrt_of 4900 70) by lra. rewrite (sqrt_of (28 ^ 2 + _) 35) by lra.
  rewrite (sqrt_of (80 ^ 2 + 150 ^ 2) 170) by lra. rewrite (sqrt_of (80 ^ 2 + 60 ^ 2) 100) by lra.
  rewrite (sqrt_of (0 ^ 2 + 150 ^ 2) 150) by lra. rewrite (sqrt_of (0 ^ 2 + 60 ^ 2) 60) by lra.
  rewrite sqrt_pow2' by lra. rewrite (sqrt_of (1584 + _) 45) by lra. pose proof (sqrt_pos 1584). repeat split; lra.
Qed.
Example C79_ex : exists z, value (decay_x 1 0) (RBW 90 1 1 2 true false) 6561 15521 4900 z /\ Im z * 3200 = Re z * running 90 1 1 1 4900 28 (sqrt 1584).
Proof.
  destruct momenta_x as (A & B & _ & C & D). eexists. split.
  - apply (C79_value_partial (decay_x 1 0) 90 1 1 2 true (0, 0, 28) (0, 0, 80) 6561 15521 4900 28 (sqrt 1584) 80 0); try lia; cbn; try lra; auto.
    + apply (event_x 1 0).
  - pose proof (C79_phase_partial (decay_x 1 0) 90 1 1 2 (0, 0, 28) (0, 0, 80) 6561 15521 4900 28 (sqrt 1584)
      (RtoC (angular 1 (0, 0, 28) (0, 0, 80)) * rbw_formula 90 1 1 1 0 4900 28 (sqrt 1584) 80 0)%C) as P. cbn [pair_mass] in P.
    replace (90 ^ 2 - 4900) with 3200 in P by ring. apply P; try lia; try lra; [apply event_x|cbn; auto|].
    apply (C79_value_partial (decay_x 1 0) 90 1 1 2 true (0, 0, 28) (0, 0, 80) 6561 15521 4900 28 (sqrt 1584) 80 0); try lia; cbn; try lra; auto.
    apply (event_x 1 0).
Qed.
(** Spin 1: the form factor of the mother is not that of the momentum of the bachelor where the resonance is at rest; the
    momentum that is used is s / (2 M), whatever the bachelor. *)
Theorem C79_mother_refuted :
  (forall s M mC, 0 < s -> 0 < mC < M -> s < (M - mC) ^ 2 -> mother_mom R_ops s M mC = s / (2 * M)) /\
  exists d m0 width l cyc a c m12 m13 m23 q q0 p p0,
    let s := pair_mass cyc m12 m13 m23 in
    (l <= 2)%nat /\ (cyc <= 2)%nat /\ 0 < s /\ 0 < m0 /\ seen d cyc a c m12 m13 m23 /\
    (let '(mA, mB, mC) := pair_daughters d cyc in
     breakup (sqrt s) mA mB q /\ breakup m0 mA mB q0 /\ recoil (d_mother d) (sqrt s) mC p /\ recoil (d_mother d) m0 mC p0) /\
    ~ value d (RBW m0 width l cyc true false) m12 m13 m23
        (RtoC (angular l a c) * rbw_formula m0 width l (d_radius d) (d_mother_radius d) s q q0 p p0)%C.
Proof.
  split; [intros s M mC Ps [P1 P2] Q; apply mother_inside; nra|].
  destruct momenta_x as (A & B & _ & C & D).
  exists (decay_x 1 1), 90, 1, 1%nat, 2%nat, (0, 0, 28), (0, 0, 80), 6561, 15521, 4900, 28, (sqrt 1584), 80, 0.
  cbn [pair_mass pair_daughters decay_x d_mother d_1 d_2 d_3]. split; [lia|]. split; [lia|]. split; [lra|]. split; [lra|]. split; [apply (event_x 1 1)|].
  split; [auto|]. unfold value, amplitude. rewrite rbw_plain.
  rewrite (rbw_norm (decay_x 1 1) 90 1 1 2 6561 15521 4900 (0, 0, 28) (0, 0, 80) 28 (sqrt 1584)) by (try lia; try apply event_x; cbn; try lra; auto).
  intro E. apply (f_equal (fun o => match o with Some y => y | None => RtoC 0 end)) in E. cbv beta iota in E.
  cbn [pair_mass decay_x d_mother d_radius d_mother_radius bachelor by_pair d_1] in E.
  rewrite mother_inside in E by lra.
  assert (Z : mother_mom R_ops (90 * 90) 150 60 = 0).
  { unfold mother_mom, sq. rops. unfold Rleb. destruct (Rle_dec 0 (1 - (150 + 60) * (150 + 60) / (90 * 90))); [lra|].
    destruct (Rle_dec 0 (1 - (150 - 60) * (150 - 60) / (90 * 90))); [|lra].
    replace (1 - (150 - 60) * (150 - 60) / (90 * 90)) with 0 by lra. rewrite sqrt_0. lra. }
  rewrite Z in E. unfold rbw_formula, Cdiv in E. rewrite !Cmult_assoc, <- !RtoC_mult in E.
  apply scaled_inj in E; [|apply inv_nonzero; lra]. unfold angular, dot in E.
  apply Rmult_eq_reg_l in E; [|lra]. apply Rmult_eq_reg_l in E.
  - apply (f_equal (fun x => x ^ 2)) in E. unfold barrier in E. rewrite !sqrt_pow2' in E by lra. lra.
  - assert (P : sqrt 1584 ^ 2 = 1584) by (apply sqrt_pow2'; lra).
    unfold barrier. rewrite !Rmult_1_r, P. apply Rgt_not_eq, sqrt_lt_R0. lra.
Qed.
(** Spin 1, form factors not normalised: the width is not the one that was set. *)
Theorem C79_width_refuted : exists d m0 width l cyc a c m12 m13 m23 q q0 z,
  let s := pair_mass cyc m12 m13 m23 in
  (l <= 2)%nat /\ (cyc <= 2)%nat /\ 0 < s /\ 0 < m0 /\ seen d cyc a c m12 m13 m23 /\
  (let '(mA, mB, _) := pair_daughters d cyc in breakup (sqrt s) mA mB q /\ breakup m0 mA mB q0) /\
  value d (RBW m0 width l cyc false false) m12 m13 m23 z /\
  Im z * (m0 ^ 2 - s) <> Re z * running m0 width l (d_radius d) s q q0.
Proof.
  destruct momenta_x as (A & B & _ & C & D).
  exists (decay_x 1 1), 90, 1, 1%nat, 2%nat, (0, 0, 28), (0, 0, 80), 6561, 15521, 4900, 28, (sqrt 1584). eexists.
  cbn [pair_mass pair_daughters decay_x d_mother d_1 d_2 d_3 d_radius]. split; [lia|]. split; [lia|]. split; [lra|]. split; [lra|]. split; [apply (event_x 1 1)|].
  split; [auto|]. split; [unfold value, amplitude; rewrite rbw_plain; reflexivity|].
  assert (Q : breakup (sqrt (150 * 150)) 70 60 (112 / 3)).
  { unfold breakup. rewrite (sqrt_of (150 * 150) 150) by lra. rewrite (sqrt_of ((112 / 3) ^ 2 + 70 ^ 2) (238 / 3)) by lra.
    rewrite (sqrt_of ((112 / 3) ^ 2 + 60 ^ 2) (212 / 3)) by lra. split; lra. }
  assert (F : factors R_ops LL (decay_x 1 1) 1 2 false (90 * 90) 4900 = (28, sqrt 1584, 1568, 2 * (112 / 3) ^ 2)).
  { unfold factors. cbn [decay_x first_mass second_mass bachelor by_pair Nat.eqb d_mother d_1 d_2 d_3 d_radius d_mother_radius]. cbv zeta. rops.
    rewrite (two_body_breakup 4900 21 21 28) by (try assumption; lra).
    rewrite (two_body_breakup (90 * 90) 21 21 (sqrt 1584)) by (rewrite ?sqrt_square by lra; try assumption; lra).
    rewrite (sqrt_of 4900 70) by lra. rewrite (two_body_breakup (150 * 150) 70 60 (112 / 3)) by (try assumption; lra).
    unfold damping. rops. cbn [Nat.eqb]. repeat f_equal; lra. }
  rewrite (rbw_term_value (decay_x 1 1) 90 1 1 2 false 6561 15521 4900 _ _ _ _ ltac:(cbn; lra) F).
  rewrite (spin_angular _ 1 2 _ _ _ _ _ ltac:(lia) ltac:(lia) (event_x 1 1) ltac:(cbn; lra)). cbn [pair_mass].
  unfold scaled, running, Cinv, Cmult, RtoC, Re, Im. cbn [fst snd]. set (k := sqrt 1584).
  assert (K : k ^ 2 = 1584) by (apply sqrt_pow2'; lra). assert (KP : 0 < k) by (apply sqrt_lt_R0; lra).
  rewrite (sqrt_of 4900 70) by lra. set (u := (28 / k) ^ (2 * 1 + 1)).
  assert (U : 0 < u) by (apply pow_lt; apply Rmult_lt_0_compat; [lra|now apply Rinv_0_lt_compat]).
  set (x := angular 1 (0, 0, 28) (0, 0, 80) * (sqrt 1568 * sqrt (2 * (112 / 3) ^ 2))).
  assert (X : x <> 0).
  { unfold x, angular, dot. pose proof (sqrt_lt_R0 1568 ltac:(lra)). pose proof (sqrt_lt_R0 (2 * (112 / 3) ^ 2) ltac:(lra)). nra. }
  unfold barrier. replace ((k * 1) ^ 2) with 1584 by (rewrite <- K; ring). intro E.
  set (A' := 90 ^ 2 - 4900) in *. set (B' := 90 * (1 * u * (90 / 70) * 1568)) in *.
  set (n := A' ^ 2 + (- B') ^ 2) in *. assert (NP : 0 < n) by (unfold n, A'; nra).
  assert (E' : x * A' * (B' - 90 * (1 * u * (90 / 70) * ((1 + 1584) / (1 + (28 * 1) ^ 2)))) = 0).
  { apply (Rmult_eq_compat_r n) in E. replace (x * A' * (B' - _)) with (((x * (- - B' / n) + 0 * (A' / n)) * A' - (x * (A' / n) - 0 * (- - B' / n)) * (90 * (1 * u * (90 / 70) * ((1 + 1584) / (1 + (28 * 1) ^ 2))))) * n) by (field; lra). lra. }
  apply Rmult_integral in E'. destruct E' as [E'|E'].
  - apply Rmult_integral in E'. destruct E' as [E'|E']; [contradiction|unfold A' in E'; lra].
  - unfold B' in E'. lra.
Qed.

(** ** C80: the angles *)
(** Missing: symmetrised resonances, which have two terms, and RhoOmegaMix (C80_mixing_refuted). *)
Theorem C80_angle_partial : forall d w,
  asks_symmetry w = false -> is_mixing w = false -> (spin_of w <= 2)%nat -> (pair_of w <= 2)%nat -> legendre d w.
Proof. exact legendre_all. Qed.
Lemma event_y : forall r rm, seen (decay_x r rm) 2 (0, 0, 28) (48, 0, 64) 7457 14625 4900.
Proof.
  intros r rm. cbn [seen decay_x d_mother d_1 d_2 d_3]. unfold at_rest, mass2, energy, dot, plus, neg.
  rewrite (sqrt_of (21 ^ 2 + _) 35) by lra. rewrite (sqrt_of (60 ^ 2 + _) 100) by lra. rewrite (sqrt_of (21 ^ 2 + _) 35) by lra.
  repeat split; lra.
Qed.
(** The values at two points of the same m23 are in the ratio of the cosines, 5 to 4. *)
Example C80_ex : exists z z', value (decay_x 1 1) (RBW 90 1 1 2 true false) 6561 15521 4900 z /\
  value (decay_x 1 1) (RBW 90 1 1 2 true false) 7457 14625 4900 z' /\ (4 * z = 5 * z')%C.
Proof.
  destruct (C80_angle_partial (decay_x 1 1) (RBW 90 1 1 2 true false) eq_refl eq_refl ltac:(cbn; lia) ltac:(cbn; lia)) as [f F].
  pose proof (F _ _ _ _ _ (event_x 1 1) ltac:(cbn; lra)) as E1. pose proof (F _ _ _ _ _ (event_y 1 1) ltac:(cbn; lra)) as E2.
  cbn [pair_of pair_mass] in E1, E2. destruct (f 4900) as [y|]; [|discriminate]. unfold value. do 2 eexists. split; [exact E1|]. split; [exact E2|].
  unfold angular, dot, spin_of. destruct y as [u v]. unfold Cmult, RtoC. cbn [fst snd]. f_equal; ring.
Qed.
Lemma d_fun_x : 0 < d_fun R_ops LL (70 * 70) 21 21.
Proof.
  unfold d_fun, sq, cube. rops. rewrite (two_body_breakup (70 * 70) 21 21 28).
  2: lra. 2:{ rewrite (sqrt_of (70 * 70) 70) by lra. apply momenta_x. }
  rewrite (sqrt_of (70 * 70) 70) by lra. cbv zeta. replace ((70 + 2 * 28) / (21 + 21)) with 3 by lra.
  assert (LN : 1 <= ln 3) by (rewrite <- (ln_exp 1); apply Rcomplements.ln_le; [apply exp_pos|apply Rlt_le, exp_lt_3 || apply exp_le_3]).
  pose proof pi_pos as PP. set (p := pi_ R_ops) in *.
  replace (3 / p * ((21 + 21) * (21 + 21) / 4) / (28 * 28) * ln 3 + 70 / (2 * p * 28) - (21 + 21) * (21 + 21) / 4 * 70 / (p * (28 * 28 * 28)))
  with (/ p * (27 / 16 * ln 3 + 5 / 4 - 45 / 32)) by (field; lra).
  apply Rmult_lt_0_compat; [now apply Rinv_0_lt_compat|lra].
Qed.
(** The mixing term contains the angular factor a second time. *)
Theorem C80_mixing_refuted : exists d w, asks_symmetry w = false /\ (spin_of w <= 2)%nat /\ (pair_of w <= 2)%nat /\ ~ legendre d w.
Proof.
  exists (decay_x 1 0), (RhoOmegaMix 90 1 70 1 1 0 1 1 2 true false). split; [reflexivity|]. split; [cbn; lia|]. split; [cbn; lia|].
  intros [f F]. pose proof (F _ _ _ _ _ (event_x 1 0) ltac:(cbn; lra)) as E1. pose proof (F _ _ _ _ _ (event_y 1 0) ltac:(cbn; lra)) as E2.
  cbn [pair_of pair_mass spin_of] in E1, E2. destruct (f 4900) as [y|]; [|discriminate].
  destruct momenta_x as (A & B & A' & C & D).
  pose proof (factors_value (decay_x 1 0) 1 2 90 4900 28 (sqrt 1584) ltac:(lia) ltac:(lia) ltac:(lra) ltac:(lra) (conj A B)) as FO.
  pose proof (factors_value (decay_x 1 0) 1 2 70 4900 28 28 ltac:(lia) ltac:(lia) ltac:(lra) ltac:(lra) (conj A A')) as FR.
  cbn [d_mother_radius d_radius decay_x] in FO, FR. rewrite !Rmult_0_r in FO, FR. rewrite !barrier_same in FR by lra.
  rewrite (barrier_same 1 (0 ^ 2)) in FO by lra. fold (decay_x 1 0) in FO, FR.
  assert (VO : forall m12 m13 c, seen (decay_x 1 0) 2 (0, 0, 28) c m12 m13 4900 ->
    rbw_term R_ops LL (decay_x 1 0) 90 1 1 2 true m12 m13 4900 =
    (RtoC (angular 1 (0, 0, 28) c) * rbw_formula 90 1 1 1 0 4900 28 (sqrt 1584) 0 0)%C).
  { intros m12 m13 c S. pose proof (C79_value_partial (decay_x 1 0) 90 1 1 2 true (0, 0, 28) c m12 m13 4900 28 (sqrt 1584) 0 0) as V.
    unfold value, amplitude in V. rewrite rbw_plain in V. cbn [pair_mass] in V. specialize (V ltac:(lia) ltac:(lia) (or_intror (conj eq_refl eq_refl)) ltac:(lra) ltac:(lra) S (conj A B)).
    apply (f_equal (fun o => match o with Some y => y | None => RtoC 0 end)) in V. cbv beta iota in V. exact V. }
  assert (VR : forall m12 m13 c, seen (decay_x 1 0) 2 (0, 0, 28) c m12 m13 4900 ->
    gs R_ops LL (decay_x 1 0) 70 1 1 2 true m12 m13 4900 =
    (RtoC (angular 1 (0, 0, 28) c) * scaled (sqrt 1 * sqrt 1)%R (gs_core R_ops LL (decay_x 1 0) (70 * 70)%R 1 1 28 28 1 4900))%C).
  { intros m12 m13 c S. unfold gs. rops. change (by_pair 2 m12 m13 4900) with 4900. rewrite FR. apply dress_parts; auto. cbn [pair_mass]. lra. }
  unfold amplitude, rho_omega in E1, E2. rewrite (VO _ _ _ (event_x 1 0)), (VR _ _ _ (event_x 1 0)) in E1. rewrite (VO _ _ _ (event_y 1 0)), (VR _ _ _ (event_y 1 0)) in E2.
  set (om := rbw_formula 90 1 1 1 0 4900 28 (sqrt 1584) 0 0) in *. set (rho := scaled (sqrt 1 * sqrt 1) _) in *.
  assert (NO : om <> RtoC 0).
  { unfold om, rbw_formula, Cdiv. apply Cmult_neq_0; [|apply inv_nonzero; lra].
    intro Q. apply (f_equal fst) in Q. unfold RtoC in Q. cbn [fst] in Q. apply Rmult_integral in Q. assert (K : sqrt 1584 ^ 2 = 1584) by (apply sqrt_pow2'; lra).
    unfold barrier in Q. rewrite !Rmult_1_r, K in Q. destruct Q as [Q|Q]; apply sqrt_eq_0 in Q; revert Q; try lra. }
  assert (NR : rho <> RtoC 0).
  { intro Q. assert (P : gs_core R_ops LL (decay_x 1 0) (70 * 70) 1 1 28 28 1 4900 = RtoC 0).
    { unfold rho, scaled in Q. rewrite sqrt_1, Rmult_1_r, c_one_l in Q. exact Q. }
    clear - P. apply (f_equal snd) in P. unfold gs_core, RtoC in P. cbv zeta in P. cbn [snd] in P. revert P. rops. rewrite odd_power.
    cbn [decay_x d_2 d_3]. replace (28 / 28) with 1 by field. rewrite pow1, (sqrt_of (70 * 70) 70) by lra.
    set (E := 70 * 70 - 4900 + fs_fun R_ops LL 4900 (70 * 70) 1 21 21).
    pose proof d_fun_x as DP.
    set (dd := d_fun R_ops LL (70 * 70) 21 21) in *. intro P.
    assert (NN : 0 < E * E + 70 * 1 * 1 * 1 * (70 * 1 * 1 * 1)) by nra.
    apply (Rmult_eq_compat_r (E * E + 70 * 1 * 1 * 1 * (70 * 1 * 1 * 1))) in P.
    replace ((1 + dd * 1 / 70) / (E * E + 70 * 1 * 1 * 1 * (70 * 1 * 1 * 1)) * (70 * 1 * 1 * 1) * (E * E + 70 * 1 * 1 * 1 * (70 * 1 * 1 * 1))) with (70 + dd) in P by (field; lra).
    lra. }
  apply (no_common_factor (angular 1 (0, 0, 28) (0, 0, 80)) (angular 1 (0, 0, 28) (48, 0, 64)) (160, 0) om rho y); unfold angular, dot; try lra; try assumption.
  - intro Q. injection Q as Q. lra.
  - clear - E1. clearbody om rho. apply (f_equal (fun o => match o with Some x => x | None => y end)) in E1. cbv beta iota in E1.
    unfold angular, dot in E1. rewrite <- E1. unfold c_scale, c_add, c_mul, c_zero. rops.
    destruct om as [o1 o2], rho as [r1 r2]. unfold Cmult, Cplus, RtoC. cbn [fst snd]. f_equal; lra.
  - clear - E2. clearbody om rho. apply (f_equal (fun o => match o with Some x => x | None => y end)) in E2. cbv beta iota in E2.
    unfold angular, dot in E2. rewrite <- E2. unfold c_scale, c_add, c_mul, c_zero. rops.
    destruct om as [o1 o2], rho as [r1 r2]. unfold Cmult, Cplus, RtoC. cbn [fst snd]. f_equal; lra.
Qed.

(** ** C81: the names of the daughters *)
(** Missing: resonances of the other kinds with daughters of different masses (C81_refuted), and FLATTE symmetrised in the
    daughters 2 and 3, which the new names change. *)
Theorem C81_renamed_partial :
  (forall m0 width l cyc norm sym, (cyc <= 2)%nat -> same_when_renamed (RBW m0 width l cyc norm sym)) /\
  (forall m0 g1 rg cyc, (cyc <= 2)%nat -> same_when_renamed (FLATTE m0 g1 rg cyc false)) /\
  (forall m0 width cyc, (cyc <= 2)%nat -> same_when_renamed (Gauss m0 width cyc)) /\ same_when_renamed NonRes /\
  (forall m0 width a r R0 phiR B phiB l norm, same_when_renamed (LASS m0 width a r R0 phiR B phiB l 2 norm)) /\
  (forall w d m12 m13 m23, (pair_of w <= 2)%nat -> (forall m0 g1 rg cyc, w <> FLATTE m0 g1 rg cyc true) -> d_1 d = d_2 d -> d_1 d = d_3 d ->
     R_wave (renamed d) (renamed_wave w) m23 m12 m13 = R_wave d w m12 m13 m23).
Proof.
  assert (FL : forall m0 g1 rg cyc, (cyc <= 2)%nat -> same_when_renamed (FLATTE m0 g1 rg cyc false)).
  { intros m0 g1 rg cyc P d m12 m13 m23. unfold amplitude, renamed_wave, flatte. now rewrite (proj1 (renamed_pair d cyc m12 m13 m23 P)). }
  assert (GA : forall m0 width cyc, (cyc <= 2)%nat -> same_when_renamed (Gauss m0 width cyc)).
  { intros m0 width cyc P d m12 m13 m23. unfold amplitude, renamed_wave, gauss. now rewrite (proj1 (renamed_pair d cyc m12 m13 m23 P)). }
  split; [exact renamed_rbw|]. split; [exact FL|]. split; [exact GA|]. split; [now intros d m12 m13 m23|]. split.
  - intros m0 width a r R0 phiR B phiB l norm d m12 m13 m23. unfold amplitude, renamed_wave. apply renamed_lass. now left.
  - intros w d m12 m13 m23 P NF E2 E3. destruct w; cbn [pair_of] in P.
    + now apply renamed_rbw.
    + unfold amplitude, renamed_wave. now rewrite renamed_gs.
    + unfold amplitude, renamed_wave. apply renamed_lass. now right.
    + destruct symm; [now elim (NF mean g1 rg2og1 cyc)|]. now apply FL.
    + now apply GA.
    + reflexivity.
    + unfold amplitude, renamed_wave, rho_omega. now rewrite renamed_rbw_term, renamed_gs by assumption.
Qed.
(** The hypotheses are met by different decays; the value is not zero. *)
Example C81_ex : exists z, value (renamed (decay_x 1 0)) (RBW 90 1 1 0 true false) 4900 6561 15521 z /\
  value (decay_x 1 0) (RBW 90 1 1 2 true false) 6561 15521 4900 z /\ d_1 (renamed (decay_x 1 0)) <> d_1 (decay_x 1 0).
Proof.
  destruct (C81_renamed_partial) as [H _]. specialize (H 90 1 1%nat 2%nat true false ltac:(lia) (decay_x 1 0) 6561 15521 4900).
  cbn [renamed_wave next] in H. unfold value. rewrite H. eexists. split; [reflexivity|]. split; [reflexivity|]. cbn. lra.
Qed.
(** The daughters of the other kinds of resonances are those of the pair (23), or those of another pair. *)
Definition decay_z : decay R := mkDecay 50 18 5 5 1 1.
Lemma momenta_z : breakup (sqrt 676) 5 5 12 /\ breakup (sqrt 676) 5 18 (21 / 4).
Proof.
  unfold breakup. rewrite (sqrt_of 676 26) by lra. rewrite (sqrt_of (12 ^ 2 + _) 13) by lra.
  rewrite (sqrt_of ((21 / 4) ^ 2 + 5 ^ 2) (29 / 4)) by lra. rewrite (sqrt_of ((21 / 4) ^ 2 + _) (75 / 4)) by lra. lra.
Qed.
Lemma gs_z : forall d cyc m12 m13 m23 x y, by_pair cyc m12 m13 m23 = 676 -> two_body_mom R_ops 676 (first_mass d cyc) (second_mass d cyc) = x -> x <> 0 ->
  d_fun R_ops LL 676 (d_2 d) (d_3 d) = y ->
  gs R_ops LL d 26 26 0 cyc true m12 m13 m23 = (0, (1 + y) / 676).
Proof.
  intros d cyc m12 m13 m23 x y Es Ex Nx Ey. unfold gs. rewrite Es. rops. replace (26 * 26) with 676 by lra.
  unfold factors. rewrite Ex. unfold dress, gs_core, c_scale. cbn [spin_factor]. rops. rewrite Ey, odd_power, (sqrt_of 676 26) by lra.
  replace (fs_fun R_ops LL 676 676 26 (d_2 d) (d_3 d)) with 0 by (unfold fs_fun; rops; ring).
  replace (x / x) with 1 by (field; lra). rewrite pow1, sqrt_1. cbn [fst snd]. f_equal; field.
Qed.
Lemma lass_z : forall d cyc m12 m13 m23 q, by_pair cyc m12 m13 m23 = 676 -> two_body_mom R_ops 676 (first_mass d cyc) (lass_second d cyc) = q ->
  lass R_ops LL d 26 1 1 0 0 0 1 0 0 cyc true m12 m13 m23 = Some (26 / (1 + q * q), 26 * q / (1 + q * q)).
Proof.
  intros d cyc m12 m13 m23 q Es Eq. unfold lass. rewrite Es. unfold lass_factors. rewrite Eq. unfold dress. cbn [spin_factor].
  set (prop := c_mul R_ops (c_scale R_ops (c_div R_ops _ _) _) _). destruct prop as [u v].
  unfold c_scale, c_add, c_mul, c_div, c_norm. rops. cbn [fst snd]. rops. replace (0 + 2 * 0) with 0 by ring.
  rewrite cos_0, sin_0, sqrt_1, (sqrt_of 676 26) by lra. assert (0 < 1 + q * q) by nra.
  generalize (1 / (1 * q)). intro ct. f_equal. f_equal; field; repeat split; nra.
Qed.
Theorem C81_refuted :
  (exists m0 width l cyc, (cyc <= 2)%nat /\ ~ same_when_renamed (GS m0 width l cyc true false)) /\
  (exists mo wo mr wr l cyc, (cyc <= 2)%nat /\ ~ same_when_renamed (RhoOmegaMix mo wo mr wr 0 0 0 l cyc true false)) /\
  (exists m0 width a r cyc, (cyc <= 2)%nat /\ ~ same_when_renamed (LASS m0 width a r 0 0 1 0 0 cyc true)).
Proof.
  destruct momenta_z as [A B].
  assert (QA := two_body_breakup 676 5 5 12 ltac:(lra) A). assert (QB := two_body_breakup 676 5 18 (21 / 4) ltac:(lra) B).
  pose proof pi_pos as PP. set (p := pi_ R_ops) in *.
  assert (DA : d_fun R_ops LL 676 5 5 = / p * (25 / 48 * ln 5 + 13 / 12 - 325 / 864)).
  { unfold d_fun, sq, cube. rops. fold p. rewrite QA, (sqrt_of 676 26) by lra. cbv zeta. replace ((26 + 2 * 12) / (5 + 5)) with 5 by lra. field. lra. }
  assert (DB : d_fun R_ops LL 676 5 18 = / p * (3 * (529 / 4) / (441 / 16) * ln (73 / 46) + 52 / 21 - 529 / 4 * 26 / (9261 / 64))).
  { unfold d_fun, sq, cube. rops. fold p. rewrite QB, (sqrt_of 676 26) by lra. cbv zeta. replace ((26 + 2 * (21 / 4)) / (5 + 18)) with (73 / 46) by lra. field. lra. }
  assert (LA : 0 < ln 5) by (rewrite <- ln_1; apply ln_increasing; lra).
  assert (LB : ln (73 / 46) <= 27 / 46).
  { pose proof (exp_ineq1_le (ln (73 / 46))) as X. rewrite exp_ln in X by lra. lra. }
  assert (N : d_fun R_ops LL 676 5 5 <> d_fun R_ops LL 676 5 18).
  { rewrite DA, DB. intro E. apply Rmult_eq_reg_l in E; [lra|]. apply Rinv_neq_0_compat. lra. }
  assert (GN : gs R_ops LL (renamed decay_z) 26 26 0 0 true 676 1099 1099 <> gs R_ops LL decay_z 26 26 0 2 true 1099 1099 676).
  { rewrite (gs_z (renamed decay_z) 0 676 1099 1099 12 (d_fun R_ops LL 676 5 18)); try reflexivity; [|exact QA|lra].
    rewrite (gs_z decay_z 2 1099 1099 676 12 (d_fun R_ops LL 676 5 5)); try reflexivity; [|exact QA|lra].
    intro E. apply (f_equal snd) in E. cbn [snd] in E. lra. }
  split; [|split].
  - exists 26, 26, 0%nat, 2%nat. split; [lia|]. intro S. specialize (S decay_z 1099 1099 676). unfold amplitude in S. cbn [renamed_wave next] in S.
    apply GN. apply (f_equal (fun o => match o with Some x => x | None => (0, 0) end)) in S. exact S.
  - exists 26, 26, 26, 26, 0%nat, 2%nat. split; [lia|]. intro S. specialize (S decay_z 1099 1099 676). unfold amplitude in S. cbn [renamed_wave next] in S.
    apply GN. unfold rho_omega in S. rewrite renamed_rbw_term with (cyc := 2%nat) in S by lia.
    apply (f_equal (fun o => match o with Some x => x | None => (0, 0) end)) in S. cbv beta iota in S.
    destruct (gs R_ops LL (renamed decay_z) _ _ _ _ _ _ _ _) as [x1 x2], (gs R_ops LL decay_z _ _ _ _ _ _ _ _) as [y1 y2].
    destruct (rbw_term R_ops LL decay_z _ _ _ _ _ _ _ _) as [z1 z2].
    unfold c_scale, c_add, c_mul, c_zero in S. revert S. rops. cbn [fst snd]. intro S. pose proof (f_equal fst S) as S1. pose proof (f_equal snd S) as S2.
    cbn [fst snd] in S1, S2. f_equal; lra.
  - exists 26, 1, 1, 0, 0%nat. split; [lia|]. intro S. specialize (S decay_z 676 1099 1099). unfold amplitude in S. cbn [renamed_wave next] in S.
    rewrite (lass_z (renamed decay_z) 1 1099 676 1099 12), (lass_z decay_z 0 676 1099 1099 (21 / 4)) in S; try reflexivity; try exact QA; [|rewrite two_body_swap; exact QB].
    apply (f_equal (fun o => match o with Some x => fst x | None => 0 end)) in S. cbv beta iota in S. cbn [fst] in S. lra.
Qed.

(** ** C82: identical daughters *)
(** Missing: odd spin (C82_spin1_refuted), and the resonances that do not look at the switch (C82_ignored_refuted). *)
Theorem C82_exchange_partial :
  (forall m0 width l norm, l = 0%nat \/ l = 2%nat -> exchange_23 (RBW m0 width l 0 norm true)) /\
  (forall m0 g1 rg cyc, exchange_23 (FLATTE m0 g1 rg cyc true)).
Proof.
  split.
  - intros m0 width l norm Pl d m12 m13 m23 E. unfold amplitude, rbw. cbn [Nat.add Nat.modulo]. change (Nat.modulo 1 3) with 1%nat.
    assert (S : forall x y, rbw_term R_ops LL d m0 width l 1 norm x y m23 = rbw_term R_ops LL d m0 width l 0 norm y x m23).
    { intros x y. rewrite exchange_term by assumption. destruct Pl as [-> | ->]; unfold scaled; now rewrite Cmult_1_l. }
    rewrite !S. f_equal. unfold c_add, c_zero. rops. cbn [fst snd]. f_equal; ring.
  - intros m0 g1 rg cyc d m12 m13 m23 E. unfold amplitude, flatte. f_equal. unfold c_add, c_zero. rops. cbn [fst snd]. f_equal; ring.
Qed.
(** A resonance of spin 1 gets the wrong sign. *)
Theorem C82_spin1 : forall d m0 width norm m12 m13 m23 z, d_2 d = d_3 d ->
  value d (RBW m0 width 1 0 norm true) m12 m13 m23 z -> value d (RBW m0 width 1 0 norm true) m13 m12 m23 (- z)%C.
Proof.
  intros d m0 width norm m12 m13 m23 z E V. unfold value, amplitude, rbw in *. change (Nat.modulo (0 + 1) 3) with 1%nat in *.
  apply (f_equal (fun o => match o with Some x => x | None => z end)) in V. cbv beta iota in V. rewrite <- V.
  assert (S : forall x y, rbw_term R_ops LL d m0 width 1 1 norm x y m23 = scaled (- (1)) (rbw_term R_ops LL d m0 width 1 0 norm y x m23)).
  { intros x y. now rewrite exchange_term. }
  rewrite !S. f_equal. destruct (rbw_term R_ops LL d m0 width 1 0 norm m12 m13 m23) as [a1 a2], (rbw_term R_ops LL d m0 width 1 0 norm m13 m12 m23) as [b1 b2].
  unfold scaled, c_add, c_zero, Copp, Cmult, RtoC. rops. cbn [fst snd]. f_equal; ring.
Qed.
Definition decay_3 : decay R := mkDecay 105 21 21 21 0 0.
Lemma spin1_3 : forall m12 m13 m23, spin_factor R_ops 1 decay_3 m12 m13 m23 0 = m13 - m23 /\ spin_factor R_ops 1 decay_3 m12 m13 m23 1 = m23 - m12.
Proof. intros. unfold spin_factor. cbn [by_pair decay_3 d_1 d_2 d_3 d_mother Nat.eqb]. rops. split; ring. Qed.
Lemma radius_0 : forall cyc m s, exists q q0, factors R_ops LL decay_3 1 cyc true m s = (q, q0, 1, 1).
Proof.
  intros cyc m s. unfold factors. do 2 eexists. unfold damping_norm. cbn [Nat.eqb decay_3 d_radius d_mother_radius]. rops. f_equal; [f_equal|]; field; lra.
Qed.
Theorem C82_spin1_refuted : exists m0 width, ~ exchange_23 (RBW m0 width 1 0 true true).
Proof.
  exists 90, 1. intro X. specialize (X decay_3 4900 2548 4900 eq_refl).
  assert (V : exists z, value decay_3 (RBW 90 1 1 0 true true) 4900 2548 4900 z /\ z <> 0%C).
  { unfold value, amplitude, rbw. change (Nat.modulo (0 + 1) 3) with 1%nat. eexists. split; [reflexivity|].
    unfold rbw_term. destruct (radius_0 0 (sq R_ops 90) (by_pair 0 4900 2548 4900)) as (q & q0 & ->).
    destruct (radius_0 1 (sq R_ops 90) (by_pair 1 4900 2548 4900)) as (k & k0 & ->).
    rewrite !dress_scaled. destruct (spin1_3 4900 2548 4900) as [-> ->]. unfold sq. rops. cbn [by_pair].
    set (B := 90 * 90 * 1 * _ * 1 / _). set (B' := 90 * 90 * 1 * _ * 1 / _). intro Z. apply (f_equal fst) in Z. revert Z.
    unfold scaled, c_add, c_zero, Cmult, RtoC. rops. cbn [fst snd]. rewrite sqrt_1. intro Z.
    assert (P : 0 < (90 * 90 - 4900) * (90 * 90 - 4900) + B * B) by nra.
    apply (Rmult_eq_compat_r ((90 * 90 - 4900) * (90 * 90 - 4900) + B * B)) in Z. revert Z.
    set (N := (90 * 90 - 4900) * (90 * 90 - 4900) + B * B) in *. rewrite (Rmult_0_l N). generalize (1 / ((90 * 90 - 2548) * (90 * 90 - 2548) + B' * B')). intro t.
    match goal with |- ?x = 0 -> _ => replace x with ((2548 - 4900) * (90 * 90 - 4900)) by (field; lra) end. lra. }
  destruct V as (z & V & N). pose proof (C82_spin1 _ _ _ _ _ _ _ _ (eq_refl : d_2 decay_3 = d_3 decay_3) V) as V'.
  unfold value in V, V'. rewrite V, V' in X. apply N.
  apply (f_equal (fun o => match o with Some x => x | None => z end)) in X. cbv beta iota in X. destruct z as [z1 z2].
  pose proof (f_equal fst X) as X1. pose proof (f_equal snd X) as X2. unfold Copp in X1, X2. cbn [fst snd] in X1, X2. unfold RtoC. f_equal; lra.
Qed.
(** GS and RhoOmegaMix are made with the switch and do not look at it. *)
Theorem C82_ignored_refuted : (exists m0 width, ~ exchange_23 (GS m0 width 1 0 true true)) /\
  (exists mo wo mr wr, ~ exchange_23 (RhoOmegaMix mo wo mr wr 0 0 0 1 0 true true)).
Proof.
  assert (Z : gs R_ops LL decay_3 70 1 1 0 true 2548 4900 4900 = (0, 0)).
  { unfold gs. destruct (radius_0 0 (LeafGen.o_mul R_ops 70 70) (by_pair 0 2548 4900 4900)) as (q & q0 & ->). rewrite dress_scaled.
    rewrite (proj1 (spin1_3 2548 4900 4900)). destruct (gs_core R_ops LL decay_3 _ _ _ _ _ _ _) as [u v].
    unfold scaled, Cmult, RtoC. cbn [fst snd]. f_equal; ring. }
  assert (N : snd (gs R_ops LL decay_3 70 1 1 0 true 4900 2548 4900) <> 0).
  { pose proof (factors_value decay_3 1 0 70 4900 28 28 ltac:(lia) ltac:(lia) ltac:(lra) ltac:(lra)) as FR.
    destruct momenta_x as (A & _ & A' & _). specialize (FR (conj A A')). rewrite !Rmult_0_r in FR. rewrite !barrier_same in FR by (cbn; lra).
    unfold gs. rops. cbn [by_pair]. rewrite FR, dress_scaled. rewrite (proj1 (spin1_3 4900 2548 4900)).
    unfold scaled, gs_core. cbv zeta. rops. rewrite odd_power. replace (28 / 28) with 1 by field. rewrite pow1, (sqrt_of (70 * 70) 70), sqrt_1 by lra.
    cbn [decay_3 d_2 d_3]. set (E := 70 * 70 - 4900 + fs_fun R_ops LL 4900 (70 * 70) 1 21 21). pose proof d_fun_x as DP.
    set (dd := d_fun R_ops LL (70 * 70) 21 21) in *. unfold Cmult, RtoC. cbn [fst snd]. intro P.
    assert (NN : 0 < E * E + 70 * 1 * 1 * 1 * (70 * 1 * 1 * 1)) by nra. set (N := E * E + 70 * 1 * 1 * 1 * (70 * 1 * 1 * 1)) in *.
    apply (Rmult_eq_compat_r N) in P. revert P. rewrite (Rmult_0_l N).
    match goal with |- ?x = 0 -> _ => replace x with ((2548 - 4900) * (70 + dd)) by (field; lra) end. lra. }
  split.
  - exists 70, 1. intro X. specialize (X decay_3 2548 4900 4900 eq_refl). unfold amplitude in X. rewrite Z in X.
    apply N. apply (f_equal (fun o => match o with Some x => snd x | None => 0 end)) in X. cbv beta iota in X. symmetry. exact X.
  - exists 70, 1, 70, 1. intro X. specialize (X decay_3 2548 4900 4900 eq_refl). unfold amplitude, rho_omega in X. rewrite Z in X.
    apply N. apply (f_equal (fun o => match o with Some x => snd x | None => 0 end)) in X. cbv beta iota in X. revert X.
    destruct (gs R_ops LL decay_3 70 1 1 0 true 4900 2548 4900) as [u v].
    destruct (rbw_term R_ops LL decay_3 70 1 1 0 true 4900 2548 4900) as [a1 a2], (rbw_term R_ops LL decay_3 70 1 1 0 true 2548 4900 4900) as [b1 b2].
    unfold c_scale, c_add, c_mul, c_zero. rops. cbn [fst snd]. intro X. lra.
Qed.
(** The hypotheses are met. *)
Example C82_ex : exists z, value decay_3 (RBW 90 1 2 0 true true) 4900 2548 4900 z /\ value decay_3 (RBW 90 1 2 0 true true) 2548 4900 4900 z.
Proof.
  unfold value. rewrite (proj1 C82_exchange_partial 90 1 2%nat true (or_intror eq_refl) decay_3 4900 2548 4900 eq_refl).
  eexists. split; reflexivity.
Qed.

(** ** C83: Gounaris-Sakurai *)
(** The formula for a pair of daughters of equal masses; [pi] is the number of the code.  Missing: pairs other than the
    daughters 2 and 3 if the three masses differ (C81_refuted); the factor m0 / sqrt(s) of the width (C83_width_refuted). *)
Lemma pi_value : pi_ R_ops = 3537118876014453 * / 2 ^ 50.
Proof. reflexivity. Qed.
Theorem C83_value_partial : forall d m0 width l cyc norm a c m12 m13 m23 q q0 mu,
  let s := pair_mass cyc m12 m13 m23 in
  (l <= 2)%nat -> (cyc <= 2)%nat -> l = 0%nat \/ norm = true /\ d_mother_radius d = 0 ->
  0 < s -> 0 < m0 -> 0 < mu -> 0 < q -> 0 < q0 -> seen d cyc a c m12 m13 m23 ->
  (let '(mA, mB, _) := pair_daughters d cyc in mA = mu /\ mB = mu) -> d_2 d = mu -> d_3 d = mu ->
  breakup (sqrt s) mu mu q -> breakup m0 mu mu q0 ->
  let f2 := barrier l ((q * d_radius d) ^ 2) ((q0 * d_radius d) ^ 2) in
  value d (GS m0 width l cyc norm false) m12 m13 m23
    (RtoC (angular l a c) * (RtoC (sqrt f2) *
       gs_formula (3537118876014453 * / 2 ^ 50) mu m0 width s (m0 * (width * (q / q0) ^ (2 * l + 1) * f2))))%C.
Proof.
  intros d m0 width l cyc norm a c m12 m13 m23 q q0 mu s Pl Pc N Ps P0 Pm Pq Pq0 S M E2 E3 B B0 f2. unfold value, amplitude. f_equal.
  rewrite (gs_norm d m0 width l cyc norm m12 m13 m23 a c q q0 mu) by (try assumption; destruct N as [N|[N _]]; auto).
  fold s. fold f2. rewrite <- pi_value. unfold scaled. rewrite RtoC_mult. f_equal.
  match goal with |- context [barrier l ?x ?y] => assert (BM : sqrt (barrier l x y) = 1) end.
  { destruct N as [-> |[_ R0]]; [apply sqrt_1|]. rewrite R0, !Rmult_0_r, barrier_same by lra. apply sqrt_1. }
  rewrite BM, Cmult_1_r. replace (m0 * (width * (q / q0) ^ (2 * l + 1) * f2)) with (m0 * width * (q / q0) ^ (2 * l + 1) * f2) by ring. reflexivity.
Qed.
(** The phase passes 90 degrees at the nominal mass, and there with the nominal width. *)
Theorem C83_phase_partial : forall m0 width l mu r, (l <= 2)%nat -> 0 < mu -> 2 * mu < m0 ->
  exists E w : R -> R,
    (forall d cyc a c m12 m13 m23 z,
      let s := pair_mass cyc m12 m13 m23 in
      (cyc <= 2)%nat -> d_radius d = r -> 4 * mu ^ 2 < s -> seen d cyc a c m12 m13 m23 ->
      (let '(mA, mB, _) := pair_daughters d cyc in mA = mu /\ mB = mu) -> d_2 d = mu -> d_3 d = mu ->
      value d (GS m0 width l cyc true false) m12 m13 m23 z -> Im z * E s = Re z * w s) /\
    E (m0 ^ 2) = 0 /\ is_derive E (m0 ^ 2) (- (1)) /\ w (m0 ^ 2) = m0 * width.
Proof.
  intros m0 width l mu r Pl Pm P0. set (q0 := sqrt (m0 ^ 2 / 4 - mu ^ 2)).
  assert (T0 : 4 * mu ^ 2 < m0 ^ 2) by nra. assert (Q0 : 0 < q0) by (apply sqrt_lt_R0; lra).
  exists (fun s => m0 ^ 2 - s + gs_f (pi_ R_ops) mu m0 width s),
    (fun s => m0 * width * (sqrt (s / 4 - mu ^ 2) / q0) ^ (2 * l + 1) * barrier l ((sqrt (s / 4 - mu ^ 2) * r) ^ 2) ((q0 * r) ^ 2)).
  assert (BK : forall s, 4 * mu ^ 2 < s -> breakup (sqrt s) mu mu (sqrt (s / 4 - mu ^ 2))).
  { intros s Ps. unfold breakup. split; [apply sqrt_pos|]. rewrite (sqrt_pow2' (s / 4 - mu ^ 2)) by lra.
    replace (s / 4 - mu ^ 2 + mu ^ 2) with (s / (2 * 2)) by field. rewrite sqrt_div by nra. rewrite (sqrt_of (2 * 2) 2) by lra. field. }
  split.
  - intros d cyc a c m12 m13 m23 z s Pc Er Ps S M E2 E3 V. unfold value, amplitude in V.
    assert (Q : 0 < sqrt (s / 4 - mu ^ 2)) by (apply sqrt_lt_R0; lra).
    assert (B0 : breakup m0 mu mu q0) by (pose proof (BK (m0 ^ 2) T0) as X; rewrite (sqrt_of (m0 ^ 2) m0) in X by nra; exact X).
    rewrite (gs_norm d m0 width l cyc true m12 m13 m23 a c (sqrt (s / 4 - mu ^ 2)) q0 mu Pl Pc ltac:(fold s; nra) ltac:(nra) Pm Q Q0 S (or_intror eq_refl) M E2 E3 (BK s Ps) B0) in V.
    fold s in V. rewrite Er in V. apply (f_equal (fun o => match o with Some y => y | None => z end)) in V. cbv beta iota in V. subst z.
    unfold gs_formula. set (E := m0 ^ 2 - s + _). set (w := m0 * width * _ * _). unfold scaled.
    unfold Cdiv, Cinv, Cmult, RtoC, Re, Im. cbn [fst snd]. unfold Rdiv. ring.
  - destruct (gs_peak (pi_ R_ops) mu m0 width pi_pos Pm T0) as [G1 G2]. split; [exact G1|]. split; [exact G2|].
    fold q0. replace (q0 / q0) with 1 by (field; lra). rewrite pow1, barrier_same by apply sq_nonneg. ring.
Qed.
Example C83_ex : exists z w, value (decay_x 1 0) (GS 90 1 1 2 true false) 6561 15521 4900 z /\ z =
  (RtoC (-8960) * (RtoC (sqrt ((1 + 1584) / (1 + 28 ^ 2))) * gs_formula (3537118876014453 * / 2 ^ 50) 21 90 1 4900 w))%C /\ 0 < w.
Proof.
  destruct momenta_x as (A & B & _). assert (Q0 : 0 < sqrt 1584) by (apply sqrt_lt_R0; lra). do 2 eexists. split; [|split].
  - apply (C83_value_partial (decay_x 1 0) 90 1 1 2 true (0, 0, 28) (0, 0, 80) 6561 15521 4900 28 (sqrt 1584) 21); try lia; cbn [pair_mass decay_x d_mother_radius d_2 d_3 pair_daughters]; try lra; auto.
    apply event_x.
  - unfold angular, dot. cbn [decay_x d_radius pair_mass]. rewrite !Rmult_1_r, (sqrt_pow2' 1584) by lra. unfold barrier at 1.
    replace (-4 * (0 * 0 + 0 * 0 + 28 * 80)) with (-8960) by lra. reflexivity.
  - unfold barrier.
    apply Rmult_lt_0_compat; [lra|]. apply Rmult_lt_0_compat; [|lra]. apply Rmult_lt_0_compat; [lra|]. apply pow_lt. apply Rdiv_lt_0_compat; lra.
Qed.
(** The mass-dependent width lacks the factor m0 / sqrt(s). *)
Theorem C83_width_refuted : exists d m0 width l cyc a c m12 m13 m23 q q0 mu,
  let s := pair_mass cyc m12 m13 m23 in
  (l <= 2)%nat /\ (cyc <= 2)%nat /\ 0 < s /\ 0 < m0 /\ 0 < mu /\ 0 < q /\ 0 < q0 /\ seen d cyc a c m12 m13 m23 /\
  (let '(mA, mB, _) := pair_daughters d cyc in mA = mu /\ mB = mu) /\ d_2 d = mu /\ d_3 d = mu /\
  breakup (sqrt s) mu mu q /\ breakup m0 mu mu q0 /\
  ~ value d (GS m0 width l cyc true false) m12 m13 m23
      (RtoC (angular l a c) * gs_formula (3537118876014453 * / 2 ^ 50) mu m0 width s (running m0 width l (d_radius d) s q q0))%C.
Proof.
  destruct momenta_x as (_ & B & A' & _). assert (Q0 : 0 < sqrt 1584) by (apply sqrt_lt_R0; lra).
  assert (B' : breakup (sqrt 8100) 21 21 (sqrt 1584)) by (rewrite (sqrt_of 8100 90) by lra; exact B).
  assert (S : seen (decay_x 0 0) 2 (0, 0, sqrt 1584) (0, 0, 0) 9441 9441 8100).
  { cbn [seen decay_x d_mother d_1 d_2 d_3]. assert (K : sqrt 1584 * sqrt 1584 = 1584) by (apply sqrt_sqrt; lra). set (k := sqrt 1584) in *. clearbody k.
    unfold at_rest, mass2, energy, dot, plus, neg.
    rewrite (sqrt_of (21 ^ 2 + (0 * 0 + 0 * 0 + k * k)) 45) by lra. rewrite (sqrt_of (60 ^ 2 + _) 60) by lra.
    rewrite (sqrt_of (21 ^ 2 + _) 45) by lra. repeat split; lra. }
  exists (decay_x 0 0), 70, 1, 0%nat, 2%nat, (0, 0, sqrt 1584), (0, 0, 0), 9441, 9441, 8100, (sqrt 1584), 28, 21.
  cbn [pair_mass]. do 7 (split; [first [lia|lra|assumption]|]). split; [exact S|]. split; [split; reflexivity|]. do 2 (split; [reflexivity|]). split; [assumption|].
  split; [assumption|]. intro V.
  pose proof (C83_value_partial (decay_x 0 0) 70 1 0 2 true (0, 0, sqrt 1584) (0, 0, 0) 9441 9441 8100 (sqrt 1584) 28 21) as G.
  cbv zeta in G. cbn [pair_mass] in G. specialize (G ltac:(lia) ltac:(lia) (or_introl eq_refl) ltac:(lra) ltac:(lra) ltac:(lra) Q0 ltac:(lra) S (conj eq_refl eq_refl) eq_refl eq_refl B' A').
  unfold value in V, G. rewrite V in G. apply (f_equal (fun o => match o with Some y => y | None => RtoC 0 end)) in G. cbv beta iota in G.
  unfold angular, barrier in G. rewrite sqrt_1, !Cmult_1_l in G. unfold running, barrier in G. rewrite (sqrt_of 8100 90) in G by lra.
  unfold gs_formula in G. set (E := 70 ^ 2 - 8100 + _) in G.
  pose proof d_fun_x as DP. rewrite d_equal, pi_value in DP by lra. set (D := 1 + gs_d _ 21 70 * 1 / 70) in G. assert (D1 : 0 < D) by (unfold D; lra). clearbody D E.
  replace (2 * 0 + 1)%nat with 1%nat in G by reflexivity. rewrite pow_1 in G. set (k := sqrt 1584) in *. clearbody k. apply (f_equal (fun z => RtoC D / z)%C) in G.
  assert (N : forall w, w <> 0 -> (RtoC D / (RtoC D / (E, - w)%R))%C = (E, - w)).
  { intros w Nw. change (@eq (R * R)) with (@eq C). field. split; intro Q; injection Q; lra. }
  rewrite !N in G by lra.
  apply (f_equal snd) in G. cbn [snd] in G. lra.
Qed.

(** ** C84: elastic scattering in LASS *)
(** Missing: the resonance (C84_resonance_refuted); the pair (13), whose momentum is that of other daughters (C81_refuted). *)
Theorem C84_background_partial : forall d m0 width a r phiR phiB cyc norm m12 m13 m23 q z,
  let s := pair_mass cyc m12 m13 m23 in
  cyc = 0%nat \/ cyc = 2%nat -> 0 < s -> a <> 0 -> 0 < q ->
  (let '(mA, mB, _) := pair_daughters d cyc in breakup (sqrt s) mA mB q) ->
  value d (LASS m0 width a r 0 phiR 1 phiB 0 cyc norm) m12 m13 m23 z -> unitary (RtoC (q / sqrt s) * z)%C.
Proof.
  intros d m0 width a r phiR phiB cyc norm m12 m13 m23 q z s Pc Ps Na Pq B V. unfold value, amplitude in V.
  rewrite (lass_spin0 d m0 width a r 0 phiR 1 phiB cyc norm m12 m13 m23 q Pc Ps B) in V.
  apply (f_equal (fun o => match o with Some y => y | None => z end)) in V. cbv beta iota in V. subst z. fold s. now apply lass_background.
Qed.
Example C84_ex : exists z, value (decay_x 1 0) (LASS 90 1 2 3 0 0 1 1 0 2 true) 6561 15521 4900 z /\ unitary (RtoC (28 / sqrt 4900) * z)%C.
Proof.
  destruct momenta_x as (A & _). unfold value, amplitude.
  rewrite (lass_spin0 (decay_x 1 0) 90 1 2 3 0 0 1 1 2 true 6561 15521 4900 28 (or_intror eq_refl) ltac:(cbn; lra) A). eexists. split; [reflexivity|].
  apply (C84_background_partial (decay_x 1 0) 90 1 2 3 0 1 2 true 6561 15521 4900 28 _ (or_intror eq_refl)); cbn [pair_mass]; try lra; [exact A|].
  unfold value, amplitude. now rewrite (lass_spin0 (decay_x 1 0) 90 1 2 3 0 0 1 1 2 true 6561 15521 4900 28 (or_intror eq_refl) ltac:(cbn; lra) A).
Qed.
(** The background and the resonance together, no phases, at the nominal mass: modulus 1 + 2 m0 for every choice of the parameters. *)
Theorem C84_resonance_refuted : forall d m0 width a r cyc norm m12 m13 m23 q z,
  cyc = 0%nat \/ cyc = 2%nat -> 0 < m0 -> pair_mass cyc m12 m13 m23 = m0 ^ 2 -> 0 < width -> a <> 0 -> 0 < q ->
  (let '(mA, mB, _) := pair_daughters d cyc in breakup m0 mA mB q) ->
  value d (LASS m0 width a r 1 0 1 0 0 cyc norm) m12 m13 m23 z -> Cmod (1 + 2 * Ci * (RtoC (q / m0) * z))%C = 1 + 2 * m0.
Proof.
  intros d m0 width a r cyc norm m12 m13 m23 q z Pc Pm Es Pw Na Pq B V. unfold value, amplitude in V.
  assert (SM : sqrt (m0 ^ 2) = m0) by (apply sqrt_of; nra).
  assert (B' : let '(mA, mB, _) := pair_daughters d cyc in breakup (sqrt (pair_mass cyc m12 m13 m23)) mA mB q) by (rewrite Es, SM; exact B).
  rewrite (lass_spin0 d m0 width a r 1 0 1 0 cyc norm m12 m13 m23 q Pc ltac:(rewrite Es; nra) B') in V.
  apply (f_equal (fun o => match o with Some y => y | None => z end)) in V. cbv beta iota in V. subst z. rewrite Es. replace (m0 ^ 2) with (m0 * m0) in * by ring.
  replace (let '(mA, mB, _) := pair_daughters d cyc in two_body_mom R_ops (m0 * m0) mA mB) with q.
  - now apply lass_peak.
  - destruct (pair_daughters d cyc) as [[mA mB] mC]. symmetry. apply two_body_breakup; [nra|]. now rewrite SM.
Qed.
Example C84_peak_ex : exists z, value (decay_x 1 0) (LASS 70 1 2 3 1 0 1 0 0 2 true) 6561 15521 4900 z /\ ~ unitary (RtoC (28 / 70) * z)%C.
Proof.
  destruct momenta_x as (A & _ & A' & _). assert (X : exists z, value (decay_x 1 0) (LASS 70 1 2 3 1 0 1 0 0 2 true) 6561 15521 4900 z).
  { unfold value, amplitude. rewrite (lass_spin0 (decay_x 1 0) 70 1 2 3 1 0 1 0 2 true 6561 15521 4900 28 (or_intror eq_refl) ltac:(cbn; lra) A). eexists. reflexivity. }
  destruct X as [z V]. exists z. split; [exact V|]. intro U. unfold unitary in U.
  rewrite (C84_resonance_refuted (decay_x 1 0) 70 1 2 3 2 true 6561 15521 4900 28 z (or_intror eq_refl)) in U; cbn [pair_mass]; try lra; [exact A'|exact V].
Qed.

(** ** C85: Flatté *)
(** The masses of the code: 0.13957018, 0.1349766, 0.493677, 0.497614 GeV. *)
Theorem C85_value : forall d m0 g1 rg cyc m12 m13 m23,
  let s := pair_mass cyc m12 m13 m23 in
  0 < s -> value d (FLATTE m0 g1 rg cyc false) m12 m13 m23
    (flatte_formula m0 g1 (rg * g1) (628568210640033 * / 2 ^ 52) (1215761130927473 * / 2 ^ 53) (8893294212965537 * / 2 ^ 54) (1120527112487171 * / 2 ^ 51) s).
Proof.
  intros d m0 g1 rg cyc m12 m13 m23 s Ps. unfold value, amplitude, flatte. rops. change (by_pair cyc m12 m13 m23) with s. rewrite flatte_term_parts by exact Ps.
  f_equal. destruct (flatte_formula m0 g1 (rg * g1) (pip_mass R_ops) (pi0_mass R_ops) (kp_mass R_ops) (k0_mass R_ops) s) as [x y] eqn:E.
  unfold c_add, c_zero. rops. cbn [fst snd]. rewrite !Rplus_0_l, <- E. reflexivity.
Qed.
(** It is finite and continuous for every s, also at the thresholds. *)
Theorem C85_continuous : forall m0 g1 rg, 0 < m0 -> 0 < g1 -> 0 <= rg -> 4 * (1215761130927473 * / 2 ^ 53) ^ 2 <= m0 ^ 2 ->
  exists F : R -> C, (forall d cyc m12 m13 m23, 0 < pair_mass cyc m12 m13 m23 ->
      value d (FLATTE m0 g1 rg cyc false) m12 m13 m23 (F (pair_mass cyc m12 m13 m23))) /\
    (forall s, 0 < s -> F s <> 0%C /\ continuous (fun x => Re (F x)) s /\ continuous (fun x => Im (F x)) s).
Proof.
  intros m0 g1 rg Pm P1 Pr Q. eexists. split.
  - intros d cyc m12 m13 m23 Ps. apply C85_value. exact Ps.
  - intros s Ps. cbv beta.
    set (a := 628568210640033 * / 2 ^ 52). set (b := 1215761130927473 * / 2 ^ 53) in *. set (c := 8893294212965537 * / 2 ^ 54). set (e := 1120527112487171 * / 2 ^ 51).
    assert (T : 0 < 4 * b ^ 2 < 4 * a ^ 2).
    { assert (0 < b < a) by (unfold a, b; lra). nra. }
    assert (N := flatte_denominator m0 g1 (rg * g1) (4 * a ^ 2) (4 * b ^ 2) (4 * c ^ 2) (4 * e ^ 2) s Pm P1 ltac:(nra) Ps T Q).
    split.
    + rewrite flatte_formula_parts. intro Z. set (A := flatte_A _ _ _ _ _ _ _ _) in *. set (B := flatte_B _ _ _ _ _ _ _ _) in *. clearbody A B.
      assert (NZ : ((A, - B)%R : C) <> RtoC 0) by (intro Y; injection Y; intros; nra).
      pose proof (Cinv_r _ NZ) as X. rewrite Z, Cmult_0_r in X. injection X. lra.
    + pose proof (flatte_continuous m0 g1 (rg * g1) (4 * a ^ 2) (4 * b ^ 2) (4 * c ^ 2) (4 * e ^ 2) s Ps N) as [C1 C2]. split.
      * eapply continuous_ext; [|exact C1]. intro x. cbv beta. now rewrite flatte_formula_parts.
      * eapply continuous_ext; [|exact C2]. intro x. cbv beta. now rewrite flatte_formula_parts.
Qed.
Example C85_ex : exists z, value decay_3 (FLATTE 1 (1 / 10) 4 2 false) 3 4 1 z /\ z <> 0%C.
Proof.
  destruct (C85_continuous 1 (1 / 10) 4 ltac:(lra) ltac:(lra) ltac:(lra) ltac:(lra)) as (F & V & N). exists (F 1). split; [apply (V decay_3 2%nat 3 4 1); cbn; lra|]. apply N. lra.
Qed.

(** ** C99: the other kinds *)
(** Gauss: a normal distribution in the mass of the pair (the factor 1/sqrt(2 pi) left out), real. *)
Theorem C99_gauss : forall d m0 width cyc m12 m13 m23, width <> 0 ->
  value d (Gauss m0 width cyc) m12 m13 m23 (RtoC (gaussian (sqrt (pair_mass cyc m12 m13 m23)) m0 width / width)).
Proof.
  intros d m0 width cyc m12 m13 m23 W. unfold value, amplitude, gauss, gaussian. change (by_pair cyc m12 m13 m23) with (pair_mass cyc m12 m13 m23).
  unfold RtoC. do 2 f_equal. cbn. f_equal. f_equal. field. exact W.
Qed.
Theorem C99_nonres : forall d m12 m13 m23, value d NonRes m12 m13 m23 1%C.
Proof. reflexivity. Qed.
(** RhoOmegaMix: the rho of GS, times 1 + B delta (m_rho + m_omega) times the omega of RBW, in the same pair. *)
Theorem C99_mixing : forall d mo wo mr wr re im delta spin cyc norm sym m12 m13 m23 rho omega,
  value d (GS mr wr spin cyc norm false) m12 m13 m23 rho -> value d (RBW mo wo spin cyc norm false) m12 m13 m23 omega ->
  value d (RhoOmegaMix mo wo mr wr re im delta spin cyc norm sym) m12 m13 m23
    (rho * (1 + (re, im) * delta * (mr + mo)%R * omega))%C.
Proof.
  intros d mo wo mr wr re im delta spin cyc norm sym m12 m13 m23 rho omega G B. unfold value, amplitude in *. injection G as G. injection B as B.
  subst rho omega. unfold rho_omega, rbw. destruct (gs R_ops LL d mr wr spin cyc norm m12 m13 m23) as [g1 g2].
  destruct (rbw_term R_ops LL d mo wo spin cyc norm m12 m13 m23) as [b1 b2]. f_equal.
  unfold c_add, c_mul, c_scale, c_zero, Cplus, Cmult, RtoC. rops. cbn [fst snd]. f_equal; ring.
Qed.
Example C99_ex : value decay_3 (Gauss 1 2 0) 9 1 1 (RtoC (exp (- (1 / 2)) / 2)).
Proof.
  pose proof (C99_gauss decay_3 1 2 0 9 1 1 ltac:(lra)) as X. cbn [pair_mass] in X. replace 9 with (3 * 3) in X at 2 by ring.
  rewrite sqrt_square in X by lra. unfold gaussian in X. replace ((3 - 1) ^ 2 / (2 * 2 ^ 2)) with (1 / 2) in X by field. exact X.
Qed.

Print Assumptions C79_value_partial. Print Assumptions C79_phase_partial. Print Assumptions C79_mother_refuted. Print Assumptions C79_width_refuted.
Print Assumptions C80_angle_partial. Print Assumptions C80_mixing_refuted. Print Assumptions C81_renamed_partial. Print Assumptions C81_refuted.
Print Assumptions C82_exchange_partial. Print Assumptions C82_spin1. Print Assumptions C82_spin1_refuted. Print Assumptions C82_ignored_refuted.
Print Assumptions C83_value_partial. Print Assumptions C83_phase_partial. Print Assumptions C83_width_refuted.
Print Assumptions C84_background_partial. Print Assumptions C84_resonance_refuted. Print Assumptions C85_value. Print Assumptions C85_continuous.
Print Assumptions C99_gauss. Print Assumptions C99_nonres. Print Assumptions C99_mixing.
