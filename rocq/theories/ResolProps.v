(** C53, C66-C71: the decay-time resolutions, in exact real arithmetic.

    A resolution receives c1 = |A|^2 + |B|^2, c2 = |A|^2 - |B|^2, c3 = Re(A B* ), c4 = Im(A B* ), where A and B are the amplitudes
    of the decay of the meson and of its antiparticle; its normalisation receives the integrals of |A|^2, |B|^2, Re(A B* ),
    Im(A B* ). [W] is the library's Faddeeva function, which no resolution uses. *)
From Coq Require Import List ZArith Reals Lra Lia.
From Coquelicot Require Import Coquelicot.
From Verif Require Import FormulaSpec ResolModel ResolSpec ResolMoment ResolProofs ResolProofs2 ResolProofs3 ResolProofs4.
From Verif Require LeafGen.
Import ListNotations.
Open Scope R_scope.

(** ** C53: the normalisation of TruthResolution is the integral of its rate *)
Theorem C53_integral : forall W A2 B2 ABr ABi tau x y, 0 < tau -> -1 < y < 1 ->
  over_decay_time (fun t => truth_rate R_ops (R_lib W) R_extra (A2 + B2) (A2 - B2) ABr ABi tau t x y)
    (truth_normalization R_ops A2 B2 ABr ABi tau x y).
Proof.
  intros W A2 B2 ABr ABi tau x y Ht Hy. refine (gen_ext _ _ _ _ _ _ _ _ (rate_integral (A2 + B2) (A2 - B2) ABr ABi tau x y Ht Hy)).
  - intros t. symmetry. apply truth_is_rate.
  - rewrite truth_norm_value. pose proof (pow2_ge_0 x). field. split; nra.
Qed.
Example C53_ex : over_decay_time (fun t => truth_rate R_ops (R_lib (fun _ _ => 0)) R_extra (1 + 3) (1 - 3) (1 / 2) (1 / 4) (2 / 5) t 1 (1 / 2))
    (truth_normalization R_ops 1 3 (1 / 2) (1 / 4) (2 / 5) 1 (1 / 2)).
Proof. apply C53_integral; lra. Qed.

(** ** C66: the average decay time *)
Theorem C66_average : forall W A2 B2 ABr ABi tau x y N, 0 < tau -> -1 < y < 1 ->
  let f t := truth_rate R_ops (R_lib W) R_extra (A2 + B2) (A2 - B2) ABr ABi tau t x y in
  over_decay_time f N -> N <> 0 ->
  over_decay_time (fun t => t * (f t / N)) (truth_average_tau R_ops A2 B2 ABr ABi x y tau).
Proof.
  intros W A2 B2 ABr ABi tau x y N Ht Hy f I0 HN. unfold f in *.
  pose proof (unique_decay _ _ _ I0 (C53_integral W A2 B2 ABr ABi tau x y Ht Hy)) as E. rewrite truth_norm_value in E.
  pose proof (pow2_ge_0 x) as Px. assert (Py : 0 < 1 - y * y) by nra. assert (Pz : 0 < 1 + x * x) by nra.
  refine (gen_ext _ _ _ _ _ _ _ _ (gen_scal _ _ _ (/ N) _ (rate_first_moment (A2 + B2) (A2 - B2) ABr ABi tau x y Ht Hy))).
  - intros t. rewrite truth_is_rate. unfold Rdiv. ring.
  - rewrite average_tau_value.
    set (D := (y * y - 1) * (2 * ABi * x - (A2 - B2)) + (x * x + 1) * (A2 + B2 - 2 * ABr * y)).
    assert (N1 : N = tau * D / ((1 - y * y) * (1 + x * x))) by (rewrite E; unfold D; field; split; lra).
    assert (D0 : D <> 0) by (intros Z; apply HN; rewrite N1, Z; unfold Rdiv; ring).
    rewrite N1. clearbody D. field. repeat split; try lra; nra.
Qed.
Example C66_ex : exists N, let f t := truth_rate R_ops (R_lib (fun _ _ => 0)) R_extra (1 + 0) (1 - 0) 0 0 1 t 0 0 in
  over_decay_time f N /\ N <> 0 /\ over_decay_time (fun t => t * (f t / N)) 1.
Proof.
  exists (truth_normalization R_ops 1 0 0 0 1 0 0). cbv zeta.
  assert (I0 := C53_integral (fun _ _ => 0) 1 0 0 0 1 0 0 ltac:(lra) ltac:(lra)).
  assert (N0 : truth_normalization R_ops 1 0 0 0 1 0 0 <> 0) by (rewrite truth_norm_value; lra).
  repeat split; [exact I0|exact N0|].
  assert (A := C66_average (fun _ _ => 0) 1 0 0 0 1 0 0 _ ltac:(lra) ltac:(lra) I0 N0).
  assert (E : truth_average_tau R_ops 1 0 0 0 0 0 1 = 1) by (rewrite average_tau_value; field). rewrite E in A. exact A.
Qed.

(** ** C67: the rate is twice the squared amplitude of the mixing meson *)
Theorem C67_amplitude : forall W (A B : R * R) tau x y t,
  truth_rate R_ops (R_lib W) R_extra (norm2 A + norm2 B) (norm2 A - norm2 B) (fst (cmult A (cconj B))) (snd (cmult A (cconj B))) tau t x y
  = 2 * norm2 (decay_amplitude A B x y (t / tau)).
Proof.
  intros W A B tau x y t. rewrite truth_is_rate, amplitude_rate. unfold rate.
  replace (y * t / tau) with (y * (t / tau)) by (unfold Rdiv; ring). replace (x * t / tau) with (x * (t / tau)) by (unfold Rdiv; ring). reflexivity.
Qed.
Corollary C67_not_negative : forall W (A B : R * R) tau x y t,
  0 <= truth_rate R_ops (R_lib W) R_extra (norm2 A + norm2 B) (norm2 A - norm2 B) (fst (cmult A (cconj B))) (snd (cmult A (cconj B))) tau t x y.
Proof. intros. rewrite C67_amplitude. unfold norm2. pose proof (pow2_ge_0 (fst (decay_amplitude A B x y (t / tau)))). pose proof (pow2_ge_0 (snd (decay_amplitude A B x y (t / tau)))). lra. Qed.
(** At time 0 the meson has not mixed; with A = 0 only mixing lets it decay. *)
Example C67_ex : decay_amplitude (3, 4) (1, 1) (1 / 2) (1 / 3) 0 = (3, 4) /\ norm2 (decay_amplitude (0, 0) (1, 0) 0 0 7) = 0.
Proof.
  split.
  - unfold decay_amplitude, state1, state2, cplus, cmult, cscale. cbn [fst snd].
    replace (- ((1 - 1 / 3) * 0 / 2)) with 0 by field. replace (- ((1 + 1 / 3) * 0 / 2)) with 0 by field. replace (1 / 2 * 0 / 2) with 0 by field.
    rewrite exp_0, cos_0, sin_0. f_equal; field.
  - unfold norm2, decay_amplitude, state1, state2, cplus, cmult, cscale. cbn [fst snd].
    replace (- ((1 - 0) * 7 / 2)) with (- (7 / 2)) by field. replace (- ((1 + 0) * 7 / 2)) with (- (7 / 2)) by field. replace (0 * 7 / 2) with 0 by field.
    rewrite cos_0, sin_0. generalize (exp (- (7 / 2))). intros e. field.
Qed.

(** ** C68: the rate of ThreeGaussResolution is the rate seen through the resolution *)
(** [tg_shape]: three Gaussians whose means and widths are the given ones, shifted and scaled, in units of the event's error. *)
(** For x = 0. *)
Theorem C68_smeared_partial : forall W cf tf cb cs tb ts ob os sb bias scale bias2 scale2 tau y sigma c1 c2 c3 c4 T,
  let r := tg_shape cf tf cb cs tb ts ob os bias scale bias2 scale2 sigma in 0 < tau -> wide r ->
  over_decay_time (fun t => exp (- sb * t) * rate c1 c2 c3 c4 tau 0 y t * resolution r (T - t))
    (tg_rate R_ops (R_lib W) R_extra (tg_params cf tf cb cs tb ts ob os sb bias scale bias2 scale2) c1 c2 c3 c4 tau T 0 y sigma).
Proof.
  intros W cf tf cb cs tb ts ob os sb bias scale bias2 scale2 tau y sigma c1 c2 c3 c4 T r Ht Hw.
  refine (gen_ext _ _ _ _ _ _ _ eq_refl (tg_smear W cf tf cb cs tb ts ob os sb bias scale bias2 scale2 tau 0 y sigma Ht Hw c1 c2 c3 c4 T)).
  intros t. now rewrite cubic_x0.
Qed.
(** For any x, the rate in which the power series of cos and sin are cut off after the third power. *)
Theorem C68_series_partial : forall W cf tf cb cs tb ts ob os sb bias scale bias2 scale2 tau x y sigma c1 c2 c3 c4 T,
  let r := tg_shape cf tf cb cs tb ts ob os bias scale bias2 scale2 sigma in 0 < tau -> wide r ->
  over_decay_time (fun t => exp (- sb * t) * rate_cubic c1 c2 c3 c4 tau x y t * resolution r (T - t))
    (tg_rate R_ops (R_lib W) R_extra (tg_params cf tf cb cs tb ts ob os sb bias scale bias2 scale2) c1 c2 c3 c4 tau T x y sigma).
Proof. intros. now apply tg_smear. Qed.
(** Not the rate itself when x is not 0: for |A|^2 = 1, B = 0 the cosine term is wrong at every measured time. *)
Theorem C68_mixing_refuted : forall W cf tf cb cs tb ts ob os sb bias scale bias2 scale2 tau x y sigma T,
  let r := tg_shape cf tf cb cs tb ts ob os bias scale bias2 scale2 sigma in 0 < tau -> x <> 0 -> wide r -> mixture r ->
  ~ over_decay_time (fun t => exp (- sb * t) * rate 0 1 0 0 tau x y t * resolution r (T - t))
    (tg_rate R_ops (R_lib W) R_extra (tg_params cf tf cb cs tb ts ob os sb bias scale bias2 scale2) 0 1 0 0 tau T x y sigma).
Proof. intros. now apply tg_smear_wrong. Qed.
Example C68_ex : let r := tg_shape (4 / 5) (3 / 20) 0 1 (1 / 10) 2 0 5 0 1 0 1 (1 / 5) in wide r /\ mixture r.
Proof. cbv zeta. unfold wide, mixture. cbn. lra. Qed.

(** ** C69: the normalisation of ThreeGaussResolution *)
(** It is the integral of the rate with its acceptance over the true decay time. *)
Theorem C69_true_time : forall sb A2 B2 ABr ABi tau x y,
  0 < tau -> 0 < 1 / tau + sb - y * (1 / tau) -> 0 < 1 / tau + sb + y * (1 / tau) ->
  over_decay_time (fun t => exp (- sb * t) * rate (A2 + B2) (A2 - B2) ABr ABi tau x y t) (tg_normalization R_ops sb A2 B2 ABr ABi tau x y).
Proof. intros. now apply tg_exact. Qed.
(** The smeared rate integrated over the measured time is that number for x = 0 and near it for small x ... *)
Theorem C69_measured_time_partial : forall W cf tf cb cs tb ts ob os sb bias scale bias2 scale2 tau x y sigma A2 B2 ABr ABi,
  let r := tg_shape cf tf cb cs tb ts ob os bias scale bias2 scale2 sigma in
  0 < tau -> wide r -> 0 < 1 / tau + sb - y * (1 / tau) -> 0 < 1 / tau + sb + y * (1 / tau) ->
  exists v, over_measured_time (fun T => tg_rate R_ops (R_lib W) R_extra (tg_params cf tf cb cs tb ts ob os sb bias scale bias2 scale2)
                                            (A2 + B2) (A2 - B2) ABr ABi tau T x y sigma) v /\
    (x = 0 -> v = tg_normalization R_ops sb A2 B2 ABr ABi tau x y) /\
    Rabs (tg_normalization R_ops sb A2 B2 ABr ABi tau x y - v) <= (x / (1 + sb * tau)) ^ 4 * (Rabs (A2 - B2) + Rabs ABi) * (tau / (1 + sb * tau)).
Proof.
  intros W cf tf cb cs tb ts ob os sb bias scale bias2 scale2 tau x y sigma A2 B2 ABr ABi r Ht Hw Kp Km.
  destruct (tg_total_near W cf tf cb cs tb ts ob os sb bias scale bias2 scale2 tau x y sigma A2 B2 ABr ABi Ht Hw Kp Km) as (v & I0 & B).
  exists v. repeat split; [exact I0| |exact B]. intros ->.
  replace ((0 / (1 + sb * tau)) ^ 4 * (Rabs (A2 - B2) + Rabs ABi) * (tau / (1 + sb * tau))) with 0 in B by (unfold Rdiv; ring).
  assert (Z : Rabs (tg_normalization R_ops sb A2 B2 ABr ABi tau 0 y - v) = 0) by (apply Rle_antisym; [exact B|apply Rabs_pos]).
  destruct (Req_dec (tg_normalization R_ops sb A2 B2 ABr ABi tau 0 y - v) 0) as [Q|Q]; [lra|]. exfalso. now apply (Rabs_no_R0 _ Q).
Qed.
(** ... but not that number, except where two errors cancel. *)
Theorem C69_mixing_refuted : forall W cf tf cb cs tb ts ob os sb bias scale bias2 scale2 tau x y sigma A2 B2 ABr ABi,
  let r := tg_shape cf tf cb cs tb ts ob os bias scale bias2 scale2 sigma in
  0 < tau -> x <> 0 -> wide r -> 0 < 1 / tau + sb - y * (1 / tau) -> 0 < 1 / tau + sb + y * (1 / tau) ->
  (A2 - B2) * (1 / tau + sb) <> 2 * ABi * (x * (1 / tau)) ->
  ~ over_measured_time (fun T => tg_rate R_ops (R_lib W) R_extra (tg_params cf tf cb cs tb ts ob os sb bias scale bias2 scale2)
                                   (A2 + B2) (A2 - B2) ABr ABi tau T x y sigma)
      (tg_normalization R_ops sb A2 B2 ABr ABi tau x y).
Proof. intros. now apply tg_total_wrong. Qed.
Example C69_ex : let r := tg_shape (4 / 5) (3 / 20) 0 1 (1 / 10) 2 0 5 0 1 0 1 (1 / 5) in
  wide r /\ 0 < 1 / (2 / 5) + 0 - 1 / 2 * (1 / (2 / 5)) /\ 0 < 1 / (2 / 5) + 0 + 1 / 2 * (1 / (2 / 5)) /\ (3 - 1) * (1 / (2 / 5) + 0) <> 2 * 0 * (1 / 10 * (1 / (2 / 5))).
Proof. cbv zeta. unfold wide. cbn. lra. Qed.

(** ** C70: the rate of ThreeGaussResolutionExt is the rate, times the acceptance, seen through the resolution *)
Theorem C70_smeared_partial : forall W cf tf cb cs tb ts ob os sb_low sb_high thres C tau y sigma c1 c2 c3 c4 T,
  let r := ext_shape cf tf cb cs tb ts ob os sigma in 0 < tau -> 0 <= thres -> wide r ->
  over_decay_time (fun t => acceptance sb_low sb_high thres C t * rate c1 c2 c3 c4 tau 0 y t * resolution r (T - t))
    (ext_rate R_ops (R_lib W) R_extra (ext_params cf tf cb cs tb ts ob os sb_low sb_high thres C) c1 c2 c3 c4 tau T 0 y sigma).
Proof. intros. now apply ext_smear_x0. Qed.
Theorem C70_mixing_refuted : forall W cf tf cb cs tb ts ob os sb_low sb_high thres C tau x y sigma T,
  let r := ext_shape cf tf cb cs tb ts ob os sigma in 0 < C -> 0 <= thres -> 0 < tau -> x <> 0 -> wide r -> mixture r ->
  late sb_high thres tau T (b_core r) (w_core r) -> late sb_high thres tau T (b_tail r) (w_tail r) -> late sb_high thres tau T (b_outl r) (w_outl r) ->
  ~ over_decay_time (fun t => acceptance sb_low sb_high thres C t * rate 0 1 0 0 tau x y t * resolution r (T - t))
      (ext_rate R_ops (R_lib W) R_extra (ext_params cf tf cb cs tb ts ob os sb_low sb_high thres C) 0 1 0 0 tau T x y sigma).
Proof. intros. apply ext_smear_wrong; auto. Qed.
(** With one Gaussian: not even the rate with the series cut off, at any measured time but one. *)
Theorem C70_series_refuted : forall W cb cs tb ts ob os sb_low sb_high thres C tau x y sigma T,
  let r := ext_shape 1 0 cb cs tb ts ob os sigma in 0 < C -> 0 <= thres -> 0 < tau -> x <> 0 -> wide r ->
  T <> thres + cb * sigma + (1 / tau + sb_high) * (cs * sigma) ^ 2 - cs * sigma * sqrt 2 ->
  ~ over_decay_time (fun t => acceptance sb_low sb_high thres C t * rate_cubic 0 1 0 0 tau x y t * resolution r (T - t))
      (ext_rate R_ops (R_lib W) R_extra (ext_params 1 0 cb cs tb ts ob os sb_low sb_high thres C) 0 1 0 0 tau T x y sigma).
Proof. intros. now apply ext_series_wrong. Qed.
Example C70_ex : let r := ext_shape (4 / 5) (3 / 20) 0 1 0 1 0 1 1 in
  wide r /\ mixture r /\ late 0 1 1 3 (b_core r) (w_core r) /\ late 0 1 1 3 (b_tail r) (w_tail r) /\ late 0 1 1 3 (b_outl r) (w_outl r).
Proof. cbv zeta. unfold wide, mixture, late. cbn. pose proof s2_pos. repeat split; lra. Qed.

(** ** C71: the normalisation of ThreeGaussResolutionExt *)
Theorem C71_true_time : forall W sb_low sb_high thres C A2 B2 ABr ABi tau x y,
  0 < tau -> 0 <= thres ->
  1 / tau + sb_low - y * (1 / tau) <> 0 -> 1 / tau + sb_low + y * (1 / tau) <> 0 -> (1 / tau + sb_low) ^ 2 + (x * (1 / tau)) ^ 2 <> 0 ->
  0 < 1 / tau + sb_high - y * (1 / tau) -> 0 < 1 / tau + sb_high + y * (1 / tau) ->
  over_decay_time (fun t => acceptance sb_low sb_high thres C t * rate (A2 + B2) (A2 - B2) ABr ABi tau x y t)
    (ext_normalization R_ops (R_lib W) sb_low sb_high thres C A2 B2 ABr ABi tau x y).
Proof. intros. now apply ext_exact. Qed.
Theorem C71_measured_time_partial : forall W cf tf cb cs tb ts ob os sb_low sb_high thres C tau y sigma A2 B2 ABr ABi,
  let r := ext_shape cf tf cb cs tb ts ob os sigma in 0 < tau -> 0 <= thres -> wide r ->
  0 < 1 / tau + sb_low - y * (1 / tau) -> 0 < 1 / tau + sb_low + y * (1 / tau) ->
  0 < 1 / tau + sb_high - y * (1 / tau) -> 0 < 1 / tau + sb_high + y * (1 / tau) ->
  over_measured_time (fun T => ext_rate R_ops (R_lib W) R_extra (ext_params cf tf cb cs tb ts ob os sb_low sb_high thres C)
                                 (A2 + B2) (A2 - B2) ABr ABi tau T 0 y sigma)
    (ext_normalization R_ops (R_lib W) sb_low sb_high thres C A2 B2 ABr ABi tau 0 y).
Proof. intros. now apply ext_total_x0. Qed.
Example C71_ex : 0 < 1 / (2 / 5) + 1 / 10 - 1 / 2 * (1 / (2 / 5)) /\ 0 < 1 / (2 / 5) + 1 / 10 + 1 / 2 * (1 / (2 / 5)) /\
  over_decay_time (fun t => acceptance (-1 / 5) (1 / 10) 1 (1 / 2) t * rate (1 + 3) (1 - 3) (1 / 2) (1 / 4) (2 / 5) 1 (1 / 2) t)
    (ext_normalization R_ops (R_lib (fun _ _ => 0)) (-1 / 5) (1 / 10) 1 (1 / 2) 1 3 (1 / 2) (1 / 4) (2 / 5) 1 (1 / 2)).
Proof. repeat split; try lra. apply C71_true_time; lra. Qed.

Print Assumptions C53_integral.
Print Assumptions C66_average.
Print Assumptions C67_amplitude.
Print Assumptions C67_not_negative.
Print Assumptions C68_smeared_partial.
Print Assumptions C68_series_partial.
Print Assumptions C68_mixing_refuted.
Print Assumptions C69_true_time.
Print Assumptions C69_measured_time_partial.
Print Assumptions C69_mixing_refuted.
Print Assumptions C70_smeared_partial.
Print Assumptions C70_mixing_refuted.
Print Assumptions C70_series_refuted.
Print Assumptions C71_true_time.
Print Assumptions C71_measured_time_partial.
