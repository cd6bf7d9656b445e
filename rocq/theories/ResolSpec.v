(** What the decay-time resolutions are for, over the real numbers. *)
From Coq Require Import List Reals.
From Coquelicot Require Import Coquelicot.
From Verif Require Import FormulaSpec ResolModel.
Import ListNotations.
Open Scope R_scope.

(** cosh and erf of <cmath>; the macros are taken as the numbers they stand for (their last digits are not modelled). *)
Definition R_extra : extra R := mkExtra R cosh (fun x => 1 - Rerfc x) (sqrt 2) (/ PI) (2 / sqrt PI).

(** The integral of [f] over the decay times, from 0 on; and over all measured decay times. *)
Definition over_decay_time (f : R -> R) (v : R) : Prop := is_RInt_gen f (at_point 0) (Rbar_locally p_infty) v.
Definition over_measured_time (f : R -> R) (v : R) : Prop := is_RInt_gen f (Rbar_locally m_infty) (Rbar_locally p_infty) v.

(** ** The physical rate *)
(** Complex numbers as pairs. *)
Definition cplus (a b : R * R) : R * R := (fst a + fst b, snd a + snd b).
Definition cmult (a b : R * R) : R * R := (fst a * fst b - snd a * snd b, fst a * snd b + snd a * fst b).
Definition cconj (a : R * R) : R * R := (fst a, - snd a).
Definition cscale (r : R) (a : R * R) : R * R := (r * fst a, r * snd a).
Definition norm2 (a : R * R) : R := fst a ^ 2 + snd a ^ 2.
(** The two mass eigenstates after [s] lifetimes: decay widths 1 - y and 1 + y, mass difference x. *)
Definition state1 (x y s : R) : R * R := cscale (exp (- ((1 - y) * s / 2))) (cos (x * s / 2), sin (x * s / 2)).
Definition state2 (x y s : R) : R * R := cscale (exp (- ((1 + y) * s / 2))) (cos (x * s / 2), - sin (x * s / 2)).
(** The amplitude for the decay at that time, of the meson with decay amplitude [A], and [B] for its antiparticle. *)
Definition decay_amplitude (A B : R * R) (x y s : R) : R * R :=
  cplus (cscale (/ 2) (cmult (cplus A (cscale (-1) B)) (state1 x y s))) (cscale (/ 2) (cmult (cplus A B) (state2 x y s))).

(** The rate as a function of the decay time, for given coefficients of the four terms. *)
Definition rate (c1 c2 c3 c4 tau x y t : R) : R :=
  exp (- (t / tau)) * (c1 * cosh (y * t / tau) + c2 * cos (x * t / tau) - 2 * c3 * sinh (y * t / tau) - 2 * c4 * sin (x * t / tau)).
(** The same with the first terms of the power series of cos and sin. *)
Definition rate_cubic (c1 c2 c3 c4 tau x y t : R) : R :=
  let z := x * t / tau in
  exp (- (t / tau)) * (c1 * cosh (y * t / tau) + c2 * (1 - z ^ 2 / 2) - 2 * c3 * sinh (y * t / tau) - 2 * c4 * (z - z ^ 3 / 6)).

(** ** The measurement *)
(** The normal density of mean 0 and standard deviation s. *)
Definition normal (s d : R) : R := exp (- (d ^ 2 / (2 * s ^ 2))) / (s * sqrt (2 * PI)).
(** Three Gaussians: fractions, means and widths, for the difference of measured and true time. *)
Record shape : Type := mkShape { f_core : R; f_tail : R; b_core : R; w_core : R; b_tail : R; w_tail : R; b_outl : R; w_outl : R }.
Definition wide (r : shape) : Prop := 0 < w_core r /\ 0 < w_tail r /\ 0 < w_outl r.
Definition resolution (r : shape) (d : R) : R :=
  f_core r * normal (w_core r) (d - b_core r) + f_tail r * normal (w_tail r) (d - b_tail r)
  + (1 - f_core r - f_tail r) * normal (w_outl r) (d - b_outl r).

(** The acceptance of ThreeGaussResolutionExt as a function of the decay time: two exponentials that meet at the threshold. *)
Definition acceptance (sb_low sb_high thres C t : R) : R := if Rlt_dec t thres then C * exp (- sb_low * (t - thres)) else C * exp (- sb_high * (t - thres)).

(** A mixture: fractions that are not negative. *)
Definition mixture (r : shape) : Prop := 0 <= f_core r /\ 0 <= f_tail r /\ f_core r + f_tail r <= 1.

(** The three Gaussians of ThreeGaussResolution for an event with error [sigma]: bias and width of each are given in units of
    the error; one shift and one factor apply to the core, another pair to the other two. *)
Definition tg_shape (cf tf cb cs tb ts ob os bias scale bias2 scale2 sigma : R) : shape :=
  mkShape cf tf ((cb + bias) * sigma) (cs * scale * sigma) ((tb + bias2) * sigma) (ts * scale2 * sigma) ((ob + bias2) * sigma) (os * scale2 * sigma).
(** And those of ThreeGaussResolutionExt. *)
Definition ext_shape (cf tf cb cs tb ts ob os sigma : R) : shape :=
  mkShape cf tf (cb * sigma) (cs * sigma) (tb * sigma) (ts * sigma) (ob * sigma) (os * sigma).

(** A measured time late enough after the threshold, for a Gaussian of bias b and width s. *)
Definition late (sb_high thres tau T b s : R) : Prop := thres + b + (1 / tau + sb_high) * s ^ 2 - s * sqrt 2 <= T.
