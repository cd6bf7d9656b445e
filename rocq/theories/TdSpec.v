(** What the user of Amp3Body_TD relies on, in exact arithmetic. *)
From Coq Require Import Reals List ZArith.
From Coquelicot Require Import Coquelicot.
From Verif Require Import FormulaSpec AmpModel AmpSpec ResolModel ResolSpec TdModel.
Import ListNotations.
Open Scope R_scope.

(** The resolutions as objects. *)
Definition truth (W : R -> R -> R) : time_resolution R :=
  mkRes (fun c1 c2 c3 c4 tau t x y _ => truth_rate R_ops (R_lib W) R_extra c1 c2 c3 c4 tau t x y) (truth_normalization R_ops).
Definition three_gauss (W : R -> R -> R) (cf tf cb cs tb ts ob os sb bias scale bias2 scale2 : R) : time_resolution R :=
  mkRes (tg_rate R_ops (R_lib W) R_extra (tg_params cf tf cb cs tb ts ob os sb bias scale bias2 scale2)) (tg_normalization R_ops sb).
Definition three_gauss_ext (W : R -> R -> R) (cf tf cb cs tb ts ob os sb_low sb_high thres Ct : R) : time_resolution R :=
  mkRes (ext_rate R_ops (R_lib W) R_extra (ext_params cf tf cb cs tb ts ob os sb_low sb_high thres Ct))
        (ext_normalization R_ops (R_lib W) sb_low sb_high thres Ct).

(** The amplitude of the decay at a point of the Dalitz plot, and that of the antiparticle: the masses exchanged. *)
Definition dec_A (c : call (T := R)) (x y : R) : R * R := amplitude c x y.
Definition dec_B (c : call (T := R)) (x y : R) : R * R := amplitude c y x.
(** The density at the point (m12, m13) and decay time, with lifetime tau and mixing parameters (x, y): the squared modulus of the amplitude
    after mixing (normalised as in the header: twice), times the efficiency; zero outside the Dalitz plot. [flip]: for a meson with the
    wrong tag, particle and antiparticle exchanged. *)
Definition signal (c : call (T := R)) (flip : bool) (tau xm ym m12 m13 time : R) : R :=
  let A := if flip then dec_B c m12 m13 else dec_A c m12 m13 in let B := if flip then dec_A c m12 m13 else dec_B c m12 m13 in
  if inside c m12 m13 then 2 * norm2 (decay_amplitude A B xm ym (time / tau)) * eff c m12 m13 else 0.
Definition td_density (t : td_call (T := R)) (xm ym m12 m13 time : R) : R := signal (td_dp t) false (td_tau t) xm ym m12 m13 time.
(** The mixing parameters of a tagged meson: 1 for the particle, -1 for the antiparticle. *)
Definition x_of (t : td_call (T := R)) (tag : Z) : R := td_x t + IZR tag * td_dx t.
Definition y_of (t : td_call (T := R)) (tag : Z) : R := td_y t + IZR tag * td_dy t.
(** A sum over the cells of the grid, at their centres, times their area. *)
Definition over_cells (g : grid (T := R)) (f : R -> R -> R) : R :=
  Rtotal (n13 g) (fun l => Rtotal (n12 g) (fun k =>
    f (mid (lo12 g) (up12 g) (n12 g) k) (mid (lo13 g) (up13 g) (n13 g) l) * (((up12 g - lo12 g) / INR (n12 g)) * ((up13 g - lo13 g) / INR (n13 g))))).
(** The density with the two tags in the given proportion. *)
Definition td_mixture (t : td_call (T := R)) (m12 m13 time : R) : R :=
  td_d0 t * td_density t (x_of t 1) (y_of t 1) m12 m13 time + (1 - td_d0 t) * td_density t (x_of t (-1)) (y_of t (-1)) m12 m13 time.

(** A resolution whose method normalization is the integral, over the true decay time, of the rate times an acceptance [K], for
    the given lifetime and mixing parameters. *)
Definition integrates (res : time_resolution R) (K : R -> R) (tau xm ym : R) : Prop :=
  forall A2 B2 ABr ABi, over_decay_time (fun time => K time * rate (A2 + B2) (A2 - B2) ABr ABi tau xm ym time) (r_norm res A2 B2 ABr ABi tau xm ym).

(** Histories: the range stays; everything but the amplitudes and the numbers of the mixing is announced, as in AmpSpec.v. *)
Definition td_of (o : td_op (T := R)) : td_call (T := R) := match o with TdNormalize t => t | TdFractions t => t end.
Definition td_honest (os : list (td_op (T := R))) : Prop :=
  honest (map (fun o => td_dp (td_of o)) os) /\ (forall a b, In a os -> In b os -> range (td_dp (td_of a)) = range (td_dp (td_of b))).
(** The same when m12 and m13 are exchanged: efficiency, kinematic region and grid. *)
Definition symmetric (c : call (T := R)) : Prop :=
  (forall x y, eff c x y = eff c y x) /\ (forall x y, inside c x y = inside c y x) /\
  lo12 (range c) = lo13 (range c) /\ up12 (range c) = up13 (range c) /\ n12 (range c) = n13 (range c).
(** getFractions is not called, or only in such a case. *)
Definition fractions_if_symmetric (os : list (td_op (T := R))) : Prop := forall t, In (TdFractions t) os -> symmetric (td_dp t).

(** The object after a single call of normalize with one event at the point, and the value it gives for that event. *)
Definition with_event (t : td_call (T := R)) (m12 m13 : R) : td_call (T := R) :=
  let c := td_dp t in
  mkTd (mkCall (amps c) (bw c) (eff c) (inside c) (range c) [(m12, m13)] true (changed c)) (td_tau t) (td_x t) (td_y t) (td_dx t) (td_dy t) (td_d0 t) (td_mistag t) (td_in_limits t).
Definition given (res : time_resolution R) (t : td_call (T := R)) (w : R) (tag : Z) (m12 m13 time : R) : R :=
  let t' := with_event t m12 m13 in td_value R_ops res t' (fst (td_calls R_ops res [TdNormalize t'])) 0 (mkEvent m12 m13 time 0 w tag).
(** The formula of the header, Amp3Body_TD.h:33-37, with its coefficients |A + B|^2 and |A - B|^2, times the efficiency. *)
Definition header_formula (t : td_call (T := R)) (xm ym m12 m13 time : R) : R :=
  let A := dec_A (td_dp t) m12 m13 in let B := dec_B (td_dp t) m12 m13 in
  rate (norm2 (cplus A B)) (norm2 (cplus A (cscale (-1) B))) (fst (cmult A (cconj B))) (snd (cmult A (cconj B))) (td_tau t) xm ym time * eff (td_dp t) m12 m13.
(** The density with mistagged events as the header describes it: a fraction [b] with the right tag, the rest with the wrong one. *)
Definition header_mistag (t : td_call (T := R)) (b : R) (tag : Z) (m12 m13 time : R) : R :=
  b * signal (td_dp t) false (td_tau t) (x_of t tag) (y_of t tag) m12 m13 time + (1 - b) * signal (td_dp t) true (td_tau t) (x_of t tag) (y_of t tag) m12 m13 time.
(** Fit fractions over the grid: the interference of resonances i and j over the total. *)
Definition cross (c : call (T := R)) (i j : nat) (x y : R) : R :=
  if inside c x y then
    fst (cmult (cmult (nth i (amps c) (0, 0)) (bw c i x y)) (cconj (cmult (nth j (amps c) (0, 0)) (bw c j x y)))) * eff c x y
  else 0.
Definition fit_fraction (c : call (T := R)) (i j : nat) : R := over_cells (range c) (cross c i j) / over_cells (range c) (density c).
