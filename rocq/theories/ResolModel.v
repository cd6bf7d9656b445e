(** The decay-time resolutions of the mixing PDFs: TruthResolution.cu, ThreeGaussResolution.cu, ThreeGaussResolutionExt.cu,
    for any arithmetic.

    A resolution gets the four combinations of the two amplitudes (the factors of the cosh, cos, sinh and sin terms), the
    lifetime, the decay time and its error and the mixing parameters, and gives the rate; its [normalization] gets the integrals of
    |A|^2, |B|^2, Re(A B* ), Im(A B* ) over the phase space and gives the integral of the rate over the decay time.
    The cursor is not modelled here: a resolution reads its own parameters, a list in the order of registration. *)
From Coq Require Import List ZArith Bool.
From Verif Require LeafGen.
Import ListNotations.

(** Functions of <cmath> that LeafGen.mlib lacks, and the macros M_SQRT2, M_1_PI, M_2_SQRTPI. *)
Record extra (T : Type) : Type := mkExtra { x_cosh : T -> T; x_erf : T -> T; x_sqrt2 : T; x_1_pi : T; x_2_sqrtpi : T }.
Arguments x_cosh {T}. Arguments x_erf {T}. Arguments x_sqrt2 {T}. Arguments x_1_pi {T}. Arguments x_2_sqrtpi {T}.

Section Resol.
Context {T : Type} (Ar : LeafGen.ops T) (L : LeafGen.mlib T) (X : extra T).
Local Notation "0" := (LeafGen.o_zero Ar).
Local Notation "1" := (LeafGen.o_one Ar).
Local Notation "2" := (LeafGen.o_ofZ Ar 2).
Local Notation "3" := (LeafGen.o_ofZ Ar 3).
Local Notation "6" := (LeafGen.o_ofZ Ar 6).
Local Notation half := (LeafGen.o_half Ar).
Local Infix "+" := (LeafGen.o_add Ar).
Local Infix "-" := (LeafGen.o_sub Ar).
Local Infix "*" := (LeafGen.o_mul Ar).
Local Infix "/" := (LeafGen.o_div Ar).
Local Notation "- x" := (LeafGen.o_opp Ar x).
Local Notation exp := (LeafGen.m_exp L).
Local Notation cos := (LeafGen.m_cos L).
Local Notation sin := (LeafGen.m_sin L).
Local Notation sinh := (LeafGen.m_sinh L).
Local Notation erfc := (LeafGen.m_erfc L).

(** ** TruthResolution.cu *)
(** device_truth_resolution, lines 6-27. *)
Definition truth_rate (coshterm costerm sinhterm sinterm tau dtime x y : T) : T :=
  let t := dtime / tau in
  let ret := 0 + coshterm * x_cosh X (y * t) in
  let ret := ret + costerm * cos (x * t) in
  let ret := ret - 2 * sinhterm * sinh (y * t) in
  let ret := ret - 2 * sinterm * sin (x * t) in
  ret * exp (- t).
(** device_truth_resolution_average_tau, lines 29-44. *)
Definition truth_average_tau (A2 B2 ABr ABi x y tau : T) : T :=
  let a := A2 - B2 in
  let b := 2 * ABi in
  let c := A2 + B2 in
  let d := 2 * ABr in
  (x * x + 1) * (y * y - 1) *
    ((a * tau * (x * x - 1) + 2 * b * tau * x) / ((x * x + 1) * (x * x + 1)) +
     (c * (- (tau * y * y) - tau) + d * (2 * tau) * y) / ((y * y - 1) * (y * y - 1))) /
  ((y * y - 1) * (b * x - a) + (x * x + 1) * (c - d * y)).
(** The last lines of every normalization: TruthResolution.cu:65-70, ThreeGaussResolution.cu:177-182,
    ThreeGaussResolutionExt.cu:427-432. *)
Definition combine (one two thr fou di1 di2 di3 di4 : T) : T :=
  let ret := one * (di1 + di2) in
  let ret := ret + two * (di1 - di2) in
  let ret := ret - 2 * thr * di3 in
  ret - 2 * fou * di4.
(** TruthResolution::normalization, lines 58-71. *)
Definition truth_normalization (di1 di2 di3 di4 tau x y : T) : T :=
  let one := tau / (1 - y * y) in
  let two := tau / (1 + x * x) in
  let thr := y * one in
  let fou := x * two in
  combine one two thr fou di1 di2 di3 di4.

(** ** ThreeGaussResolution.cu *)
Record quad : Type := mkQuad { p1 : T; p2 : T; p3 : T; p4 : T }.
(** R1o6, SQRTPIo2 and SQRT1o2PI, lines 7-9. *)
Definition r1o6 : T := 1 / 6.
Definition sqrtpio2 : T := 1 / x_2_sqrtpi X.
Definition sqrt1o2pi : T := LeafGen.o_sqrt Ar (half * x_1_pi X).
(** The four terms from the integrals over powers of the shifted variable: lines 42-51, and the same lines of the other
    two functions. *)
Definition cossin (F R u0 ig0 ig1 ig2 ig3 : T) : T * T :=
  let R2 := R * R in
  let it0 := F * ig0 in
  let it1 := F * R * (ig1 - u0 * ig0) in
  let it2 := F * R2 * (ig2 - u0 * ig1 * 2 + u0 * u0 * ig0) in
  let it3 := F * R2 * R * (ig3 - u0 * ig2 * 3 + u0 * u0 * ig1 * 3 - u0 * (u0 * u0) * ig0) in
  (it0 - half * it2, it1 - r1o6 * it3).
(** gaussian, lines 11-61. *)
Definition gaussian (tau adjTime x y adjSigma selbias : T) : quad :=
  let oSqrtA := adjSigma * x_sqrt2 X in
  let oSigma := 1 / adjSigma in
  let o2SqrtA := half * oSqrtA in
  let oSigma2 := oSigma * oSigma in
  let normG := sqrt1o2pi * oSigma in
  let C := half * adjTime * adjTime * oSigma2 in
  let Bgn := - adjTime * oSigma2 in
  let Gamma := 1 / tau in
  let B := Gamma + Bgn in
  let u0 := o2SqrtA * (B + selbias) in
  let u02 := u0 * u0 in
  let F := oSqrtA * exp (- C + u02) in
  let ig0 := sqrtpio2 * erfc u0 in
  let ig1 := half * exp (- u02) in
  let ig2 := ig1 * u0 + half * ig0 in
  let ig3 := ig1 * (u02 + 1) in
  let R := x * Gamma * oSqrtA in
  let cs := cossin F R u0 ig0 ig1 ig2 ig3 in
  let u0py := o2SqrtA * (B - y * Gamma + selbias) in
  let u0my := o2SqrtA * (B + y * Gamma + selbias) in
  let Fpy := oSqrtA * exp (- C + u0py * u0py) in
  let Fmy := oSqrtA * exp (- C + u0my * u0my) in
  let Ipy := Fpy * sqrtpio2 * erfc u0py in
  let Imy := Fmy * sqrtpio2 * erfc u0my in
  mkQuad (normG * half * (Ipy + Imy)) (normG * fst cs) (normG * half * (Ipy - Imy)) (normG * snd cs).
(** The weighted sum of three such quadruples and of the four terms, lines 111-121 (and Ext lines 307-321). *)
Definition mix (cf tf off : T) (c t o : quad) : quad :=
  mkQuad (cf * p1 c + tf * p1 t + off * p1 o) (cf * p2 c + tf * p2 t + off * p2 o)
         (cf * p3 c + tf * p3 t + off * p3 o) (cf * p4 c + tf * p4 t + off * p4 o).
Definition combine_rate (q : quad) (coshterm costerm sinhterm sinterm : T) : T :=
  let ret := 0 + coshterm * p1 q in
  let ret := ret + costerm * p2 q in
  let ret := ret - 2 * sinhterm * p3 q in
  ret - 2 * sinterm * p4 q.
(** The order of registration: the base class gets cf .. sb, the body the rest, lines 131-151. *)
Definition tg_params (cf tf cb cs tb ts ob os sb bias scale bias2 scale2 : T) : list T :=
  [cf; tf; cb; cs; tb; ts; ob; os; sb; bias; scale; bias2; scale2].
(** device_threegauss_resolution, lines 63-127. *)
Definition tg_rate (ps : list T) (coshterm costerm sinhterm sinterm tau dtime x y sigma : T) : T :=
  let p k := nth k ps 0 in
  let coreFraction := p 0%nat in
  let tailFraction := p 1%nat in
  let outlFraction := 1 - coreFraction - tailFraction in
  let selbias := p 8%nat in
  let coreBias := p 2%nat + p 9%nat in
  let tailBias := p 4%nat + p 11%nat in
  let outlBias := p 6%nat + p 11%nat in
  let coreScale := p 3%nat * p 10%nat in
  let tailScale := p 5%nat * p 12%nat in
  let outlScale := p 7%nat * p 12%nat in
  let c := gaussian tau (dtime - coreBias * sigma) x y (coreScale * sigma) selbias in
  let t := gaussian tau (dtime - tailBias * sigma) x y (tailScale * sigma) selbias in
  let o := gaussian tau (dtime - outlBias * sigma) x y (outlScale * sigma) selbias in
  combine_rate (mix coreFraction tailFraction outlFraction c t o) coshterm costerm sinhterm sinterm.
(** ThreeGaussResolution::normalization, lines 154-183. *)
Definition tg_normalization (selBias di1 di2 di3 di4 tau x y : T) : T :=
  let dy := selBias * selBias + 2 * selBias / tau + (1 - y * y) / (tau * tau) in
  let dx := selBias * selBias + 2 * selBias / tau + (1 + x * x) / (tau * tau) in
  let one := (selBias + 1 / tau) / dy in
  let two := (selBias + 1 / tau) / dx in
  let thr := y / tau / dy in
  let fou := x / tau / dx in
  combine one two thr fou di1 di2 di3 di4.

(** ** ThreeGaussResolutionExt.cu *)
(** gaussian_low, lines 63-121. *)
Definition gaussian_low (tau adjTime x y adjSigma selbias Tthres C0 : T) : quad :=
  let preConst := C0 * exp (selbias * Tthres) in
  let oSqrtA := adjSigma * x_sqrt2 X in
  let oSigma := 1 / adjSigma in
  let o2SqrtA := half * oSqrtA in
  let oSigma2 := oSigma * oSigma in
  let normG := sqrt1o2pi * oSigma in
  let C := half * adjTime * adjTime * oSigma2 in
  let Bgn := - adjTime * oSigma2 in
  let Gamma := 1 / tau in
  let B := Gamma + Bgn in
  let u0 := o2SqrtA * (B + selbias) in
  let u1 := 1 / oSqrtA * Tthres + u0 in
  let u02 := u0 * u0 in
  let F := oSqrtA * exp (- C + u02) in
  let ig0 := sqrtpio2 * erfc u0 - sqrtpio2 * erfc u1 in
  let ig1 := half * exp (- u02) - half * exp (- u1 * u1) in
  let ig2 := half * (u0 * exp (- (1) * u02) + sqrtpio2 * erfc u0) - half * (u1 * exp (- u1 * u1) + sqrtpio2 * erfc u1) in
  let ig3 := half * exp (- u02) * (u02 + 1) - half * exp (- u1 * u1) * (u1 * u1 + 1) in
  let R := x * Gamma * oSqrtA in
  let cs := cossin F R u0 ig0 ig1 ig2 ig3 in
  let u0py := o2SqrtA * (B - y * Gamma + selbias) in
  let u0my := o2SqrtA * (B + y * Gamma + selbias) in
  let u1py := u0py + 1 / oSqrtA * Tthres in
  let u1my := u0my + 1 / oSqrtA * Tthres in
  let Fpy := oSqrtA * exp (- C + u0py * u0py) in
  let Fmy := oSqrtA * exp (- C + u0my * u0my) in
  let Ipy := Fpy * sqrtpio2 * (erfc u0py - erfc u1py) in
  let Imy := Fmy * sqrtpio2 * (erfc u0my - erfc u1my) in
  mkQuad (preConst * normG * half * (Ipy + Imy)) (preConst * normG * fst cs)
         (preConst * normG * half * (Ipy - Imy)) (preConst * normG * snd cs).
(** gaussian_high, lines 124-181. *)
Definition gaussian_high (tau adjTime x y adjSigma selbias Tthres C0 : T) : quad :=
  let preConst := C0 * exp (selbias * Tthres) in
  let oSqrtA := adjSigma * x_sqrt2 X in
  let oSigma := 1 / adjSigma in
  let o2SqrtA := half * oSqrtA in
  let oSigma2 := oSigma * oSigma in
  let normG := sqrt1o2pi * oSigma in
  let C := half * adjTime * adjTime * oSigma2 in
  let Bgn := - adjTime * oSigma2 in
  let Gamma := 1 / tau in
  let B := Gamma + Bgn in
  let u0 := o2SqrtA * (B + selbias) in
  let u1 := 1 / oSqrtA * Tthres + u0 in
  let u02 := u0 * u0 in
  let F := oSqrtA * exp (- C + u02) in
  let ig0 := sqrtpio2 * erfc u1 in
  let ig1 := half * exp (- (1) * u1 * u1) in
  let ig2 := ig1 * 1 + half * ig0 in
  let ig3 := ig1 * (u1 + 1) in
  let R := x * Gamma * oSqrtA in
  let cs := cossin F R u0 ig0 ig1 ig2 ig3 in
  let u0py := o2SqrtA * (B - y * Gamma + selbias) in
  let u0my := o2SqrtA * (B + y * Gamma + selbias) in
  let u1py := u0py + 1 / oSqrtA * Tthres in
  let u1my := u0my + 1 / oSqrtA * Tthres in
  let Fpy := oSqrtA * exp (- C + u0py * u0py) in
  let Fmy := oSqrtA * exp (- C + u0my * u0my) in
  let Ipy := Fpy * sqrtpio2 * erfc u1py in
  let Imy := Fmy * sqrtpio2 * erfc u1my in
  mkQuad (preConst * normG * half * (Ipy + Imy)) (preConst * normG * fst cs)
         (preConst * normG * half * (Ipy - Imy)) (preConst * normG * snd cs).
Definition add_quad (a b : quad) : quad := mkQuad (p1 a + p1 b) (p2 a + p2 b) (p3 a + p3 b) (p4 a + p4 b).
(** The constructor, lines 331-355. *)
Definition ext_params (cf tf cb cs tb ts ob os sb_low sb_high Tthres constantC : T) : list T :=
  [cf; tf; cb; cs; tb; ts; ob; os; sb_low; sb_high; Tthres; constantC].
(** device_threegauss_resolutionext, lines 183-327. *)
Definition ext_rate (ps : list T) (coshterm costerm sinhterm sinterm tau dtime x y sigma : T) : T :=
  let p k := nth k ps 0 in
  let coreFraction := p 0%nat in
  let tailFraction := p 1%nat in
  let outlFraction := 1 - coreFraction - tailFraction in
  let part bias scale :=
    add_quad (gaussian_low tau (dtime - bias * sigma) x y (scale * sigma) (p 8%nat) (p 10%nat) (p 11%nat))
             (gaussian_high tau (dtime - bias * sigma) x y (scale * sigma) (p 9%nat) (p 10%nat) (p 11%nat)) in
  combine_rate (mix coreFraction tailFraction outlFraction (part (p 2%nat) (p 3%nat)) (part (p 4%nat) (p 5%nat))
                    (part (p 6%nat) (p 7%nat))) coshterm costerm sinhterm sinterm.
(** ThreeGaussResolutionExt::normalization, lines 357-434. *)
Definition ext_normalization (sb_low sb_high Tthres C di1 di2 di3 di4 tau x y : T) : T :=
  let pre_low := C * exp (sb_low * Tthres) in
  let pre_high := C * exp (sb_high * Tthres) in
  let Gamma := 1 / tau in
  let py s := y * Gamma - Gamma - s in
  let my s := - y * Gamma - Gamma - s in
  let den g := g * g + x * x * Gamma * Gamma in
  let gl := Gamma + sb_low in
  let gh := Gamma + sb_high in
  let one_low := half * pre_low * (1 / py sb_low * (exp (Tthres * py sb_low) - 1) + 1 / my sb_low * (exp (Tthres * my sb_low) - 1)) in
  let thr_low := half * pre_low * (1 / py sb_low * (exp (Tthres * py sb_low) - 1) - 1 / my sb_low * (exp (Tthres * my sb_low) - 1)) in
  let two_low := pre_low * (exp (- gl * Tthres) / den gl * (- gl * cos (x * Gamma * Tthres) + x * Gamma * sin (x * Gamma * Tthres))
                            - - gl / den gl) in
  let fou_low := pre_low * (exp (- gl * Tthres) / den gl * (- gl * sin (x * Gamma * Tthres) - x * Gamma * cos (x * Gamma * Tthres))
                            - - x * Gamma / den gl) in
  let one_high := half * pre_high * (- (1) / py sb_high * exp (Tthres * py sb_high) - 1 / my sb_high * exp (Tthres * my sb_high)) in
  let thr_high := half * pre_high * (- (1) / py sb_high * exp (Tthres * py sb_high) + 1 / my sb_high * exp (Tthres * my sb_high)) in
  let two_high := pre_high * (- exp (- gh * Tthres) / den gh * (- gh * cos (x * Gamma * Tthres) + x * Gamma * sin (x * Gamma * Tthres))) in
  let fou_high := pre_high * (- exp (- gh * Tthres) / den gh * (- gh * sin (x * Gamma * Tthres) - x * Gamma * cos (x * Gamma * Tthres))) in
  combine (one_low + one_high) (two_low + two_high) (thr_low + thr_high) (fou_low + fou_high) di1 di2 di3 di4.
End Resol.
