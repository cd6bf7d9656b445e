(** The decay-time resolution with a spliced acceptance, ThreeGaussResolutionSplice.cu, for any arithmetic.

    The acceptance is a cubic polynomial between every two neighbouring knots and an exponential after the last one.
    An [int] that the code only counts with is a natural number here. Comments, print-outs and mytmpgaussian (lines 338-388,
    never called) are left out. *)
From Coq Require Import List ZArith Bool Arith.
From Verif Require Import ResolModel.
From Verif Require LeafGen.
Import ListNotations.

Section Splice.
Context {T : Type} (Ar : LeafGen.ops T) (L : LeafGen.mlib T) (X : extra T).
Local Notation "0" := (LeafGen.o_zero Ar).
Local Notation "1" := (LeafGen.o_one Ar).
Local Notation "2" := (LeafGen.o_ofZ Ar 2).
Local Notation half := (LeafGen.o_half Ar).
Local Infix "+" := (LeafGen.o_add Ar).
Local Infix "-" := (LeafGen.o_sub Ar).
Local Infix "*" := (LeafGen.o_mul Ar).
Local Infix "/" := (LeafGen.o_div Ar).
Local Notation "- x" := (LeafGen.o_opp Ar x).
Local Notation exp := (LeafGen.m_exp L).
Local Notation cos := (LeafGen.m_cos L).
Local Notation sin := (LeafGen.m_sin L).
Local Notation erfc := (LeafGen.m_erfc L).
Local Notation sqrt := (LeafGen.o_sqrt Ar).
Local Notation of_nat n := (LeafGen.o_ofZ Ar (Z.of_nat n)).
Local Notation pow a n := (LeafGen.m_pow L a (of_nat n)).

(** ** Moments of the normal distribution *)
(** BigPhi(x), lines 21-24; the overload of lines 16-19 is not called. *)
Definition big_phi (x : T) : T := half * (1 + x_erf X (x / sqrt 2)).
(** SmallPhi(x), lines 31-34; the overload of lines 26-29 is not called. *)
Definition small_phi (x : T) : T := sqrt1o2pi Ar X * exp (- half * x * x).
(** DoubleFactorial, lines 36-45. *)
Fixpoint double_factorial_loop (res : T) (j : nat) : T :=
  match j with
  | O => res
  | S O => res * of_nat 1
  | S (S k as j') => double_factorial_loop (res * of_nat j) k
  end.
Definition double_factorial (j : nat) : T := double_factorial_loop 1 j.
(** FactorialOdd, lines 47-58, for odd n. *)
Definition factorial_odd (n : nat) (u0 u1 : T) : T :=
  let k := Nat.div (n - 1) 2 in
  let res := fold_left (fun res j => res + 1 / double_factorial (2 * j) * (- small_phi u1 * pow u1 (2 * j) + small_phi u0 * pow u0 (2 * j)))
               (seq 0 (S k)) 0 in
  res * double_factorial (2 * k).
(** FactorialEven, lines 60-76, for even n. *)
Definition factorial_even (n : nat) (u0 u1 : T) : T :=
  let k := Nat.div (n - 2) 2 in
  let res := fold_left (fun res j => res + 1 / double_factorial (2 * j + 1)
                                             * (- small_phi u1 * pow u1 (2 * j + 1) + small_phi u0 * pow u0 (2 * j + 1)))
               (seq 0 (S k)) 0 in
  (res + big_phi u1 - big_phi u0) * double_factorial (2 * k + 1).
(** EvaluateConvo, lines 78-88. *)
Definition evaluate_convo (n : nat) (u0 u1 : T) : T :=
  if Nat.eqb n 0 then big_phi u1 - big_phi u0
  else if Nat.eqb n 1 then - small_phi u1 + small_phi u0
  else if Nat.even n then factorial_even n u0 u1 else factorial_odd n u0 u1.
(** Factorial, lines 90-101. *)
Fixpoint factorial_loop (res : T) (j : nat) : T := match j with O => res | S k => factorial_loop (res * of_nat j) k end.
Definition factorial (j : nat) : T := if Nat.eqb j 0 then 1 else factorial_loop 1 j.
(** BinomCoeff, lines 103-107. *)
Definition binom_coeff (n k : nat) : T := factorial n / (factorial k * factorial (n - k)).
(** The powers of - u0 that EvaluateKnot and EvaluateKnotSinCos put into an array (lines 148-151, 169-172, 236-239), element n. *)
Fixpoint pow_u0 (u0 : T) (n : nat) : T := match n with O => 1 | S m => pow_u0 u0 m * - u0 end.
(** EvaluateAcceptance, lines 109-116, and EvaluateAcceptanceGn, lines 194-204: the same sum, of order n + k, and a power k. The arrays
    are given as functions of the index; the largest index, 3 or 8, is within their size. *)
Definition evaluate_acceptance_gn (n k : nat) (sqrt_r : T) (convo powu : nat -> T) : T :=
  let res := fold_left (fun res i => res + binom_coeff (n + k) i * convo (n + k - i)%nat * powu i) (seq 0 (S (n + k))) 0 in
  res * pow (1 / sqrt_r) k.
Definition evaluate_acceptance (n : nat) (sqrt_r : T) (convo powu : nat -> T) : T :=
  let res := fold_left (fun res k => res + binom_coeff n k * convo (n - k)%nat * powu k) (seq 0 (S n)) 0 in
  res * pow (1 / sqrt_r) n.

(** ** One piece of the acceptance *)
Record piece : Type := mkPiece { a0 : T; a1 : T; a2 : T; a3 : T }.
(** EvaluateKnot, lines 118-192: what it adds to P1 and to P3. *)
Definition evaluate_knot (Gamma lo hi : T) (a : piece) (tprime sigma y : T) : T * T :=
  let sqrt_r := 1 / sigma in
  let r := sqrt_r * sqrt_r in
  let p_plus := 2 * Gamma * (1 - y) - 2 * tprime * r in
  let p_minus := 2 * Gamma * (1 + y) - 2 * tprime * r in
  let q := tprime * tprime * r in
  let u0_plus := p_plus / (2 * sqrt_r) in
  let u0_minus := p_minus / (2 * sqrt_r) in
  let preFactor := half / sqrt_r / sigma in
  let pre_plus := exp (- half * (q - u0_plus * u0_plus)) in
  let pre_minus := exp (- half * (q - u0_minus * u0_minus)) in
  let part u0 :=
    let acc n := evaluate_acceptance n sqrt_r (fun i => evaluate_convo i (sqrt_r * lo + u0) (sqrt_r * hi + u0)) (pow_u0 u0) in
    a0 a * acc 0%nat + a1 a * acc 1%nat + a2 a * acc 2%nat + a3 a * acc 3%nat in
  let Ipy := part u0_plus in
  let Imy := part u0_minus in
  (1 * preFactor * (pre_plus * Ipy + pre_minus * Imy), 1 * preFactor * (pre_plus * Ipy - pre_minus * Imy)).
(** EvaluateKnotSinCos, lines 206-297: what it adds to P2 and to P4. *)
Definition evaluate_knot_sincos (Gamma lo hi : T) (a : piece) (tprime sigma x : T) : T * T :=
  let sqrt_r := 1 / sigma in
  let r := sqrt_r * sqrt_r in
  let p := 2 * Gamma - 2 * tprime * r in
  let q := tprime * tprime * r in
  let u0 := p / (2 * sqrt_r) in
  let preFactor := 1 / sqrt_r / sigma * exp (- half * (q - u0 * u0)) in
  let commonFactor := x * Gamma / sqrt_r in
  let acc n k := evaluate_acceptance_gn n k sqrt_r (fun i => evaluate_convo i (sqrt_r * lo + u0) (sqrt_r * hi + u0)) (pow_u0 u0) in
  let Ig n := a0 a * acc n 0%nat + a1 a * acc n 1%nat + a2 a * acc n 2%nat + a3 a * acc n 3%nat in
  let Ig0 := Ig 0%nat in
  let Ig1 := Ig 1%nat * commonFactor in
  let commonFactor := commonFactor * commonFactor in
  let Ig2 := Ig 2%nat * commonFactor in
  let commonFactor := commonFactor * commonFactor in
  let Ig3 := Ig 3%nat * commonFactor in
  let commonFactor := commonFactor * commonFactor in
  let Ig4 := Ig 4%nat * commonFactor in
  let commonFactor := commonFactor * commonFactor in
  let Ig5 := Ig 5%nat * commonFactor in
  (preFactor * (Ig0 - half * Ig2 + 1 / LeafGen.o_ofZ Ar 24 * Ig4),
   preFactor * (Ig1 - 1 / LeafGen.o_ofZ Ar 6 * Ig3 + 1 / LeafGen.o_ofZ Ar 120 * Ig5)).

(** ** One Gaussian *)
(** The device function's arrays: knots, and the coefficients of every piece. *)
Record arrays : Type := mkArrays { knots : list T; s0 : list T; s1 : list T; s2 : list T; s3 : list T }.
Definition piece_at (ar : arrays) (i : nat) : piece := mkPiece (nth i (s0 ar) 0) (nth i (s1 ar) 0) (nth i (s2 ar) 0) (nth i (s3 ar) 0).
(** gaussian_splice, lines 299-336. *)
Definition gaussian_splice (tau adjTime x y adjSigma : T) (nKnots : nat) (ar : arrays) : quad :=
  let Gamma := 1 / tau in
  fold_left (fun q i =>
      let lo := nth i (knots ar) 0 in
      let hi := nth (S i) (knots ar) 0 in
      let e13 := evaluate_knot Gamma lo hi (piece_at ar i) adjTime adjSigma y in
      let e24 := evaluate_knot_sincos Gamma lo hi (piece_at ar i) adjTime adjSigma x in
      mkQuad (p1 q + fst e13) (p2 q + fst e24) (p3 q + snd e13) (p4 q + snd e24))
    (seq 0 (nKnots - 1)) (mkQuad 0 0 0 0).
(** mygaussian_high, lines 390-446: what it adds to the four functions. *)
Definition mygaussian_high (tau adjTime x y adjSigma selbias Tthres C0 : T) : quad :=
  let preConst := C0 * exp (selbias * Tthres) in
  let oSqrtA := adjSigma * x_sqrt2 X in
  let oSigma := 1 / adjSigma in
  let o2SqrtA := half * oSqrtA in
  let oSigma2 := oSigma * oSigma in
  let normG := sqrt1o2pi Ar X * oSigma in
  let q := half * adjTime * adjTime * oSigma2 in
  let Bgn := - adjTime * oSigma2 in
  let Gamma := 1 / tau in
  let B := Gamma + Bgn in
  let u0 := o2SqrtA * (B + selbias) in
  let u1 := 1 / oSqrtA * Tthres + u0 in
  let u02 := u0 * u0 in
  let u12 := u1 * u1 in
  let F := oSqrtA * exp (- q + u02) in
  let ig0 := sqrtpio2 Ar X * erfc u1 in
  let ig1 := half * exp (- (1) * u1 * u1) in
  let ig2 := ig1 * u1 + half * ig0 in
  let ig3 := ig1 * (u12 + 1) in
  let R := x * Gamma * oSqrtA in
  let cs := cossin Ar F R u0 ig0 ig1 ig2 ig3 in
  let u0py := o2SqrtA * (B - y * Gamma + selbias) in
  let u0my := o2SqrtA * (B + y * Gamma + selbias) in
  let u1py := u0py + 1 / oSqrtA * Tthres in
  let u1my := u0my + 1 / oSqrtA * Tthres in
  let Fpy := oSqrtA * exp (- q + u0py * u0py) in
  let Fmy := oSqrtA * exp (- q + u0my * u0my) in
  let Ipy := Fpy * sqrtpio2 Ar X * erfc u1py in
  let Imy := Fmy * sqrtpio2 Ar X * erfc u1my in
  mkQuad (preConst * normG * half * (Ipy + Imy)) (preConst * normG * fst cs)
         (preConst * normG * half * (Ipy - Imy)) (preConst * normG * snd cs).

(** ** The device function *)
(** The order of registration, lines 646-683: the base class gets cf .. os. The only constant is the number of knots. *)
Definition splice_params (cf tf cb cs tb ts ob os bias scale bias2 scale2 : T) (ks v0 v1 v2 v3 : list T) : list T :=
  [cf; tf; cb; cs; tb; ts; ob; os; bias; scale; bias2; scale2] ++ ks ++ v0 ++ v1 ++ v2 ++ v3.
(** Lines 484-500. None: more knots than the arrays hold (knots[8], spline_0[8], spline_1..3[7]), no piece at all
    (spline_1[nSplines - 1] is read below), or not that many parameters (another PDF's are read). *)
Definition read_arrays (ps : list T) (nKnots : nat) : option arrays :=
  let nSplines := (nKnots - 1)%nat in
  if Nat.leb nKnots 8 && Nat.leb 2 nKnots && Nat.leb (12 + nKnots + 4 * nSplines) (length ps) then
    let p k := nth k ps 0 in
    let col j := map (fun i => p (12 + nKnots + i + j * nSplines)%nat) (seq 0 nSplines) in
    Some (mkArrays (0 :: tl (map (fun i => p (12 + i)%nat) (seq 0 nKnots))) (col 0%nat) (col 1%nat) (col 2%nat) (col 3%nat))
  else None.
(** The slope and the constant of the exponential, lines 501-508. *)
Definition exp_tail (nKnots : nat) (ar : arrays) : T * T * T :=
  let m := nth (nKnots - 1 - 1) (s1 ar) 0 in
  let b := nth (nKnots - 1 - 1) (s0 ar) 0 in
  let lastKnot := nth (nKnots - 1) (knots ar) 0 in
  let fVal := m * lastKnot + b in
  (lastKnot, - m / fVal, fVal).
(** device_threegauss_resolutionSplice, lines 448-642. *)
Definition splice_rate (ps : list T) (nKnots : nat) (coshterm costerm sinhterm sinterm tau dtime x y sigma : T) : option T :=
  let p k := nth k ps 0 in
  let coreFraction := p 0%nat in
  let tailFraction := p 1%nat in
  let outlFraction := 1 - coreFraction - tailFraction in
  let coreBias := p 2%nat + p 8%nat in
  let tailBias := p 4%nat + p 10%nat in
  let outlBias := p 6%nat + p 10%nat in
  let coreScale := p 3%nat * p 9%nat in
  let tailScale := p 5%nat * p 11%nat in
  let outlScale := p 7%nat * p 11%nat in
  match read_arrays ps nKnots with
  | None => None
  | Some ar =>
    let '(lastKnot, expSlope, expConst) := exp_tail nKnots ar in
    let part bias scale :=
      add_quad Ar (gaussian_splice tau (dtime - bias * sigma) x y (scale * sigma) nKnots ar)
                  (mygaussian_high tau (dtime - bias * sigma) x y (scale * sigma) expSlope lastKnot expConst) in
    Some (combine_rate Ar (mix Ar coreFraction tailFraction outlFraction (part coreBias coreScale) (part tailBias tailScale) (part outlBias outlScale))
            coshterm costerm sinhterm sinterm)
  end.

(** ** The normalisation *)
(** evaluatedPowGammaYPlus and the two other arrays, lines 767-777, element n. *)
Fixpoint pow_gamma (Gamma yterm : T) (n : nat) : T := match n with O => 1 | S m => pow_gamma Gamma yterm m * Gamma * yterm end.
Fixpoint pow_gamma1 (Gamma : T) (n : nat) : T := match n with O => 1 | S m => pow_gamma1 Gamma m * Gamma end.
(** NormTermY, lines 690-701. *)
Definition norm_term_y (tlow thigh yterm Gamma : T) (k : nat) (powg : nat -> T) : T :=
  fold_left (fun res i =>
      let preFactor := - (1) / powg (S i) * factorial k / factorial (k - i) in
      let cur := pow thigh (k - i) * exp (- thigh * Gamma * yterm) - pow tlow (k - i) * exp (- tlow * Gamma * yterm) in
      res + preFactor * cur)
    (seq 0 (S k)) 0.
(** ThreeGaussResolutionSplice::normalization, lines 717-962. None: one of the vectors is too short (an exception, or an index beyond the end). *)
Definition splice_normalization (ks v0 v1 v2 v3 : list T) (di1 di2 di3 di4 tau x y : T) : option T :=
  let Gamma := 1 / tau in
  let nKnots := length ks in
  let n := (nKnots - 1)%nat in
  if Nat.leb 2 nKnots && Nat.leb n (length v0) && Nat.leb n (length v1) && Nat.leb n (length v2) && Nat.leb n (length v3) then
    let ar := mkArrays ks v0 v1 v2 v3 in
    let '(Tthres, selBias, expConst) := exp_tail nKnots ar in
    let q := fold_left (fun q i =>
        let lo := nth i ks 0 in
        let hi := nth (S i) ks 0 in
        let a := piece_at ar i in
        let ym k := norm_term_y lo hi (1 - y) Gamma k (pow_gamma Gamma (1 - y)) in
        let yp k := norm_term_y lo hi (y + 1) Gamma k (pow_gamma Gamma (y + 1)) in
        let g k := norm_term_y lo hi 1 Gamma k (pow_gamma1 Gamma) in
        let one k := half * ym k + half * yp k in
        let thr k := half * ym k - half * yp k in
        let two k := g k - half * pow (x * Gamma) 2 * g (k + 2)%nat + 1 / LeafGen.o_ofZ Ar 24 * pow (x * Gamma) 4 * g (k + 4)%nat in
        let fou k := x * Gamma * g (k + 1)%nat - 1 / LeafGen.o_ofZ Ar 6 * pow (x * Gamma) 3 * g (k + 3)%nat
                     + 1 / LeafGen.o_ofZ Ar 120 * pow (x * Gamma) 5 * g (k + 5)%nat in
        let add acc f := acc + a0 a * f 0%nat + a1 a * f 1%nat + a2 a * f 2%nat + a3 a * f 3%nat in
        mkQuad (add (p1 q) one) (add (p2 q) two) (add (p3 q) thr) (add (p4 q) fou))
      (seq 0 n) (mkQuad 0 0 0 0) in
    let pre := expConst * exp (selBias * Tthres) in
    let gb := Gamma + selBias in
    let py := y * Gamma - Gamma - selBias in
    let my := - y * Gamma - Gamma - selBias in
    let den := gb * gb + x * x * Gamma * Gamma in
    let one_high := half * pre * (- (1) / py * exp (Tthres * py) - 1 / my * exp (Tthres * my)) in
    let thr_high := half * pre * (- (1) / py * exp (Tthres * py) + 1 / my * exp (Tthres * my)) in
    let two_high := pre * (- exp (- gb * Tthres) / den * (- gb * cos (x * Gamma * Tthres) + x * Gamma * sin (x * Gamma * Tthres))) in
    let fou_high := pre * (- exp (- gb * Tthres) / den * (- gb * sin (x * Gamma * Tthres) - x * Gamma * cos (x * Gamma * Tthres))) in
    Some (combine Ar (p1 q + one_high) (p2 q + two_high) (p3 q + thr_high) (p4 q + fou_high) di1 di2 di3 di4)
  else None.
End Splice.
