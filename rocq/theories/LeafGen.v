(** The arithmetic of the basic PDFs as pure functions of their arguments, transcribed operation by operation from
    src/PDFs/basic/*.cu (and DalitzVetoPdf, SquareDalitzEffPdf), for any arithmetic [ops] and any mathematics library
    [mlib].  Read in IEEE doubles (LeafFormulas.v) this is the code; read in the real numbers (FormulaSpec.v) it is what the
    code would compute without rounding.

    Simplifications: contraction of a*b+c into a fused multiply-add (allowed to compilers on some targets) is not
    modelled; decimal literals are written as the double nearest to them, m * 2^e. *)
From Coq Require Import List ZArith Bool.
Import ListNotations.

(** Arithmetic on numbers of type T: literals and integers, operations, comparisons, conversion to int after floor()
    (None: not representable). *)
Record ops (T : Type) : Type := mkOps {
  o_ofZ : Z -> T; o_lit : Z -> Z -> T;
  o_add : T -> T -> T; o_sub : T -> T -> T; o_mul : T -> T -> T; o_div : T -> T -> T; o_opp : T -> T;
  o_sqrt : T -> T; o_abs : T -> T;
  o_lt : T -> T -> bool; o_le : T -> T -> bool; o_eq : T -> T -> bool;
  o_floor : T -> option Z; o_zero : T; o_one : T; o_half : T }.
Arguments o_ofZ {T}. Arguments o_lit {T}. Arguments o_add {T}. Arguments o_sub {T}. Arguments o_mul {T}.
Arguments o_div {T}. Arguments o_opp {T}. Arguments o_sqrt {T}. Arguments o_abs {T}. Arguments o_lt {T}.
Arguments o_le {T}. Arguments o_eq {T}. Arguments o_floor {T}. Arguments o_zero {T}. Arguments o_one {T}. Arguments o_half {T}.
(** <cmath> and device_Faddeeva_2 (VoigtianPdf.cu:124-275; real part). *)
Record mlib (T : Type) : Type := mkLib {
  m_exp : T -> T; m_log : T -> T; m_pow : T -> T -> T; m_sin : T -> T; m_cos : T -> T;
  m_sinh : T -> T; m_erfc : T -> T; m_atan2 : T -> T -> T; m_faddeeva_re : T -> T -> T }.
Arguments m_exp {T}. Arguments m_log {T}. Arguments m_pow {T}. Arguments m_sin {T}. Arguments m_cos {T}.
Arguments m_sinh {T}. Arguments m_erfc {T}. Arguments m_atan2 {T}. Arguments m_faddeeva_re {T}.

Section Formulas.
Context {T : Type} (Ar : ops T) (L : mlib T).
Local Notation exp := (m_exp L).
Local Notation log := (m_log L).
Local Notation pow := (m_pow L).
Local Notation ofZ := (o_ofZ Ar).
Local Notation lit := (o_lit Ar).
Local Notation half := (o_half Ar).
Local Notation sqrt := (o_sqrt Ar).
Local Notation abs := (o_abs Ar).
Local Notation opp := (o_opp Ar).
Local Notation floor := (o_floor Ar).
Declare Scope T_scope.
Delimit Scope T_scope with T.
Bind Scope T_scope with T.
Local Infix "+" := (o_add Ar) : T_scope.
Local Infix "-" := (o_sub Ar) : T_scope.
Local Infix "*" := (o_mul Ar) : T_scope.
Local Infix "/" := (o_div Ar) : T_scope.
Local Notation "- x" := (o_opp Ar x) : T_scope.
Local Notation "0" := (o_zero Ar) : T_scope.
Local Notation "1" := (o_one Ar) : T_scope.
Local Notation "2" := (o_ofZ Ar 2) : T_scope.
Local Notation "4" := (o_ofZ Ar 4) : T_scope.
Local Notation "x < y" := (o_lt Ar x y) : T_scope.
Local Notation "x <= y" := (o_le Ar x y) : T_scope.
Local Notation "x > y" := (o_lt Ar y x) : T_scope.
Local Notation "x >= y" := (o_le Ar y x) : T_scope.
Local Notation "x == y" := (o_eq Ar x y) (at level 70) : T_scope.
Local Open Scope T_scope.

(** pow(x, int): GlobalCudaDefines.h:163 (and std::pow(double,int)): the exponent is converted to double. *)
Definition powi (x : T) (n : Z) : T := pow x (ofZ n).
Definition pow2 (x : T) : T := x * x.                 (* GlobalCudaDefines.h:150 *)
Definition pow3 (x : T) : T := x * x * x.             (* GlobalCudaDefines.h:151 *)
Definition minus_half : T := - half.

(** ArgusPdf.cu:17-24 *)
Definition argus_upper (x m0 slope power : T) : T :=
  let t := x / m0 in
  if t >= 1 then 0 else
  let t := 1 - t * t in
  x * pow t power * exp (slope * t).
(** ArgusPdf.cu:37-46 *)
Definition argus_lower (x m0 slope power : T) : T :=
  let t := x / m0 in
  if t <= 1 then 0 else
  let t := t * t in
  let t := t - 1 in
  x * pow t power * exp (slope * t).

(** BWPdf.cu:12-13 *)
Definition breit_wigner (x mean gamma : T) : T :=
  let rootPi := opp 2 * m_atan2 L (opp 1) 0 in
  (gamma / ((x - mean) * (x - mean) + gamma * gamma / 4)) / (2 * rootPi).

(** GaussianPdf.cu:14, BifurGaussPdf.cu:22, ScaledGaussianPdf.cu:15 *)
Definition gauss (x mean sigma : T) : T :=
  exp (minus_half * (x - mean) * (x - mean) / (sigma * sigma)).
(** BifurGaussPdf.cu:15-22 *)
Definition bifur_gauss (x mean sigmaL sigmaR : T) : T :=
  let sigma := if x > mean then sigmaR else sigmaL in gauss x mean sigma.
(** ScaledGaussianPdf.cu:13-15 *)
Definition scaled_gauss (x mean sigma delta epsilon : T) : T :=
  gauss x (mean + delta) (sigma * (1 + epsilon)).

(** CorrGaussianPdf.cu:19-22 *)
Definition corr_gauss (x y mean1 sigma1 mean2 sigma2 corr : T) : T :=
  let x_dist := (x - mean1) / sigma1 in
  let sigma2 := sigma2 * (1 + corr * x_dist * x_dist) in
  let y_dist := (y - mean2) * (if sigma2 == 0 then 0 else 1 / sigma2) in
  exp (minus_half * (x_dist * x_dist + y_dist * y_dist)).

(** CrystalBallPdf.cu:18-32 *)
Definition crystal_ball (x mean sigma alpha power : T) : T :=
  let rx := if negb (sigma == 0) then (x - mean) / sigma else 0 in
  if ((alpha > 0) && (rx <= alpha)) || ((alpha < 0) && (rx >= alpha)) || (alpha == 0)
  then exp (minus_half * rx * rx)
  else
    let n_over_alpha := power / alpha in
    let a := exp (minus_half * alpha * alpha) in
    let b := n_over_alpha - alpha in
    let d := b + rx in
    let d := if negb (d == 0) then n_over_alpha / d else 0 in
    a * pow d power.

(** ExpGausPdf.cu:14-19 *)
Definition exp_gaus (x mean sigma alpha : T) : T :=
  let ret := half * alpha in
  let exparg := ret * (2 * mean + alpha * sigma * sigma - 2 * x) in
  let erfarg := (mean + alpha * sigma * sigma - x) / (sigma * (lit 3184525836098291 (-51))) in
  let ret := ret * exp exparg in
  ret * m_erfc L erfarg.

(** ExpPdf.cu:12 *)
Definition exponential (x alpha : T) : T := exp (alpha * x).

(** JohnsonSUPdf.cu:6, 17-23 *)
Definition johnson_su (x Jm Js Jg Jd : T) : T :=
  let px := (x - Jm) / Js in
  let px2 := px * px in
  let sqrt_arg := sqrt (1 + px2) in
  let inv_sinh := log (px + sqrt_arg) in
  let gaus_arg := Jg + Jd * inv_sinh in
  Jd / (Js * (lit 2822212231689113 (-50)) * sqrt_arg) * exp (minus_half * gaus_arg * gaus_arg).

(** KinLimitBWPdf.cu:7-19 *)
Definition get_momentum (mass pimass d0mass : T) : T :=
  if mass <= 0 then 0 else
  let lambda := mass * mass - pimass * pimass - d0mass * d0mass in
  let lambda := lambda * lambda in
  let lambda := lambda - 4 * pimass * pimass * d0mass * d0mass in
  if lambda <= 0 then 0 else sqrt (half * lambda / mass).
(** KinLimitBWPdf.cu:21-24 *)
Definition bw_factor (momentum : T) : T := 1 / sqrt (1 + (lit 5764607523034235 (-51)) * momentum * momentum).
(** KinLimitBWPdf.cu:35-53 *)
Definition kin_limit_bw (x mean width d0mass pimass : T) : T :=
  let mean := mean + d0mass in
  let x := x + d0mass in
  let pReal := get_momentum mean pimass d0mass in
  if 0 >= pReal then 0 else
  let mean := mean * mean in
  let pX := get_momentum x pimass d0mass in
  let phspfactor := pow3 (pX / pReal) * pow2 (bw_factor pX / bw_factor pReal) in
  let phspMassSq := pow2 (mean - x * x) in
  let phspGammaSq := pow2 (width * phspfactor) in
  (phspfactor * mean * width * width) / (phspMassSq + mean * phspGammaSq).

(** The rational functions of LandauPdf.cu:54-73: (c0 + (c1 + (c2 + (c3 + c4 * v) * v) * v) * v). *)
Definition horner5 (c : T * T * T * T * T) (v : T) : T :=
  let '(c0, c1, c2, c3, c4) := c in c0 + (c1 + (c2 + (c3 + c4 * v) * v) * v) * v.
(** LandauPdf.cu:9-28 *)
Definition landau_p1 := ((lit 3836972194337497 (-53)), (lit (-9005488247170561) (-56)), (lit 5741900301655439 (-57)), (lit (-1815357814147725) (-58)), (lit 6969005833735331 (-62))).
Definition landau_q1 := (1, (lit (-6103747722479409) (-54)), (lit 1728372247772351 (-54)), (lit (-4634866320969473) (-58)), (lit 8713647138192125 (-61))).
Definition landau_p2 := ((lit 3221950129531611 (-54)), (lit 1057406824539927 (-53)), (lit 4291319448368109 (-58)), (lit (-6433253162562957) (-62)), (lit 4735711635985167 (-65))).
Definition landau_q2 := (1, (lit 6691263752621395 (-53)), (lit 2840810261582225 (-53)), (lit 2411846772952727 (-55)), (lit 2533720744469111 (-58))).
Definition landau_p3 := ((lit 6443910685797079 (-55)), (lit 6743986715757349 (-56)), (lit 3646337725635627 (-59)), (lit 4878549397364095 (-66)), (lit (-2397839549906231) (-70))).
Definition landau_q3 := (1, (lit 5492418897598343 (-53)), (lit 4612796903333073 (-54)), (lit 3420373945570175 (-56)), (lit 8021222715144737 (-60))).
Definition landau_p4 := ((lit 8893757549600241 (-53)), (lit 521926415046357 (-42)), (lit 3735170460452173 (-42)), (lit (-6542351421729979) (-43)), (lit 117380073178979 (-38))).
Definition landau_q4 := (1, (lit 7519716318377757 (-46)), (lit 2969997478747713 (-43)), (lit 8869594886341663 (-42)), (lit 7023959602565055 (-42))).
Definition landau_p5 := ((lit 4520150689267455 (-52)), (lit 5895853794801745 (-45)), (lit 5266343255945473 (-40)), (lit 2916161527472183 (-37)), (lit (-6136635281239337) (-38))).
Definition landau_q5 := (1, (lit 345120105469693 (-41)), (lit 4118012431187405 (-40)), (lit 5406682884918779 (-39)), (lit 2299500873931041 (-35))).
Definition landau_p6 := ((lit 4507326891990501 (-52)), (lit 2924324077111591 (-42)), (lit 8654933135845019 (-37)), (lit 8169967532400391 (-34)), (lit (-6167153321040675) (-30))).
Definition landau_q6 := (1, (lit 5729863921407527 (-43)), (lit 3915273861610739 (-36)), (lit 5700880945779835 (-35)), (lit (-6046798425695977) (-31))).
(** LandauPdf.cu:37-79 *)
Definition landau (x mpv sigma : T) : T :=
  if sigma <= 0 then 0 else
  let v := (x - mpv) / sigma in
  if v < (lit (-11) (-1)) then
    let u := exp (v + 1) in
    if u < (lit 7737125245533627 (-86)) then 0 else
    let ue := exp (opp 1 / u) in
    let us := sqrt u in
    ((lit 224584538112677 (-49)) * (ue / us) * (1 + ((lit 6004799503641045 (-57)) + ((lit (-1438649881125703) (-56)) + (lit 7809714353679001 (-58)) * u) * u) * u)) / sigma
  else if v < opp 1 then
    let u := exp ((- v) - 1) in
    (exp (- u) * sqrt u * horner5 landau_p1 v / horner5 landau_q1 v) / sigma
  else if v < 1 then (horner5 landau_p2 v / horner5 landau_q2 v) / sigma
  else if v < (lit 5 (0)) then (horner5 landau_p3 v / horner5 landau_q3 v) / sigma
  else if v < (lit 3 (2)) then let u := 1 / v in (u * u * horner5 landau_p4 u / horner5 landau_q4 u) / sigma
  else if v < (lit 25 (1)) then let u := 1 / v in (u * u * horner5 landau_p5 u / horner5 landau_q5 u) / sigma
  else if v < (lit 75 (2)) then let u := 1 / v in (u * u * horner5 landau_p6 u / horner5 landau_q6 u) / sigma
  else
    let u := 1 / (v - v * log v / (v + 1)) in
    (u * u * (1 + ((lit (-4155851187249331) (-51)) + (lit (-4824076613397811) (-50)) * u) * u)) / sigma.

(** NovosibirskPdf.cu:16-39 *)
Definition novosibirsk (x mean sigma tail : T) : T :=
  let qc :=
    if abs tail < (lit 944473296573929 (-73)) then half * pow2 ((x - mean) / sigma)
    else
      let qa := tail * sqrt (log 4) in
      let qb := m_sinh L qa / qa in
      let qx := (x - mean) / sigma * qb in
      let qy := 1 + tail * qx in
      if qy > (lit 944473296573929 (-73)) then half * (pow2 (log qy / tail) + tail * tail) else (lit 15 (0)) in
  exp (- qc).

(** StepPdf.cu:32-36; [up] is the integer constant. *)
Definition step (x x0 : T) (up : Z) : T :=
  if Z.eqb 1 up then (if x > x0 then 1 else 0) else (if x > x0 then 0 else 1).

(** TrigThresholdPdf.cu:6-10 *)
Definition thresh_calc (distance linConst : T) : T :=
  if distance > half then 1 else linConst + (1 - linConst) * m_sin L (distance * (lit 7074237743944945 (-51))).
(** TrigThresholdPdf.cu:21-22, 34-35 *)
Definition trig_upper (x thresh trigConst linConst : T) : T := thresh_calc (trigConst * (thresh - x)) linConst.
Definition trig_lower (x thresh trigConst linConst : T) : T := thresh_calc (trigConst * (x - thresh)) linConst.
(** TrigThresholdPdf.cu:49-54, 67-72 *)
Definition trig_upper2 (x y thresh trigConst linConst mass : T) : T :=
  trig_upper (mass - x - y) thresh trigConst linConst.
Definition trig_lower2 (x y thresh trigConst linConst mass : T) : T :=
  trig_lower (mass - x - y) thresh trigConst linConst.

(** VoigtianPdf.cu:286-323: [w] is the Breit-Wigner width and [s] the Gaussian resolution. *)
Definition voigt (x m w s : T) : T :=
  if (0 == s) && (0 == w) then 1 else
  let arg := x - m in
  if 0 == s then 1 / (arg * arg + (lit 1 (-2)) * w * w) else
  let coef := minus_half / (s * s) in
  if 0 == w then exp (coef * arg * arg) else
  let c := (lit 796131459066231 (-50)) / s in
  let a := half * c * w in
  let u := c * arg in
  c * (lit 5081767996463981 (-53)) * m_faddeeva_re L u a.

(** Polynomials.  [exp_poly]: ExpPdf.cu:36-43, exponent sum of x^i * w_i, i from [i0].
    [polynomial]: PolynomialPdf.cu:16-22, sum of c_i * x^(lowest+i). *)
Fixpoint exp_poly_arg (x : T) (i : Z) (ws : list T) (acc : T) : T :=
  match ws with [] => acc | w :: t => exp_poly_arg x (i + 1)%Z t (acc + powi x i * w) end.
Definition exp_poly (x : T) (i0 : Z) (ws : list T) : T := exp (exp_poly_arg x i0 ws 0).
Fixpoint polynomial_from (x : T) (deg : Z) (cs : list T) (acc : T) : T :=
  match cs with [] => acc | c :: t => polynomial_from x (deg + 1)%Z t (acc + c * powi x deg) end.
Definition polynomial (x : T) (lowest : Z) (cs : list T) : T := polynomial_from x lowest cs 0.

(** PolynomialPdf.cu:70-113, one box: powers of the box number [i] in base [md] (one more than the degree); returns the
    product of (x_j - off_j)^p_j and the sum of the powers. *)
Fixpoint box_term (md i : Z) (xs offs : list T) (term : T) (sum : Z) : T * Z :=
  match xs, offs with
  | x :: xs', o :: offs' =>
      let p := (i mod md)%Z in
      box_term md (i / md)%Z xs' offs' (term * powi (x - o) p) (sum + p)%Z
  | _, _ => (term, sum)
  end.
(** The loop over boxes; [cs] are the coefficients not used yet ([None]: there are not enough of them). *)
Fixpoint boxes (md : Z) (is : list Z) (xs offs cs : list T) (ret : T) : option T :=
  match is with
  | [] => Some ret
  | i :: is' =>
      let '(term, s) := box_term md i xs offs 1 0%Z in
      if Z.leb md s then boxes md is' xs offs cs ret
      else match cs with
           | [] => None
           | c :: cs' => boxes md is' xs offs cs' (ret + term * c)
           end
  end.
(** PolynomialPdf.cu:53-68 *)
Definition multi_polynomial (maxDegree : nat) (xs offs cs : list T) : option T :=
  let md := S maxDegree in
  match cs with
  | [] => None
  | c :: cs' => boxes (Z.of_nat md) (map Z.of_nat (seq 1 (md ^ length xs - 1))) xs offs cs' c
  end.

(** BernsteinPdf.cu:9-24 *)
Fixpoint factorial (n : nat) : T := match n with O => 1 | S p => ofZ (Z.of_nat n) * factorial p end.
Definition binomial (k n : nat) : T :=
  if Nat.ltb n k then 0 else factorial n / (factorial k * factorial (n - k)).
(** BernsteinPdf.cu:43-58; [i] the index of the next coefficient, [md] = maxDegree - 1. *)
Fixpoint bernstein_from (xNorm width : T) (md i : nat) (cs : list T) (acc : T) : T :=
  match cs with
  | [] => acc
  | c :: t =>
      let val := c * (binomial i md * powi xNorm (Z.of_nat i)
                      * powi (1 - xNorm) (Z.of_nat md - Z.of_nat i)%Z) in
      bernstein_from xNorm width md (S i) t (acc + val / width)
  end.
Definition bernstein (x lo up : T) (mindeg : nat) (cs : list T) : T :=
  bernstein_from ((x - lo) / (up - lo)) (up - lo) (length cs + mindeg - 1) 0 cs 0.

(** BinTransformPdf.cu:10-27: the global bin number; each axis is (value, lower limit, bin size, number of bins).
    int overflow of the products is not modelled (Z). *)
Fixpoint bin_number (axes : list (T * T * T * Z)) (ret prev : Z) : option Z :=
  match axes with
  | [] => Some ret
  | (x, lo, size, n) :: t =>
      match floor ((x - lo) / size) with
      | Some b => bin_number t (ret + b * prev)%Z (prev * n)%Z
      | None => None
      end
  end.

(** VariableBinTransform1DPdf.cu:8-24 *)
Fixpoint count_below (x : T) (limits : list T) : Z :=
  match limits with [] => 0%Z | l :: t => if x < l then 0%Z else (1 + count_below x t)%Z end.
Definition var_bin (x : T) (limits : list T) : T :=
  ofZ (count_below (if x < 0 then - x else x) limits).

(** inDalitz, DalitzPlotHelpers.cu:14-59 *)
Definition in_dalitz (m12 m13 bigM dm1 dm2 dm3 : T) : bool :=
  let dm1pdm2 := dm1 + dm2 in
  let bigMmdm3 := bigM - dm3 in
  let bigMmdm1 := bigM - dm1 in
  let m23 := bigM * bigM + dm1 * dm1 + dm2 * dm2 + dm3 * dm3 - m12 - m13 in
  if (m23 < 0) || (m23 > bigMmdm1 * bigMmdm1) then false else
  let m12less := negb (m12 < dm1pdm2 * dm1pdm2) in
  let m12grea := negb (m12 > bigMmdm3 * bigMmdm3) in
  let sqrtM12 := sqrt m12 in
  let dm11 := dm1 * dm1 in
  let dm22 := dm2 * dm2 in
  let dm33 := dm3 * dm3 in
  let e1star := half * (m12 - dm22 + dm11) / sqrtM12 in
  let e3star := half * (bigM * bigM - m12 - dm33) / sqrtM12 in
  let rte1 := sqrt (e1star * e1star - dm11) in
  let rte3 := sqrt (e3star * e3star - dm33) in
  let minimum := (e1star + e3star) * (e1star + e3star) - (rte1 + rte3) * (rte1 + rte3) in
  let m13less := negb (m13 < minimum) in
  let maximum := (e1star + e3star) * (e1star + e3star) - (rte1 - rte3) * (rte1 - rte3) in
  let m13grea := negb (m13 > maximum) in
  m12less && m12grea && m13less && m13grea.

(** DalitzVetoPdf.cu:19-32; a veto is (pair number, lower edge, upper edge), pair 0 = m12, 1 = m13, else m23
    (DalitzPlotHelpers.h:81). *)
Fixpoint vetoes (x y z : T) (vs : list (Z * T * T)) (ret : T) : T :=
  match vs with
  | [] => ret
  | (pno, mn, mx) :: t =>
      let v := if Z.eqb 0 pno then x else if Z.eqb 1 pno then y else z in
      vetoes x y z t (ret * (if (v < mx) && (v > mn) then 0 else 1))
  end.
Definition dalitz_veto (x y motherM d1 d2 d3 : T) (vs : list (Z * T * T)) : T :=
  let massSum := motherM * motherM + d1 * d1 + d2 * d2 + d3 * d3 in
  let z := massSum - x - y in
  vetoes x y z vs (if in_dalitz x y motherM d1 d2 d3 then 1 else 0).

(** SquareDalitzEffPdf.cu:8-28 *)
Definition thetaprime (m12 m13 mD mKS0 mh1 mh2 : T) : T :=
  let m23 := mD * mD + mKS0 * mKS0 + mh1 * mh1 + mh2 * mh2 - m12 - m13 in
  if m23 < 0 then 0 else
  let num := m23 * (m12 - m13) in
  let lambda1 := (m23 - mh1 * mh1 + mh2 * mh2) * (m23 - mh1 * mh1 + mh2 * mh2) - 4 * m23 * mh2 * mh2 in
  let lambda2 := (mD * mD - mKS0 * mKS0 - m23) * (mD * mD - mKS0 * mKS0 - m23) - 4 * m23 * mKS0 * mKS0 in
  let denum := sqrt lambda1 * sqrt lambda2 in
  if (lambda1 < 0) || (lambda2 < 0) then (lit (-99) (0))
  else if negb (denum == 0) then num / denum else (lit (-99) (0)).
(** SquareDalitzEffPdf.cu:49-72 *)
Definition square_dalitz (x y c0 c1 c2 c3 c4 c5 c6 c7 : T) : T :=
  let mD := (lit 4199223846554661 (-51)) in let mKS0 := (lit 560260178543865 (-50)) in let mh1 := (lit 5028539199936801 (-55)) in let mh2 := (lit 5028539199936801 (-55)) in
  if negb (in_dalitz x y mD mKS0 mh1 mh2) then 0 else
  let thetap := thetaprime x y mD mKS0 mh1 mh2 in
  if (thetap > 1) || (thetap < opp 1) then 0 else
  let m23 := mD * mD + mKS0 * mKS0 + mh1 * mh1 + mh2 * mh2 - x - y in
  if (m23 < 0) || (m23 > 2) then 0 else
  c0 * m23 * m23 + c1 * m23 + c2 * m23 * thetap * thetap + c3 * thetap * thetap + c4 * thetap + c5
  + c6 * m23 * m23 * m23 * m23 + c7 * m23 * m23 * m23.

(** Analytic integrals: ExpPdf.cu:120-131, GaussianPdf.cu:28-35, StepPdf.cu:52-61, JohnsonSUPdf.cu:36-38;
    root2 is 1.4142135623730951, GlobalCudaDefines.h:137. *)
Definition exp_integral (alpha lo hi : T) : T := if 0 == alpha then hi - lo else (exp (alpha * hi) - exp (alpha * lo)) / alpha.
Definition root2 : T := lit 6369051672525773 (-52).
Definition gauss_integral (sigma : T) : T := sigma * (root2 * sqrt (m_atan2 L 0 (opp 1))).
Definition step_integral (x0 : T) (up : Z) (lo hi : T) : T := if Z.eqb 1 up then hi - x0 else x0 - lo.
Definition johnson_integral : T := 1.

End Formulas.
