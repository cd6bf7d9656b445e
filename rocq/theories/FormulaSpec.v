(** What the headers of src/PDFs/basic document, over the real numbers, and the arithmetic of LeafGen.v without rounding. *)
From Coq Require Import List ZArith Reals Bool.
From Coquelicot Require Import Coquelicot.
From Flocq Require Import Core.
From Verif Require Import F64 PdfModel.
From Verif Require LeafGen PdfSpec NormSpec.
Import ListNotations.
Open Scope R_scope.

(** ** Exact arithmetic *)
Definition Rltb (x y : R) : bool := if Rlt_dec x y then true else false.
Definition Rleb (x y : R) : bool := if Rle_dec x y then true else false.
Definition Reqb (x y : R) : bool := if Req_EM_T x y then true else false.
Definition Rfloor_int (x : R) : option Z :=
  let z := Zfloor x in if ((-2147483648 <=? z)%Z && (z <=? 2147483647)%Z) then Some z else None.
Definition R_ops : LeafGen.ops R :=
  LeafGen.mkOps R IZR (fun m e => IZR m * powerRZ 2 e) Rplus Rminus Rmult Rdiv Ropp sqrt Rabs Rltb Rleb Reqb Rfloor_int 0 1 (/ 2).

(** pow of <cmath>: x^y for x > 0, and for a whole number y; 0 elsewhere (where it would be NaN). *)
Definition Rpow (x y : R) : R :=
  if Rlt_dec 0 x then Rpower x y else if Req_EM_T y (IZR (Zfloor y)) then powerRZ x (Zfloor y) else 0.
Definition Rerfc (x : R) : R := 1 - 2 / sqrt PI * RInt (fun t => exp (- t ^ 2)) 0 x.
(** atan2(y, x) *)
Definition Ratan2 (y x : R) : R :=
  if Rlt_dec 0 x then atan (y / x)
  else if Rlt_dec x 0 then (if Rle_dec 0 y then atan (y / x) + PI else atan (y / x) - PI)
  else if Rlt_dec 0 y then PI / 2 else if Rlt_dec y 0 then - (PI / 2) else 0.
(** [W x y]: the real part of the Faddeeva function at x + iy; nothing is assumed about it. *)
Definition R_lib (W : R -> R -> R) : LeafGen.mlib R := LeafGen.mkLib R exp ln Rpow sin cos sinh Rerfc Ratan2 W.

(** ** The documented formulas *)
Definition gaussian (x m s : R) : R := exp (- ((x - m) ^ 2 / (2 * s ^ 2))).
(** sum of a_i * x^(k + i) *)
Fixpoint power_series (x : R) (k : nat) (cs : list R) : R :=
  match cs with [] => 0 | c :: t => c * x ^ k + power_series x (S k) t end.

(** The exponents of the monomials of total degree at most N in n observables, in the documented order: for each choice of
    the powers of the other observables, in their order, the power of the leftmost observable runs from 0 up. *)
Fixpoint monomials (n N : nat) : list (list nat) :=
  match n with
  | O => [[]]
  | S n' => flat_map (fun e => map (fun p => p :: e) (seq 0 (S N - list_sum e))) (monomials n' N)
  end.
Fixpoint monomial (xs : list R) (e : list nat) : R :=
  match xs, e with x :: xs', p :: e' => x ^ p * monomial xs' e' | _, _ => 1 end.
(** sum over the monomials in order of (coefficient * monomial) *)
Fixpoint poly_sum (xs : list R) (es : list (list nat)) (cs : list R) : R :=
  match es, cs with e :: es', c :: cs' => c * monomial xs e + poly_sum xs es' cs' | _, _ => 0 end.

(** The Bernstein polynomial of degree n, per unit of x. *)
Fixpoint bernstein_sum (t : R) (n i : nat) (cs : list R) : R :=
  match cs with [] => 0 | c :: r => c * (Binomial.C n i * t ^ i * (1 - t) ^ (n - i)) + bernstein_sum t n (S i) r end.

(** Global bin: (bin of axis 0) + (bin of axis 1) * n0 + (bin of axis 2) * n0 * n1 + ... *)
Fixpoint global_bin (axes : list (R * R * R * Z)) : Z :=
  match axes with
  | [] => 0%Z
  | (x, l, s, n) :: t => (Zfloor ((x - l) / s) + n * global_bin t)%Z
  end.

(** KinLimitBWPdf.h, literally. *)
Definition kl_lambda (x M m : R) : R := ((x + M) ^ 2 - (M - m) ^ 2) * ((x + M) ^ 2 - (M + m) ^ 2).
Definition kl_p (x M m : R) : R := sqrt (kl_lambda x M m / (2 * x)).
Definition kl_bW (x M m : R) : R := 1 / sqrt (1 + (16 / 10) ^ 2 * kl_p x M m ^ 2).
Definition kl_S (x x0 M m : R) : R := (kl_p x M m / kl_p x0 M m) ^ 3 * (kl_bW x M m / kl_bW x0 M m) ^ 2.
Definition kin_limit_documented (x x0 G M m : R) : R :=
  if Rle_dec (kl_lambda x0 M m) 0 then 0
  else kl_S x x0 M m * (x0 + M) * G ^ 2 / (((x0 + M) - (x + M) ^ 2) ^ 2 + (x0 + M) * G ^ 2 * kl_S x x0 M m ^ 2).

(** NovosibirskPdf.h, literally. *)
Definition novosibirsk_documented (x m s t : R) : R :=
  exp (- (1 / 2) * (ln (1 + t * ((x - m) / s) * (sinh (t * sqrt (ln 4)) / sqrt (ln 4))) ^ 2 / t + t ^ 2)).

(** Breit-Wigner of width [w] smeared by a Gaussian of width [s]: the limits for w = 0 and s = 0 are the Gaussian and the
    (unnormalised) Breit-Wigner. *)
Definition voigt_profile (W : R -> R -> R) (r2 rpi : R) (x m s w : R) : R :=
  if Req_EM_T s 0 then (if Req_EM_T w 0 then 1 else 1 / ((x - m) ^ 2 + w ^ 2 / 4))
  else if Req_EM_T w 0 then gaussian x m s
  else r2 / s * rpi * W (r2 / s * (x - m)) (r2 / s * w / 2).

(** The constants sqrt 2, sqrt(2 pi), pi, 1 / sqrt 2, 1 / sqrt pi and 1.6^2 that the code writes as decimal fractions. *)
Record consts : Type := mkConsts { k_r2 : R; k_r2pi : R; k_pi : R; k_ir2 : R; k_irpi : R; k_rr : R }.
Definition exact_consts : consts := mkConsts (sqrt 2) (sqrt (2 * PI)) PI (/ sqrt 2) (/ sqrt PI) (256 / 100).
Definition near (d : R) (k : consts) : Prop :=
  Rabs (k_r2 k - sqrt 2) <= d /\ Rabs (k_r2pi k - sqrt (2 * PI)) <= d /\ Rabs (k_pi k - PI) <= d /\
  Rabs (k_ir2 k - / sqrt 2) <= d /\ Rabs (k_irpi k - / sqrt PI) <= d /\ Rabs (k_rr k - 256 / 100) <= d.

Definition threshold (k : consts) (d a : R) : R := if Rlt_dec (1 / 2) d then 1 else a + (1 - a) * sin (d * k_pi k).
Definition sg (a : R) : R := if Rlt_dec a 0 then -1 else 1.

Section Documented.
Context {V : Type}.
Variable W : R -> R -> R.
Variable k : consts.
Variable lims : V -> R * R.
Variable v : V -> R.
(** The formula in the header of the class, with the arguments named as in the constructor; [None]: the header gives no
    closed formula. *)
Definition documented (l : leaf V) : option R :=
  match l with
  | LArgus x m0 a upper p =>
      Some (if upper
            then (if Rle_dec (v m0) (v x) then 0
                  else v x * Rpow ((v m0 ^ 2 - v x ^ 2) / v m0 ^ 2) (v p) * exp (v a * ((v m0 ^ 2 - v x ^ 2) / v m0 ^ 2)))
            else (if Rle_dec (v x) (v m0) then 0
                  else v x * Rpow ((v x ^ 2 - v m0 ^ 2) / v m0 ^ 2) (v p) * exp (v a * ((v x ^ 2 - v m0 ^ 2) / v m0 ^ 2))))
  | LBW x m G => Some (1 / (2 * sqrt PI) * (v G / ((v x - v m) ^ 2 + v G ^ 2 / 4)))
  | LBernstein x cs mindeg =>
      let '(lo, up) := lims x in
      Some (bernstein_sum ((v x - lo) / (up - lo)) (length cs + mindeg - 1) 0 (map v cs) / (up - lo))
  | LBifurGauss x m sL sR => Some (if Rle_dec (v x) (v m) then gaussian (v x) (v m) (v sL) else gaussian (v x) (v m) (v sR))
  | LBinTransform axes => Some (IZR (global_bin (map (fun a => (v (fst (fst (fst a))), f2R (snd (fst (fst a))), f2R (snd (fst a)), snd a)) axes)))
  | LCorrGaussian x y mx sx my sy c =>
      Some (gaussian (v x) (v mx) (v sx) *
            exp (- ((v y - v my) ^ 2 / (2 * (1 + v c * ((v x - v mx) / v sx) ^ 2) * v sy ^ 2))))
  | LCrystalBall x m s a p =>
      Some (if Req_EM_T (v a) 0 then gaussian (v x) (v m) (v s)
            else if Rle_dec (sg (v a) * ((v x - v m) / v s)) (sg (v a) * v a) then gaussian (v x) (v m) (v s)
            else exp (- (v a ^ 2 / 2)) * Rpow (v p / v a / (v p / v a - v a + (v x - v m) / v s)) (v p))
  | LExpGaus t m s tau =>
      Some (v tau / 2 * exp (v tau / 2 * (2 * v m + v tau * v s ^ 2 - 2 * v t)) * Rerfc ((v m + v tau * v s ^ 2 - v t) / (v s * k_r2 k)))
  | LExp x a => Some (exp (v a * v x))
  | LExpOffset x a x0 => Some (exp (v a * (v x - v x0)))
  | LExpPoly x ws => Some (exp (power_series (v x) 0 (map v ws)))
  | LExpPolyOffset x ws x0 => Some (exp (power_series (v x - v x0) 0 (map v ws)))
  | LGaussian x m s => Some (gaussian (v x) (v m) (v s))
  | LJohnsonSU x m s g d =>
      Some (v d / (v s * k_r2pi k * sqrt (1 + (v x - v m) ^ 2 / v s ^ 2)) *
            exp (- (1 / 2) * (v g + v d * ln ((v x - v m) / v s + sqrt (1 + (v x - v m) ^ 2 / v s ^ 2))) ^ 2))
  | LKinLimitBW x x0 G M m => Some (kin_limit_documented (v x) (v x0) (v G) (f2R M) (f2R m))
  | LLandau _ _ _ => None
  | LNovosibirsk x m s t => Some (novosibirsk_documented (v x) (v m) (v s) (v t))
  | LPolynomial x ws lowest => Some (power_series (v x) lowest (map v ws))
  | LOffsetPolynomial x ws x0 lowest => Some (power_series (v x - v x0) lowest (map v ws))
  | LMultiPolynomial xs cs offs N =>
      Some (poly_sum (map (fun p => fst p - snd p) (combine (map v xs) (map v offs))) (monomials (length xs) N) (map v cs))
  | LScaledGaussian x m s b e => Some (exp (- ((v x + v b - v m) ^ 2 / (2 * (v s * (1 + v e)) ^ 2))))
  | LStep x x0 up => Some (if Z.eqb up 1 then (if Rle_dec (v x) (v x0) then 0 else 1) else (if Rle_dec (v x) (v x0) then 1 else 0))
  | LTrig x t b a upper => Some (threshold k (if upper then v b * (v t - v x) else v b * (v x - v t)) (v a))
  | LTrig2 x y t b a m upper =>
      let z := v m - v x - v y in Some (threshold k (if upper then v b * (v t - z) else v b * (z - v t)) (v a))
  | LVoigtian x m s G => Some (voigt_profile W (k_ir2 k) (k_irpi k) (v x) (v m) (v s) (v G))
  | LVarBin _ _ | LDalitzVeto _ _ _ _ _ _ _ | LSquareDalitz _ _ _ _ _ _ _ _ _ _ => None
  end.

(** Where the documented formulas make sense: no division by zero, no root of a negative number; and for BinTransform the
    bin numbers fit an int, for a multi-dimensional polynomial there are enough coefficients. *)
Definition in_domain (l : leaf V) : Prop :=
  match l with
  | LArgus x m0 _ upper _ => 0 < v m0 /\ - v m0 <= v x
  | LBernstein x cs d => fst (lims x) < snd (lims x)
  | LBifurGauss _ _ sL sR => v sL <> 0 /\ v sR <> 0
  | LBinTransform axes =>
      List.Forall (fun a => let b := Zfloor ((v (fst (fst (fst a))) - f2R (snd (fst (fst a)))) / f2R (snd (fst a))) in
                       (-2147483648 <= b <= 2147483647)%Z) axes
  | LCrystalBall x m s a p => v s <> 0 /\ (v a <> 0 -> v p / v a - v a + (v x - v m) / v s <> 0)
  | LExpGaus _ _ s _ => v s <> 0
  | LGaussian _ _ s => v s <> 0
  | LJohnsonSU _ _ s _ _ => v s <> 0
  | LMultiPolynomial xs cs offs N => length offs = length xs /\ (length (monomials (length xs) N) <= length cs)%nat
  | _ => True
  end.
(** The classes whose code follows the documentation. *)
Definition as_documented (l : leaf V) : bool :=
  match l with
  | LArgus _ _ _ _ _ | LBernstein _ _ _ | LBifurGauss _ _ _ _ | LBinTransform _ | LCrystalBall _ _ _ _ _ | LExpGaus _ _ _ _
  | LExp _ _ | LExpOffset _ _ _ | LExpPoly _ _ | LGaussian _ _ _ | LJohnsonSU _ _ _ _ _ | LPolynomial _ _ _
  | LMultiPolynomial _ _ _ _ | LStep _ _ _ | LTrig _ _ _ _ _ | LTrig2 _ _ _ _ _ _ _ => true
  | _ => false
  end.

(** The other classes: what they compute instead. *)
Definition kl_q (x M m : R) : R := sqrt (kl_lambda x M m / (2 * (x + M))).
Definition kl_bW' (x M m : R) : R := 1 / sqrt (1 + k_rr k * kl_q x M m ^ 2).
Definition kl_S' (x x0 M m : R) : R := (kl_q x M m / kl_q x0 M m) ^ 3 * (kl_bW' x M m / kl_bW' x0 M m) ^ 2.
Definition instead (l : leaf V) : option R :=
  match l with
  | LBW x m G => Some (1 / (2 * PI) * (v G / ((v x - v m) ^ 2 + v G ^ 2 / 4)))
  | LCorrGaussian x y mx sx my sy c =>
      Some (gaussian (v x) (v mx) (v sx) * gaussian (v y) (v my) (v sy * (1 + v c * ((v x - v mx) / v sx) ^ 2)))
  | LExpPolyOffset x ws x0 => Some (exp (power_series (v x - v x0) 1 (map v ws)))
  | LKinLimitBW x x0 G bigM smallM =>
      let M := f2R bigM in let m := f2R smallM in let S := kl_S' (v x) (v x0) M m in
      Some (if Rle_dec (kl_lambda (v x0) M m) 0 then 0
            else S * (v x0 + M) ^ 2 * v G ^ 2 / (((v x0 + M) ^ 2 - (v x + M) ^ 2) ^ 2 + (v x0 + M) ^ 2 * v G ^ 2 * S ^ 2))
  | LNovosibirsk x m s t =>
      Some (exp (- (1 / 2) * (ln (1 + (v x - v m) / v s * (sinh (v t * sqrt (ln 4)) / sqrt (ln 4))) ^ 2 / v t ^ 2 + v t ^ 2)))
  | LOffsetPolynomial x ws x0 lowest => Some (power_series (v x) lowest (skipn 2 (map v ws ++ [v x0])))
  | LScaledGaussian x m s b e => Some (gaussian (v x) (v m + v b) (v s * (1 + v e)))
  | LVoigtian x m s G => Some (voigt_profile W (k_ir2 k) (k_irpi k) (v x) (v m) (v G) (v s))
  | _ => None
  end.
Definition instead_domain (l : leaf V) : Prop :=
  match l with
  | LBW _ _ G => v G <> 0
  | LCorrGaussian x _ mx sx _ sy c => v sx <> 0 /\ v sy * (1 + v c * ((v x - v mx) / v sx) ^ 2) <> 0
  | LKinLimitBW x x0 _ bigM _ => 0 < v x0 + f2R bigM /\ 0 < v x + f2R bigM
  | LNovosibirsk x m s t =>
      v s <> 0 /\ / 1000000 <= Rabs (v t) /\ / 1000000 <= 1 + (v x - v m) / v s * (sinh (v t * sqrt (ln 4)) / sqrt (ln 4))
  | LScaledGaussian _ _ s _ e => v s * (1 + v e) <> 0
  | _ => True
  end.
End Documented.

(** The function of its observable that the code of a one-dimensional PDF computes, in exact arithmetic; and the number its
    integrate() returns for a range (NormSpec.leaf_integral_in), in exact arithmetic. *)
Definition density {V} (W : R -> R -> R) (lims : V -> R * R) (v : V -> R) (l : leaf V) (t : R) : R :=
  match PdfSpec.leaf_value_in R_ops (R_lib W) f2R lims (fun _ => Some t) v l with Some r => r | None => 0 end.
Definition declared {V} (W : R -> R -> R) (v : V -> R) (l : leaf V) (lo hi : R) : option R :=
  NormSpec.leaf_integral_in R_ops (R_lib W) v l lo hi.
(** The claim of hasAnalyticIntegral(): the number is the integral of the function over the range. *)
Definition integrates {V} (W : R -> R -> R) (lims : V -> R * R) (v : V -> R) (l : leaf V) (lo hi : R) : Prop :=
  exists I, declared W v l lo hi = Some I /\ is_RInt (density W lims v l) lo hi I.
