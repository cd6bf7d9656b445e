(** IEEE-754 binary64 ("double", GooFit's [fptype], include/goofit/GlobalCudaDefines.h: `typedef double fptype`).

    Values are Flocq's [binary_float 53 1024] (BinarySingleNaN: all NaN payloads are one value, which is a
    simplification: GooFit never looks at NaN payloads).  Arithmetic is round-to-nearest-even. *)
From Coq Require Import ZArith Reals Bool Lia Lra.
From Flocq Require Import Core BinarySingleNaN.

Definition f64 : Set := binary_float 53 1024.

Definition f64_prec_gt : Prec_gt_0 53 := eq_refl.
Definition f64_prec_lt : Prec_lt_emax 53 1024 := eq_refl.

Definition fadd (x y : f64) : f64 := @Bplus 53 1024 f64_prec_gt f64_prec_lt mode_NE x y.
Definition fsub (x y : f64) : f64 := @Bminus 53 1024 f64_prec_gt f64_prec_lt mode_NE x y.
Definition fmul (x y : f64) : f64 := @Bmult 53 1024 f64_prec_gt f64_prec_lt mode_NE x y.
Definition fdiv (x y : f64) : f64 := @Bdiv 53 1024 f64_prec_gt f64_prec_lt mode_NE x y.
Definition fsqrt (x : f64) : f64 := @Bsqrt 53 1024 f64_prec_gt f64_prec_lt mode_NE x.
Definition fopp (x : f64) : f64 := Bopp x.
Definition fabs (x : f64) : f64 := Babs x.

(** C++ comparisons: every comparison with NaN is false. *)
Definition feq (x y : f64) : bool := Beqb x y.
Definition flt (x y : f64) : bool := Bltb x y.
Definition fle (x y : f64) : bool := Bleb x y.

(** Conversion of an integer (size_t, int) to double: nearest even. *)
Definition f_of_Z (z : Z) : f64 :=
  @binary_normalize 53 1024 f64_prec_gt f64_prec_lt mode_NE z 0 false.
(** m * 2^e rounded; used to write dyadic literals such as 0.5. *)
Definition f_of_ZE (m e : Z) : f64 :=
  @binary_normalize 53 1024 f64_prec_gt f64_prec_lt mode_NE m e false.

Definition fzero : f64 := B754_zero false.
Definition fone : f64 := f_of_Z 1.
Definition fhalf : f64 := f_of_ZE 1 (-1).
Definition fnan : f64 := B754_nan.
Definition finf (neg : bool) : f64 := B754_infinity neg.

(** floor() of <cmath>, followed by conversion to an integer; only meaningful for finite arguments
    (the conversion of NaN, infinities and unrepresentable numbers to an integer type is undefined in C++). *)
Definition f_isfinite (x : f64) : bool := is_finite x.
Definition f_isnan (x : f64) : bool := is_nan x.
Definition ffloorZ (x : f64) : Z := Btrunc (@Bnearbyint 53 1024 f64_prec_lt mode_DN x).
(** C++ conversion double -> integer: truncation toward zero. *)
Definition ftruncZ (x : f64) : Z := Btrunc x.

Definition f2R (x : f64) : R := B2R x.

(** ** The mathematical reading of a double: NaN, an infinity or a real number.
    Used by specifications only. *)
Inductive xreal : Type := XNaN | XNegInf | XFin (r : R) | XPosInf.

Definition meaning (x : f64) : xreal :=
  match x with
  | B754_nan => XNaN
  | B754_infinity true => XNegInf
  | B754_infinity false => XPosInf
  | B754_zero _ => XFin 0
  | B754_finite _ _ _ _ => XFin (B2R x)
  end.

Definition xle (a b : xreal) : Prop :=
  match a, b with
  | XNaN, _ | _, XNaN => False
  | XNegInf, _ => True
  | _, XPosInf => True
  | XFin r, XFin s => (r <= s)%R
  | XFin _, XNegInf => False
  | XPosInf, _ => False
  end.

Definition xeq (a b : xreal) : Prop := xle a b /\ xle b a.

(** Structural identity of doubles as a boolean (NaN is identical to itself, the two zeros differ).
    Used to decide concrete cases by computation. *)
Definition fsame (x y : f64) : bool :=
  match x, y with
  | B754_nan, B754_nan => true
  | B754_zero a, B754_zero b => Bool.eqb a b
  | B754_infinity a, B754_infinity b => Bool.eqb a b
  | B754_finite a m e _, B754_finite b n f _ => Bool.eqb a b && Pos.eqb m n && Z.eqb e f
  | _, _ => false
  end.
