(** What a cubic spline is supposed to do. *)
From Coq Require Import Reals List ZArith.
From Coquelicot Require Import Coquelicot.
From Verif Require Import FormulaSpec SplModel LineSpec.
Import ListNotations.
Local Open Scope R_scope.

(** fmod of a number that is not negative, and its conversion to unsigned int, in exact arithmetic *)
Definition R_fmod (x y : R) : R := x - y * IZR (Int_part (x / y)).
Definition R_uint (x : R) : nat := Z.to_nat (Int_part x).
(** A table of constants with the knots' values [ys] and curvatures [fs] where getSpline reads them. *)
Definition table (mpair radius lo hi : R) (ys fs : list R) : list R :=
  [mpair; radius; lo; hi; INR (List.length ys)] ++ ys ++ fs.
Definition R_spline (mpair radius lo hi : R) (ys fs : list R) (x : R) : option R :=
  get_spline R_ops R_fmod R_uint (table mpair radius lo hi ys fs) (List.length ys) x true.
(** The place of knot [b] of [n]. *)
Definition knot (lo hi : R) (n b : nat) : R := lo + INR b * ((hi - lo) / (INR n - 1)).
(** The square of the momentum of particles of masses [m1] and [m2] that a system of mass^2 [s] decays to. *)
Definition momentum2 (s m1 m2 : R) : R := ((s - (m1 + m2) ^ 2) * (s - (m1 - m2) ^ 2)) / (4 * s).
(** The Breit-Wigner function with the width [w] and an exponential form factor. *)
Definition spline_amplitude (mass width radius s m1 m2 w : R) : C :=
  (RtoC (sqrt (2 * sqrt 2 * mass * width * (mass * sqrt (mass ^ 2 + width ^ 2))
               / (LineSpec.m_PI * sqrt (mass ^ 2 + mass * sqrt (mass ^ 2 + width ^ 2))))
         * exp (- Rabs (momentum2 s m1 m2) * radius ^ 2 / 2)) / (mass ^ 2 - s, - mass * w)%R)%C.
