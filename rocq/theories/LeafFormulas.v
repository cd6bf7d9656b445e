(** The formulas of LeafGen.v read in IEEE double arithmetic: this is what the device functions of the basic PDFs compute.
    The functions of the C mathematics library are a parameter [libm], so nothing is assumed about exp, log, pow, ... *)
From Coq Require Import List ZArith Bool.
From Verif Require Import F64.
From Verif Require LeafGen.
Import ListNotations.

Declare Scope f64_scope.
Delimit Scope f64_scope with f64.
Bind Scope f64_scope with f64.
Infix "+" := fadd : f64_scope.
Infix "-" := fsub : f64_scope.
Infix "*" := fmul : f64_scope.
Infix "/" := fdiv : f64_scope.
Notation "- x" := (fopp x) : f64_scope.
Notation "0" := fzero : f64_scope.
Notation "1" := fone : f64_scope.
Notation "2" := (f_of_Z 2) : f64_scope.
Notation "4" := (f_of_Z 4) : f64_scope.
Notation "x < y" := (flt x y) : f64_scope.
Notation "x <= y" := (fle x y) : f64_scope.
Notation "x > y" := (flt y x) : f64_scope.
Notation "x >= y" := (fle y x) : f64_scope.
Notation "x == y" := (feq x y) (at level 70) : f64_scope.


Notation libm := (LeafGen.mlib f64).
Notation m_exp := LeafGen.m_exp. Notation m_log := LeafGen.m_log. Notation m_pow := LeafGen.m_pow.
Notation m_sin := LeafGen.m_sin. Notation m_cos := LeafGen.m_cos. Notation m_sinh := LeafGen.m_sinh.
Notation m_erfc := LeafGen.m_erfc. Notation m_atan2 := LeafGen.m_atan2. Notation m_faddeeva_re := LeafGen.m_faddeeva_re.

(** Conversion double -> int (C++: truncation; undefined when the result is not representable in 32 bits). *)
Definition f2int (x : f64) : option Z :=
  if f_isfinite x then
    let z := ftruncZ x in if ((-2147483648 <=? z)%Z && (z <=? 2147483647)%Z) then Some z else None
  else None.
(** static_cast<int>(floor(x)) *)
Definition floor_int (x : f64) : option Z :=
  if f_isfinite x then
    let z := ffloorZ x in if ((-2147483648 <=? z)%Z && (z <=? 2147483647)%Z) then Some z else None
  else None.
Definition f64_ops : LeafGen.ops f64 :=
  LeafGen.mkOps f64 f_of_Z f_of_ZE fadd fsub fmul fdiv fopp fsqrt fabs flt fle feq floor_int fzero fone fhalf.

(** Each of these is the formula of the same name in LeafGen.v, where the source lines are cited. *)
Definition powi := LeafGen.powi f64_ops.
Definition pow2 := LeafGen.pow2 f64_ops.
Definition pow3 := LeafGen.pow3 f64_ops.
Definition minus_half := LeafGen.minus_half f64_ops.
Definition argus_upper := LeafGen.argus_upper f64_ops.
Definition argus_lower := LeafGen.argus_lower f64_ops.
Definition breit_wigner := LeafGen.breit_wigner f64_ops.
Definition gauss := LeafGen.gauss f64_ops.
Definition bifur_gauss := LeafGen.bifur_gauss f64_ops.
Definition scaled_gauss := LeafGen.scaled_gauss f64_ops.
Definition corr_gauss := LeafGen.corr_gauss f64_ops.
Definition crystal_ball := LeafGen.crystal_ball f64_ops.
Definition exp_gaus := LeafGen.exp_gaus f64_ops.
Definition exponential := LeafGen.exponential f64_ops.
Definition johnson_su := LeafGen.johnson_su f64_ops.
Definition get_momentum := LeafGen.get_momentum f64_ops.
Definition bw_factor := LeafGen.bw_factor f64_ops.
Definition kin_limit_bw := LeafGen.kin_limit_bw f64_ops.
Definition horner5 := LeafGen.horner5 f64_ops.
Definition landau_p1 := LeafGen.landau_p1 f64_ops.
Definition landau_q1 := LeafGen.landau_q1 f64_ops.
Definition landau_p2 := LeafGen.landau_p2 f64_ops.
Definition landau_q2 := LeafGen.landau_q2 f64_ops.
Definition landau_p3 := LeafGen.landau_p3 f64_ops.
Definition landau_q3 := LeafGen.landau_q3 f64_ops.
Definition landau_p4 := LeafGen.landau_p4 f64_ops.
Definition landau_q4 := LeafGen.landau_q4 f64_ops.
Definition landau_p5 := LeafGen.landau_p5 f64_ops.
Definition landau_q5 := LeafGen.landau_q5 f64_ops.
Definition landau_p6 := LeafGen.landau_p6 f64_ops.
Definition landau_q6 := LeafGen.landau_q6 f64_ops.
Definition landau := LeafGen.landau f64_ops.
Definition novosibirsk := LeafGen.novosibirsk f64_ops.
Definition step := LeafGen.step f64_ops.
Definition thresh_calc := LeafGen.thresh_calc f64_ops.
Definition trig_upper := LeafGen.trig_upper f64_ops.
Definition trig_lower := LeafGen.trig_lower f64_ops.
Definition trig_upper2 := LeafGen.trig_upper2 f64_ops.
Definition trig_lower2 := LeafGen.trig_lower2 f64_ops.
Definition voigt := LeafGen.voigt f64_ops.
Definition exp_poly_arg := LeafGen.exp_poly_arg f64_ops.
Definition exp_poly := LeafGen.exp_poly f64_ops.
Definition polynomial_from := LeafGen.polynomial_from f64_ops.
Definition polynomial := LeafGen.polynomial f64_ops.
Definition box_term := LeafGen.box_term f64_ops.
Definition boxes := LeafGen.boxes f64_ops.
Definition multi_polynomial := LeafGen.multi_polynomial f64_ops.
Definition factorial := LeafGen.factorial f64_ops.
Definition binomial := LeafGen.binomial f64_ops.
Definition bernstein_from := LeafGen.bernstein_from f64_ops.
Definition bernstein := LeafGen.bernstein f64_ops.
Definition bin_number := LeafGen.bin_number f64_ops.
Definition count_below := LeafGen.count_below f64_ops.
Definition var_bin := LeafGen.var_bin f64_ops.
Definition in_dalitz := LeafGen.in_dalitz f64_ops.
Definition vetoes := LeafGen.vetoes f64_ops.
Definition dalitz_veto := LeafGen.dalitz_veto f64_ops.
Definition thetaprime := LeafGen.thetaprime f64_ops.
Definition square_dalitz := LeafGen.square_dalitz f64_ops.
