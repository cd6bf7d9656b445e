(** The Faddeeva function of VoigtianPdf.cu and Faddeeva.cpp and the Voigtian of the host, for any arithmetic.

    device_Faddeeva_2 (VoigtianPdf.cu:50-123) and Faddeeva_2 (Faddeeva.cpp:46-119) are the same statements over the same
    tables (VoigtianPdf.cu:12-48, Faddeeva.cpp:12-44); one definition stands for both.  The version under UNROLL_LOOP, which
    is not compiled, is not modelled.  fpcomplex is a pair; quotients and products of complex numbers are written out, thrust
    scales before it divides.  A variable of the code that is assigned several times has one name per assignment here. *)
From Coq Require Import List ZArith Bool.
From Verif Require Import AmpModel WaveModel.
From Verif Require LeafGen.
Import ListNotations.

Section Fad.
Context {T : Type} (Ar : LeafGen.ops T) (L : LeafGen.mlib T).
Local Notation "0" := (LeafGen.o_zero Ar).
Local Notation "1" := (LeafGen.o_one Ar).
Local Notation "2" := (LeafGen.o_ofZ Ar 2).
Local Notation "4" := (LeafGen.o_ofZ Ar 4).
Local Notation half := (LeafGen.o_half Ar).
Local Infix "+" := (LeafGen.o_add Ar).
Local Infix "-" := (LeafGen.o_sub Ar).
Local Infix "*" := (LeafGen.o_mul Ar).
Local Infix "/" := (LeafGen.o_div Ar).
Local Notation "- x" := (LeafGen.o_opp Ar x).
Local Notation "x < y" := (LeafGen.o_lt Ar x y).
Local Notation "x <= y" := (LeafGen.o_le Ar x y).
Local Notation "x == y" := (LeafGen.o_eq Ar x y) (at level 70).
Local Notation abs := (LeafGen.o_abs Ar).
Local Notation exp := (LeafGen.m_exp L).
Local Notation cos := (LeafGen.m_cos L).
Local Notation sin := (LeafGen.m_sin L).
Local Notation lit := (LeafGen.o_lit Ar).
Local Notation ofZ := (LeafGen.o_ofZ Ar).
Local Notation cx := (@cx T).

(** n1, e1: VoigtianPdf.cu:21-33; n2, e2: lines 35-48. *)
Definition n1 : list T :=
  [lit 1 (-2); lit 1 0; lit 9 (-2); lit 1 2; lit 25 (-2); lit 9 0; lit 49 (-2); lit 1 4; lit 81 (-2); lit 25 0; lit 121 (-2); lit 9 2].
Definition e1 : list T :=
  [lit 7014813832872459 (-53); lit 6627126856707895 (-54); lit 7594814535391221 (-56); lit 1319780871589693 (-56);
   lit 4451324174628323 (-61); lit 569127268043403 (-62); lit 5649269497296659 (-70); lit 4251458697904869 (-75);
   lit 7762406569134653 (-82); lit 8596220886893357 (-89); lit 5773929890227227 (-96); lit 4704551212802147 (-104)].
Definition n2 : list T :=
  [lit 5060244541313489 (-54); lit 5060244541313489 (-52); lit 5692775108977675 (-51); lit 5060244541313489 (-50);
   lit 7906632095802327 (-50); lit 5692775108977675 (-49); lit 968562431735785 (-46); lit 5060244541313489 (-48);
   lit 6404371997599885 (-48); lit 7906632095802327 (-48); lit 597939052245051 (-44); lit 5692775108977675 (-47)].
Definition e2 : list T :=
  [lit 850171345464539 (-50); lit 5856612444699775 (-54); lit 5750953783508569 (-56); lit 3219931472720837 (-58);
   lit 4111750292619615 (-62); lit 1496891076327163 (-65); lit 4971495028340331 (-72); lit 2298461489699 (-67);
   lit 5082655964823011 (-85); lit 3129158806779807 (-92); lit 4393775330335905 (-101); lit 7035442914163961 (-111)].
(** C, D: VoigtianPdf.cu:13-16 *)
Definition padeC : list T := [ofZ 65536; ofZ (-2885792); ofZ 69973904; ofZ (-791494704); ofZ 8962513560; ofZ (-32794651890); ofZ 175685635125].
Definition padeD : list T := [ofZ 192192; ofZ 8648640; ofZ 183783600; ofZ 2329725600; ofZ 18332414100; ofZ 84329104860; ofZ 175685635125].
Definition M_1_PI : T := lit 5734161139222659 (-54).     (* <cmath> *)
Definition M_2_SQRTPI : T := lit 5081767996463981 (-52). (* <cmath> *)
Definition M_2PI : T := lit 7074237752028433 (-50).      (* VoigtianPdf.cu:9, Faddeeva.cpp:10 *)

(** thrust::exp of a complex number. *)
Definition c_exp (z : cx) : cx := (exp (fst z) * cos (snd z), exp (fst z) * sin (snd z)).
(** c = T[0]; for(i = 1; i <= 6; i++) c = c * zz + T[i]; lines 64-70 *)
Fixpoint horner (zz c : cx) (t : list T) : cx :=
  match t with [] => c | k :: t' => horner zz (c_add Ar (c_mul Ar c zz) (k, 0)) t' end.
Definition table_poly (t : list T) (zz : cx) : cx := match t with [] => (0, 0) | k :: t' => horner zz (k, 0) t' end.
(** lines 58-72 *)
Definition pade (z : cx) : cx :=
  let zz := c_mul Ar z z in
  let v := c_exp zz in
  let c := table_poly padeC zz in
  let d2 := table_poly padeD zz in
  c_add Ar (c_div Ar (1, 0) v) (c_mul Ar (c_mul Ar (c_div Ar (c_mul Ar (0, M_2_SQRTPI) c) d2) z) v).

(** lines 74-93: whether the second table is selected.  [floor] of a number that is no int does not occur: |x| < 6.01. *)
Definition near_pole (x y : T) : bool :=
  if (abs y < lit 5764607523034235 (-59)) && (abs x < lit 3383329220062085 (-49)) then
    let h := abs x * 2 in
    let h := match LeafGen.o_floor Ar h with Some g => h - ofZ g | None => h end in
    (h < lit 5764607523034235 (-58)) || (lit 2206763817411543 (-51) < h)
  else false.
(** lines 95-105 *)
Fixpoint sums (s d f : T) (n e : list T) (g h : T) : T * T :=
  match n, e with
  | ni :: n', ei :: e' =>
      let t := d + ni in
      let u := ei / (t * t + f) in
      sums s d f n' e' (g + (s + ni) * u) (h + (s - ni) * u)
  | _, _ => (g, h)
  end.
(** lines 95-123, with the tables [n], [e] and the factor [r] *)
Definition trapezoid (n e : list T) (r : T) (z : cx) : cx :=
  let x := fst z in let y := snd z in
  let s := c_norm Ar z in
  let d := (y - x) * (y + x) in
  let f := 4 * x * x * y * y in
  let (g, h) := sums s d f n e 0 0 in
  let u := 1 / s in
  let c := (r * (y * (u + 2 * g)), r * (x * (u + 2 * h))) in
  if y < M_2PI then
    let s1 := 2 / r in
    let t := s1 * x in
    let u := s1 * y in
    let s := sin t in
    let h := cos t in
    let f := exp (- u) - h in
    let g := 2 * exp (d - u) / (s * s + f * f) in
    let u := 2 * x * y in
    let h := cos u in
    let t := sin u in
    c_add Ar c (g * (h * f - t * s), g * - (h * s + t * f))
  else c.
(** VoigtianPdf.cu:50-123 *)
Definition faddeeva (z : cx) : cx :=
  if c_norm Ar z < lit 944473296573929 (-73) then pade z
  else if near_pole (fst z) (snd z) then trapezoid n2 e2 (M_1_PI * lit 2386907802506363 (-52)) z
  else trapezoid n1 e1 (M_1_PI * half) z.

(** The mathematics library of the device with the code's Faddeeva function in it. *)
Definition device_lib : LeafGen.mlib T :=
  LeafGen.mkLib T (LeafGen.m_exp L) (LeafGen.m_log L) (LeafGen.m_pow L) (LeafGen.m_sin L) (LeafGen.m_cos L)
    (LeafGen.m_sinh L) (LeafGen.m_erfc L) (LeafGen.m_atan2 L) (fun x y => fst (faddeeva (x, y))).

(** Faddeeva.cpp:121-154.  [None]: GeneralError is thrown. *)
Definition cpuvoigtian (x m w s : T) : option T :=
  if (0 == s) && (0 == w) then Some 1 else
  if (s <= 0) || (w <= 0) then None else
  let coef := - half / (s * s) in
  let arg := x - m in
  if 0 == s then Some (1 / (arg * arg + lit 1 (-2) * w * w)) else
  if 0 == w then Some (exp (coef * arg * arg)) else
  let c := 1 / (LeafGen.o_sqrt Ar 2 * s) in
  let a := half * c * w in
  let u := c * arg in
  let v := faddeeva (u, a) in
  Some (c * lit 5081767996463981 (-53) * fst v).
End Fad.
