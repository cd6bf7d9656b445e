(** The lineshapes of the four-body amplitude models, src/PDFs/physics/lineshapes/{Common,BW,GLASS,NonRes,One,Flatte,Bugg,
    FOCUS}.cu, for any arithmetic.

    A lineshape is a function of the mass of a pair and of the masses of the pair's particles.  The parameters and constants
    that the constructor registers are arguments here; an argument of the constructor that is not registered is absent (the
    width of Flatte, the form factor of GLASS, Flatte and NonRes, everything of Bugg, Bugg3 and One).  A quotient of two complex
    numbers is written out (WaveModel.c_div).  The arctangent is a parameter. *)
From Coq Require Import List ZArith Bool Arith.
From Verif Require Import AmpModel WaveModel KmModel.
From Verif Require LeafGen.
Import ListNotations.

Section Line.
Context {T : Type} (Ar : LeafGen.ops T) (L : LeafGen.mlib T) (atan : T -> T).
Local Notation "0" := (LeafGen.o_zero Ar).
Local Notation "1" := (LeafGen.o_one Ar).
Local Notation "2" := (LeafGen.o_ofZ Ar 2).
Local Notation "3" := (LeafGen.o_ofZ Ar 3).
Local Notation "4" := (LeafGen.o_ofZ Ar 4).
Local Notation "9" := (LeafGen.o_ofZ Ar 9).
Local Notation "13" := (LeafGen.o_ofZ Ar 13).
Local Notation half := (LeafGen.o_half Ar).
Local Infix "+" := (LeafGen.o_add Ar).
Local Infix "-" := (LeafGen.o_sub Ar).
Local Infix "*" := (LeafGen.o_mul Ar).
Local Infix "/" := (LeafGen.o_div Ar).
Local Notation "- x" := (LeafGen.o_opp Ar x).
Local Notation "x < y" := (LeafGen.o_lt Ar x y).
Local Notation "x <= y" := (LeafGen.o_le Ar x y).
Local Notation sqrt := (LeafGen.o_sqrt Ar).
Local Notation abs := (LeafGen.o_abs Ar).
Local Notation log := (LeafGen.m_log L).
Local Notation exp := (LeafGen.m_exp L).
Local Notation cos := (LeafGen.m_cos L).
Local Notation sin := (LeafGen.m_sin L).
Local Notation lit := (LeafGen.o_lit Ar).
Local Notation cx := (@cx T).

(** ** Common.cu *)
(** Lines 8-21 *)
Definition bl_prime (z2 z02 : T) (l : nat) : T :=
  match l with
  | O => 1 | S O => (1 + z02) / (1 + z2) | S (S O) => (z02 * z02 + 3 * z02 + 9) / (z2 * z2 + 3 * z2 + 9) | _ => 0
  end.
(** Lines 23-36 *)
Definition bl (z2 : T) (l : nat) : T :=
  match l with O => 1 | S O => 2 * z2 / (1 + z2) | S (S O) => (13 * z2 * z2) / (z2 * z2 + 3 * z2 + 9) | _ => 0 end.
(** Lines 38-51 *)
Definition bl2 (z2 : T) (l : nat) : T :=
  match l with O => 1 | S O => 1 / (1 + z2) | S (S O) => 1 / (z2 * z2 + 3 * z2 + 9) | _ => 0 end.

(** ** BW.cu *)
(** enum class FF, Lineshape.h:18: One = 0, BL = 1, BL_Prime = 2, BL2 = 3 *)
Inductive ff : Type := FF_One | FF_BL | FF_BL_Prime | FF_BL2.
(** (s - (m1+m2)^2)(s - (m1-m2)^2) / (4 s), BW.cu:27-31 *)
Definition p_square (s m1 m2 : T) : T := (s - (m1 + m2) * (m1 + m2)) * (s - (m1 - m2) * (m1 - m2)) / (4 * s).
(** the same for the nominal mass, divided by 4 * mass * mass, BW.cu:30-32 *)
Definition p_square_at (mass m1 m2 : T) : T :=
  (mass * mass - (m1 + m2) * (m1 + m2)) * (mass * mass - (m1 - m2) * (m1 - m2)) / (4 * mass * mass).
(** BW.cu:38-42, GLASS.cu:38-42 *)
Definition to_power (n : nat) (x : T) : T := Nat.iter n (fun y => y * x) 1.
(** BW.cu:46-51 *)
Definition form (f : ff) (l : nat) (z2 z02 : T) : T :=
  match l with
  | O => 1
  | _ => match f with FF_One => 1 | FF_BL => bl z2 l | FF_BL2 => bl2 z2 l | FF_BL_Prime => bl_prime z2 z02 l end
  end.
(** BW.cu:14-69.  Line 62 writes mass * GofM * mass * GofM. *)
Definition pi_const : T := lit 884279719003555 (-48).       (* M_PI *)
Definition rbw_line (mass width : T) (l : nat) (f : ff) (radius mpair m1 m2 : T) : cx :=
  let s := mpair * mpair in
  let p2 := p_square s m1 m2 in
  let pr := p_square_at mass m1 m2 in
  let pr2 := if pr < 0 then 0 else pr in
  let pr := abs pr in
  let power := to_power (2 * l + 1) (sqrt (p2 / pr)) in
  let r2 := radius * radius in
  let fr := form f l (p2 * r2) (pr2 * r2) in
  let gofm := width * power * (mass / mpair) * bl_prime (p2 * r2) (pr * r2) l in
  let gamma := mass * sqrt (mass * mass + width * width) in
  let k := (2 * sqrt 2 / pi_const) * mass * width * gamma / sqrt (mass * mass + gamma) in
  let a := mass * mass - s in
  let x := sqrt (k * fr) / (a * a + mass * gofm * mass * gofm) in
  (a * x, mass * gofm * x).
(** BW.cu:72-116 *)
Definition sbw_line (mass width : T) (l : nat) (f : ff) (radius mpair m1 m2 : T) : cx :=
  let s := mpair * mpair in
  let p2 := p_square s m1 m2 in
  let pr := p_square_at mass m1 m2 in
  let pr2 := if pr < 0 then 0 else pr in
  let r2 := radius * radius in
  let fr := form f l (p2 * r2) (pr2 * r2) in
  let gamma := sqrt (mass * mass * (mass * mass + width * width)) in
  let k := mass * width * gamma / sqrt (mass * mass + gamma) in
  let a := mass * mass - s in
  let x := sqrt (k * fr) / (a * a + mass * width * mass * width) in
  (a * x, mass * width * x).
(** BW.cu:118-148 *)
Definition lass_line (mass width : T) (l : nat) (f : ff) (radius mpair m1 m2 : T) : cx :=
  let a := lit 4661225614328463 (-51) in                    (* 2.07 *)
  let r := lit 7475975381435023 (-51) in                    (* 3.32 *)
  let p2 := p_square (mpair * mpair) m1 m2 in
  let pr := abs (p_square_at mass m1 m2) in
  let y := 2 * a * sqrt p2 in
  let x := 2 + a * r * p2 in
  let cot := x / y in
  let phase := ((cot * cot - 1) / (1 + cot * cot), 2 * cot / (1 + cot * cot)) in
  let den := (sqrt p2 * cot, - (1) * sqrt p2) in
  let sf := mpair * sqrt pr / (mass * mass * width) in
  c_add Ar (c_div Ar (sf, 0) den) (c_mul Ar phase (rbw_line mass width l f radius mpair m1 m2)).

(** ** glass_MINT3, GLASS.cu:13-62 *)
Definition glass_line (mass width a r phiF phiR F : T) (l : nat) (radius mpair m1 m2 : T) : cx :=
  let s := mpair * mpair in
  let p2 := p_square s m1 m2 in
  let pr := abs (p_square_at mass m1 m2) in
  let power := to_power (2 * l + 1) (sqrt (p2 / pr)) in
  let r2 := radius * radius in
  let gofm := width * power * (mass / mpair) * bl_prime (p2 * r2) (pr * r2) l in
  let y := 2 * a * sqrt p2 in
  let x := 2 + a * r * p2 in
  let scatt := phiF + atan (y / x) in
  let res := phiR + atan (mass * gofm / (mass * mass - s)) in
  let rho := 1 / sqrt (p2 / s) in
  c_scale Ar (c_add Ar (c_scale Ar (cos scatt, sin scatt) (F * sin scatt))
                       (c_scale Ar (cos (res + 2 * scatt), sin (res + 2 * scatt)) (1 * sin res))) rho.

(** ** nonres_DP, NonRes.cu:10-24, and LS_ONE, One.cu:8-11 *)
Definition nonres_line (l : nat) (radius mpair m1 m2 : T) : cx :=
  c_scale Ar (1, 0) (sqrt (bl2 (p_square (mpair * mpair) m1 m2 * radius * radius) l)).
Definition one_line : cx := (1, 0).

(** ** Flatte.cu *)
(** Lines 10-14 *)
Definition a_sqrt (m0 m : T) : cx :=
  let a2 := 1 - (2 * m0 / m) * (2 * m0 / m) in if 0 < a2 then (sqrt a2, 0) else (0, sqrt (- a2)).
Definition f_pi0 : T := lit 1215761130927473 (-53).         (* .1349766 *)
Definition f_k0 : T := lit 4482414694723345 (-53).          (* .497648 *)
Definition f_gpi : T := lit 5944751508129055 (-55).         (* .165 *)
Definition f_gk : T := f_gpi * lit 4740038607807447 (-50).  (* gPi * 4.21 *)
(** Lines 16-50 *)
Definition flatte_line (mass : T) (l : nat) (radius mpair m1 m2 : T) : cx :=
  let s := mpair * mpair in
  let p2 := p_square s m1 m2 in
  let gpipi := c_add Ar (c_scale Ar (a_sqrt f_pi0 mpair) (1 / 3)) (c_scale Ar (a_sqrt (m_pi Ar) mpair) (2 / 3)) in
  let gkk := c_add Ar (c_scale Ar (a_sqrt f_k0 mpair) (1 / 2)) (c_scale Ar (a_sqrt (m_k Ar) mpair) (1 / 2)) in
  let width := c_add Ar (c_scale Ar gpipi f_gpi) (c_scale Ar gkk f_gk) in
  let fr := bl2 (p2 * radius * radius) l in
  let den := c_sub Ar (mass * mass - s, 0) (c_mul Ar (c_scale Ar (0, 1) mass) width) in
  c_div Ar (sqrt fr, 0) den.

(** ** Bugg.cu *)
(** Lines 11-16 *)
Definition bugg_rho2 (s m : T) : cx :=
  let r := 1 - 4 * m * m / s in
  if 0 <= r then c_scale Ar (1, 0) (sqrt r) else c_scale Ar (0, 1) (sqrt (- r)).
(** Lines 18-23 *)
Definition bugg_j1 (s m : T) : T :=
  let rho := fst (bugg_rho2 s m) in
  (2 + (if 0 < rho then rho * log ((1 - rho) / (1 + rho)) else 0)) / pi_const.
(** Lines 25-35 *)
Definition bugg_gamma_4pi (s mpi g M lambda s0 : T) : T :=
  if s < LeafGen.o_ofZ Ar 16 * mpi * mpi then 0
  else g * (1 / (1 + exp (lambda * (s0 - s)))) / (1 / (1 + exp (lambda * (s0 - M * M)))).
Definition b_M : T := lit 8583860889768165 (-53).           (* 0.953 *)
Definition b_b1 : T := lit 2931843357418193 (-51).          (* 1.302 *)
Definition b_b2 : T := lit 6124895493223875 (-54).          (* 0.340 *)
Definition b_A : T := lit 1365716587000103 (-49).           (* 2.426 *)
Definition b_g4pi : T := lit 3170534137668829 (-58).        (* 0.011 *)
Definition b_g2k : T := lit 5404319552844595 (-53).         (* 0.6 *)
Definition b_g2eta : T := lit 3602879701896397 (-54).       (* 0.2 *)
Definition b_alpha : T := lit 5854679515581645 (-52).       (* 1.3 *)
Definition b_sA : T := lit 7385903388887613 (-54).          (* 0.41 *)
Definition b_lambda : T := lit 6406370469934531 (-51).      (* 2.845 *)
Definition b_s0 : T := lit 7973623140259463 (-50) / b_lambda. (* 7.082 / 2.845 *)
(** Lines 57-67 and 109-117: the widths, with the exponents |s - 4 m^2| as they are written there *)
Definition bugg_widths (g1sq adler tk te s : T) : cx :=
  let M := b_M in
  let g2pi := (g1sq * adler * fst (bugg_rho2 s (m_pi Ar)), 0) in
  let g2k := c_scale Ar (bugg_rho2 s (m_k Ar)) (b_g2k * g1sq * s / (M * M) * exp (- (1) * b_alpha * tk)) in
  let g2eta := c_scale Ar (bugg_rho2 s (m_eta Ar)) (b_g2eta * g1sq * s / (M * M) * exp (- (1) * b_alpha * te)) in
  let g4pi := (bugg_gamma_4pi s (m_pi Ar) b_g4pi M b_lambda b_s0, 0) in
  c_add Ar (c_add Ar (c_add Ar g2pi g2k) g2eta) g4pi.
(** bugg_MINT, lines 39-85; line 58 multiplies by (s - sA ..) before it divides (here after). *)
Definition bugg_line (mpair : T) : cx :=
  let s := mpair * mpair in
  let M := b_M in let mp := m_pi Ar in
  let g1sq := (b_b1 + b_b2 * s) * exp (- (s - M * M) / b_A) in
  let z := bugg_j1 s mp - bugg_j1 (M * M) mp in
  let adler := (s - b_sA * mp * mp) / (M * M - b_sA * mp * mp) in
  let dk := s - 4 * m_k Ar * m_k Ar in let de := s - 4 * m_eta Ar * m_eta Ar in
  let tot := bugg_widths g1sq adler (sqrt (dk * dk)) (sqrt (de * de)) s in
  let den := c_sub Ar (M * M - s - M * g1sq * adler * z, 0) (c_mul Ar (c_scale Ar (0, 1) M) tot) in
  c_scale Ar (c_div Ar (1, 0) den) (sqrt (LeafGen.o_ofZ Ar 1000)).
(** bugg_MINT3, lines 87-130 *)
Definition bugg3_line (mpair : T) : cx :=
  let s := mpair * mpair in
  let M := b_M in let mp := m_pi Ar in
  let sA := b_sA * mp * mp in
  let g1sq := M * (b_b1 + b_b2 * s) * exp (- (s - M * M) / b_A) in
  let z := bugg_j1 s mp - bugg_j1 (M * M) mp in
  let adler := (s - sA) / (M * M - sA) in
  let mk4 := 4 * m_k Ar * m_k Ar in let me4 := 4 * m_eta Ar * m_eta Ar in
  let tk := if mk4 < s then s - mk4 else mk4 - s in
  let te := if me4 < s then s - me4 else me4 - s in
  let tot := bugg_widths g1sq adler tk te s in
  let den := c_sub Ar (M * M - s - adler * g1sq * z, 0) (c_mul Ar (0, 1) tot) in
  c_div Ar (1, 0) den.

(** ** FOCUS.cu *)
(** Lines 13-18: the square root of a complex number without imaginary part *)
Definition phsp_focus (s m0 m1 : T) : cx :=
  let a2 := (1 - (m0 + m1) * (m0 + m1) / s) * (1 - (m0 - m1) * (m0 - m1) / s) in
  if 0 <= a2 then (sqrt a2, 0) else (0, sqrt (- a2)).
Definition f_norm : T := m_k Ar * m_k Ar + m_pi Ar * m_pi Ar.
Definition f_pmass : T := lit 1008750021535649 (-49).       (* 1.7919 *)
Definition f_c0 : T := lit 2798716952433121 (-53).          (* 0.31072 *)
Definition f_c1 : T := - lit 836948954750533 (-55).         (* -0.02323 *)
(** Lines 29-51: the K-matrix of isospin 1/2 with the Adler factor (the three elements that are used), and of isospin 3/2 *)
Definition focus_k (s : T) : T * T * T * T :=
  let x := s / f_norm - 1 in
  let adler12 := (s - lit 8286623314361713 (-55)) / f_norm in     (* s12 = 0.23 *)
  let adler32 := (s - lit 607985949695017 (-51)) / f_norm in      (* s32 = 0.27 *)
  let k11 := f_c0 * f_c0 / (f_pmass - s) + lit 7142618937017059 (-53) - lit 2719994030946685 (-54) * x + lit 1168774175295191 (-57) * sq Ar x in
  let k22 := f_c1 * f_c1 / (f_pmass - s) + lit 6144351043614115 (-55) - lit 6312245237722487 (-58) * x + lit 3950139659083979 (-62) * sq Ar x in
  let k12 := f_c0 * f_c1 / (f_pmass - s) + lit 5418731071652181 (-55) - lit 5514711786910701 (-57) * x + lit 5210282863619263 (-61) * sq Ar x in
  let k32 := - lit 3989648837894975 (-54) + lit 3838796264776573 (-57) * x - lit 8490759595967401 (-63) * sq Ar x in
  (adler12 * k11, adler12 * k12, adler12 * k22, adler32 * k32).
Inductive mode : Type := Kpi | KEta | I32.                  (* FOCUS.h:10 *)
(** Lines 53-73 *)
Definition focus_line (md : mode) (mpair : T) : cx :=
  let s := sq Ar mpair in
  let '(k11, k12, k22, k32) := focus_k s in
  let rho1 := phsp_focus s (m_k Ar) (m_pi Ar) in
  let rho2 := phsp_focus s (m_k Ar) (m_etap Ar) in
  let detk := k11 * k22 - k12 * k12 in
  let i := (0, 1) in
  let del := c_sub Ar (c_rsub Ar 1 (c_scale Ar (c_mul Ar rho1 rho2) detk))
                      (c_mul Ar i (c_add Ar (c_scale Ar rho1 k11) (c_scale Ar rho2 k22))) in
  match md with
  | Kpi => c_div Ar (c_rsub Ar k11 (c_scale Ar (c_mul Ar i rho2) detk)) del
  | KEta => c_div Ar (k12, 0) del
  | I32 => c_div Ar (1, 0) (c_rsub Ar 1 (c_scale Ar (c_mul Ar i rho2) k32))
  end.

End Line.
