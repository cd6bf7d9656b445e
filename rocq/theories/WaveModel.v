(** The resonance functions of the three-body amplitude models, resonances/RBW.cu, GS.cu, LASS.cu, FLATTE.cu, Gauss.cu,
    NonRes.cu and RhoOmegaMix.cu with the helpers of resonances/Resonance.cu, for any arithmetic.

    A resonance reads its own parameters and constants (AmpDevice.v is about where they are) and the masses and radii of the
    decay, which are constants of the device.  fpcomplex is a pair; a quotient of two complex numbers is written out, thrust
    scales before it divides.  [None] is undefined behaviour: an uninitialised variable is read. *)
From Coq Require Import List ZArith Bool.
From Verif Require Import AmpModel.
From Verif Require LeafGen.
Import ListNotations.

Section Wave.
Context {T : Type} (Ar : LeafGen.ops T) (L : LeafGen.mlib T).
Local Notation "0" := (LeafGen.o_zero Ar).
Local Notation "1" := (LeafGen.o_one Ar).
Local Notation "2" := (LeafGen.o_ofZ Ar 2).
Local Notation "3" := (LeafGen.o_ofZ Ar 3).
Local Notation "4" := (LeafGen.o_ofZ Ar 4).
Local Notation "8" := (LeafGen.o_ofZ Ar 8).
Local Notation "9" := (LeafGen.o_ofZ Ar 9).
Local Notation "13" := (LeafGen.o_ofZ Ar 13).
Local Notation half := (LeafGen.o_half Ar).
Local Infix "+" := (LeafGen.o_add Ar).
Local Infix "-" := (LeafGen.o_sub Ar).
Local Infix "*" := (LeafGen.o_mul Ar).
Local Infix "/" := (LeafGen.o_div Ar).
Local Notation "- x" := (LeafGen.o_opp Ar x).
Local Notation "x <= y" := (LeafGen.o_le Ar x y).
Local Notation sqrt := (LeafGen.o_sqrt Ar).
Local Notation log := (LeafGen.m_log L).
Local Notation exp := (LeafGen.m_exp L).
Local Notation pow := (LeafGen.m_pow L).
Local Notation cos := (LeafGen.m_cos L).
Local Notation sin := (LeafGen.m_sin L).
Local Notation lit := (LeafGen.o_lit Ar).
Local Notation cx := (@cx T).
Definition sq (x : T) : T := x * x.               (* POW2, GlobalCudaDefines.h:150 *)
Definition cube (x : T) : T := x * x * x.         (* POW3, GlobalCudaDefines.h:151 *)
(** thrust: complex / complex. *)
Definition c_div (a b : cx) : cx :=
  ((fst a * fst b + snd a * snd b) / c_norm Ar b, (snd a * fst b - fst a * snd b) / c_norm Ar b).

(** c_motherMass, c_daug1Mass, c_daug2Mass, c_daug3Mass, c_meson_radius, c_mother_meson_radius: DalitzPlotHelpers.cu. *)
Record decay : Type := mkDecay { d_mother : T; d_1 : T; d_2 : T; d_3 : T; d_radius : T; d_mother_radius : T }.
(** PAIR_12 == cyclic_index ? a : (PAIR_13 == cyclic_index ? b : c); PAIR_12 = 0, PAIR_13 = 1, PAIR_23 = 2
    (DalitzPlotHelpers.h:81). *)
Definition by_pair (cyc : nat) (a b c : T) : T := match cyc with O => a | S O => b | _ => c end.

(** ** Resonance.cu *)
(** Lines 48-60 *)
Definition two_body_mom (s m1 m2 : T) : T :=
  let kin1 := 1 - sq (m1 + m2) / s in
  let kin1 := if 0 <= kin1 then sqrt kin1 else 1 in
  let kin2 := 1 - sq (m1 - m2) / s in
  let kin2 := if 0 <= kin2 then sqrt kin2 else 1 in
  half * sqrt s * kin1 * kin2.
(** Lines 62-75 *)
Definition mother_mom (s dm d3m : T) : T :=
  let kin1 := 1 - sq (dm + d3m) / s in
  let kin1 := if 0 <= kin1 then sqrt kin1 else 1 in
  let kin2 := 1 - sq (dm - d3m) / s in
  let kin2 := if 0 <= kin2 then sqrt kin2 else 1 in
  half * s * kin1 * kin2 / dm.
(** Lines 77-86; `13 * square / pow(square - 3, 2) + 9 * square * square`, without brackets around the sum. *)
Definition damping (q : T) (spin : nat) (r : T) : T :=
  let square := r * r * q * q in
  let dfsq := 2 * square in
  let dfsqres := 13 * square / pow (square - 3) 2 + 9 * square * square in
  if Nat.eqb spin 2 then dfsqres else dfsq.
(** Lines 88-97 *)
Definition damping_norm (q : T) (spin : nat) (r : T) : T :=
  let square := r * r * q * q in
  let dfsq := 1 + square in
  let dfsqres := dfsq + 8 + 2 * square + square * square in
  if Nat.eqb spin 2 then dfsqres else dfsq.
(** Lines 99-162 *)
Definition spin_factor (spin : nat) (d : decay) (m12 m13 m23 : T) (cyc : nat) : T :=
  match spin with
  | O => 1
  | _ =>
    let mA := by_pair cyc (d_1 d) (d_3 d) (d_2 d) in
    let mB := by_pair cyc (d_2 d) (d_1 d) (d_3 d) in
    let mC := by_pair cyc (d_3 d) (d_2 d) (d_1 d) in
    let mAC := by_pair cyc m13 m23 m12 in
    let mBC := by_pair cyc m23 m12 m13 in
    let mAB := by_pair cyc m12 m13 m23 in
    let M := d_mother d in
    let mf := 1 / mAB in
    let s := - (1) * ((mBC - mAC) + (mf * (M * M - mC * mC) * (mA * mA - mB * mB))) in
    if Nat.eqb spin 2 then
      let extra := (mAB - (2 * M * M) - (2 * mC * mC)) + mf * sq (M * M - mC * mC) in
      let extra := extra * ((mAB - (2 * mA * mA) - (2 * mB * mB)) + mf * sq (mA * mA - mB * mB)) in
      s * s - extra / 3
    else s
  end.
(** 3.14159265359 in hFun, dh_dsFun and dFun *)
Definition pi_ : T := lit 3537118876014453 (-50).
(** Lines 13-21 *)
Definition h_fun (s m2 m3 : T) : T :=
  let k := two_body_mom s m2 m3 in
  2 / pi_ * (k / sqrt s) * log ((sqrt s + 2 * k) / (m2 + m3)).
(** Lines 5-11 *)
Definition dh_ds_fun (s m2 m3 : T) : T :=
  let k := two_body_mom s m2 m3 in
  h_fun s m2 m3 * (1 / (8 * sq k) - 1 / (2 * s)) + 1 / (2 * pi_ * s).
(** Lines 23-34; [m] is the square of the mass. *)
Definition fs_fun (s m gam m2 m3 : T) : T :=
  let k := two_body_mom s m2 m3 in
  let km := two_body_mom m m2 m3 in
  gam * m / cube km
  * (sq k * (h_fun s m2 m3 - h_fun m m2 m3) + (m - s) * sq km * dh_ds_fun m m2 m3).
(** Lines 36-46 *)
Definition d_fun (s m2 m3 : T) : T :=
  let sm := m2 + m3 in
  let sm24 := sm * sm / 4 in
  let m := sqrt s in
  let k := two_body_mom s m2 m3 in
  3 / pi_ * sm24 / sq k * log ((m + 2 * k) / sm) + m / (2 * pi_ * k) - sm24 * m / (pi_ * cube k).

(** ** The daughters of the pair and the form factors: the statements RBW.cu:24-64, GS.cu:17-58 and
    RhoOmegaMix.cu:35-77, 94-117 have in common, with [m] the square of the nominal mass: the momenta at the measured and at
    the nominal mass, frFactor and frFactorMother. *)
Definition first_mass (d : decay) (cyc : nat) : T := if Nat.eqb cyc 2 then d_2 d else d_1 d.
Definition second_mass (d : decay) (cyc : nat) : T := if Nat.eqb cyc 0 then d_2 d else d_3 d.
Definition bachelor (d : decay) (cyc : nat) : T := by_pair cyc (d_3 d) (d_2 d) (d_1 d).
Definition factors (d : decay) (spin cyc : nat) (norm : bool) (m s : T) : T * T * T * T :=
  let q := two_body_mom s (first_mass d cyc) (second_mass d cyc) in
  let q0 := two_body_mom m (first_mass d cyc) (second_mass d cyc) in
  let qm := if norm then mother_mom s (d_mother d) (bachelor d cyc)
            else two_body_mom (d_mother d * d_mother d) (sqrt s) (bachelor d cyc) in
  let qm0 := mother_mom m (d_mother d) (bachelor d cyc) in
  match spin with
  | O => (q, q0, 1, 1)
  | _ => if norm
         then (q, q0, damping_norm q0 spin (d_radius d) / damping_norm q spin (d_radius d),
               damping_norm qm0 spin (d_mother_radius d) / damping_norm qm spin (d_mother_radius d))
         else (q, q0, damping q spin (d_radius d), damping qm spin (d_mother_radius d))
  end.
(** 2.0 * spin + 1 *)
Definition two_spin_1 (spin : nat) : T := 2 * LeafGen.o_ofZ Ar (Z.of_nat spin) + 1.
(** `ret *= sqrt(frFactor); ret *= sqrt(frFactorMother); ret *= spinFactor(...)` *)
Definition dress (d : decay) (spin cyc : nat) (fr frm m12 m13 m23 : T) (z : cx) : cx :=
  c_scale Ar (c_scale Ar (c_scale Ar z (sqrt fr)) (sqrt frm)) (spin_factor spin d m12 m13 m23 cyc).

(** ** plainBW, RBW.cu:9-86 *)
Definition rbw_term (d : decay) (mass width : T) (spin cyc : nat) (norm : bool) (m12 m13 m23 : T) : cx :=
  let m := sq mass in
  let s := by_pair cyc m12 m13 m23 in
  let '(q, q0, fr, frm) := factors d spin cyc norm m s in
  let A := m - s in
  let B := m * width * pow (q / q0) (two_spin_1 spin) * fr / sqrt s in
  let C := 1 / (sq A + sq B) in
  dress d spin cyc fr frm m12 m13 m23 (A * C, B * C).
(** The loop runs once, or twice with the next cyclic index the second time (lines 22, 80-82). *)
Definition rbw (d : decay) (mass width : T) (spin cyc : nat) (norm sym : bool) (m12 m13 m23 : T) : cx :=
  let z := c_add Ar (c_zero Ar) (rbw_term d mass width spin cyc norm m12 m13 m23) in
  if sym then c_add Ar z (rbw_term d mass width spin (Nat.modulo (cyc + 1) 3) norm m12 m13 m23) else z.

(** ** gouSak, GS.cu:9-75: the second and the third daughter in dFun and fsFun, whatever the pair (lines 62-63). *)
Definition gs_core (d : decay) (m width : T) (spin : nat) (q q0 fr s : T) : cx :=
  let D := 1 + d_fun m (d_2 d) (d_3 d) * width / sqrt m in
  let E := m - s + fs_fun s m width (d_2 d) (d_3 d) in
  let F := sqrt m * width * pow (q / q0) (two_spin_1 spin) * fr in
  let D := D / (E * E + F * F) in
  (D * E, D * F).
Definition gs (d : decay) (mass width : T) (spin cyc : nat) (norm : bool) (m12 m13 m23 : T) : cx :=
  let m := mass * mass in
  let s := by_pair cyc m12 m13 m23 in
  let '(q, q0, fr, frm) := factors d spin cyc norm m s in
  dress d spin cyc fr frm m12 m13 m23 (gs_core d m width spin q q0 fr s).

(** ** lass, LASS.cu:9-119 *)
(** Lines 34-39: the masses of the daughters; the second one is daughter 2 unless the pair is (23). *)
Definition lass_second (d : decay) (cyc : nat) : T := if Nat.eqb cyc 2 then d_3 d else d_2 d.
Definition lass_factors (d : decay) (spin cyc : nat) (norm : bool) (m s : T) : option (T * T * T * T) :=
  let q := two_body_mom s (first_mass d cyc) (lass_second d cyc) in
  let q0 := two_body_mom m (first_mass d cyc) (lass_second d cyc) in
  let qm := mother_mom s (d_mother d) (bachelor d cyc) in
  let qm0 := mother_mom m (d_mother d) (bachelor d cyc) in
  match spin with
  | O => Some (q, q0, 1, 1)
  | _ => if norm
         then Some (q, q0, damping_norm q0 spin (d_radius d) / damping_norm q spin (d_radius d),
                    damping_norm qm0 spin (d_mother_radius d) / damping_norm qm spin (d_mother_radius d))
         else None   (* line 57 reads nominalDaughterMomsMother, which has no value *)
  end.
Definition lass (d : decay) (mass width a r R phiR B phiB : T) (spin cyc : nat) (norm : bool) (m12 m13 m23 : T) : option cx :=
  let m := mass * mass in
  let s := by_pair cyc m12 m13 m23 in
  match lass_factors d spin cyc norm m s with
  | None => None
  | Some (q, q0, fr, frm) =>
    let g := width * pow (q / q0) (two_spin_1 spin) * fr / sqrt s in
    let cot := 1 / (a * q) + half * r * q in
    let qcot := 1 / a + half * r * q * q in
    let e2d := c_div (qcot, q) (qcot, - q) in
    let resT := c_scale Ar (cos (phiR + 2 * phiB), sin (phiR + 2 * phiB)) R in
    let prop := c_div (1, 0) (m - s, sqrt m * g) in
    let resT := c_mul Ar resT (c_mul Ar (c_scale Ar prop (m * width / q0)) e2d) in
    let bkg := c_scale Ar (c_scale Ar (c_scale Ar (cos phiB, sin phiB) B) (cos phiB + cot * sin phiB)) (sqrt s) in
    let resT := c_add Ar resT (c_div bkg (qcot, - q)) in
    Some (dress d spin cyc fr frm m12 m13 m23 resT)
  end.

(** ** flatte, FLATTE.cu:19-74 *)
Definition pip_mass : T := lit 628568210640033 (-52).     (* 0.13957018 *)
Definition pi0_mass : T := lit 1215761130927473 (-53).    (* 0.1349766 *)
Definition kp_mass : T := lit 8893294212965537 (-54).     (* 0.493677 *)
Definition k0_mass : T := lit 1120527112487171 (-51).     (* 0.497614 *)
(** Lines 45-60: the real part above the threshold, the imaginary part below it. *)
Definition rho_re (t s c : T) : T := if t <= s then c * sqrt (1 - t / s) else 0.
Definition rho_im (t s c : T) : T := if t <= s then 0 else c * sqrt (- (1) + t / s).
Definition flatte_term (mass g1 g2 s : T) : cx :=
  let tpip := 4 * pip_mass * pip_mass in
  let tpi0 := 4 * pi0_mass * pi0_mass in
  let tkp := 4 * kp_mass * kp_mass in
  let tk0 := 4 * k0_mass * k0_mass in
  let pire := 0 + rho_re tpip s (2 / 3) + rho_re tpi0 s (1 / 3) in
  let piim := 0 + rho_im tpip s (2 / 3) + rho_im tpi0 s (1 / 3) in
  let kre := 0 + rho_re tkp s half + rho_re tk0 s half in
  let kim := 0 + rho_im tkp s half + rho_im tk0 s half in
  let A := (mass * mass - s) + mass * (piim * g1 + kim * g2) in
  let B := mass * (pire * g1 + kre * g2) in
  let C := 1 / (A * A + B * B) in
  (A * C, B * C).
(** The loop runs once, or twice with m12 and m13 exchanged the second time. *)
Definition flatte (mass g1 rg2og1 : T) (cyc : nat) (symm : bool) (m12 m13 m23 : T) : cx :=
  let g2 := rg2og1 * g1 in
  let z := c_add Ar (c_zero Ar) (flatte_term mass g1 g2 (by_pair cyc m12 m13 m23)) in
  if symm then c_add Ar z (flatte_term mass g1 g2 (by_pair cyc m13 m12 m23)) else z.

(** ** gaussian, Gauss.cu:9-29 *)
Definition gauss (mass width : T) (cyc : nat) (m12 m13 m23 : T) : cx :=
  let x := (sqrt (by_pair cyc m12 m13 m23) - mass) / width in
  (exp (- half * (x * x)) / width, 0).

(** ** rhoomgamix<1>, RhoOmegaMix.cu:9-139 *)
Definition rho_omega (d : decay) (mo wo mr wr re im delta : T) (spin cyc : nat) (norm : bool) (m12 m13 m23 : T) : cx :=
  let s := by_pair cyc m12 m13 m23 in
  let bterm := c_scale Ar (re, im) (delta * (mr + mo)) in
  let omega := rbw_term d mo wo spin cyc norm m12 m13 m23 in
  let rho := gs d mr wr spin cyc norm m12 m13 m23 in
  let mixing := c_add Ar (c_mul Ar bterm omega) (1, 0) in
  c_add Ar (c_zero Ar) (c_mul Ar rho mixing).

(** ** The objects, as their constructors make them: RBW.cu:93-115, GS.cu:81-99, LASS.cu:125-154, FLATTE.cu:80-97,
    Gauss.cu:35-49, NonRes.cu:16-19, RhoOmegaMix.cu:145-177.  [sym] of GS is not looked at, and RhoOmegaMix takes the same
    function in both cases. *)
Inductive wave : Type :=
| RBW (mass width : T) (spin cyc : nat) (norm sym : bool)
| GS (mass width : T) (spin cyc : nat) (norm sym : bool)
| LASS (mass width a r R phiR B phiB : T) (spin cyc : nat) (norm : bool)
| FLATTE (mean g1 rg2og1 : T) (cyc : nat) (symm : bool)
| Gauss (mass width : T) (cyc : nat)
| NonRes
| RhoOmegaMix (mo wo mr wr re im delta : T) (spin cyc : nat) (norm sym : bool).
Definition amplitude (d : decay) (w : wave) (m12 m13 m23 : T) : option cx :=
  match w with
  | RBW mass width spin cyc norm sym => Some (rbw d mass width spin cyc norm sym m12 m13 m23)
  | GS mass width spin cyc norm _ => Some (gs d mass width spin cyc norm m12 m13 m23)
  | LASS mass width a r R phiR B phiB spin cyc norm => lass d mass width a r R phiR B phiB spin cyc norm m12 m13 m23
  | FLATTE mean g1 rg cyc symm => Some (flatte mean g1 rg cyc symm m12 m13 m23)
  | Gauss mass width cyc => Some (gauss mass width cyc m12 m13 m23)
  | NonRes => Some (1, 0)
  | RhoOmegaMix mo wo mr wr re im delta spin cyc norm _ =>
      Some (rho_omega d mo wo mr wr re im delta spin cyc norm m12 m13 m23)
  end.
End Wave.
Arguments decay : clear implicits. Arguments wave : clear implicits.
