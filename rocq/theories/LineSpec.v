(** What the lineshapes of four-body decays are supposed to be, in exact arithmetic. *)
From Coq Require Import Reals List ZArith.
From Coquelicot Require Import Coquelicot.
From Verif Require Import AmpModel WaveModel FormulaSpec WaveSpec LineModel.
Local Open Scope R_scope.

(** The program in exact arithmetic; M_PI is the double next to pi. *)
Notation R_RBW := (rbw_line R_ops).
Notation R_SBW := (sbw_line R_ops).
Notation R_LASS := (lass_line R_ops).
Notation R_GLASS := (glass_line R_ops (R_lib (fun _ _ => 0)) atan).
Notation R_NonRes := (nonres_line R_ops).
Notation R_Flatte := (flatte_line R_ops).
Notation R_Bugg := (bugg_line R_ops (R_lib (fun _ _ => 0))).
Notation R_Bugg3 := (bugg3_line R_ops (R_lib (fun _ _ => 0))).
Notation R_FOCUS := (focus_line R_ops).
Definition m_PI : R := 884279719003555 / 2 ^ 48.

(** ** Form factors *)
(** Blatt and Weisskopf: the weight of angular momentum [l], z = (q r)^2. *)
Definition weight (l : nat) (z : R) : R := match l with O => 1 | 1%nat => 1 / (1 + z) | _ => 1 / (9 + 3 * z + z ^ 2) end.
(** The square of the form factor of each option: none, the one that is 1 at z = 1, the one that is 1 at the nominal mass, the
    weight itself. *)
Definition form_factor (f : ff) (l : nat) (z z0 : R) : R :=
  match f with
  | FF_One => 1
  | FF_BL => z ^ l * weight l z / weight l 1
  | FF_BL_Prime => weight l z / weight l z0
  | FF_BL2 => weight l z
  end.

(** ** Breit-Wigner *)
(** The constant that normalises the Breit-Wigner function of mass [m] and width [g] over the masses. *)
Definition line_norm (m g : R) : R :=
  let gamma := m * sqrt (m ^ 2 + g ^ 2) in m * g * gamma / sqrt (m ^ 2 + gamma).
Definition breit_wigner (m s w : R) : C := (/ (m ^ 2 - s, - w)%R)%C.

(** ** K pi, isospin 1/2, S wave *)
(** The background of LASS: 1/(cot delta - i). *)
Definition cot_lass (q : R) : R :=
  let a := 4661225614328463 / 2 ^ 51 in let r := 7475975381435023 / 2 ^ 51 in (2 + a * r * q ^ 2) / (2 * a * q).
(** ** Generalised LASS: a background of phase shift [dB] and fraction [F], and a resonance of phase shift [dR] behind it *)
Definition e_i (x : R) : C := (cos x, sin x).
Definition glass_formula (F dB dR : R) : C :=
  (RtoC F * (RtoC (sin dB) * e_i dB) + e_i (2 * dB) * (RtoC (sin dR) * e_i dR))%C.
(** ** Flatté: the masses and couplings of the program *)
Definition fl_pi0 : R := 1215761130927473 / 2 ^ 53.
Definition fl_k0 : R := 4482414694723345 / 2 ^ 53.
Definition fl_gpi : R := 5944751508129055 / 2 ^ 55.
Definition fl_gk : R := fl_gpi * (4740038607807447 / 2 ^ 50).
(** The double [m] 2^-[e]. *)
Definition dbl (m : Z) (e : nat) : R := IZR m / 2 ^ e.

(** ** Bugg's sigma (hep-ph/0608081), s > 0 *)
Definition bg_M : R := dbl 8583860889768165 53.             (* 0.953 *)
Definition bg_pi : R := dbl 5028539199936801 55.            (* the mass of the charged pion, 0.139570 *)
Definition bg_k : R := dbl 8893294212965537 54.             (* 0.493677 *)
Definition bg_eta : R := dbl 4934702198100909 53.           (* 0.547862 *)
Definition bg_sA : R := dbl 7385903388887613 54 * bg_pi ^ 2. (* the Adler zero, 0.41 m_pi^2 *)
(** M g1^2(s) with M (b1 + b2 s) exp(-(s - M^2)/A) *)
Definition bg_g (s : R) : R :=
  bg_M * (dbl 2931843357418193 51 + dbl 6124895493223875 54 * s) * exp (- (s - bg_M ^ 2) / dbl 1365716587000103 49).
Definition bg_adler (s : R) : R := (s - bg_sA) / (bg_M ^ 2 - bg_sA).
Definition bg_j1 (s : R) : R := let rho := Re (phase_space (4 * bg_pi ^ 2) s) in (2 + rho * ln ((1 - rho) / (1 + rho))) / m_PI.
(** a channel of two particles of mass [m]: ratio [r] to the pions, suppressed away from its threshold *)
Definition bg_channel (r m s : R) : C :=
  (RtoC (r * bg_g s * s / bg_M ^ 2 * exp (- dbl 5854679515581645 52 * Rabs (s - 4 * m ^ 2))) * phase_space (4 * m ^ 2) s)%C.
(** four pions: 0.011 times a Fermi function that is 1 at the nominal mass, from 16 m_pi^2 on *)
Definition bg_fermi (s : R) : R :=
  let lam := dbl 6406370469934531 51 in 1 / (1 + exp (lam * (dbl 7973623140259463 50 / lam - s))).
Definition bg_four (s : R) : R :=
  if Rlt_dec s (16 * bg_pi ^ 2) then 0 else dbl 3170534137668829 58 * (bg_fermi s / bg_fermi (bg_M ^ 2)).
(** M^2 - s - g^2 adler (j1(s) - j1(M^2)) - i (M Gamma_2pi + M Gamma_KK + M Gamma_eta eta + x Gamma_4pi) *)
Definition bg_denominator (x s : R) : C :=
  (RtoC (bg_M ^ 2 - s - bg_adler s * bg_g s * (bg_j1 s - bg_j1 (bg_M ^ 2)))
   - Ci * (RtoC (bg_g s * bg_adler s * Re (phase_space (4 * bg_pi ^ 2) s)) + bg_channel (dbl 5404319552844595 53) bg_k s
           + bg_channel (dbl 3602879701896397 54) bg_eta s + RtoC (x * bg_four s)))%C.

(** ** FOCUS (arXiv:0705.2248): the K-matrices of the K pi S wave *)
Definition fo_norm : R := bg_k ^ 2 + bg_pi ^ 2.
Definition fo_element (g h c0 c1 c2 s : R) : R :=
  let x := s / fo_norm - 1 in (s - dbl 8286623314361713 55) / fo_norm * (g * h / (dbl 1008750021535649 49 - s) + c0 - c1 * x + c2 * x ^ 2).
Definition fo_g1 : R := dbl 2798716952433121 53.            (* 0.31072 *)
Definition fo_g2 : R := - dbl 836948954750533 55.           (* -0.02323 *)
Definition fo_11 : R -> R := fo_element fo_g1 fo_g1 (dbl 7142618937017059 53) (dbl 2719994030946685 54) (dbl 1168774175295191 57).
Definition fo_12 : R -> R := fo_element fo_g1 fo_g2 (dbl 5418731071652181 55) (dbl 5514711786910701 57) (dbl 5210282863619263 61).
Definition fo_22 : R -> R := fo_element fo_g2 fo_g2 (dbl 6144351043614115 55) (dbl 6312245237722487 58) (dbl 3950139659083979 62).
(** isospin 3/2 *)
Definition fo_32 (s : R) : R :=
  let x := s / fo_norm - 1 in
  (s - dbl 607985949695017 51) / fo_norm * (- dbl 3989648837894975 54 + dbl 3838796264776573 57 * x - dbl 8490759595967401 63 * x ^ 2).
(** The phase space of two particles, i sqrt(..) below the threshold. *)
Definition unequal (m1 m2 s : R) : C :=
  let a := (1 - (m1 + m2) ^ 2 / s) * (1 - (m1 - m2) ^ 2 / s) in if Rle_dec 0 a then RtoC (sqrt a) else (0, sqrt (- a)).
Definition fo_etap : R := dbl 8716987294753237 53.          (* 0.96778 *)
Definition rho_kpi : R -> C := unequal bg_k bg_pi.
Definition rho_keta : R -> C := unequal bg_k fo_etap.
(** T = (1 - i K rho)^-1 K: the first column of T. *)
Definition t_column (s : R) (t1 t2 : C) : Prop :=
  ((1 - Ci * fo_11 s * rho_kpi s) * t1 - Ci * fo_12 s * rho_keta s * t2 = fo_11 s)%C /\
  ((1 - Ci * fo_22 s * rho_keta s) * t2 - Ci * fo_12 s * rho_kpi s * t1 = fo_12 s)%C.
