(** What the resonance functions are supposed to be, in exact arithmetic: kinematics of three bodies, barrier factors,
    Breit-Wigner, Gounaris-Sakurai and Flatté formulas, elastic unitarity, and what the numbering of the daughters and the
    exchange of two of them mean. *)
From Coq Require Import Reals List.
From Coquelicot Require Import Coquelicot.
From Verif Require Import AmpModel WaveModel FormulaSpec.
Import ListNotations.
Local Open Scope R_scope.

(** The program in exact arithmetic. *)
Notation R_wave := (amplitude R_ops (R_lib (fun _ _ => 0))).
Definition value (d : decay R) (w : wave R) (m12 m13 m23 : R) (z : C) : Prop := R_wave d w m12 m13 m23 = Some z.

(** ** Kinematics *)
Definition vec : Type := (R * R * R)%type.
Definition dot (a b : vec) : R := let '(a1, a2, a3) := a in let '(b1, b2, b3) := b in a1 * b1 + a2 * b2 + a3 * b3.
Definition plus (a b : vec) : vec := let '(a1, a2, a3) := a in let '(b1, b2, b3) := b in (a1 + b1, a2 + b2, a3 + b3).
Definition neg (a : vec) : vec := let '(a1, a2, a3) := a in (- a1, - a2, - a3).
Definition energy (m : R) (p : vec) : R := sqrt (m ^ 2 + dot p p).
(** The square of the mass of two particles. *)
Definition mass2 (m : R) (p : vec) (m' : R) (p' : vec) : R :=
  (energy m p + energy m' p') ^ 2 - dot (plus p p') (plus p p').
(** A and B at rest together, A with momentum [a]; the bachelor C with momentum [c]. *)
Definition at_rest (M mA mB mC : R) (a c : vec) (sAB sAC sBC : R) : Prop :=
  sAB = mass2 mA a mB (neg a) /\ sAC = mass2 mA a mC c /\ sBC = mass2 mB (neg a) mC c /\
  M ^ 2 = (energy mA a + energy mB (neg a) + energy mC c) ^ 2 - dot c c.
(** The daughters (A, B) of the pair and the bachelor C, in the order of the code: (1,2) with 3, (3,1) with 2, (2,3) with 1. *)
Definition seen (d : decay R) (cyc : nat) (a c : vec) (m12 m13 m23 : R) : Prop :=
  match cyc with
  | O => at_rest (d_mother d) (d_1 d) (d_2 d) (d_3 d) a c m12 m13 m23
  | S O => at_rest (d_mother d) (d_3 d) (d_1 d) (d_2 d) a c m13 m23 m12
  | _ => at_rest (d_mother d) (d_2 d) (d_3 d) (d_1 d) a c m23 m12 m13
  end.
Definition pair_mass (cyc : nat) (m12 m13 m23 : R) : R := match cyc with O => m12 | S O => m13 | _ => m23 end.
Definition pair_daughters (d : decay R) (cyc : nat) : R * R * R :=
  match cyc with O => (d_1 d, d_2 d, d_3 d) | S O => (d_3 d, d_1 d, d_2 d) | _ => (d_2 d, d_3 d, d_1 d) end.
(** The amplitude of angular momentum [l] for momenta [a] and [c]: proportional to the Legendre polynomials. *)
Definition angular (l : nat) (a c : vec) : R :=
  match l with O => 1 | 1%nat => - 4 * dot a c | _ => 16 * (dot a c ^ 2 - dot a a * dot c c / 3) end.
(** The momentum of the daughters of a state of mass [M] at rest. *)
Definition breakup (M m1 m2 q : R) : Prop := 0 <= q /\ sqrt (q ^ 2 + m1 ^ 2) + sqrt (q ^ 2 + m2 ^ 2) = M.
(** The momentum of the bachelor, and of the mother, where a resonance of mass [m] is at rest. *)
Definition recoil (M m mC p : R) : Prop := 0 <= p /\ sqrt (p ^ 2 + M ^ 2) = m + sqrt (p ^ 2 + mC ^ 2).

(** ** Relativistic Breit-Wigner (PDG, Dalitz plot formalism) *)
(** The square of the barrier factor B'_l(q, q0), z = (q r)^2. *)
Definition barrier (l : nat) (z z0 : R) : R :=
  match l with O => 1 | 1%nat => (1 + z0) / (1 + z) | _ => (9 + 3 * z0 + z0 ^ 2) / (9 + 3 * z + z ^ 2) end.
(** m0 times the mass-dependent width *)
Definition running (m0 width : R) (l : nat) (r s q q0 : R) : R :=
  m0 * (width * (q / q0) ^ (2 * l + 1) * (m0 / sqrt s) * barrier l ((q * r) ^ 2) ((q0 * r) ^ 2)).
Definition rbw_formula (m0 width : R) (l : nat) (r rm s q q0 p p0 : R) : C :=
  (RtoC (sqrt (barrier l ((q * r) ^ 2) ((q0 * r) ^ 2)) * sqrt (barrier l ((p * rm) ^ 2) ((p0 * rm) ^ 2)))%R
   / (m0 ^ 2 - s, - running m0 width l r s q q0)%R)%C.

(** ** Gounaris-Sakurai for two particles of mass [mu], with the number [pi] in the place of pi *)
Definition gs_h (pi mu s : R) : R :=
  2 / pi * (sqrt (s / 4 - mu ^ 2) / sqrt s) * ln ((sqrt s + 2 * sqrt (s / 4 - mu ^ 2)) / (2 * mu)).
Definition gs_f (pi mu m0 width s : R) : R :=
  let k := sqrt (s / 4 - mu ^ 2) in
  let k0 := sqrt (m0 ^ 2 / 4 - mu ^ 2) in
  width * m0 ^ 2 / k0 ^ 3
  * (k ^ 2 * (gs_h pi mu s - gs_h pi mu (m0 ^ 2)) + (m0 ^ 2 - s) * k0 ^ 2 * Derive (gs_h pi mu) (m0 ^ 2)).
Definition gs_d (pi mu m0 : R) : R :=
  let k0 := sqrt (m0 ^ 2 / 4 - mu ^ 2) in
  3 / pi * (mu ^ 2 / k0 ^ 2) * ln ((m0 + 2 * k0) / (2 * mu)) + m0 / (2 * pi * k0) - mu ^ 2 * m0 / (pi * k0 ^ 3).
(** [w]: m0 times the mass-dependent width. *)
Definition gs_formula (pi mu m0 width s w : R) : C :=
  (RtoC (1 + gs_d pi mu m0 * width / m0)%R / (m0 ^ 2 - s + gs_f pi mu m0 width s, - w)%R)%C.

(** ** Flatté: coupled channels; phase space i sqrt(t/s - 1) below the threshold [t] *)
Definition phase_space (t s : R) : C := if Rle_dec t s then RtoC (sqrt (1 - t / s)) else (0, sqrt (t / s - 1)).
Definition flatte_formula (m0 g1 g2 mpip mpi0 mkp mk0 s : R) : C :=
  (1 / (RtoC (m0 ^ 2 - s)%R - Ci * m0 * (g1 * (2 / 3 * phase_space (4 * mpip ^ 2) s + 1 / 3 * phase_space (4 * mpi0 ^ 2) s)
                            + g2 * (1 / 2 * phase_space (4 * mkp ^ 2) s + 1 / 2 * phase_space (4 * mk0 ^ 2) s))))%C.

(** ** Elastic scattering *)
(** 1 + 2iT has modulus one. *)
Definition unitary (t : C) : Prop := Cmod (1 + 2 * Ci * t)%C = 1.

(** ** Numbering of the daughters *)
(** The same decay with the daughters named anew: 2 becomes 1, 3 becomes 2, 1 becomes 3. *)
Definition renamed (d : decay R) : decay R :=
  mkDecay (d_mother d) (d_2 d) (d_3 d) (d_1 d) (d_radius d) (d_mother_radius d).
(** The pair (12) is now (13), (13) is (23), (23) is (12). *)
Definition next (cyc : nat) : nat := match cyc with O => 1%nat | S O => 2%nat | _ => 0%nat end.
Definition renamed_wave (w : wave R) : wave R :=
  match w with
  | RBW m g sp cyc norm sym => RBW m g sp (next cyc) norm sym
  | GS m g sp cyc norm sym => GS m g sp (next cyc) norm sym
  | LASS m g a r R0 phiR B phiB sp cyc norm => LASS m g a r R0 phiR B phiB sp (next cyc) norm
  | FLATTE m g1 rg cyc symm => FLATTE m g1 rg (next cyc) symm
  | Gauss m g cyc => Gauss m g (next cyc)
  | NonRes => NonRes
  | RhoOmegaMix mo wo mr wr re im delta sp cyc norm sym => RhoOmegaMix mo wo mr wr re im delta sp (next cyc) norm sym
  end.
(** A point of the Dalitz plot in the new names: m12' = m23, m13' = m12, m23' = m13. *)
Definition same_when_renamed (w : wave R) : Prop :=
  forall d m12 m13 m23, R_wave (renamed d) (renamed_wave w) m23 m12 m13 = R_wave d w m12 m13 m23.

(** ** Symmetrised resonances *)
Definition pair_of (w : wave R) : nat :=
  match w with
  | RBW _ _ _ cyc _ _ | GS _ _ _ cyc _ _ | LASS _ _ _ _ _ _ _ _ _ cyc _ | FLATTE _ _ _ cyc _ | Gauss _ _ cyc
  | RhoOmegaMix _ _ _ _ _ _ _ _ cyc _ _ => cyc
  | NonRes => 0%nat
  end.
Definition spin_of (w : wave R) : nat :=
  match w with
  | RBW _ _ sp _ _ _ | GS _ _ sp _ _ _ | LASS _ _ _ _ _ _ _ _ sp _ _ | RhoOmegaMix _ _ _ _ _ _ _ sp _ _ _ => sp
  | _ => 0%nat
  end.
Definition asks_symmetry (w : wave R) : bool :=
  match w with
  | RBW _ _ _ _ _ sym | GS _ _ _ _ _ sym | FLATTE _ _ _ _ sym | RhoOmegaMix _ _ _ _ _ _ _ _ _ _ sym => sym
  | _ => false
  end.
(** The amplitude does not change when two identical daughters are exchanged: 2 and 3. *)
Definition exchange_23 (w : wave R) : Prop :=
  forall d m12 m13 m23, d_2 d = d_3 d -> R_wave d w m12 m13 m23 = R_wave d w m13 m12 m23.

(** ** Angular momentum *)
Definition is_mixing (w : wave R) : bool := match w with RhoOmegaMix _ _ _ _ _ _ _ _ _ _ _ => true | _ => false end.
(** At a given mass of the pair the amplitude changes with the angles as [angular] of the spin does. *)
Definition legendre (d : decay R) (w : wave R) : Prop :=
  exists f : R -> option C, forall a c m12 m13 m23,
    seen d (pair_of w) a c m12 m13 m23 -> 0 < pair_mass (pair_of w) m12 m13 m23 ->
    R_wave d w m12 m13 m23 =
    match f (pair_mass (pair_of w) m12 m13 m23) with Some z => Some (RtoC (angular (spin_of w) a c) * z)%C | None => None end.
