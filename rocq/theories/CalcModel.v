(** The functors that compute spin factors and lineshapes of a four-body event from its five variables, for any arithmetic.

    The data of Amp4Body and Amp4Body_TD: SFCalculator.cu:11-57, LSCalculator.cu:11-68, SFCalculator_TD.cu, LSCalculator_TD.cu; their
    normalisation events: NormSpinCalculator.cu:11-48, NormLSCalculator.cu:11-62, NormSpinCalculator_TD.cu, NormLSCalculator_TD.cu.  All
    compute the same function of the five variables; the data variants read them from the event array at the indices of the observables,
    the others take them from a tuple.  The mother mass and the daughter masses
    are the constants 0 to 4 of the PDF; the moves of the cursor are left out. *)
From Coq Require Import List ZArith.
From Verif Require Import KinModel SpinModel.
From Verif Require LeafGen.
Import ListNotations.

Section Calc.
Context {T : Type} (Ar : LeafGen.ops T) (L : LeafGen.mlib T).
(** m12, m34, cos12, cos34, phi *)
Definition five : Type := (T * T * T * T * T)%type.
(** The masses M, m1, m2, m3, m4 *)
Definition masses : Type := (T * T * T * T * T)%type.
(** gpuLVec P(vecs[4 * i], vecs[4 * i + 1], vecs[4 * i + 2], vecs[4 * i + 3]), SpinFactors.cu:97-103 *)
Definition to_spin (v : KinModel.vec4 T) : @vec T := Vec (vx v) (vy v) (vz v) (ve v).
Definition momenta (ms : masses) (v : five) : KinModel.vec4 T * KinModel.vec4 T * KinModel.vec4 T * KinModel.vec4 T :=
  let '(m12, m34, cos12, cos34, phi) := v in
  let '(M, m1, m2, m3, m4) := ms in
  get_4_vecs Ar L m12 m34 cos12 cos34 phi M m1 m2 m3 m4.
(** SFCalculator.cu:43-56: the spin factor [k] with mass constant [c] and particles [i1] to [i4] *)
Definition sf_calc (ms : masses) (k : sf) (c : T) (i1 i2 i3 i4 : nat) (v : five) : option T :=
  let '(P1, P2, P3, P4) := momenta ms v in
  spin_value Ar k c [to_spin P1; to_spin P2; to_spin P3; to_spin P4] i1 i2 i3 i4.
(** LSCalculator.cu:43-60: the lineshape [shape] (mass of the resonance, masses of its daughters) of the pair [pair] *)
Definition ls_calc (ms : masses) (shape : T -> T -> T -> T * T) (pair : Z) (v : five) : option (T * T) :=
  let '(m12, m34, _, _, _) := v in
  let '(_, m1, m2, m3, m4) := ms in
  match resonance_masses Ar pair m12 m34 (momenta ms v) m1 m2 m3 m4 with
  | Some (m, d1, d2) => Some (shape m d1 d2)
  | None => None
  end.
(** SFCalculator.cu:12-31, LSCalculator.cu:14-34: event [n] of rows of [stride] numbers, and the five observables of the PDF at their
    indices.  Reading outside the array gives None. *)
Definition observables : Type := (nat * nat * nat * nat * nat)%type.
Definition read_five (data : list T) (stride n : nat) (ids : observables) : option five :=
  let '(i12, i34, ic12, ic34, iphi) := ids in
  let evt := (n * stride)%nat in
  match nth_error data (evt + i12), nth_error data (evt + i34), nth_error data (evt + ic12), nth_error data (evt + ic34), nth_error data (evt + iphi) with
  | Some m12, Some m34, Some cos12, Some cos34, Some phi => Some (m12, m34, cos12, cos34, phi)
  | _, _, _, _, _ => None
  end.
Definition sf_data (ms : masses) (k : sf) (c : T) (i1 i2 i3 i4 : nat) (ids : observables) (data : list T) (stride n : nat) : option T :=
  match read_five data stride n ids with Some v => sf_calc ms k c i1 i2 i3 i4 v | None => None end.
Definition ls_data (ms : masses) (shape : T -> T -> T -> T * T) (pair : Z) (ids : observables) (data : list T) (stride n : nat) : option (T * T) :=
  match read_five data stride n ids with Some v => ls_calc ms shape pair v | None => None end.
End Calc.
