(** Kinematics of four-body decays, DalitzPlotHelpers.cu, for any arithmetic.  inDalitz is LeafGen.in_dalitz. *)
From Coq Require Import List ZArith Bool.
From Verif Require LeafGen.
Import ListNotations.

(** Four consecutive entries of an array: x, y, z, E. *)
Record vec4 (T : Type) : Type := mkV { vx : T; vy : T; vz : T; ve : T }.
Arguments mkV {T}. Arguments vx {T}. Arguments vy {T}. Arguments vz {T}. Arguments ve {T}.

Section Kin.
Context {T : Type} (Ar : LeafGen.ops T) (L : LeafGen.mlib T).
Declare Scope K_scope.
Delimit Scope K_scope with K.
Local Infix "+" := (LeafGen.o_add Ar) : K_scope.
Local Infix "-" := (LeafGen.o_sub Ar) : K_scope.
Local Infix "*" := (LeafGen.o_mul Ar) : K_scope.
Local Infix "/" := (LeafGen.o_div Ar) : K_scope.
Local Notation "- x" := (LeafGen.o_opp Ar x) : K_scope.
Local Notation "1" := (LeafGen.o_one Ar) : K_scope.
Local Notation "2" := (LeafGen.o_ofZ Ar 2%Z) : K_scope.
Local Notation sqrt := (LeafGen.o_sqrt Ar).
Local Open Scope K_scope.

(** Mass of one, two and three vectors, :61-72 *)
Definition mass1 (p : vec4 T) : T := sqrt (- vx p * vx p - vy p * vy p - vz p * vz p + ve p * ve p).
Definition mass2 (p q : vec4 T) : T :=
  sqrt (- ((vx p + vx q) * (vx p + vx q)) - (vy p + vy q) * (vy p + vy q) - (vz p + vz q) * (vz p + vz q) + (ve p + ve q) * (ve p + ve q)).
Definition mass3 (p q r : vec4 T) : T :=
  sqrt (- ((vx p + vx q + vx r) * (vx p + vx q + vx r)) - (vy p + vy q + vy r) * (vy p + vy q + vy r)
        - (vz p + vz q + vz r) * (vz p + vz q + vz r) + (ve p + ve q + ve r) * (ve p + ve q + ve r)).
(** get4Vecs, :77-159.  Boost along x, :129-148. *)
Definition boost_x (gamma beta : T) (p : vec4 T) : vec4 T :=
  mkV (gamma * (vx p + beta * ve p)) (vy p) (vz p) (gamma * (ve p + beta * vx p)).
(** Rotation around x of a vector whose z-component is zero, :150-158 (z is written first) *)
Definition rotate_x (c s : T) (p : vec4 T) : vec4 T := mkV (vx p) (c * vy p) (s * vy p) (ve p).
Definition get_4_vecs (m12 m34 cos12 cos34 phi M m1 m2 m3 m4 : T) : vec4 T * vec4 T * vec4 T * vec4 T :=
  let E1 := (m12 * m12 + m1 * m1 - m2 * m2) / (2 * m12) in
  let E2 := (m12 * m12 - m1 * m1 + m2 * m2) / (2 * m12) in
  let E3 := (m34 * m34 + m3 * m3 - m4 * m4) / (2 * m34) in
  let E4 := (m34 * m34 - m3 * m3 + m4 * m4) / (2 * m34) in
  let p1 := sqrt (E1 * E1 - m1 * m1) in
  let p3 := sqrt (E3 * E3 - m3 * m3) in
  let sin12 := sqrt (1 - cos12 * cos12) in
  let sin34 := sqrt (1 - cos34 * cos34) in
  let ED1 := (M * M + m12 * m12 - m34 * m34) / (2 * m12) in
  let PD1 := sqrt (ED1 * ED1 - M * M) in
  let beta1 := PD1 / ED1 in
  let gamma1 := 1 / sqrt (1 - beta1 * beta1) in
  let ED2 := (M * M - m12 * m12 + m34 * m34) / (2 * m34) in
  let PD2 := sqrt (ED2 * ED2 - M * M) in
  let beta2 := - PD2 / ED2 in
  let gamma2 := 1 / sqrt (1 - beta2 * beta2) in
  let z := LeafGen.o_zero Ar in
  let cosphi := LeafGen.m_cos L phi in let sinphi := LeafGen.m_sin L phi in
  (rotate_x cosphi sinphi (boost_x gamma1 beta1 (mkV (cos12 * p1) (sin12 * p1) z E1)),
   rotate_x cosphi sinphi (boost_x gamma1 beta1 (mkV (- cos12 * p1) (- sin12 * p1) z E2)),
   boost_x gamma2 beta2 (mkV (- cos34 * p3) (- sin34 * p3) z E3),
   boost_x gamma2 beta2 (mkV (cos34 * p3) (sin34 * p3) z E4)).

(** The mass of the resonance and of its two daughters for each DP4Pair: LSCalculator.cu:46-60 and getmass,
    DalitzPlotHelpers.cu:161-272.  Another number leaves the daughter masses uninitialised: None. *)
Definition resonance_masses (pair : Z) (m12 m34 : T) (vs : vec4 T * vec4 T * vec4 T * vec4 T) (m1 m2 m3 m4 : T) : option (T * T * T) :=
  let '(P1, P2, P3, P4) := vs in
  match pair with
  | 0 => Some (m12, m1, m2) | 1 => Some (m34, m3, m4)
  | 2 => Some (mass2 P1 P3, m1, m3) | 3 => Some (mass2 P1 P4, m1, m4)
  | 4 => Some (mass2 P2 P3, m2, m3) | 5 => Some (mass2 P2 P4, m2, m4)
  | 6 => Some (mass3 P1 P2 P3, mass2 P1 P2, m3) | 7 => Some (mass3 P1 P2 P3, mass2 P1 P3, m2) | 8 => Some (mass3 P1 P2 P3, mass2 P2 P3, m1)
  | 9 => Some (mass3 P1 P2 P4, mass2 P1 P2, m4) | 10 => Some (mass3 P1 P2 P4, mass2 P1 P4, m2) | 11 => Some (mass3 P1 P2 P4, mass2 P2 P4, m1)
  | 12 => Some (mass3 P1 P3 P4, mass2 P1 P3, m4) | 13 => Some (mass3 P1 P3 P4, mass2 P1 P4, m3) | 14 => Some (mass3 P1 P3 P4, mass2 P3 P4, m1)
  | 15 => Some (mass3 P2 P3 P4, mass2 P2 P3, m4) | 16 => Some (mass3 P2 P3 P4, mass2 P2 P4, m3) | 17 => Some (mass3 P2 P3 P4, mass2 P3 P4, m2)
  | _ => None
  end%Z.
End Kin.
