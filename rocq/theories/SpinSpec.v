(** Relativistic kinematics and covariant tensors, independent of the program; only the type of four-vectors is shared. *)
From Coq Require Import Reals List.
From Verif Require Import FormulaSpec SpinModel.
Import ListNotations.
Local Open Scope R_scope.

Notation vec4 := (@vec R).
Notation R_spin := (spin_factor R_ops).

(** ** Lorentz transformations *)
(** Components are numbered by x, y, z, t; the metric is - - - +. *)
Inductive ix : Type := ix_x | ix_y | ix_z | ix_t.
Definition comp (v : vec4) (i : ix) : R := match i with ix_x => vX v | ix_y => vY v | ix_z => vZ v | ix_t => vE v end.
Definition make (f : ix -> R) : vec4 := Vec (f ix_x) (f ix_y) (f ix_z) (f ix_t).
Definition sum (f : ix -> R) : R := f ix_x + f ix_y + f ix_z + f ix_t.
Definition g (i : ix) : R := match i with ix_t => 1 | _ => -1 end.
Definition metric (i j : ix) : R :=
  match i, j with ix_t, ix_t => 1 | ix_x, ix_x => -1 | ix_y, ix_y => -1 | ix_z, ix_z => -1 | _, _ => 0 end.
(** A matrix, its action and what makes it a Lorentz transformation. *)
Definition apply (L : ix -> ix -> R) (v : vec4) : vec4 := make (fun i => sum (fun j => L i j * comp v j)).
Definition lorentz (L : ix -> ix -> R) : Prop := forall i j, sum (fun k => g k * L k i * L k j) = metric i j.
(** The sign of a permutation of x y z t, and the determinant. *)
Definition rank (i : ix) : nat := match i with ix_x => 0 | ix_y => 1 | ix_z => 2 | ix_t => 3 end.
Definition order (i j : ix) : R := match Nat.compare (rank i) (rank j) with Lt => 1 | Eq => 0 | Gt => -1 end.
Definition perm (i j k l : ix) : R := order i j * order i k * order i l * order j k * order j l * order k l.
Definition det4 (L : ix -> ix -> R) : R :=
  sum (fun i => sum (fun j => sum (fun k => sum (fun l => perm i j k l * L i ix_x * L j ix_y * L k ix_z * L l ix_t)))).
(** The spin factors that contain the antisymmetric tensor change sign under reflections. *)
Definition parity (k : sf) : R := match k with DtoV1V2_P | DtoV1P1 | DtoTP1 => -1 | _ => 1 end.

(** ** Covariant tensors, upper indices, see S.U. Chung, Phys. Rev. D 48 (1993) 1225 and C. Daum et al., and SpinHelper.h:395 *)
Definition scalar (a b : vec4) : R := sum (fun i => g i * comp a i * comp b i).
Definition plus4 (a b : vec4) : vec4 := make (fun i => comp a i + comp b i).
Definition minus4 (a b : vec4) : vec4 := make (fun i => comp a i - comp b i).
(** The angular momentum 1 of a decay with momentum [p] and difference of momenta [q]: the part of q orthogonal to p. *)
Definition orbital1 (q p : vec4) (i : ix) : R := comp q i - scalar q p / scalar p p * comp p i.
(** The angular momentum 2: symmetric, without trace, orthogonal to p. *)
Definition orbital2 (q p : vec4) (i j : ix) : R :=
  orbital1 q p i * orbital1 q p j
  - / 3 * sum (fun k => g k * orbital1 q p k ^ 2) * (metric i j - comp p i * comp p j / scalar p p).
(** The sums over the polarisations of a particle of spin 1 and of spin 2. *)
Definition spin1_sum (p : vec4) (i j : ix) : R := - metric i j + comp p i * comp p j / scalar p p.
Definition spin2_sum (p : vec4) (i j k l : ix) : R :=
  / 2 * (spin1_sum p i k * spin1_sum p j l + spin1_sum p i l * spin1_sum p j k) - / 3 * (spin1_sum p i j * spin1_sum p k l).
(** Contractions *)
Definition dot1 (a b : ix -> R) : R := sum (fun i => g i * a i * b i).
Definition dot2 (a : ix -> R) (m : ix -> ix -> R) (b : ix -> R) : R := sum (fun i => sum (fun j => g i * g j * a i * m i j * b j)).
Definition eps (a b c d : ix -> R) : R :=
  sum (fun i => sum (fun j => sum (fun k => sum (fun l => - perm i j k l * a i * b j * c k * d l)))).
Definition unit4 (i j : ix) : R := match i, j with ix_x, ix_x | ix_y, ix_y | ix_z, ix_z | ix_t, ix_t => 1 | _, _ => 0 end.
(** the vector w with w.d = eps a b c d *)
Definition eps3 (a b c : ix -> R) (i : ix) : R := g i * eps a b c (unit4 i).
(** A vector contracted with a tensor. *)
Definition act (m : ix -> ix -> R) (b : ix -> R) (i : ix) : R := sum (fun j => g j * m i j * b j).
(** The contraction of two tensors with the spin-2 sum between them. *)
Definition dot4 (a : ix -> ix -> R) (m : ix -> ix -> ix -> ix -> R) (b c : ix -> R) : R :=
  sum (fun i => sum (fun j => sum (fun k => sum (fun l => g i * g j * g k * g l * a i j * m i j k l * b k * c l)))).

(** ** The spin factors as contractions *)
(** A particle with mass, moving forward in time. *)
Definition physical (p : vec4) : Prop := 0 < scalar p p /\ 0 < vE p.
Definition covariant (k : sf) (P1 P2 P3 P4 : vec4) : R :=
  let p12 := plus4 P1 P2 in let q12 := minus4 P1 P2 in
  let p34 := plus4 P3 P4 in let q34 := minus4 P3 P4 in
  let p234 := plus4 P2 p34 in let q234 := minus4 p34 P2 in
  let pD := plus4 P1 p234 in
  let l12 := orbital1 q12 p12 in let l34 := orbital1 q34 p34 in let l234 := orbital1 q234 p234 in
  (* D -> (12)(34) and D -> (234) 1 *)
  let q22 := minus4 p12 p34 in let q31 := minus4 p234 P1 in
  match k with
  | DtoPP1_PtoVP2 => dot1 l234 l34
  | DtoV1V2_S => dot1 l12 l34
  | DtoV1V2_P => - eps (comp pD) (orbital1 q22 pD) l12 l34
  | DtoV1V2_D => dot2 l12 (orbital2 q22 pD) l34
  | DtoVS => dot1 (orbital1 q22 pD) l12
  | DtoAP1_AtoSP2 => dot1 (orbital1 q31 pD) l234
  | DtoAP1_AtoVP2 => - dot2 (orbital1 q31 pD) (spin1_sum p234) l34
  | DtoAP1_AtoVP2D => dot2 (orbital1 q31 pD) (orbital2 q234 p234) l34
  | DtoV1P1 => dot2 (eps3 (comp p234) l234 l34) (spin1_sum p234) (orbital1 q31 pD)
  | DtoTP1 => dot4 (orbital2 q31 pD) (spin2_sum p234) (eps3 l234 (comp p234) (act (spin1_sum p234) l34)) l234
  | _ => 1
  end.
Definition is_form_factor (k : sf) : bool :=
  match k with FF_12_34_L1 | FF_12_34_L2 | FF_123_4_L1 | FF_123_4_L2 => true | _ => false end.

(** ** Exchanges *)
(** The sign under the exchange of particles 1 and 2, and of 3 and 4: minus for the decay of a particle of spin 1. *)
Definition sign12 (k : sf) : option R :=
  match k with
  | DtoV1V2_S | DtoV1V2_P | DtoV1V2_D | DtoVS => Some (-1)
  | DtoPP1_PtoSP2 | ONE | FF_12_34_L1 | FF_12_34_L2 | FF_123_4_L1 | FF_123_4_L2 => Some 1
  | _ => None
  end.
Definition sign34 (k : sf) : option R :=
  match k with
  | DtoPP1_PtoVP2 | DtoV1V2_S | DtoV1V2_P | DtoV1V2_D | DtoAP1_AtoVP2 | DtoAP1_AtoVP2D | DtoV1P1 | DtoTP1 => Some (-1)
  | DtoPP1_PtoSP2 | DtoVS | DtoAP1_AtoSP2 | ONE | FF_12_34_L1 | FF_12_34_L2 => Some 1
  | FF_123_4_L1 | FF_123_4_L2 => None
  end.
(** The kinds that are unchanged when the pairs (12) and (34) are exchanged. *)
Definition pairs (k : sf) : bool := match k with DtoV1V2_S | DtoV1V2_P | DtoV1V2_D | FF_12_34_L1 | FF_12_34_L2 | ONE => true | _ => false end.
(** The masses of the two systems the mother decays to, for a form factor, and its angular momentum. *)
Definition mass_of (p : vec4) : R := sqrt (scalar p p).
Definition ff_masses (k : sf) (P1 P2 P3 P4 : vec4) : R * R :=
  match k with
  | FF_12_34_L1 | FF_12_34_L2 => (mass_of (plus4 P1 P2), mass_of (plus4 P3 P4))
  | _ => (mass_of (plus4 P1 (plus4 P2 P3)), mass_of P4)
  end.
Definition ff_spin (k : sf) : nat := match k with FF_12_34_L1 | FF_123_4_L1 => 1 | _ => 2 end.

(** ** Angular distributions *)
Definition at_rest (p : vec4) : Prop := vX p = 0 /\ vY p = 0 /\ vZ p = 0.
Definition dot3 (a b : vec4) : R := vX a * vX b + vY a * vY b + vZ a * vZ b.
Definition triple (a b c : vec4) : R :=
  vX a * (vY b * vZ c - vZ b * vY c) + vY a * (vZ b * vX c - vX b * vZ c) + vZ a * (vX b * vY c - vY b * vX c).
Definition mass2 (p : vec4) : R := scalar p p.
