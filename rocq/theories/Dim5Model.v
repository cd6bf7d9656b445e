(** Dim5: the five variables of a four-body decay, computed from the four momenta (include/goofit/PDFs/physics/detail/Dim5.h), for any
    arithmetic.  The class mcbooster::Vector4R is not in the repository (submodule extern/MCBooster); its operations are written here as
    its header documents them: E first in memory, [*] the product of special relativity, [dot], [cross] and [d3mag] those of the space
    components. *)
From Coq Require Import List ZArith Bool.
From Verif Require Import KinModel.
From Verif Require LeafGen.

Section Dim5.
Context {T : Type} (Ar : LeafGen.ops T) (acos : T -> T).
Declare Scope D5_scope.
Delimit Scope D5_scope with D5.
Local Infix "+" := (LeafGen.o_add Ar) : D5_scope.
Local Infix "-" := (LeafGen.o_sub Ar) : D5_scope.
Local Infix "*" := (LeafGen.o_mul Ar) : D5_scope.
Local Infix "/" := (LeafGen.o_div Ar) : D5_scope.
Local Notation "- x" := (LeafGen.o_opp Ar x) : D5_scope.
Local Notation sqrt := (LeafGen.o_sqrt Ar).
Local Open Scope D5_scope.

(** Vector4R: operator+, operator*(v, v), mass2, mass, dot, cross, d3mag, operator/(v, c), operator*=(c) *)
Definition v_add (p q : vec4 T) : vec4 T := mkV (vx p + vx q) (vy p + vy q) (vz p + vz q) (ve p + ve q).
Definition v_mul (p q : vec4 T) : T := ve p * ve q - vx p * vx q - vy p * vy q - vz p * vz q.
Definition v_mass2 (p : vec4 T) : T := v_mul p p.
Definition v_mass (p : vec4 T) : T := sqrt (v_mass2 p).
Definition v_dot (p q : vec4 T) : T := vx p * vx q + vy p * vy q + vz p * vz q.
Definition v_cross (p q : vec4 T) : vec4 T :=
  mkV (vy p * vz q - vz p * vy q) (vz p * vx q - vx p * vz q) (vx p * vy q - vy p * vx q) (LeafGen.o_zero Ar).
Definition d3mag (p : vec4 T) : T := sqrt (vx p * vx p + vy p * vy p + vz p * vz p).
Definition v_div (p : vec4 T) (c : T) : vec4 T := mkV (vx p / c) (vy p / c) (vz p / c) (ve p / c).
Definition v_times (p : vec4 T) (c : T) : vec4 T := mkV (vx p * c) (vy p * c) (vz p * c) (ve p * c).

(** cosHELANG, :23-34 *)
Definition cos_helang (p q d : vec4 T) : T :=
  let pd := v_mul p d in
  let pq := v_mul p q in
  let qd := v_mul q d in
  let mp2 := v_mass2 p in
  let mq2 := v_mass2 q in
  let md2 := v_mass2 d in
  (pd * mq2 - pq * qd) / sqrt ((pq * pq - mq2 * mp2) * (qd * qd - mq2 * md2)).

(** phi, :36-95.  The first computation (:41-68) ends in a local variable that is not used: left out.  The argument p4_p is not used. *)
Definition phi5 (d1 d2 h1 h2 : vec4 T) : T :=
  let d1n := v_div d1 (d3mag d1) in
  let d2n := v_div d2 (d3mag d2) in
  let h1n := v_div h1 (d3mag h1) in
  let h2n := v_div h2 (d3mag h2) in
  let h12 := v_add h1 h2 in
  let h12n := v_times h12 (LeafGen.o_one Ar / d3mag h12) in
  let n1 := v_cross d1n d2n in
  let n2 := v_cross h1n h2n in
  let n1 := v_times n1 (LeafGen.o_one Ar / d3mag n1) in
  let n2 := v_times n2 (LeafGen.o_one Ar / d3mag n2) in
  let n3 := v_cross n1 n2 in
  let cp := v_dot n1 n2 in
  let sp := v_dot n3 h12n in
  let phi2 := acos cp in
  if LeafGen.o_lt Ar sp (LeafGen.o_zero Ar) then phi2 * - LeafGen.o_one Ar else phi2.

(** operator(), :97-113: m12, m34, cos12, cos34, phi *)
Definition dim5 (p1 p2 p3 p4 : vec4 T) : T * T * T * T * T :=
  let pM := v_add (v_add (v_add p1 p2) p3) p4 in
  let p12 := v_add p1 p2 in
  let p34 := v_add p3 p4 in
  (v_mass p12, v_mass p34, cos_helang pM p12 p1, cos_helang pM p34 p3, phi5 p1 p2 p3 p4).
End Dim5.
