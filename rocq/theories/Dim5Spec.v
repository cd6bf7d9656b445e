(** Decays of one particle at rest to four, for C107. *)
From Coq Require Import List Reals.
From Verif Require Import KinModel KinSpec.
Open Scope R_scope.

(** The four momenta are those of a decay, at rest, of a particle of mass M to particles of masses m1, ..., m4. *)
Definition decay4 (M m1 m2 m3 m4 : R) (p1 p2 p3 p4 : vec4 R) : Prop :=
  on_shell p1 m1 /\ on_shell p2 m2 /\ on_shell p3 m3 /\ on_shell p4 m4 /\ vadd (vadd p1 p2) (vadd p3 p4) = at_rest M.

(** Product of special relativity; scalar and triple product of the space components. *)
Definition lor (p q : vec4 R) : R := ve p * ve q - vx p * vx q - vy p * vy q - vz p * vz q.
Definition dot3 (p q : vec4 R) : R := vx p * vx q + vy p * vy q + vz p * vz q.
Definition triple (p q r : vec4 R) : R :=
  vx p * (vy q * vz r - vz q * vy r) + vy p * (vz q * vx r - vx q * vz r) + vz p * (vx q * vy r - vy q * vx r).
(** The two momenta span a plane (they are not along one line). *)
Definition plane (p q : vec4 R) : Prop := dot3 p p * dot3 q q <> dot3 p q ^ 2.

(** The same event up to a rotation of the laboratory (not a reflection): all invariant products agree, and so does the handedness. *)
Definition same_event (p q : nat -> vec4 R) : Prop :=
  (forall i j, (1 <= i <= 4)%nat -> (1 <= j <= 4)%nat -> lor (p i) (p j) = lor (q i) (q j)) /\
  triple (p 1%nat) (p 2%nat) (p 3%nat) = triple (q 1%nat) (q 2%nat) (q 3%nat).

(** The angle from the plane of 1 and 2 to the plane of 3 and 4: the angle between the normals 1 x 2 and 3 x 4, counted around the
    direction of flight of (3 4). *)
Definition cross3 (p q : vec4 R) : vec4 R :=
  mkV (vy p * vz q - vz p * vy q) (vz p * vx q - vx p * vz q) (vx p * vy q - vy p * vx q) 0.
Definition len3 (p : vec4 R) : R := sqrt (dot3 p p).
Definition plane_angle (p1 p2 p3 p4 : vec4 R) (phi : R) : Prop :=
  let n := cross3 p1 p2 in let m := cross3 p3 p4 in let h := vadd p3 p4 in
  - PI < phi <= PI /\
  dot3 n m = len3 n * len3 m * cos phi /\
  triple n m h = len3 n * len3 m * len3 h * sin phi.
(** p as seen from the rest frame of q (Lorentz boost), and the cosine of the helicity angle: the angle, in the rest frame of the pair q,
    between p and the direction of flight of the pair. *)
Definition to_rest (q p : vec4 R) : vec4 R :=
  let m := sqrt (minv q) in let e := lor q p / m in let k := (ve p + e) / (ve q + m) in
  mkV (vx p - k * vx q) (vy p - k * vy q) (vz p - k * vz q) e.
Definition helicity_cos (q p : vec4 R) : R := dot3 (to_rest q p) q / (len3 (to_rest q p) * len3 q).
