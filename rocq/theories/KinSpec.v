(** Special relativity, for C46, C47 and C60. *)
From Coq Require Import List Reals.
From Verif Require Import KinModel.
Import ListNotations.
Open Scope R_scope.

Definition vadd (p q : vec4 R) : vec4 R := mkV (vx p + vx q) (vy p + vy q) (vz p + vz q) (ve p + ve q).
Definition vzero : vec4 R := mkV 0 0 0 0.
(** Invariant mass squared. *)
Definition minv (p : vec4 R) : R := ve p ^ 2 - vx p ^ 2 - vy p ^ 2 - vz p ^ 2.
(** The momentum of a real particle of mass m. *)
Definition on_shell (p : vec4 R) (m : R) : Prop := minv p = m ^ 2 /\ 0 <= ve p.
Definition at_rest (M : R) : vec4 R := mkV 0 0 0 M.

(** (s12, s13) is a point of the Dalitz plot: some decay M -> 1 2 3 has these squared pair masses. *)
Definition dalitz_point (M m1 m2 m3 s12 s13 : R) : Prop := exists p1 p2 p3 : vec4 R,
  on_shell p1 m1 /\ on_shell p2 m2 /\ on_shell p3 m3 /\ vadd (vadd p1 p2) p3 = at_rest M /\
  minv (vadd p1 p2) = s12 /\ minv (vadd p1 p3) = s13.

(** The decay M -> (12) (34) -> 1 2 3 4 is possible. *)
Definition four_body (M m12 m34 m1 m2 m3 m4 : R) : Prop :=
  0 < m12 /\ 0 < m34 /\ m12 + m34 <= M /\ 0 <= m1 /\ 0 <= m2 /\ 0 <= m3 /\ 0 <= m4 /\ m1 + m2 <= m12 /\ m3 + m4 <= m34.

(** The pairs of DP4Pair (DalitzPlotHelpers.h:58-77) in order: M_12 is the resonance decaying to 1 and 2, M_12_3 the one
    decaying to the system (1 2) and to 3 ("in case of 3 particles the first two are the resonance"). *)
Definition pairs : list (list nat * list nat) :=
  [([1], [2]); ([3], [4]); ([1], [3]); ([1], [4]); ([2], [3]); ([2], [4]);
   ([1; 2], [3]); ([1; 3], [2]); ([2; 3], [1]); ([1; 2], [4]); ([1; 4], [2]); ([2; 4], [1]);
   ([1; 3], [4]); ([1; 4], [3]); ([3; 4], [1]); ([2; 3], [4]); ([2; 4], [3]); ([3; 4], [2])]%nat.
(** Mass of the system of the given particles. *)
Definition particle (vs : vec4 R * vec4 R * vec4 R * vec4 R) (i : nat) : vec4 R :=
  let '(p1, p2, p3, p4) := vs in match i with 1%nat => p1 | 2%nat => p2 | 3%nat => p3 | _ => p4 end.
Definition system_mass (vs : vec4 R * vec4 R * vec4 R * vec4 R) (g : list nat) : R :=
  sqrt (minv (fold_right vadd vzero (map (particle vs) g))).
