(** What the Faddeeva function of the code is compared with: the trapezoidal rule for its integral i/PI int exp(-t^2)/(z-t) dt with
    step h, and the term for the pole at z (Matta and Reichel, Math. Comp. 25, 1971). *)
From Coq Require Import Reals List.
From Coquelicot Require Import Coquelicot.
Import ListNotations.
Open Scope R_scope.

Definition Cexp (z : C) : C := (exp (Re z) * cos (Im z), exp (Re z) * sin (Im z)).
(** A table has an entry (t^2, exp(-t^2)) for each pair of nodes t, -t; [r] is h / PI. *)
Definition pair_term (z : C) (p : R * R) : C := (RtoC (snd p) / (z - RtoC (sqrt (fst p))) + RtoC (snd p) / (z + RtoC (sqrt (fst p))))%C.
Definition rule (r : R) (table : list (R * R)) (z : C) : C :=
  (Ci * RtoC r * (1 / z + fold_right (fun p acc => pair_term z p + acc) 0 table))%C.
Definition pole (r : R) (z : C) : C := (2 * Cexp (- (z * z)) / (1 - Cexp (- (Ci * RtoC (2 / r) * z))))%C.
(** The table for the step h: the nodes h, 2h, ..., 12h and the values of the Gaussian there, to a relative precision. *)
Definition gauss_table (h tol : R) (table : list (R * R)) : Prop :=
  length table = 12%nat /\
  forall k p, nth_error table k = Some p -> let t := INR (S k) * h in
    Rabs (fst p - t ^ 2) <= tol * t ^ 2 /\ Rabs (snd p - exp (- t ^ 2)) <= tol * exp (- t ^ 2).
(** The distance of z from every node of the table is at least [d]. *)
Definition clear_of (d : R) (table : list (R * R)) (z : C) : Prop :=
  forall p, In p table -> d <= Cmod (z - RtoC (sqrt (fst p)))%C /\ d <= Cmod (z + RtoC (sqrt (fst p)))%C.
(** A polynomial with the given coefficients, from the one of lowest order. *)
Fixpoint poly (cs : list R) (z : C) : C := match cs with [] => 0 | c :: t => (RtoC c + z * poly t z)%C end.
Definition mirrored (z : C) : C := (- Re z, Im z).   (* -conj z *)
