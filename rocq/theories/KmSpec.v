(** What the K-matrix amplitude is supposed to be: the solution of a system of linear equations over the complex numbers. *)
From Coq Require Import Reals List Arith Bool.
From Coquelicot Require Import Coquelicot.
From Verif Require Import AmpModel WaveModel KmModel FormulaSpec.
Import ListNotations.
Local Open Scope R_scope.

(** ** Matrices of complex numbers *)
Fixpoint csum (n : nat) (f : nat -> C) : C := match n with O => RtoC 0 | S n' => (csum n' f + f n')%C end.
Definition unit_matrix (i j : nat) : C := if (i =? j)%nat then RtoC 1 else RtoC 0.
Definition product (n : nat) (A B : nat -> nat -> C) (i j : nat) : C := csum n (fun k => (A i k * B k j)%C).
(** [F] is the inverse of the n by n matrix [A], on both sides. *)
Definition inverse_of (n : nat) (A F : nat -> nat -> C) : Prop :=
  forall i j, (i < n)%nat -> (j < n)%nat -> product n A F i j = unit_matrix i j /\ product n F A i j = unit_matrix i j.
(** The m by m block in the upper left corner is regular: no other vector than 0 is sent to 0. *)
Definition regular (m : nat) (A : nat -> nat -> C) : Prop :=
  forall v : nat -> C, (forall i, (i < m)%nat -> csum m (fun j => (A i j * v j)%C) = RtoC 0) -> forall j, (j < m)%nat -> v j = RtoC 0.
Definition solves (n : nat) (A : nat -> nat -> C) (x b : nat -> C) : Prop :=
  forall i, (i < n)%nat -> csum n (fun j => (A i j * x j)%C) = b i.

(** ** The K-matrix and the production vector (arXiv:0804.2089), five poles and five channels.
    [c]: the arguments of the constructor; the rows of [k_poles] are five couplings and a mass. *)
Definition coupling (c : kmat) (pole channel : nat) : R := nth (6 * pole + channel) (k_poles c) 0.
Definition pole_mass (c : kmat) (pole : nat) : R := nth (6 * pole + 5) (k_poles c) 0.
Fixpoint rsum (n : nat) (f : nat -> R) : R := match n with O => 0 | S n' => rsum n' f + f n' end.
(** The slowly varying part is between channel 0 and the others. *)
Definition scattering (c : kmat) (i j : nat) : R :=
  match i, j with O, _ => nth j (k_fscat c) 0 | _, O => nth i (k_fscat c) 0 | _, _ => 0 end.
Definition K_of (c : kmat) (s : R) (i j : nat) : R :=
  rsum 5 (fun a => coupling c a i * coupling c a j / (pole_mass c a ^ 2 - s))
  + scattering c i j * ((1 - k_s0_scatt c) / (s - k_s0_scatt c)).
Definition adler (c : kmat) (mpi s : R) : R := (1 - k_sA0 c) / (s - k_sA0 c) * (s - k_sA c * mpi ^ 2 / 2).
(** Production: the coefficients of the poles and of the channels *)
Definition P_of (c : kmat) (s : R) (i : nat) : C :=
  (csum 5 (fun a => ((nth a (k_beta_r c) 0%R, nth a (k_beta_i c) 0%R) : C)
                    * RtoC (coupling c a i / (pole_mass c a ^ 2 - s)))
   + ((nth i (k_fprod_r c) 0%R, nth i (k_fprod_i c) 0%R) : C) * RtoC ((1 - k_s0_prod c) / (s - k_s0_prod c)))%C.
(** 1 - i K rho *)
Definition system (K : nat -> nat -> R) (rho : nat -> C) (i j : nat) : C :=
  (unit_matrix i j - Ci * RtoC (K i j) * rho j)%C.
(** Phase space of two particles: real above the threshold, positive imaginary below. *)
Definition two_body_phase_space (s m1 m2 : R) : C :=
  if Rle_dec s ((m1 + m2) ^ 2) then (0, sqrt ((m1 + m2) ^ 2 / s - 1)) else (sqrt (1 - (m1 + m2) ^ 2 / s), 0).

(** The program in exact arithmetic. *)
Notation R_inverse := (lu_inverse R_ops).
Notation R_propagator := (propagator R_ops).
(** The quadratic form of a real matrix takes no negative value. *)
Definition nonnegative_form (n : nat) (K : nat -> nat -> R) : Prop :=
  forall x : nat -> R, 0 <= rsum n (fun i => rsum n (fun j => x i * K i j * x j)).
Definition symmetric (n : nat) (K : nat -> nat -> R) : Prop := forall i j, (i < n)%nat -> (j < n)%nat -> K i j = K j i.
(** The phase spaces of the five channels: pi pi, K K, four pions, eta eta, eta eta'.  For four pions it is a polynomial
    (the one of the code) up to s = 1, with the factor i where it is negative. *)
Definition rho_of (s : R) (i : nat) : C :=
  match i with
  | O => two_body_phase_space s (m_pi R_ops) (m_pi R_ops)
  | 1%nat => two_body_phase_space s (m_k R_ops) (m_k R_ops)
  | 2%nat => if Rle_dec s 1
             then if Rle_dec 0 (four_pi_poly R_ops s) then (four_pi_poly R_ops s, 0) else (0, four_pi_poly R_ops s)
             else two_body_phase_space s (2 * m_pi R_ops) (2 * m_pi R_ops)
  | 3%nat => two_body_phase_space s (m_eta R_ops) (m_eta R_ops)
  | _ => two_body_phase_space s (m_eta R_ops) (m_etap R_ops)
  end.
(** The equations of the amplitude: (1 - i K rho) x = P, with the Adler factor in K. *)
Definition equations (c : kmat) (s : R) (i j : nat) : C :=
  system (fun i j => adler c (m_pi R_ops) s * K_of c s i j) (rho_of s) i j.
