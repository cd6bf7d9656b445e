(** The K-matrix: src/PDFs/physics/kMatrixUtils.cu, resonances/kMatrix.cu and lineshapes/kMatrix.cu, for any arithmetic.

    An array [n][n] is a function of two indices, an assignment an update of it, a loop a fold over the indices in the order
    of the loop; n is NCHANNELS (kMatrixUtils.h:5), which the constructors and functions below fix at 5.  A quotient of two
    complex numbers is written out (WaveModel.c_div; thrust scales before it divides).  The functions inverse, adjoint and
    getCofactor of the same file are not called and not modelled. *)
From Coq Require Import List ZArith Bool Arith.
From Verif Require Import AmpModel WaveModel.
From Verif Require LeafGen.
Import ListNotations.

Section Km.
Context {T : Type} (Ar : LeafGen.ops T).
Local Notation "0" := (LeafGen.o_zero Ar).
Local Notation "1" := (LeafGen.o_one Ar).
Local Notation "2" := (LeafGen.o_ofZ Ar 2).
Local Infix "+" := (LeafGen.o_add Ar).
Local Infix "-" := (LeafGen.o_sub Ar).
Local Infix "*" := (LeafGen.o_mul Ar).
Local Infix "/" := (LeafGen.o_div Ar).
Local Notation "- x" := (LeafGen.o_opp Ar x).
Local Notation "x < y" := (LeafGen.o_lt Ar x y).
Local Notation "x <= y" := (LeafGen.o_le Ar x y).
Local Notation sqrt := (LeafGen.o_sqrt Ar).
Local Notation lit := (LeafGen.o_lit Ar).
Local Notation cx := (@cx T).

(** ** Arrays *)
Definition upd {A : Type} (M : nat -> nat -> A) (r c : nat) (v : A) : nat -> nat -> A :=
  fun i j => if (i =? r) && (j =? c) then v else M i j.
(** real - complex and complex - complex, complex / real *)
Definition c_rsub (x : T) (a : cx) : cx := (x - fst a, - snd a).
Definition c_sub (a b : cx) : cx := (fst a - fst b, snd a - snd b).
Definition c_rdiv (a : cx) (x : T) : cx := (fst a / x, snd a / x).
(** for(j : js) sum += f(j), from 0 *)
Definition acc (js : list nat) (f : nat -> cx) : cx := fold_left (fun s j => c_add Ar s (f j)) js (c_zero Ar).

(** ** luDecomposition, kMatrixUtils.cu:107-131 *)
(** Lines 112-117: row i of U *)
Definition lu_upper (n : nat) (A Lo : nat -> nat -> cx) (i : nat) (U : nat -> nat -> cx) : nat -> nat -> cx :=
  fold_left (fun U k => upd U i k (c_sub (A i k) (acc (seq 0 i) (fun j => c_mul Ar (Lo i j) (U j k))))) (seq i (n - i)) U.
(** Lines 120-129: column i of L *)
Definition lu_lower (n : nat) (A U : nat -> nat -> cx) (i : nat) (Lo : nat -> nat -> cx) : nat -> nat -> cx :=
  fold_left
    (fun Lo k => if i =? k then upd Lo i i (1, 0)
                 else upd Lo k i (c_div Ar (c_sub (A k i) (acc (seq 0 i) (fun j => c_mul Ar (Lo k j) (U j i)))) (U i i)))
    (seq i (n - i)) Lo.
Definition lu_step (n : nat) (A : nat -> nat -> cx) (UL : (nat -> nat -> cx) * (nat -> nat -> cx)) (i : nat)
  : (nat -> nat -> cx) * (nat -> nat -> cx) :=
  let U := lu_upper n A (snd UL) i (fst UL) in (U, lu_lower n A U i (snd UL)).
Definition zeros : nat -> nat -> cx := fun _ _ => c_zero Ar.
Definition lu (n : nat) (A : nat -> nat -> cx) : (nat -> nat -> cx) * (nat -> nat -> cx) :=
  fold_left (lu_step n A) (seq 0 n) (zeros, zeros).

(** ** luInverse, kMatrixUtils.cu:133-167: [F0] is what the array of the result holds before. *)
(** Lines 142-148 and 156-162: one element, from the other rows of the column *)
Definition solve_row (n : nat) (M : nat -> nat -> cx) (rhs : nat -> nat -> cx) (col : nat) (Y : nat -> nat -> cx) (row : nat)
  : nat -> nat -> cx :=
  let sum := fold_left (fun s i => if i =? row then s else c_add Ar s (c_mul Ar (M row i) (Y i col))) (seq 0 n) (c_zero Ar) in
  upd Y row col (c_div Ar (c_sub (rhs row col) sum) (M row row)).
(** Line 148: (row == col ? 1. : 0.), a real number; real - complex subtracts 0 from no imaginary part (c_rsub). *)
Definition solve_unit (n : nat) (M : nat -> nat -> cx) (col : nat) (Y : nat -> nat -> cx) (row : nat) : nat -> nat -> cx :=
  let sum := fold_left (fun s i => if i =? row then s else c_add Ar s (c_mul Ar (M row i) (Y i col))) (seq 0 n) (c_zero Ar) in
  upd Y row col (c_div Ar (c_rsub (if row =? col then 1 else 0) sum) (M row row)).
Definition lu_inverse (n : nat) (A F0 : nat -> nat -> cx) : nat -> nat -> cx :=
  let UL := lu n A in
  let Linv := fold_left (fun Y col => fold_left (solve_unit n (snd UL) col) (seq 0 n) Y) (seq 0 n) zeros in
  fold_left (fun Y col => fold_left (solve_row n (fst UL) Linv col) (rev (seq 0 n)) Y) (seq 0 n) F0.

(** ** getPropagator, kMatrixUtils.cu:169-184 *)
Definition t_matrix (K : nat -> nat -> T) (rho : nat -> cx) (adler : T) (i j : nat) : cx :=
  c_rsub (if i =? j then 1 else 0) (c_mul Ar (c_scale Ar (0, adler) (K i j)) (rho j)).
Definition propagator (n : nat) (K : nat -> nat -> T) (rho : nat -> cx) (F0 : nat -> nat -> cx) (adler : T) : nat -> nat -> cx :=
  lu_inverse n (t_matrix K rho adler) F0.

(** ** Phase space, kMatrixUtils.cu:13-33 *)
Definition m_pi : T := lit 5028539199936801 (-55).    (* 0.139570, lineshapes/Common.h:5 *)
Definition m_k : T := lit 8893294212965537 (-54).     (* 0.493677 *)
Definition m_eta : T := lit 4934702198100909 (-53).   (* 0.547862 *)
Definition m_etap : T := lit 8716987294753237 (-53).  (* 0.96778 *)
Definition phsp_two (s m0 m1 : T) : cx :=
  if 0 < 1 - sq Ar (m0 + m1) / s then (sqrt (1 - sq Ar (m0 + m1) / s), 0) else (0, sqrt (- (1 - sq Ar (m0 + m1) / s))).
Definition four_pi_poly (s : T) : T :=
  lit 146997491837373 (-58) + - lit 1392873292753147 (-56) * s + lit 4990348675096699 (-55) * s * s
  + - lit 7508401298752091 (-55) * s * s * s + - lit 5358202692660321 (-54) * s * s * s * s
  + lit 2459866116469765 (-54) * s * s * s * s * s + lit 1214677114497165 (-50) * s * s * s * s * s * s.
Definition phsp_four_pi (s : T) : cx :=
  if 1 < s then phsp_two s (2 * m_pi) (2 * m_pi)
  else if 0 <= four_pi_poly s then (four_pi_poly s, 0) else (0, four_pi_poly s).

(** ** kMatrix::kMatrix, lineshapes/kMatrix.cu:117-169 and resonances/kMatrix.cu:122-171 (the same parameters in the same
    order): the parameters registered, None: an exception (the sizes, or .at). *)
Record kmat : Type := mkKmat {
  k_sA0 : T; k_sA : T; k_s0_prod : T; k_s0_scatt : T;
  k_beta_r : list T; k_beta_i : list T; k_fprod_r : list T; k_fprod_i : list T; k_fscat : list T; k_poles : list T }.
(** for(i < n) { registerParameter(a.at(i)); registerParameter(b.at(i)); } *)
Fixpoint interleave (n : nat) (a b : list T) : option (list T) :=
  match n with
  | O => Some []
  | S n' => match a, b with
            | x :: a', y :: b' => match interleave n' a' b' with Some l => Some (x :: y :: l) | None => None end
            | _, _ => None
            end
  end.
Definition construct (c : kmat) : option (list T) :=
  if negb (length (k_fscat c) =? 5) then None
  else if negb (length (k_poles c) =? 30) then None
  else match interleave 5 (k_beta_r c) (k_beta_i c), interleave 5 (k_fprod_r c) (k_fprod_i c) with
       | Some b, Some f => Some ([k_sA0 c; k_sA c; k_s0_prod c; k_s0_scatt c] ++ k_fscat c ++ b ++ f ++ k_poles c)
       | _, _ => None
       end.

(** ** kMatrixFunction, lineshapes/kMatrix.cu:18-113, and kMatrixRes, resonances/kMatrix.cu:19-116, which differ in where s
    comes from.  [p] are the parameters of the function (ParameterContainer::getParameter). *)
(** Lines 64-75 *)
Definition k_matrix (fscat : nat -> T) (g : nat -> nat -> T) (pm : nat -> T) (s0s s : T) (i j : nat) : T :=
  let sum := fold_left (fun k a => k + g a i * g a j / (sq Ar (pm a) - s)) (seq 0 5) 0 in
  if (i =? 0)%nat || (j =? 0)%nat then sum + fscat (i + j)%nat * (1 - s0s) / (s - s0s) else sum.
(** Line 77 *)
Definition adler_term (sA0 sA s : T) : T := (1 - sA0) * (s - sA * m_pi * m_pi / 2) / (s - sA0).
(** Lines 79-84 *)
Definition phase_spaces (s : T) (i : nat) : cx :=
  match i with
  | O => phsp_two s m_pi m_pi | S O => phsp_two s m_k m_k | S (S O) => phsp_four_pi s
  | S (S (S O)) => phsp_two s m_eta m_eta | _ => phsp_two s m_eta m_etap
  end.
(** Lines 97-112 *)
Definition k_output (F : nat -> nat -> cx) (g : nat -> nat -> T) (pm : nat -> T) (beta fprod : nat -> cx) (s0p s : T) : cx :=
  fold_left (fun ret a =>
    let M := acc (seq 0 5) (fun i => c_scale Ar (F O i) (g a i)) in
    let pole := c_rdiv M (sq Ar (pm a) - s) in
    let ret := c_add Ar ret (c_mul Ar (beta a) pole) in
    let prod := c_rdiv (c_scale Ar (F O a) (1 - s0p)) (s - s0p) in
    c_add Ar ret (c_mul Ar (fprod a) prod)) (seq 0 5) (c_zero Ar).
(** Lines 21-60: the indices of the parameters; the rest *)
Definition k_amplitude (p : nat -> T) (s : T) : cx :=
  let sA0 := p 0%nat in let sA := p 1%nat in let s0p := p 2%nat in let s0s := p 3%nat in
  let fscat := fun i => p (4 + i)%nat in
  let beta := fun i => (p (9 + 2 * i)%nat, p (9 + 2 * i + 1)%nat) in
  let fprod := fun i => (p (19 + 2 * i)%nat, p (19 + 2 * i + 1)%nat) in
  let g := fun a i => p (29 + 6 * a + i)%nat in
  let pm := fun a => p (29 + 6 * a + 5)%nat in
  let F := propagator 5 (k_matrix fscat g pm s0s s) (phase_spaces s) zeros (adler_term sA0 sA s) in
  k_output F g pm beta fprod s0p s.
(** The lineshape is a function of the mass of the pair, the resonance of the squares of the three. *)
Definition k_lineshape (c : kmat) (mpair : T) : option cx :=
  match construct c with Some l => Some (k_amplitude (fun i => nth i l 0) (sq Ar mpair)) | None => None end.
Definition k_resonance (c : kmat) (cyc : nat) (m12 m13 m23 : T) : option cx :=
  match construct c with Some l => Some (k_amplitude (fun i => nth i l 0) (by_pair cyc m12 m13 m23)) | None => None end.

End Km.
Arguments mkKmat {T}. Arguments k_sA0 {T}. Arguments k_sA {T}. Arguments k_s0_prod {T}. Arguments k_s0_scatt {T}.
Arguments k_beta_r {T}. Arguments k_beta_i {T}. Arguments k_fprod_r {T}. Arguments k_fprod_i {T}. Arguments k_fscat {T}.
Arguments k_poles {T}.
