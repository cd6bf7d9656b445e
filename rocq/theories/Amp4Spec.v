(** What the user of Amp4Body relies on, in exact arithmetic: every amplitude is the symmetrised product of its own
    lineshapes and spin factors at their current values. *)
From Coq Require Import Reals List.
From Coquelicot Require Import Complex.
From Verif Require Import FormulaSpec AmpModel AmpSpec Amp4Model.
Import ListNotations.
Open Scope R_scope.

Definition Cproduct (l : list C) : C := fold_right Cmult (RtoC 1) l.
(** Part [j] of a list that is divided into [n] parts of equal length (a remainder is left out). *)
Definition part {A : Type} (l : list A) (n j : nat) : list A := firstn (length l / n) (skipn (j * (length l / n)) l).
(** 1 / sqrt(n) times the sum over the n permutations of the product of the lineshapes and spin factors of the permutation. *)
Definition amplitude_at {P : Type} (c : call4 (T := R) (P := P)) (a : amp4) (p : P) : C :=
  Cmult (RtoC (/ sqrt (INR (a_perm a))))
        (Ctotal (a_perm a) (fun j => Cmult (Cproduct (map (fun k => v_ls c k p) (part (a_ls a) (a_perm a) j)))
                                           (Cproduct (map (fun k => RtoC (v_sf c k p)) (part (a_sf a) (a_perm a) j))))).
(** |sum of coefficient times amplitude|^2 *)
Definition intensity_at {P : Type} (amps : list amp4) (c : call4 (T := R) (P := P)) (p : P) : R :=
  Cmod (Ctotal (length amps) (fun i => Cmult (nth i (coef4 c) (RtoC 0)) (amplitude_at c (nth i amps (mkAmp4 [] [] 1 0)) p))) ^ 2.
(** The mean over a sample. *)
Definition mean {P : Type} (l : list P) (f : P -> R) : R := fold_right Rplus 0 (map f l) / INR (length l).

(** Calls on one object in which nothing but the coefficients and the efficiency changes without being announced, by
    setDataSize (force) or by parametersChanged() of the lineshape.  The first call is forced. *)
Definition announced4 {P : Type} (before now : call4 (T := R) (P := P)) : Prop :=
  force4 now = true \/
  (evts now = evts before /\ (forall k p, v_sf now k p = v_sf before k p) /\
   forall k, changed4 now k = false -> forall p, v_ls now k p = v_ls before k p).
Fixpoint all_announced4 {P : Type} (cs : list (call4 (T := R) (P := P))) : Prop :=
  match cs with a :: ((b :: _) as t) => announced4 a b /\ all_announced4 t | _ => True end.
Definition honest4 {P : Type} (cs : list (call4 (T := R) (P := P))) : Prop :=
  match cs with a :: _ => force4 a = true | [] => True end /\ all_announced4 cs.

(** Amplitudes a program can have: at least one permutation each. *)
Definition amps_ok (amps : list amp4) : Prop := Forall (fun a => a_perm a <> O) amps.
(** The case in which Amp4Body recalculates enough: whenever a lineshape of amplitude number i changes, lineshape number i
    changes too (there is none when i is not less than the number of lineshapes). *)
Definition matched {P : Type} (amps : list amp4) (c : call4 (T := R) (P := P)) : Prop :=
  force4 c = true \/
  forall i a k, nth_error amps i = Some a -> In k (a_ls a) -> changed4 c k = true ->
  match nth_error (line_shapes amps) i with Some k' => changed4 c k' = true | None => True end.
(** The tables of a program whose only four-body PDF has these amplitudes: written by its constructor, and again each time the
    arrays are populated. *)
Inductive only_object (td : bool) (amps : list amp4) : list nat -> Prop :=
| constructed : forall t, construct td table0 amps = Some t -> only_object td amps t
| populated : forall t t', only_object td amps t -> populate td t amps = Some t' -> only_object td amps t'.
(** A history of such a program. *)
Definition history {P : Type} (td : bool) (amps : list amp4) (cs : list (list nat * call4 (T := R) (P := P))) : Prop :=
  honest4 (map snd cs) /\ Forall (fun tc => only_object td amps (fst tc) /\ length (coef4 (snd tc)) = length amps) cs.
