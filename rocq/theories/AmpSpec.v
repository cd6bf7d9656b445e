(** What the user of Amp3Body relies on, in exact arithmetic: the intensity |sum a_i BW_i|^2 times the efficiency, its sum
    over the cells of the normalisation grid, and the fit fractions. *)
From Coq Require Import Reals List.
From Coquelicot Require Import Complex.
From Verif Require Import FormulaSpec AmpModel.
Import ListNotations.
Open Scope R_scope.

(** Finite sums. *)
Definition Rtotal (n : nat) (f : nat -> R) : R := fold_right Rplus 0 (map f (seq 0 n)).
Definition Ctotal (n : nat) (f : nat -> C) : C := fold_right Cplus (RtoC 0) (map f (seq 0 n)).

(** The amplitude and the intensity at a point of the Dalitz plot. *)
Definition amplitude (c : call (T := R)) (x y : R) : C := Ctotal (length (amps c)) (fun i => Cmult (nth i (amps c) (RtoC 0)) (bw c i x y)).
Definition intensity (c : call (T := R)) (x y : R) : R := Cmod (amplitude c x y) ^ 2.
(** The density: intensity times efficiency inside the kinematic limits, zero outside. *)
Definition density (c : call (T := R)) (x y : R) : R := if inside c x y then intensity c x y * eff c x y else 0.
(** Middle of bin k of n between lo and up. *)
Definition mid (lo up : R) (n k : nat) : R := lo + (INR k + / 2) * ((up - lo) / INR n).
(** Sum over all cells of the grid of the density in the middle times the area of the cell. *)
Definition cells (c : call (T := R)) : R :=
  let g := range c in
  Rtotal (n13 g) (fun l => Rtotal (n12 g) (fun k =>
    density c (mid (lo12 g) (up12 g) (n12 g) k) (mid (lo13 g) (up13 g) (n13 g) l) *
    (((up12 g - lo12 g) / INR (n12 g)) * ((up13 g - lo13 g) / INR (n13 g))))).

(** What may differ between two calls of normalize() on the same object without being announced: the amplitudes.  Everything
    else either stays, or is announced by setDataSize (force) or by parametersChanged() of the resonance. *)
Definition announced (before now : call (T := R)) : Prop :=
  force now = true \/
  (length (amps now) = length (amps before) /\ (forall x y, eff now x y = eff before x y) /\
   (forall x y, inside now x y = inside before x y) /\ range now = range before /\ events now = events before /\
   forall i, changed now i = false -> forall x y, bw now i x y = bw before i x y).
Fixpoint all_announced (cs : list (call (T := R))) : Prop :=
  match cs with a :: ((b :: _) as t) => announced a b /\ all_announced t | _ => True end.
(** Calls on one object: the first one is forced (the constructor sets forceRedoIntegrals). *)
Definition honest (cs : list (call (T := R))) : Prop :=
  match cs with a :: _ => force a = true | [] => True end /\ all_announced cs.

(** Fit fractions: the interference of resonances i and j over the total intensity, summed over the events. *)
Definition event_amplitude (coefs : list C) (w : nat -> list C) (e : nat) : C :=
  Ctotal (length coefs) (fun i => Cmult (nth i coefs (RtoC 0)) (nth e (w i) (RtoC 0))).
Definition total_intensity (coefs : list C) (w : nat -> list C) (N : nat) : R :=
  Rtotal N (fun e => Cmod (event_amplitude coefs w e) ^ 2).
Definition entry (m : list (list R)) (i j : nat) : R := nth j (nth i m []) 0.
