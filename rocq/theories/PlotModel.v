(** DalitzPlotter (include/goofit/PDFs/physics/DalitzPlotter.h) over an Amp3Body that is itself the PDF plotted (overallSignal and
    signalDalitz are the same object), for any arithmetic.  AmpModel has the Amp3Body. *)
From Coq Require Import List ZArith Bool.
From Verif Require Import AmpModel.
From Verif Require LeafGen.
Import ListNotations.

Section Plot.
Context {T : Type} (Ar : LeafGen.ops T).
Local Notation "x [+] y" := (LeafGen.o_add Ar x y) (at level 50, left associativity).
Local Notation "x [-] y" := (LeafGen.o_sub Ar x y) (at level 50, left associativity).
Local Notation "x [*] y" := (LeafGen.o_mul Ar x y) (at level 40, left associativity).
Local Notation "x [/] y" := (LeafGen.o_div Ar x y) (at level 40, left associativity).

(** The value set in an observable for bin i: getLowerLimit() + getBinSize() * (i + 0.5), :37, :39 *)
Definition at_bin (lo size : T) (i : nat) : T := lo [+] size [*] (of_nat Ar i [+] LeafGen.o_half Ar).
Definition point (g : grid (T := T)) (ij : nat * nat) : T * T := (at_bin (lo12 g) (size12 Ar g) (fst ij), at_bin (lo13 g) (size13 Ar g) (snd ij)).
(** The two loops of the constructor, :36-53: xbins and ybins as one list of pairs.  data.addEvent() accepts every bin centre (in exact
    arithmetic; with rounding see C02), and the event number is the position in the list. *)
Definition bins (inside : T -> T -> bool) (g : grid (T := T)) : list (nat * nat) :=
  flat_map (fun i => flat_map (fun j => let '(x, y) := point g (i, j) in if inside x y then [(i, j)] else []) (seq 0 (n13 g))) (seq 0 (n12 g)).
(** The call of normalize() in the constructor, :55-59: the data set of the bin centres is attached, and setDataSize forces the integrals. *)
Definition plot_call (c : call (T := T)) : call (T := T) :=
  mkCall (amps c) (bw c) (eff c) (inside c) (range c) (map (point (range c)) (bins (inside c) (range c))) true (changed c).
(** pdfValues[0], :59: getCompProbsAtDataPoints (GooPdf.cu:402-412), that is, calculateProb (MetricPointer.cu:18-21) of every event with
    the normalisation 1 / normalize() (GooPdf.cu, normalise()). *)
Record plotter : Type := mkPlotter { p_bins : list (nat * nat); p_points : list (T * T); p_vals : list T }.
Definition make_plotter (c : call (T := T)) (k : kept (T := T)) : kept (T := T) * plotter :=
  let c' := plot_call c in
  let '(k', n) := normalize Ar c' k in
  (k', mkPlotter (bins (inside c) (range c)) (events c')
         (map (fun ep => coherent Ar c' k' (fst ep) (fst (snd ep)) (snd (snd ep)) [*] (LeafGen.o_one Ar [/] n)) (combine (seq 0 (length (events c'))) (events c')))).
(** After it, setData(old) attaches the data of the fit again, :60.  Nothing sets forceRedoIntegrals, and the size of cachedWaves stays. *)
Definition fit_after (c : call (T := T)) : call (T := T) :=
  mkCall (amps c) (bw c) (eff c) (inside c) (range c) (events c) false (fun _ => false).
(** If the user calls setDataSize again. *)
Definition fit_after_size (c : call (T := T)) : call (T := T) :=
  mkCall (amps c) (bw c) (eff c) (inside c) (range c) (events c) true (fun _ => false).

(** getX, getY, getXval, getYval, getVal(event), :99-109: .at() throws outside: None.  data.getValue beyond the end also throws. *)
Definition get_bin (p : plotter) (e : nat) : option (nat * nat) := nth_error (p_bins p) e.
Definition get_val (p : plotter) (e : nat) : option T := nth_error (p_vals p) e.
(** getZval, :107: POW2(mother) - POW2(getXval(event)) - POW2(getYval(event)) *)
Definition get_zval (mother : T) (p : plotter) (e : nat) : option T :=
  match nth_error (p_points p) e with
  | Some (x, y) => Some (mother [*] mother [-] x [*] x [-] y [*] y)
  | None => None
  end.
(** make2D, :120-141: a histogram by the two bin numbers of ROOT (0 is underflow). *)
Definition set_bin (h : nat -> nat -> T) (i j : nat) (v : T) : nat -> nat -> T := fun a b => if Nat.eqb a i && Nat.eqb b j then v else h a b.
Definition make_2d (p : plotter) : nat -> nat -> T :=
  fold_left (fun h bv => set_bin h (1 + fst (fst bv)) (1 + snd (fst bv)) (snd bv)) (combine (p_bins p) (p_vals p)) (fun _ _ => LeafGen.o_zero Ar).
End Plot.
