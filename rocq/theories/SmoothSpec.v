(** Bins of a histogram in any dimension, and their neighbours. *)
From Coq Require Import List ZArith.
From Verif Require Import F64 BinModel BinSpec SmoothModel.
From Verif Require LeafGen.
Import ListNotations.
Open Scope Z_scope.

(** A bin, given by its position along each axis. *)
Definition cell (sizes c : list Z) : Prop := Forall2 (fun n x => 0 <= x < n) sizes c.
(** Another bin of the histogram that touches [c], diagonals included. *)
Definition neighbour (sizes c d : list Z) : Prop := cell sizes d /\ d <> c /\ Forall2 (fun a b => Z.abs (a - b) <= 1) c d.
(** Its contents, in the numbering of BinnedDataSet. *)
Definition content {T} (z : T) (hist : list T) (sizes c : list Z) : T := nth (Z.to_nat (global_of sizes c)) hist z.
(** (H(c) + (sum of the neighbours) * s) / (1 + (their number) * s) in the arithmetic [Ar] *)
Definition weighted_mean {T} (Ar : LeafGen.ops T) (hc : T) (hs : list T) (s : T) : T :=
  let add := LeafGen.o_add Ar in let mul := LeafGen.o_mul Ar in
  LeafGen.o_div Ar (add hc (mul (fold_left add hs (LeafGen.o_zero Ar)) s))
                   (add (LeafGen.o_ofZ Ar 1) (mul (LeafGen.o_ofZ Ar (Z.of_nat (length hs))) s)).

(** The histogram a program last gave to PDF [p]: by the constructor, or by copyHistogramToDevice. *)
Definition last_given {T} (ops : list (top (T:=T))) (p : nat) : option (list T) :=
  let step := fun (st : nat * option (list T)) o =>
    match o with
    | TNew h => (S (fst st), if Nat.eqb (fst st) p then Some h else snd st)
    | TCopy q h => (fst st, if Nat.eqb q p && Nat.ltb p (fst st) then Some h else snd st)
    end%bool in
  snd (fold_left step ops (0%nat, None)).

(** Programs that give every PDF its histogram at once: the constructor gets a histogram that is not empty, or the next
    call is copyHistogramToDevice for that PDF.  [k] PDFs exist at the start, [m] at the end. *)
Inductive at_once {T} (full : list T -> bool) (k : nat) : nat -> list (top (T:=T)) -> Prop :=
| ao_nil : at_once full k k []
| ao_new : forall m h ops, at_once full k m ops -> full h = true -> at_once full k (S m) (ops ++ [TNew h])
| ao_copy : forall m h h' ops, at_once full k m ops -> full h = false -> at_once full k (S m) (ops ++ [TNew h; TCopy m h']).

(** One observable of the histogram, the value of an event for it, and the bin that contains the value. *)
Record coordinate : Type := mkCoord { k_lo : f64; k_up : f64; k_bins : Z; k_value : f64; k_bin : Z }.
Definition well_inside (k : coordinate) : Prop :=
  usable (k_lo k) (k_up k) (k_bins k) /\ k_bins k < 2 ^ 31 /\ inside (k_lo k) (k_up k) (k_bins k) (k_bin k) (k_value k).
(** The constants registered for it, with the value. *)
Definition axis_of (k : coordinate) : f64 * f64 * f64 * Z :=
  (k_value k, k_lo k, bin_size (k_lo k) (k_up k) (k_bins k), k_bins k).
