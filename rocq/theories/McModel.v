(** Toy generation: PdfBase::fillMCDataSimple (src/goofit/PdfBase.cpp:154-201) and the same algorithm in
    DalitzPlotter::fillDataSetMC (DalitzPlotter.h:64-95).

    The random numbers are arguments: for every event one of uniform_real_distribution(0, 1) and one of
    uniform_real_distribution(-.5, .5) (two of them in DalitzPlotter, one per axis).  The values of the PDF on the grid
    (getCompProbsAtDataPoints) are an argument too.  std::lower_bound is the bisection of libstdc++. *)
From Coq Require Import List ZArith Bool.
From Verif Require Import F64 ListAux VariableModel DataSetModel.
From Verif Require LeafGen.
Import ListNotations.

Section Pick.
Context {T : Type} (Ar : LeafGen.ops T).
(** std::partial_sum, PdfBase.cpp:183 *)
Fixpoint running (acc : T) (l : list T) : list T :=
  match l with [] => [] | v :: t => let a := LeafGen.o_add Ar acc v in a :: running a t end.
Definition partial_sum (l : list T) : list T := match l with [] => [] | v :: t => v :: running v t end.
(** PdfBase.cpp:186: every entry is divided by the last one, which is changed last. *)
Definition fractions (l : list T) : list T :=
  let cum := partial_sum l in map (fun v => LeafGen.o_div Ar v (last cum (LeafGen.o_zero Ar))) cum.
(** std::lower_bound, PdfBase.cpp:192: [p i] is integral[i] < r. *)
Fixpoint lower_bound (fuel : nat) (p : nat -> bool) (first len : nat) : nat :=
  match fuel, len with
  | S f, S _ => let half := Nat.div2 len in let mid := first + half in
                if p mid then lower_bound f p (S mid) (len - half - 1) else lower_bound f p first half
  | _, _ => first
  end.
Definition pick (l : list T) (r : T) : nat :=
  let fr := fractions l in
  lower_bound (length fr) (fun i => LeafGen.o_lt Ar (nth i fr (LeafGen.o_zero Ar)) r) 0 (length fr).
End Pick.

(** The loop over the events, PdfBase.cpp:188-199: the heap, the data set being filled, and how it ended. *)
Fixpoint mc_loop (hp : heap) (orig : dataset) (grid : dataset) (o : handle) (cell : f64 -> nat) (draws : list (f64 * f64)) : heap * dataset * res unit :=
  match draws with
  | [] => (hp, orig, Ok tt)
  | (r, u) :: t =>
      match getValue grid o (cell r) with
      | Throw e => (hp, orig, Throw e)
      | Ok c =>
          let size := fdiv (fsub (get_f hp o FUpper) (get_f hp o FLower)) (f_of_Z (get_n hp o FNumBins)) in
          let hp' := set_f hp o FValue (fadd c (fmul size u)) in
          let '(orig', e) := addEvent hp' orig in
          match e with Ok _ => mc_loop hp' orig' grid o cell t | Throw x => (hp', orig', Throw x) end
      end
  end.
(** fillMCDataSimple for the observable [o], PdfBase.cpp:154-201.  The last component says whether the PDF is attached to
    [orig] again at the end (an exception skips setData(origdata), and the grid it is attached to is destroyed). *)
Definition fillMCDataSimple (ops : LeafGen.ops f64) (hp : heap) (orig : dataset) (o : handle) (pdf : list f64) (draws : list (f64 * f64))
  : heap * dataset * res unit * bool :=
  let '(hp1, grid, g) := fillWithGrid hp (new_dataset [o]) in
  match g with
  | Throw e => (hp1, orig, Throw e, true)
  | Ok _ => let '(hp2, d, e) := mc_loop hp1 orig grid o (pick ops pdf) draws in
            (hp2, d, e, match e with Ok _ => true | Throw _ => false end)
  end.
