(** SmoothHistogramPdf.cu.

    int is unbounded here.  The constants and the parameter a PDF registered are handed over directly (that the cursor finds
    them is C12-C14): the number of bins, lower limit and bin size of each observable, and the smoothing. *)
From Coq Require Import List ZArith Bool.
From Verif Require Import F64 ListAux PdfModel PdfSpec.
From Verif Require LeafGen.
Import ListNotations.
Open Scope Z_scope.

(** dev_powi(3, v), Globals.cu:45-52 *)
Fixpoint powi3 (v : nat) : Z := match v with O => 1 | S v' => powi3 v' * 3 end.
(** a[i] on an array of known contents; [None]: outside. *)
Definition zread {T} (l : list T) (i : Z) : option T := if i <? 0 then None else nth_error l (Z.to_nat i).

Section Smooth.
Context {T : Type} (Ar : LeafGen.ops T).

(** The loop over the axes, SmoothHistogramPdf.cu:77-92, from axis [v] on: (currBin, offSomeAxis).  [None]: remainder by 0. *)
Fixpoint smooth_axes (sizes : list Z) (v : nat) (i cur prev track : Z) (off : bool) : option (Z * bool) :=
  match sizes with
  | [] => Some (cur, off)
  | n :: t =>
      if n =? 0 then None
      else let offset := Z.rem (Z.quot i (powi3 v)) 3 - 1 in
           let var := Z.rem track n in
           smooth_axes t (S v) i (cur + offset * prev) (prev * n) (Z.quot track n)
                       (off || (var + offset <? 0) || (n <=? var + offset))
  end.
(** The loop over the surrounding bins, :71-103: (otherBinsTotal, numSurroundingBins). *)
Fixpoint smooth_loop (hist : list T) (sizes : list Z) (g : Z) (is : list Z) (total : T) (count : Z) : option (T * Z) :=
  match is with
  | [] => Some (total, count)
  | i :: t =>
      match smooth_axes sizes 0 i g 1 g false with
      | None => None
      | Some (cur, off) =>
          if cur =? g then smooth_loop hist sizes g t total count
          else if off then smooth_loop hist sizes g t total count
          else match zread hist cur with
               | None => None
               | Some h => smooth_loop hist sizes g t (LeafGen.o_add Ar total h) (count + 1)
               end
      end
  end.
(** Smoother::operator(), :53-107 *)
Definition smooth_bin (hist : list T) (sizes : list Z) (s : T) (g : Z) : option T :=
  match zread hist g with
  | None => None
  | Some central =>
      match smooth_loop hist sizes g (map Z.of_nat (seq 0 (Z.to_nat (powi3 (length sizes))))) (LeafGen.o_zero Ar) 0 with
      | None => None
      | Some (total, count) =>
          Some (LeafGen.o_div Ar (LeafGen.o_add Ar central (LeafGen.o_mul Ar total s))
                                 (LeafGen.o_add Ar (LeafGen.o_ofZ Ar 1) (LeafGen.o_mul Ar (LeafGen.o_ofZ Ar count) s)))
      end
  end.
(** thrust::transform in normalize(), :203 *)
Definition smoothed (hist : list T) (sizes : list Z) (s : T) : option (list T) :=
  omap (smooth_bin hist sizes s) (map Z.of_nat (seq 0 (length hist))).
(** normalize(), :206-219, with the sum of the back end: the integral; the factor stored is 1 over it. *)
Definition smooth_integral (red : list T -> T) (steps : list T) (sm : list T) : T :=
  fold_left (LeafGen.o_mul Ar) steps (red sm).
(** device_EvalHistogram, :11-49; [axes]: value of the observable, lower limit, bin size and number of bins. *)
Definition eval_histogram (sm : list T) (axes : list (T * T * T * Z)) : option T :=
  obind (LeafGen.bin_number Ar axes 0 1) (fun g => zread sm g).
End Smooth.

(** ** The table of histograms, SmoothHistogramPdf.cu:7-9, 110-188
    [h_next]: totalHistograms; [h_slots]: dev_base_histograms, as contents (dev_smoothed_histograms is written at the same
    places); [h_index]: the constant each PDF registered; [h_own]: dev_base_histogram of each PDF ([None]: not set);
    [h_ub]: something was written past the 100 entries.  [full h]: the contents add up to more than 0. *)
Section Table.
Context {T : Type} (full : list T -> bool).
Record table : Type :=
  mkT { h_next : nat; h_slots : nat -> option (list T); h_index : list nat; h_own : list (option (list T)); h_ub : bool }.
Definition t_init : table := mkT 0 (fun _ => None) [] [] false.
(** copyHistogramToDevice, :166-178 *)
Definition t_copy (t : table) (p : nat) (h : list T) : table :=
  mkT (S (h_next t)) (fun k => if Nat.eqb k (h_next t) then Some h else h_slots t k) (h_index t) (upd (h_own t) p (Some h))
      (h_ub t || Nat.leb 100 (h_next t)).
Inductive top : Type :=
| TNew (h : list T)              (* SmoothHistogramPdf(name, hist, smoothing) *)
| TCopy (p : nat) (h : list T).  (* pdf p .copyHistogramToDevice(h) *)
Definition t_step (t : table) (o : top) : table :=
  match o with
  | TNew h =>
      let t' := mkT (h_next t) (h_slots t) (h_index t ++ [h_next t]) (h_own t ++ [None]) (h_ub t) in
      if full h then t_copy t' (length (h_own t)) h else t'
  | TCopy p h => if Nat.ltb p (length (h_index t)) then t_copy t p h else t
  end.
Definition t_run (ops : list top) : table := fold_left t_step ops t_init.
(** The histogram the device code of PDF [p] reads. *)
Definition t_read (t : table) (p : nat) : option (list T) :=
  match nth_error (h_index t) p with Some k => h_slots t k | None => None end.
End Table.
Arguments TNew {T}. Arguments TCopy {T}. Arguments t_run {T}.
