(** The builds with MPI: how setData splits a data set over the ranks, and how a likelihood is put together.

    Every rank runs the same program; it differs in [me], the result of MPI_Comm_rank.  int and unsigned int are
    unbounded here.  The transport (Allreduce, Allgatherv) is assumed to do what MPI says. *)
From Coq Require Import List ZArith Bool.
From Flocq Require Import Core BinarySingleNaN.
From Verif Require Import F64 ListAux PdfModel NormModel RunModel.
Import ListNotations.
Local Open Scope nat_scope.

(** (fptype) float(j): rounded to single precision. *)
Definition f32_of_Z (z : Z) : binary_float 24 128 := @binary_normalize 24 128 eq_refl eq_refl mode_NE z 0 false.
Definition f64_of_f32 (x : binary_float 24 128) : f64 :=
  match x with
  | B754_zero s => B754_zero s
  | B754_infinity s => B754_infinity s
  | B754_nan => B754_nan
  | B754_finite s m e _ => @binary_normalize 53 1024 f64_prec_gt f64_prec_lt mode_NE (cond_Zopp s (Zpos m)) e s
  end.
Definition float_of (j : nat) : f64 := f64_of_f32 (f32_of_Z (Z.of_nat j)).

(** int perTask = numEvents / numProcs: numEvents is a double (PdfBase.h:248), so this is a division of doubles, cut off.
    PdfBase.cu:364, 453. *)
Definition per_task (numEvents : f64) (procs : nat) : nat := Z.to_nat (ftruncZ (fdiv numEvents (f_of_Z (Z.of_nat procs)))).
(** counts, PdfBase.cu:367-373, 456-462. *)
Definition counts (entries per procs : nat) : list nat := repeat per (procs - 1) ++ [entries - per * (procs - 1)].
(** displacements, PdfBase.cu:375-378, 464-467. *)
Fixpoint displs (d : nat) (cs : list nat) : list nat := match cs with [] => [] | c :: t => d :: displs (d + c) t end.

(** The body of the loops over k, PdfBase.cu:409-412, 500-503. *)
Definition renumber_row (fixme : list bool) (dims : nat) (ds : list nat) (i j : nat) (b : list (option f64)) : nres (list (option f64)) :=
  nfold (fun b k =>
           match nth_error fixme k, nth_error ds i with
           | Some fx, Some d => if fx then store b (Z.of_nat ((j + d) * dims + k)) (float_of j) else NOk b
           | _, _ => NUB
           end) (seq 0 dims) b.
(** PdfBase.cu:407-414. *)
Definition renumber (fixme : list bool) (dims procs : nat) (cs ds : list nat) (b : list (option f64)) : nres (list (option f64)) :=
  nfold (fun b i => match nth_error cs i with
                    | Some c => nfold (fun b j => renumber_row fixme dims ds i j b) (seq 0 c) b
                    | None => NUB
                    end) (seq 1 (procs - 1)) b.
(** PdfBase.cu:498-505: the inner loop runs while j < counts[j]; [fuel] bounds it (entries + 1 is enough for the counts that occur). *)
Fixpoint renumber_while (fixme : list bool) (dims : nat) (cs ds : list nat) (i fuel j : nat) (b : list (option f64)) : nres (list (option f64)) :=
  match fuel with
  | O => NFuel
  | S fuel => match nth_error cs j with
              | None => NUB
              | Some c => if Nat.ltb j c then b <~ renumber_row fixme dims ds i j b ;; renumber_while fixme dims cs ds i fuel (S j) b else NOk b
              end
  end.
Definition renumber_bins (fixme : list bool) (dims procs entries : nat) (cs ds : list nat) (b : list (option f64)) : nres (list (option f64)) :=
  nfold (fun b i => renumber_while fixme dims cs ds i (S entries) 0 b) (seq 1 (procs - 1)) b.

(** What a rank keeps: dev_event_array and m_iEventsPerTask.  PdfBase.cu:416-428, 507-518. *)
Record rank : Type := mkRank { k_buf : list (option f64); k_per_task : nat }.
Definition my_part (dims : nat) (cs ds : list nat) (me : nat) (b : list (option f64)) : nres rank :=
  match nth_error ds me, nth_error cs me with
  | Some d, Some c => NOk (mkRank (firstn (dims * c) (skipn (d * dims) b)) c)
  | _, _ => NUB
  end.
(** setData of an unbinned data set whose [entries] events have been copied to [host] (fill_unbinned); [fixme] tells for each
    observable whether it is an EventNumber. *)
Definition split_unbinned (entries : nat) (fixme : list bool) (host : list (option f64)) (procs me : nat) : nres rank :=
  let dims := List.length fixme in
  let cs := counts entries (per_task (f_of_Z (Z.of_nat entries)) procs) procs in
  let ds := displs 0 cs in
  b <~ renumber fixme dims procs cs ds host ;;
  my_part dims cs ds me b.
(** The same for binned data: numEvents is still 0 when perTask is computed (PdfBase.cu:437, 453), and an entry has two
    more numbers than there are observables. *)
Definition split_binned (entries : nat) (fixme : list bool) (host : list (option f64)) (procs me : nat) : nres rank :=
  let dims := 2 + List.length fixme in
  let cs := counts entries (per_task fzero procs) procs in
  let ds := displs 0 cs in
  b <~ renumber_bins fixme dims procs entries cs ds host ;;
  my_part dims cs ds me b.

(** reduce_with_metric, GooPdf.cu:45-78: each rank reduces the terms of its m_iEventsPerTask entries with some schedule [red],
    MPI_Allreduce adds the results in some order [all].  [term]: the metric, given the numbers of one entry (that it reads no
    others is C12 and C27). *)
Definition rank_sum (red : list f64 -> f64) (term : list (option f64) -> f64) (dims : nat) (k : rank) : f64 :=
  red (map (fun i => term (firstn dims (skipn (i * dims) (k_buf k)))) (seq 0 (k_per_task k))).
Definition mpi_reduce (red all : list f64 -> f64) (term : list (option f64) -> f64) (dims : nat) (ks : list rank) : f64 :=
  all (map (rank_sum red term dims) ks).
(** evaluate_with_metric, GooPdf.cu:112-172: every rank evaluates its entries, Allgatherv puts the results one after the
    other, at the places given by the prefix sums of their numbers, into an array of numEntries. *)
Definition mpi_gather (entries : nat) (value : list (option f64) -> f64) (dims : nat) (ks : list rank) : nres (list f64) :=
  let local k := map (fun i => value (firstn dims (skipn (i * dims) (k_buf k)))) (seq 0 (k_per_task k)) in
  let all := concat (map local ks) in
  if Nat.leb (List.length all) entries then NOk (all ++ repeat fzero (entries - List.length all)) else NUB.
