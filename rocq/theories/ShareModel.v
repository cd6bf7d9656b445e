(** ConvolutionPdf with the shared model cache, for any arithmetic.

    ConvolutionPdf.cu:84-150 (device_ConvolveSharedPdfs), :182-231 (constructor), :284-311 (registerOthers), MetricTaker.cu:17-43.
    The constants that hold whole numbers (from number 3 on) are integers here; the first three are in [conv].  Work spaces as in
    ConvModel.v and WorkModel.v.  All threads of the block evaluate this PDF, so that the cache is filled before it is read. *)
From Coq Require Import List ZArith Bool Arith.
From Verif Require Import F64 PdfModel PdfSpec SmoothModel ConvModel.
From Verif Require LeafGen.
Import ListNotations.
Open Scope Z_scope.

(** *** Host *)
(** An object: its work space, the constants from number 3 on, constantsIdx, properlyInitialised *)
Record shared : Type := mkShared { s_space : Z; s_tail : list Z; s_idx : nat; s_ready : bool }.
(** The constructor, :203-231, as the [space]-th convolution of the program; initialize() sets constantsIdx, PdfBase.cu:70.  None: throws. *)
Definition construct_shared (others : nat) (space : Z) (idx : nat) : option shared :=
  if Nat.ltb 512 others then None
  else if Nat.eqb others 0 then Some (mkShared space [space; space] idx true)
  else Some (mkShared space (space :: repeat 0 (S others)) idx false).
(** constantsList[k], k >= 3 *)
Definition constant (s : shared) (k : nat) : option Z := nth_error (s_tail s) (k - 3).
(** registerOthers, :284-311.  Objects are told apart by their work space.  None: reads or writes beyond the end of constantsList. *)
Fixpoint write_others (l : list Z) (k : nat) (others : list shared) : option (list Z) :=
  match others with
  | [] => Some l
  | o :: t => if Nat.ltb k (length l) then write_others (firstn k l ++ s_space o :: skipn (S k) l) (S k) t else None
  end.
Definition register_others (s : shared) (others : list shared) : option shared :=
  match constant s (s_idx s + 5) with
  | None => None
  | Some c =>
      if negb (c + 1 =? Z.of_nat (length others)) then Some s
      else match write_others (s_tail s) 2 others with
           | None => None
           | Some l => if existsb (fun o => s_space o =? s_space s) others then Some (mkShared (s_space s) l (s_idx s) true)
                       else Some (mkShared (s_space s) l (s_idx s) (s_ready s))
           end
  end.

(** *** Device *)
Section Device.
Context {T : Type} (Ar : LeafGen.ops T) (trunc : T -> option Z) (is_zero : T -> bool).
Local Infix "+." := (LeafGen.o_add Ar) (at level 50, left associativity).
Local Infix "*." := (LeafGen.o_mul Ar) (at level 40, left associativity).
(** The tables of model and resolution work spaces. *)
Variables (models resols : Z -> list T).
(** The constants of the flattened array from number 3 of this PDF on (those of the PDFs that follow are behind its own). *)
Variable flat : list Z.
(** The cache after one round of loading from cell [i] on, :110-121: slot w * load + t holds cell i + t of the w-th work space named by
    the constants from number 5 on; None where nothing was written or the read left the arrays. *)
Definition cached (n others load i slot : Z) : option T :=
  let w := slot / load in let t := slot mod load in
  if (w <? others) && (0 <=? slot) then
    match zread flat (2 + w) with
    | Some k => if i + t <? n then zread (models k) (i + t) else Some (LeafGen.o_zero Ar)
    | None => None
    end
  else None.
(** :131-141 *)
Fixpoint inner (n others load i space shift : Z) (js : list Z) (ret : T) : option T :=
  match js with
  | [] => Some ret
  | j :: t =>
      if n <=? i + j then Some ret
      else match cached n others load i (space * load + j) with
           | Some m =>
               match (if is_zero m then Some (LeafGen.o_zero Ar) else zread (resols space) (i + j + shift)) with
               | Some r => inner n others load i space shift t (ret +. m *. r)
               | None => None
               end
           | None => None
           end
  end.
(** :107-148; [fuel] rounds at most *)
Fixpoint outer (fuel : nat) (n others load i space shift : Z) (ret : T) : option T :=
  if n <=? i then Some ret
  else match fuel with
       | O => None
       | S k => match inner n others load i space shift (map Z.of_nat (seq 0 (Z.to_nat load))) ret with
                | Some ret => outer k n others load (i + load) space shift ret
                | None => None
                end
       end.
(** :84-107: the sum, for a block of [block] threads; with no cell to load per round the loop does not end. *)
Definition shared_sum (c : conv T) (block : Z) (x0 : T) : option T :=
  match zread flat 0, zread flat 1 with
  | Some space, Some c4 =>
      let others := c4 + 1 in
      let load := Z.min (512 / others) block in
      if load <=? 0 then None else
      obind (model_cells Ar c) (fun n => obind (model_offset Ar trunc c) (fun off => obind (shift_bins Ar c x0) (fun sh =>
      outer (Z.to_nat n) n others load 0 space (off - sh) (LeafGen.o_zero Ar))))
  | _, _ => None
  end.
(** *** The metric taker, MetricTaker.cu:17-43: norm, function at the cursor, then the function at the cursor it leaves, as the metric *)
Inductive entry : Type := F_shared | F_other | F_metric.
(** What the cast of a PDF's function to a metric does is undefined. *)
Definition taken (table : list entry) (cursor : nat) (value norm : T) : option T :=
  match nth_error table cursor with Some F_metric => Some (value *. norm) | _ => None end.
(** :144-148: two factors from the array of normalisations (its own, and the size entry of the next function, which is 1); the cursor
    stays where it is ("TODO: add increment here") *)
Definition shared_function (c : conv T) (block : Z) (x0 norm one : T) (cursor : nat) : option (T * nat) :=
  obind (shared_sum c block x0) (fun v => Some (v *. norm *. one, cursor)).
Definition probability (table : list entry) (c : conv T) (block : Z) (x0 norm one : T) (cursor : nat) : option T :=
  match nth_error table cursor with
  | Some F_shared => obind (shared_function c block x0 norm one cursor) (fun r => taken table (snd r) (fst r) norm)
  | _ => None
  end.
End Device.
