(** InterHistPdf.cu, and compute_inverse5 of include/goofit/detail/compute_inverse5.h.

    int is unbounded.  The constants and parameters the PDF registered are handed over directly; a read of a parameter that the
    PDF did not register (it belongs to the next PDF, or to nobody) is the outcome [Foreign].  The printf calls are left out. *)
From Coq Require Import List ZArith Bool.
From Verif Require Import F64 SmoothModel WaveModel AmpModel.
From Verif Require LeafGen.
Import ListNotations.
Local Open Scope Z_scope.

Inductive got (A : Type) : Type := Got (x : A) | Foreign.
Arguments Got {A}. Arguments Foreign {A}.
Definition gbind {A B} (x : got A) (f : A -> got B) : got B := match x with Got a => f a | Foreign => Foreign end.
Definition own {A} (l : list A) (i : Z) : got A := match zread l i with Some x => Got x | None => Foreign end.

(** An observable of the BinnedDataSet: lower limit, bin size, number of bins. *)
Record axis : Type := mkAxis { a_lower : f64; a_step : f64; a_bins : Z }.
(** OBS_CODE, InterHistPdf.cu:9 *)
Definition obs_code : Z := 4242424242.
(** The constants registered by the constructor, :136-152; [index]: totalHistograms.  The parameters given are not registered. *)
Definition inter_constants (index : Z) (axes : list axis) : list f64 :=
  f_of_Z index :: f_of_Z (Z.of_nat (length axes)) ::
  flat_map (fun a => [f_of_Z obs_code; a_lower a; a_step a; f_of_Z (a_bins a)]) axes.
Definition inter_parameters (params : list f64) : list f64 := [].

Section Device.
Variable constants parameters event : list f64.
Variable hist : list f64.
Notation constant i := (own constants i).
Notation parameter i := (own parameters i).
(** The loop over the variables, :28-58: globalBin and binDistances. *)
Fixpoint inter_axes (n : nat) (i : Z) (g previous : Z) (dist : list f64) : got (Z * list f64) :=
  match n with
  | O => Got (g, dist)
  | S n' =>
      gbind (constant (2 + i * 4)) (fun code =>
      gbind (if ftruncZ code =? obs_code then own event i else parameter (ftruncZ code)) (fun x =>
      gbind (parameter (3 + i * 4)) (fun lower =>
      gbind (parameter (4 + i * 4 + 2)) (fun step =>
      let cur := fdiv (fsub x lower) step in
      let bin := ffloorZ cur in
      gbind (constant (3 + 4 * i + 1)) (fun size =>
      inter_axes n' (i + 1) (g + previous * bin) (ftruncZ (fmul (f_of_Z previous) size))
                 (dist ++ [fsub (fsub cur (f_of_Z bin)) fhalf]))))))
  end.
(** The loop over the variables for one neighbour, :82-115: currBin, offSomeAxis, currentWeight. *)
Fixpoint inter_offset (n : nat) (v : nat) (i cur prev track : Z) (off : bool) (w : f64) (dist : list f64) : got (Z * bool * f64) :=
  match n with
  | O => Got (cur, off, w)
  | S n' =>
      gbind (parameter (Z.of_nat v)) (fun size =>
      let m := ftruncZ size in
      if m =? 0 then Foreign else
      let offset := Z.rem (Z.quot i (powi3 v)) 3 - 1 in
      let var := Z.rem track m in
      gbind (own dist (Z.of_nat v)) (fun d =>
      let d' := fsub d (f_of_Z offset) in
      inter_offset n' (S v) i (cur + offset * prev) (prev * m) (Z.quot track m)
                   (off || (var + offset <? 0) || (m <=? var + offset)) (fadd w (fmul d' d')) dist))
  end.
(** The loop over the neighbours, :75-126: ret and totalWeight. *)
Fixpoint inter_loop (n : nat) (g : Z) (dist : list f64) (is : list Z) (ret total : f64) : got (f64 * f64) :=
  match is with
  | [] => Got (ret, total)
  | i :: t =>
      gbind (inter_offset n 0 i g 1 g false fzero dist) (fun '(cur, off, w) =>
      let weight := if flt fzero w then if fle w (fsqrt (f_of_Z (Z.of_nat n))) then fdiv fone (fsqrt w) else fzero else fzero in
      gbind (if off then Got fzero else own hist cur) (fun entry =>
      inter_loop n g dist t (fadd ret (fmul weight entry)) (fadd total weight)))
  end.
(** device_InterHistogram, :16-130; numVars is computed on line 21 *)
Definition inter_device : got f64 :=
  gbind (constant 1) (fun c =>
  let n := Z.to_nat (Z.quot (ftruncZ (fsub c fone)) 4) in
  gbind (inter_axes n 0 0 1 []) (fun '(g, dist) =>
  gbind (inter_loop n g dist (map Z.of_nat (seq 0 (Z.to_nat (powi3 n)))) fzero fzero) (fun '(ret, total) =>
  Got (fdiv ret total)))).
End Device.
(** The value of InterHistPdf(name, hist, params, obses) at an event. *)
Definition inter_value (index : Z) (axes : list axis) (hist params event : list f64) : got f64 :=
  inter_device (inter_constants index axes) (inter_parameters params) event hist.

(** ** compute_inverse5<-1,-1,0,-1,-1,-1,-1,0,...>, compute_inverse5.h:34-1190, for a matrix with the elements (0,2) and (1,2) zero.
    The 25 expressions for the elements are the same text. *)
Section Inverse.
Context {T : Type} (Ar : LeafGen.ops T).
Variable M : nat -> nat -> T * T.
(** Complex subtraction *)
Definition c_minus (a b : T * T) : T * T := (LeafGen.o_sub Ar (fst a) (fst b), LeafGen.o_sub Ar (snd a) (snd b)).
Local Infix "+" := (c_add Ar). Local Infix "*" := (c_mul Ar). Local Infix "-" := c_minus.
(** The numerator, compute_inverse5.h:40-48 and the like *)
Definition inv5_numerator : T * T :=
   M 1 1 * M 2 2 * M 3 3 * M 4 4 - M 1 1 * M 2 2 * M 3 4 * M 4 3 - M 1 1 * M 2 3 * M 3 2 * M 4 4 + M 1 1 * M 2 3 * M 3 4 * M 4 2
    + M 1 1 * M 2 4 * M 3 2 * M 4 3 - M 1 1 * M 2 4 * M 3 3 * M 4 2 + M 1 3 * M 2 1 * M 3 2 * M 4 4 - M 1 3 * M 2 1 * M 3 4 * M 4 2
    - M 1 3 * M 2 2 * M 3 1 * M 4 4 + M 1 3 * M 2 2 * M 3 4 * M 4 1 + M 1 3 * M 2 4 * M 3 1 * M 4 2 - M 1 3 * M 2 4 * M 3 2 * M 4 1
    - M 1 4 * M 2 1 * M 3 2 * M 4 3 + M 1 4 * M 2 1 * M 3 3 * M 4 2 + M 1 4 * M 2 2 * M 3 1 * M 4 3 - M 1 4 * M 2 2 * M 3 3 * M 4 1
    - M 1 4 * M 2 3 * M 3 1 * M 4 2 + M 1 4 * M 2 3 * M 3 2 * M 4 1.
(** The denominator, :49-84 and the like *)
Definition inv5_denominator : T * T :=
   M 0 0 * M 1 1 * M 2 2 * M 3 3 * M 4 4 - M 0 0 * M 1 1 * M 2 2 * M 3 4 * M 4 3 - M 0 0 * M 1 1 * M 2 3 * M 3 2 * M 4 4
    + M 0 0 * M 1 1 * M 2 3 * M 3 4 * M 4 2 + M 0 0 * M 1 1 * M 2 4 * M 3 2 * M 4 3 - M 0 0 * M 1 1 * M 2 4 * M 3 3 * M 4 2
    + M 0 0 * M 1 3 * M 2 1 * M 3 2 * M 4 4 - M 0 0 * M 1 3 * M 2 1 * M 3 4 * M 4 2 - M 0 0 * M 1 3 * M 2 2 * M 3 1 * M 4 4
    + M 0 0 * M 1 3 * M 2 2 * M 3 4 * M 4 1 + M 0 0 * M 1 3 * M 2 4 * M 3 1 * M 4 2 - M 0 0 * M 1 3 * M 2 4 * M 3 2 * M 4 1
    - M 0 0 * M 1 4 * M 2 1 * M 3 2 * M 4 3 + M 0 0 * M 1 4 * M 2 1 * M 3 3 * M 4 2 + M 0 0 * M 1 4 * M 2 2 * M 3 1 * M 4 3
    - M 0 0 * M 1 4 * M 2 2 * M 3 3 * M 4 1 - M 0 0 * M 1 4 * M 2 3 * M 3 1 * M 4 2 + M 0 0 * M 1 4 * M 2 3 * M 3 2 * M 4 1
    - M 0 1 * M 1 0 * M 2 2 * M 3 3 * M 4 4 + M 0 1 * M 1 0 * M 2 2 * M 3 4 * M 4 3 + M 0 1 * M 1 0 * M 2 3 * M 3 2 * M 4 4
    - M 0 1 * M 1 0 * M 2 3 * M 3 4 * M 4 2 - M 0 1 * M 1 0 * M 2 4 * M 3 2 * M 4 3 + M 0 1 * M 1 0 * M 2 4 * M 3 3 * M 4 2
    - M 0 1 * M 1 3 * M 2 0 * M 3 2 * M 4 4 + M 0 1 * M 1 3 * M 2 0 * M 3 4 * M 4 2 + M 0 1 * M 1 3 * M 2 2 * M 3 0 * M 4 4
    - M 0 1 * M 1 3 * M 2 2 * M 3 4 * M 4 0 - M 0 1 * M 1 3 * M 2 4 * M 3 0 * M 4 2 + M 0 1 * M 1 3 * M 2 4 * M 3 2 * M 4 0
    + M 0 1 * M 1 4 * M 2 0 * M 3 2 * M 4 3 - M 0 1 * M 1 4 * M 2 0 * M 3 3 * M 4 2 - M 0 1 * M 1 4 * M 2 2 * M 3 0 * M 4 3
    + M 0 1 * M 1 4 * M 2 2 * M 3 3 * M 4 0 + M 0 1 * M 1 4 * M 2 3 * M 3 0 * M 4 2 - M 0 1 * M 1 4 * M 2 3 * M 3 2 * M 4 0
    - M 0 3 * M 1 0 * M 2 1 * M 3 2 * M 4 4 + M 0 3 * M 1 0 * M 2 1 * M 3 4 * M 4 2 + M 0 3 * M 1 0 * M 2 2 * M 3 1 * M 4 4
    - M 0 3 * M 1 0 * M 2 2 * M 3 4 * M 4 1 - M 0 3 * M 1 0 * M 2 4 * M 3 1 * M 4 2 + M 0 3 * M 1 0 * M 2 4 * M 3 2 * M 4 1
    + M 0 3 * M 1 1 * M 2 0 * M 3 2 * M 4 4 - M 0 3 * M 1 1 * M 2 0 * M 3 4 * M 4 2 - M 0 3 * M 1 1 * M 2 2 * M 3 0 * M 4 4
    + M 0 3 * M 1 1 * M 2 2 * M 3 4 * M 4 0 + M 0 3 * M 1 1 * M 2 4 * M 3 0 * M 4 2 - M 0 3 * M 1 1 * M 2 4 * M 3 2 * M 4 0
    + M 0 3 * M 1 4 * M 2 0 * M 3 1 * M 4 2 - M 0 3 * M 1 4 * M 2 0 * M 3 2 * M 4 1 - M 0 3 * M 1 4 * M 2 1 * M 3 0 * M 4 2
    + M 0 3 * M 1 4 * M 2 1 * M 3 2 * M 4 0 + M 0 3 * M 1 4 * M 2 2 * M 3 0 * M 4 1 - M 0 3 * M 1 4 * M 2 2 * M 3 1 * M 4 0
    + M 0 4 * M 1 0 * M 2 1 * M 3 2 * M 4 3 - M 0 4 * M 1 0 * M 2 1 * M 3 3 * M 4 2 - M 0 4 * M 1 0 * M 2 2 * M 3 1 * M 4 3
    + M 0 4 * M 1 0 * M 2 2 * M 3 3 * M 4 1 + M 0 4 * M 1 0 * M 2 3 * M 3 1 * M 4 2 - M 0 4 * M 1 0 * M 2 3 * M 3 2 * M 4 1
    - M 0 4 * M 1 1 * M 2 0 * M 3 2 * M 4 3 + M 0 4 * M 1 1 * M 2 0 * M 3 3 * M 4 2 + M 0 4 * M 1 1 * M 2 2 * M 3 0 * M 4 3
    - M 0 4 * M 1 1 * M 2 2 * M 3 3 * M 4 0 - M 0 4 * M 1 1 * M 2 3 * M 3 0 * M 4 2 + M 0 4 * M 1 1 * M 2 3 * M 3 2 * M 4 0
    - M 0 4 * M 1 3 * M 2 0 * M 3 1 * M 4 2 + M 0 4 * M 1 3 * M 2 0 * M 3 2 * M 4 1 + M 0 4 * M 1 3 * M 2 1 * M 3 0 * M 4 2
    - M 0 4 * M 1 3 * M 2 1 * M 3 2 * M 4 0 - M 0 4 * M 1 3 * M 2 2 * M 3 0 * M 4 1 + M 0 4 * M 1 3 * M 2 2 * M 3 1 * M 4 0.
(** The 25 assignments *)
Definition inverse5 (i j : nat) : T * T := c_div Ar inv5_numerator inv5_denominator.
End Inverse.
