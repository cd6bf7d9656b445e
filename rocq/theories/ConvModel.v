(** ConvolutionPdf.cu, the variant without shared loading.

    int is unbounded except where a double is converted: [None] also stands for a conversion that is undefined.
    floor() of lower limit / step is only defined here when it fits int (the code keeps it as a double).
    The 100 entries of the tables of work spaces and the registration of further ones are not modelled. *)
From Coq Require Import List ZArith Bool.
From Verif Require Import F64 PdfModel PdfSpec SmoothModel.
From Verif Require LeafGen.
Import ListNotations.
Open Scope Z_scope.

Section Conv.
Context {T : Type} (Ar : LeafGen.ops T) (trunc : T -> option Z).
Local Infix "+." := (LeafGen.o_add Ar) (at level 50, left associativity).
Local Infix "-." := (LeafGen.o_sub Ar) (at level 50, left associativity).
Local Infix "*." := (LeafGen.o_mul Ar) (at level 40, left associativity).
Local Infix "/." := (LeafGen.o_div Ar) (at level 40, left associativity).

(** Integration range and step, limits of the observable. *)
Record conv : Type := mkConv { v_lo : T; v_hi : T; v_step : T; v_dlo : T; v_dup : T }.

(** setIntegrationConstants, ConvolutionPdf.cu:222-286: cells of the model work space (:245), of the resolution work space
    (:259-264), its range, and the offset (:270). *)
Definition model_cells (c : conv) : option Z :=
  LeafGen.o_floor Ar ((v_hi c -. v_lo c) /. v_step c +. LeafGen.o_half Ar).
Definition res_lo (c : conv) : T := v_lo c -. v_dup c.
Definition res_hi (c : conv) : T := v_hi c -. v_dlo c.
Definition res_cells (c : conv) : option Z :=
  LeafGen.o_floor Ar ((res_hi c -. res_lo c) /. v_step c +. LeafGen.o_half Ar).
Definition model_offset (c : conv) : option Z := trunc (v_dup c /. v_step c).

(** Centre of cell [k] of [n], MetricTaker.cu:76-87.  The number of cells goes through a double there. *)
Definition cell_center (lo hi : T) (n k : Z) : T :=
  (hi -. lo) /. LeafGen.o_ofZ Ar n *. (LeafGen.o_ofZ Ar k +. LeafGen.o_half Ar) +. lo.
(** normalize(), ConvolutionPdf.cu:330-354: the PDF at the centre of every cell. *)
Definition fill (f : T -> T) (lo hi : T) (n : Z) : list T := map (fun k => f (cell_center lo hi n (Z.of_nat k))) (seq 0 (Z.to_nat n)).

(** device_ConvolvePdfs, ConvolutionPdf.cu:39-54: the shift of the resolution for x0, and the sum. *)
Definition shift_bins (c : conv) (x0 : T) : option Z :=
  let q := v_lo c /. v_step c in
  obind (LeafGen.o_floor Ar q) (fun f => LeafGen.o_floor Ar (x0 /. v_step c -. (q -. LeafGen.o_ofZ Ar f))).
Fixpoint conv_loop (ms rs : list T) (shift : Z) (is : list Z) (ret : T) : option T :=
  match is with
  | [] => Some ret
  | i :: t =>
      match zread ms i, zread rs (i + shift) with
      | Some m, Some r => conv_loop ms rs shift t (ret +. m *. r)
      | _, _ => None
      end
  end.
(** The value before normalisation, for model [f] and resolution [g]. *)
Definition conv_value (c : conv) (f g : T -> T) (x0 : T) : option T :=
  obind (model_cells c) (fun n => obind (res_cells c) (fun r => obind (model_offset c) (fun off => obind (shift_bins c x0) (fun sh =>
  conv_loop (fill f (v_lo c) (v_hi c) n) (fill g (res_lo c) (res_hi c) r) (off - sh)
            (map Z.of_nat (seq 0 (Z.to_nat n))) (LeafGen.o_zero Ar))))).
End Conv.
Arguments conv : clear implicits. Arguments mkConv {T}. Arguments v_lo {T}. Arguments v_hi {T}. Arguments v_step {T}.
Arguments v_dlo {T}. Arguments v_dup {T}.
