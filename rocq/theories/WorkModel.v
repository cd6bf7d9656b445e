(** The work spaces of a ConvolutionPdf over the life of the object, for any arithmetic.

    ConvolutionPdf.cu:153-180 (constructor), :233-282 (setIntegrationConstants), :314-366 (normalize), :29-54 (evaluation).  ConvModel.v
    has the pieces.  Fewer than 100 convolutions in the program (the tables of work spaces have 100 entries, each object its own).
    The normalisation factors of the components, which normalize() sets to 1, are left out. *)
From Coq Require Import List ZArith Bool.
From Verif Require Import F64 PdfModel PdfSpec SmoothModel ConvModel.
From Verif Require LeafGen.
Import ListNotations.
Open Scope Z_scope.

Section Work.
Context {T : Type} (Ar : LeafGen.ops T) (trunc : T -> option Z).
(** The object: integration constants and the limits the observable had when they were set (host, and dev_iConsts, modelOffset, which are
    written at once); the constants as the flattened array has them; the work spaces; workspacesFilled. *)
Record work : Type := mkWork { w_conv : conv T; w_flat : option (T * T * T); w_model : list T; w_res : list T; w_filled : bool }.

(** setIntegrationConstants, :233-282: new work spaces of zeros; only constantsList changes, not the flattened array.  A negative size
    throws. *)
Definition set_constants (flat : option (T * T * T)) (c : conv T) : option work :=
  obind (model_cells Ar c) (fun n => obind (res_cells Ar c) (fun r =>
  if (n <? 0) || (r <? 0) then None else
  Some (mkWork c flat (repeat (LeafGen.o_zero Ar) (Z.to_nat n)) (repeat (LeafGen.o_zero Ar) (Z.to_nat r)) false))).
(** setIndices, PdfBase.cu:284-290, called by setData: the constants as they are now. *)
Definition flatten (w : work) : work := mkWork (w_conv w) (Some (v_lo (w_conv w), v_hi (w_conv w), v_step (w_conv w))) (w_model w) (w_res w) (w_filled w).
(** normalize(), :314-366, with the model [f] and the resolution [g] at the present values of their parameters, and what their
    parametersChanged() returns *)
Definition normalize_work (f : T -> T) (changed : bool) (g : T -> T) (changed' : bool) (w : work) : option work :=
  let c := w_conv w in
  obind (model_cells Ar c) (fun n => obind (res_cells Ar c) (fun r =>
  Some (mkWork c (w_flat w)
    (if negb (w_filled w) || changed then fill Ar f (v_lo c) (v_hi c) n else w_model w)
    (if negb (w_filled w) || changed' then fill Ar g (res_lo Ar c) (res_hi Ar c) r else w_res w) true))).
(** device_ConvolvePdfs, :29-54: constants from the flattened array, offset and work spaces from the tables *)
Definition evaluate_work (w : work) (x0 : T) : option T :=
  obind (w_flat w) (fun '(lo, hi, step) =>
  let d := mkConv lo hi step (v_dlo (w_conv w)) (v_dup (w_conv w)) in
  obind (model_cells Ar d) (fun n => obind (model_offset Ar trunc (w_conv w)) (fun off => obind (shift_bins Ar d x0) (fun sh =>
  conv_loop Ar (w_model w) (w_res w) (off - sh) (map Z.of_nat (seq 0 (Z.to_nat n))) (LeafGen.o_zero Ar))))).

(** What a program does with the object. *)
Inductive op : Type :=
| Set_constants (c : conv T)
| Flatten
| Normalize (f : T -> T) (changed : bool) (g : T -> T) (changed' : bool).
Definition step_work (o : op) (w : work) : option work :=
  match o with Set_constants c => set_constants (w_flat w) c | Flatten => Some (flatten w) | Normalize f b g b' => normalize_work f b g b' w end.
Fixpoint run_work (h : list op) (w : work) : option work :=
  match h with [] => Some w | o :: t => obind (step_work o w) (run_work t) end.
(** The constructor, :170-179, for an observable with the given limits *)
Definition construct (lo hi step dlo dup : T) : option work := set_constants None (mkConv lo hi step dlo dup).
End Work.
Arguments work : clear implicits. Arguments op : clear implicits.
