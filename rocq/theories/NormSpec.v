(** What normalize() is supposed to achieve, without arrays or positions: the integral of a PDF over the range of its
    observable as a sum over the centres of the cells, and the normalisation factors a tree should end up with. *)
From Coq Require Import List ZArith Bool.
From Verif Require LeafGen.
From Verif Require Import F64 ListAux VariableModel LeafFormulas DeviceModel PdfModel PdfSpec NormModel.
Import ListNotations.

(** The centre of cell [b] of the [n] equal cells of [lo, up], in the rounding of MetricTaker.cu:81-84. *)
Definition centre (lo up : f64) (n : Z) (b : nat) : f64 :=
  fadd (fmul (fdiv (fsub up lo) (f_of_Z n)) (fadd (f_of_nat b) fhalf)) lo.
(** The environment in which only the observable [x] has a value. *)
Definition at_point (x : handle) (c : f64) : env := fun h => if handle_eqb h x then Some c else None.

(** The leaves that declare an analytic integral, and the number integrate() returns for them.  ExpPdf with a vector of one
    coefficient is among them (the test is `host_parameters[parametersIdx] == 1`). *)
Definition leaf_integral_in {T V} (Ar : LeafGen.ops T) (L : LeafGen.mlib T) (val : V -> T) (l : leaf V) (lo hi : T) : option T :=
  match l with
  | LGaussian _ _ s => Some (LeafGen.gauss_integral Ar L (val s))
  | LStep _ x0 up => Some (LeafGen.step_integral Ar (val x0) up lo hi)
  | LJohnsonSU _ _ _ _ _ => Some (LeafGen.johnson_integral Ar)
  | LExp _ a => Some (LeafGen.exp_integral Ar L (val a) lo hi)
  | LExpPoly _ [w] => Some (LeafGen.exp_integral Ar L (val w) lo hi)
  | LExpPolyOffset _ [] o => Some (LeafGen.exp_integral Ar L (val o) lo hi)
  | _ => None
  end.
Definition leaf_integral (L : libm) (hp : heap) (l : leaf handle) (lo hi : f64) : option f64 :=
  leaf_integral_in f64_ops L (val hp) l lo hi.

Section NormSpec.
Variable L : libm.
Variable red : list f64 -> f64.                 (* the sum, in the order of the back end *)
Variable hp : heap.
Variable ns : list snode.
Variable first_obs : nat -> option handle.
Variable obs : nat -> list handle.              (* the observables of each PDF *)
Variable bins : nat -> handle -> Z.             (* the number of cells for each observable *)
Variable overlap : nat -> bool.                 (* ProdPdf: components share an observable *)

(** The densities at the centres of the cells of the only observable of [id]. *)
Definition cells (norms : nat -> f64) (id : nat) (x : handle) : option (list f64) :=
  omap (fun b => value L hp norms first_obs (S id) ns
                       (at_point x (centre (get_f hp x FLower) (get_f hp x FUpper) (bins id x) b)) id)
       (seq 0 (Z.to_nat (bins id x))).
(** [I] is the integral of the (unnormalised) PDF [id]: cell width times the sum of the densities at the centres. *)
Definition grid_integral (norms : nat -> f64) (id : nat) (I : f64) : Prop :=
  exists x vs, obs id = [x] /\ cells norms id x = Some vs /\
    I = fmul (fdiv (fsub (get_f hp x FUpper) (get_f hp x FLower)) (f_of_Z (bins id x))) (red vs).
Definition integral (norms : nat -> f64) (id : nat) (I : f64) : Prop :=
  match nth_error ns id with
  | Some (SLeaf l _) =>
      match obs id with
      | [x] => match leaf_integral L hp l (get_f hp x FLower) (get_f hp x FUpper) with
               | Some J => I = J
               | None => grid_integral norms id I
               end
      | _ => grid_integral norms id I
      end
  | _ => grid_integral norms id I
  end.
(** The sum over the cells is not a positive number, or the integral underflows to 0. *)
Definition no_integral (norms : nat -> f64) (id : nat) : Prop :=
  exists x vs I, obs id = [x] /\ cells norms id x = Some vs /\ grid_integral norms id I /\
    (f_isnan (red vs) = true \/ fle (red vs) fzero = true \/ feq fzero I = true).
Definition unit_integral (norms : nat -> f64) (id : nat) : Prop :=
  exists I, integral norms id I /\ norms id = fdiv fone I.

(** The factors a normalised tree carries: a leaf (and a CompositePdf, and a ProdPdf with common observables) one over its
    integral; sums, products and mappings of normalised components one. *)
Fixpoint normed (fuel : nat) (norms : nat -> f64) (id : nat) : Prop :=
  match fuel, nth_error ns id with
  | S f, Some n =>
      match n with
      | SLeaf _ _ => unit_integral norms id
      | SAdd _ ks | SEWAdd _ ks => norms id = fone /\ Forall (normed f norms) ks
      | SMapped _ ts => norms id = fone /\ Forall (normed f norms) ts
      | SProd ks => if overlap id
                    then unit_integral norms id /\ Forall (fun i => norms i = fone) (flat_map (subtree f ns) ks)
                    else norms id = fone /\ Forall (normed f norms) ks
      | SComposite a b => unit_integral norms id /\ normed f norms a /\ normed f norms b
      end
  | _, _ => False
  end.
(** The PDFs that normalize() integrates over the grid or analytically. *)
Fixpoint integrated (fuel : nat) (id : nat) : list nat :=
  match fuel, nth_error ns id with
  | S f, Some n =>
      match n with
      | SLeaf _ _ => [id]
      | SAdd _ ks | SEWAdd _ ks => flat_map (integrated f) ks
      | SMapped _ ts => flat_map (integrated f) ts
      | SProd ks => if overlap id then [id] else flat_map (integrated f) ks
      | SComposite a b => id :: integrated f a ++ integrated f b
      end
  | _, _ => []
  end.
(** One observable, in one of the ten positions MetricTaker provides, a sensible number of cells, and a density that is
    defined in every cell. *)
Definition integrable (id : nat) : Prop :=
  exists x, obs id = [x] /\ (0 <= get_i hp x < 10)%Z /\ (0 < bins id x < 2 ^ 31)%Z /\
    forall norms, exists vs, cells norms id x = Some vs.
End NormSpec.

(** The same for a state of a program. *)
Definition obs_list (st : gstate) (id : nat) : list handle := getObservables (g_pdfs st) id.
Definition cell_count (st : gstate) (id : nat) (x : handle) : Z :=
  match nth_error (g_pdfs st) id with Some p => bins_of (g_heap st) p x | None => 1%Z end.
Definition shares_observables (st : gstate) (id : nat) : bool :=
  match nth_error (g_pdfs st) id with Some p => p_overlap p | None => false end.
(** The limits and numbers of bins are those captured when the tree was flattened. *)
Definition ranges_current (st : gstate) (ns : list snode) (k : nat) : Prop :=
  forall i p, In i (tree_ids ns k) -> nth_error (g_pdfs st) i = Some p -> p_ranges p = normRange (g_heap st) p.
(** Fit controls whose metric interprets the PDF as a density; no setCommonNorm. *)
Definition densities (st : gstate) (ns : list snode) (k : nat) : Prop :=
  forall i p, In i (tree_ids ns k) -> nth_error (g_pdfs st) i = Some p ->
    (exists fc, p_fit p = Some fc /\ metricIsPdf fc = true) /\ p_common p = false.
(** No AddPdf without components (normalize() then calls back() on an empty vector). *)
Definition no_empty_sum (ns : list snode) (k : nat) : Prop :=
  forall i ws, In i (tree_ids ns k) -> nth_error ns i <> Some (SAdd ws []).
