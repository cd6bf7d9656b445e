(** What a user expects of data sets attached to PDFs and of the likelihood. *)
From Coq Require Import List ZArith Bool.
From Verif Require Import F64 ListAux VariableModel DataSetModel BinModel LeafFormulas DeviceModel PdfModel PdfSpec NormModel NormSpec RunModel.
Import ListNotations.
Local Open Scope nat_scope.

(** Event [i] of a data set, as the values it gives to observables. *)
Definition data_env (d : dataset) (i : nat) : env := fun h => match getValue d h i with Ok x => Some x | Throw _ => None end.
(** The density of PDF [k] at every event, for given normalisations of its components. *)
Definition event_values (L : libm) (st : gstate) (ns : list snode) (norms : nat -> f64) (k : nat) (d : dataset) : option (list f64) :=
  omap (fun i => value L (g_heap st) norms (first_obs_of st) (S k) ns (data_env d i) k) (seq 0 (d_num d)).
(** The contribution of an event with normalised density [p]. *)
Definition nll_term (L : libm) (p : f64) : f64 := if flt fzero p then fopp (m_log L p) else fzero.
Definition event_terms (L : libm) (norm : f64) (vs : list f64) : list f64 := map (fun v => nll_term L (fmul v norm)) vs.
(** The expected number of events of an AddPdf with as many weights as components. *)
Definition expected (hp : heap) (ns : list snode) (k : nat) : option f64 :=
  match nth_error ns k with
  | Some (SAdd ws ks) => if Nat.eqb (List.length ws) (List.length ks)
                         then Some (fold_left (fun a w => fadd a (get_f hp w FValue)) ws fzero) else None
  | _ => None
  end.
(** Plus E - n log E for such a PDF. *)
Definition with_extended (L : libm) (hp : heap) (ns : list snode) (k : nat) (n : f64) (sum : f64) : f64 :=
  match expected hp ns k with
  | Some E => fadd sum (fsub E (fmul n (m_log L E)))
  | None => sum
  end.

(** What may happen between attaching data and evaluating: building data sets, reading, changing floating point members of
    Variables, refreshing, evaluations of the same likelihood. *)
Definition rquiet (ns : list snode) (k : nat) (o : rop) : Prop :=
  match o with RG o => quiet ns k o | RNll j => j = k | RSet _ _ => True | _ => False end.

(** Bin [i] of a binned data set: its centre, what it contains, and the second number of its row. *)
Definition bin_env (hp : heap) (d : binned) (i : nat) : env := fun h =>
  match indexOfVariable (b_obs d) h with
  | Ok j => match getBinCenter hp d j (Z.of_nat i) with BOk c => Some c | _ => None end
  | Throw _ => None
  end.
Definition bin_row (hp : heap) (errs : bool) (d : binned) (i : nat) : option (f64 * f64) :=
  match getBinContent d i with
  | BOk c => if errs then match getBinError d i with BOk e => Some (c, e) | _ => None end else Some (c, getBinVolume hp d)
  | _ => None
  end.
Definition bin_count (d : binned) : nat := Z.to_nat (getNumBins (b_sizes d)).

(** The contribution of a bin with density [v] at its centre, content [c] and volume [w], to the two binned fits of a
    normalised PDF; [n]: the number of events. *)
Definition bin_term (L : libm) (fc : fitcontrol) (n norm v c w : f64) : f64 :=
  let p := fmul (fmul v norm) w in
  match fc with
  | BinnedNllFit => if flt fzero p then fsub (fmul n p) (fmul c (m_log L (fmul n p))) else fzero
  | BinnedChisqFit => let d := fsub (fmul p n) c in fdiv (fmul d d) (if flt fone c then c else fone)
  | _ => fzero
  end.
Definition bin_terms (L : libm) (fc : fitcontrol) (n norm : f64) (vs : list f64) (rows : list (f64 * f64)) : list f64 :=
  map (fun vr => bin_term L fc n norm (fst vr) (fst (snd vr)) (snd (snd vr))) (combine vs rows).
(** The densities of PDF [k] at the centres of the bins ([hp1]: the Variables when the data were attached). *)
Definition bin_values (L : libm) (st : gstate) (ns : list snode) (norms : nat -> f64) (k : nat) (hp1 : heap) (d : binned) : option (list f64) :=
  omap (fun i => value L (g_heap st) norms (first_obs_of st) (S k) ns (bin_env hp1 d i) k) (seq 0 (bin_count d)).
Definition bin_rows (hp1 : heap) (errs : bool) (d : binned) : option (list (f64 * f64)) := omap (bin_row hp1 errs d) (seq 0 (bin_count d)).

(** The tree of PDF [k] can be evaluated and normalised (the domain on which C12 and C23 are proved). *)
Definition evaluable (L : libm) (st : gstate) (ns : list snode) (k : nat) : Prop :=
  NoDup (tree_ids ns k) /\ tree_ok st ns k /\ ranges_current st ns k /\ densities st ns k /\
  forall i, In i (integrated ns (shares_observables st) (S k) k) -> integrable L (g_heap st) ns (first_obs_of st) (obs_list st) (cell_count st) i.
Definition normalised (L : libm) (red : list f64 -> f64) (st : gstate) (ns : list snode) (k : nat) (norms : nat -> f64) : Prop :=
  normed L red (g_heap st) ns (first_obs_of st) (obs_list st) (cell_count st) (shares_observables st) (S k) norms k.
Definition unnormalisable (L : libm) (red : list f64 -> f64) (st : gstate) (ns : list snode) (k : nat) : Prop :=
  exists i nm, In i (integrated ns (shares_observables st) (S k) k) /\ no_integral L red (g_heap st) ns (first_obs_of st) (obs_list st) (cell_count st) nm i.
(** An observable used somewhere in the tree of [k]. *)
Definition tree_observable (ns : list snode) (k : nat) (h : handle) : Prop :=
  exists i n, In i (tree_ids ns k) /\ nth_error ns i = Some n /\ In h (node_obs n).
