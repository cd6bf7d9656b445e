(** A session: PDFs, Variables and data sets together with the global event buffer.

    setData copies a data set into the single buffer dev_event_array (Globals.cpp:11); calculateNLL, getValue,
    evaluateAtPoints and getCompProbsAtDataPoints evaluate PDFs on it.  This file models them for the builds without MPI
    (for MPI see MpiModel).  An event is the buffer from the event's address on, so a read beyond the end of the buffer is
    undefined ([DUB]) and a read of the neighbouring event is not.  An exception or undefined behaviour inside one of
    these calls ends the history: what a program could do after catching it is not modelled. *)
From Coq Require Import List ZArith Bool.
From Verif Require Import F64 ListAux VariableModel DataSetModel BinModel LeafFormulas DeviceModel PdfModel PdfSpec NormModel.
Import ListNotations.
Local Open Scope nat_scope.

Inductive dset : Type := DUn (d : dataset) | DBin (b : binned).

(** PdfBase.h: data_, numEntries, numEvents of one PDF; numEntries is an unsigned int, here unbounded. *)
Record pmem : Type := mkMem { m_data : option nat; m_entries : nat; m_events : f64 }.
(** [r_buf]: dev_event_array ([None]: the null pointer); [r_total]: c_totalEvents; [r_sets]: the data sets the program has
    built, by number. *)
Record rstate : Type := mkR { r_g : gstate; r_sets : list dset; r_mem : nat -> pmem;
                              r_buf : option (list (option f64)); r_total : nat }.
Definition rinit : rstate := mkR ginit [] (fun _ => mkMem None 0 fzero) None 0.
Definition with_g (s : rstate) (g : gstate) : rstate := mkR g (r_sets s) (r_mem s) (r_buf s) (r_total s).
Definition with_mem (s : rstate) (k : nat) (m : pmem) : rstate :=
  mkR (r_g s) (r_sets s) (fun j => if Nat.eqb j k then m else r_mem s j) (r_buf s) (r_total s).
Definition with_buf (s : rstate) (b : option (list (option f64))) : rstate :=
  mkR (r_g s) (r_sets s) (r_mem s) b (r_total s).
Definition with_total (s : rstate) (n : nat) : rstate := mkR (r_g s) (r_sets s) (r_mem s) (r_buf s) n.

Definition of_res {A} (x : res A) : nres A := match x with Ok a => NOk a | Throw _ => NThrow end.
Definition of_bres {A} (x : bres A) : nres A := match x with BOk a => NOk a | BThrow _ => NThrow | BUB => NUB end.
Fixpoint nfold {S A} (f : S -> A -> nres S) (l : list A) (s : S) : nres S :=
  match l with [] => NOk s | a :: t => s' <~ f s a ;; nfold f t s' end.

(** A call on a PDF or Variable as part of one of the calls below. *)
Definition gcall (s : rstate) (o : gop) : nres rstate :=
  let '(g, out) := gstep (r_g s) o in
  match out with GThrow => NThrow | GUB => NUB | _ => NOk (with_g s g) end.

(** ** setData, PdfBase.cu:329-530 *)
(** host_array[z] = x. *)
Definition store (b : list (option f64)) (z : Z) (x : f64) : nres (list (option f64)) :=
  if Z.leb 0 z && Z.ltb z (Z.of_nat (List.length b)) then NOk (upd b (Z.to_nat z) (Some x)) else NUB.
(** The loop PdfBase.cu:393-398. *)
Definition fill_unbinned (hp : heap) (obs : list handle) (d : dataset) : nres (list (option f64)) :=
  let dims := List.length obs in
  nfold (fun b i => nfold (fun b v => x <~ of_res (getValue d v i) ;; store b (Z.of_nat (i * dims) + get_i hp v)%Z x) obs b)
        (seq 0 (d_num d)) (repeat None (d_num d * dims)).
(** FitControl.h:17, 53-58: only BinnedErrorFit uses bin errors. *)
Definition binErrors (fc : fitcontrol) : bool := match fc with BinnedErrorFit => true | _ => false end.
(** The loop PdfBase.cu:484-493; the second component is numEvents. *)
Definition fill_binned (hp : heap) (obs : list handle) (errs : bool) (d : binned)
  : nres (list (option f64) * f64) :=
  let dims := 2 + List.length obs in
  let n := Z.to_nat (getNumBins (b_sizes d)) in
  nfold (fun st i =>
           b1 <~ nfold (fun b v =>
                          j <~ of_res (indexOfVariable (b_obs d) v) ;;
                          c <~ of_bres (getBinCenter hp d j (Z.of_nat i)) ;;
                          store b (Z.of_nat (i * dims) + get_i hp v)%Z c) obs (fst st) ;;
           content <~ of_bres (getBinContent d i) ;;
           b2 <~ store b1 (Z.of_nat (i * dims + List.length obs)) content ;;
           second <~ (if errs then of_bres (getBinError d i) else NOk (getBinVolume hp d)) ;;
           b3 <~ store b2 (Z.of_nat (i * dims + List.length obs + 1)) second ;;
           NOk (b3, fadd (snd st) content))
        (seq 0 n) (repeat None (n * dims), fzero).

Definition obs_of_pdf (s : rstate) (k : nat) : list handle :=
  match nth_error (g_pdfs (r_g s)) k with Some p => p_obs p | None => [] end.
Definition fit_of (s : rstate) (k : nat) : option fitcontrol :=
  match nth_error (g_pdfs (r_g s)) k with Some p => p_fit p | None => None end.

(** [ref]: the pointer stored in data_; [d]: what it points to.  The data set of getValue and evaluateAtPoints is a local
    one: data_ is overwritten before they return, [ref] does not matter for them. *)
Definition set_data (s : rstate) (k : nat) (ref : option nat) (d : option dset) : nres rstate :=
  let s := with_buf s None in
  s <~ gcall s (GSetupObservables k) ;;
  s <~ gcall s (GSetIndices k) ;;
  let m := r_mem s k in
  match d with
  | None => NOk (with_mem s k (mkMem ref (m_entries m) (m_events m)))
  | Some (DUn d) =>
      b <~ fill_unbinned (g_heap (r_g s)) (obs_of_pdf s k) d ;;
      NOk (with_total (with_buf (with_mem s k (mkMem ref (d_num d) (f_of_nat (d_num d)))) (Some b)) (d_num d))
  | Some (DBin d) =>
      fc <~ of_opt (fit_of s k) ;;
      s <~ (if binnedFit fc then NOk s else gcall s (GSetFitControl k BinnedNllFit)) ;;
      fc <~ of_opt (fit_of s k) ;;
      ' (b, ev) <~ fill_binned (g_heap (r_g s)) (obs_of_pdf s k) (binErrors fc) d ;;
      let n := Z.to_nat (getNumBins (b_sizes d)) in
      NOk (with_total (with_buf (with_mem s k (mkMem ref n ev)) (Some b)) n)
  end.
(** setData(getData()). *)
Definition data_of (s : rstate) (k : nat) : option dset :=
  match m_data (r_mem s k) with Some i => nth_error (r_sets s) i | None => None end.
Definition restore (s : rstate) (k : nat) (old : option nat) (d : option dset) : nres rstate := set_data s k old d.

(** ** Evaluation on the buffer *)
Section Run.
Variable L : libm.
Variable red : list f64 -> f64.

(** MetricTaker::operator() on events, MetricTaker.cu:17-44: event [i] starts at i * |eventSize|; the metric functions of
    the binned fits get the address of the last two numbers. *)
Definition buffer (s : rstate) : list (option f64) := match r_buf s with Some b => b | None => [] end.
Definition event_value (s : rstate) (size i : nat) : dres f64 :=
  let e := skipn (i * size) (buffer s) in
  metric_taker (S (List.length (g_pdfs (r_g s)))) L (g_arr (r_g s)) (f_of_nat (r_total s)) e (skipn (size - 2) e).
Definition all_events (s : rstate) (k size : nat) : nres (list f64) :=
  of_dres (dmap (event_value s size) (seq 0 (m_entries (r_mem s k)))).
(** get_event_size, GooPdf.cpp:23-30, as |eventSize|. *)
Definition event_size (s : rstate) (k : nat) : nres nat :=
  fc <~ of_opt (fit_of s k) ;;
  NOk (if binnedFit fc then List.length (obs_of_pdf s k) + 2 else List.length (obs_of_pdf s k)).
(** reduce_with_metric, GooPdf.cu:45-78. *)
Definition reduce_with_metric (s : rstate) (k : nat) : nres f64 :=
  size <~ event_size s k ;; vs <~ all_events s k size ;; NOk (red vs).
(** evaluate_with_metric, GooPdf.cu:112-180: eventSize is observablesList.size() even for binned fits. *)
Definition evaluate_with_metric (s : rstate) (k : nat) : nres (list f64) :=
  all_events s k (List.length (obs_of_pdf s k)).

Definition run_normalize (s : rstate) (k : nat) : nres rstate :=
  let g := r_g s in
  ' (_, (ps, A)) <~ normalize L red (g_heap g) (S k) (g_pdfs g, g_arr g) k ;;
  NOk (with_g s (mkG (g_heap g) (g_hs g) ps A)).
(** host_normalizations[normalIdx + 1]. *)
Definition host_norm (s : rstate) (k : nat) : nres f64 :=
  p <~ of_opt (nth_error (g_pdfs (r_g s)) k) ;; of_opt (nth_error (a_nor (g_arr (r_g s))) (p_ni p + 1)).

(** GooPdf::calculateNLL, GooPdf.cu:254-273. *)
Definition base_nll (s : rstate) (k : nat) : nres (f64 * rstate) :=
  s <~ run_normalize s k ;;
  n <~ host_norm s k ;;
  if fle n fzero then NThrow
  else ret <~ reduce_with_metric s k ;;
       if feq fzero ret then NThrow else NOk (ret, s).
(** AddPdf::calculateNLL, AddPdf.cu:187-204. *)
Definition calculateNLL (s : rstate) (k : nat) : nres (f64 * rstate) :=
  ' (ret, s) <~ base_nll s k ;;
  p <~ of_opt (nth_error (g_pdfs (r_g s)) k) ;;
  match p_kind p with
  | KAddExt =>
      ws <~ of_opt (omap (fun i => nth_error (p_pars p) i) (seq 0 (List.length (p_comps p)))) ;;
      let expEvents := fold_left (fun a w => fadd a (get_f (g_heap (r_g s)) w FValue)) ws fzero in
      NOk (fadd ret (fsub expEvents (fmul (m_events (r_mem s k)) (m_log L expEvents))), s)
  | _ => NOk (ret, s)
  end.

(** GooPdf::getValue, GooPdf.cu:314-338; only Prob, Eval and NLL are accepted. *)
Definition getValue_fit (fc : fitcontrol) : bool := match fc with ProbFit | EvalFit | UnbinnedNllFit => true | _ => false end.
Definition run_getValue (s : rstate) (k : nat) (fc : fitcontrol) : nres (f64 * rstate) :=
  if negb (getValue_fit fc) then NThrow
  else
    s <~ gcall s (GSetFitControl k fc) ;;
    s <~ gcall s (GSetIndices k) ;;
    s <~ run_normalize s k ;;
    let '(point, r) := addEvent (g_heap (r_g s)) (new_dataset (obs_of_pdf s k)) in
    _ <~ of_res r ;;
    let old := m_data (r_mem s k) in
    let od := data_of s k in
    s <~ set_data s k None (Some (DUn point)) ;;
    results <~ evaluate_with_metric s k ;;
    s <~ restore s k old od ;;
    r0 <~ of_opt (hd_error results) ;;
    NOk (r0, s).

(** GooPdf::evaluateAtPoints, GooPdf.cu:275-312; [v]: the number of the Observable. *)
Definition step_point (hp : heap) (h : handle) (i : nat) : f64 :=
  fadd (get_f hp h FLower) (fmul (fadd (f_of_nat i) fhalf) (bin_size (get_f hp h FLower) (get_f hp h FUpper) (get_n hp h FNumBins))).
Definition run_points (s : rstate) (k v : nat) : nres (list f64 * rstate) :=
  s <~ gcall s (GSetFitControl k EvalFit) ;;
  s <~ gcall s (GSetIndices k) ;;
  s <~ run_normalize s k ;;
  h <~ of_opt (nth_error (g_hs (r_g s)) v) ;;
  let n := Z.to_nat (get_n (g_heap (r_g s)) h FNumBins) in
  ' (s, temp) <~ nfold (fun st i =>
                          s1 <~ gcall (fst st) (GVar (Set_ v FValue (CF (step_point (g_heap (r_g (fst st))) h i)))) ;;
                          let '(d, r) := addEvent (g_heap (r_g s1)) (snd st) in
                          _ <~ of_res r ;; NOk (s1, d))
                       (seq 0 n) (s, new_dataset (obs_of_pdf s k)) ;;
  let old := m_data (r_mem s k) in
  let od := data_of s k in
  s <~ set_data s k None (Some (DUn temp)) ;;
  s <~ run_normalize s k ;;
  results <~ evaluate_with_metric s k ;;
  norm <~ host_norm s k ;;
  res <~ of_opt (omap (nth_error results) (seq 0 n)) ;;
  s <~ restore s k old od ;;
  NOk (map (fun x => fmul x norm) res, s).

(** GooPdf::getCompProbsAtDataPoints, GooPdf.cu:402-435.  The fit control pointer that is saved may be null. *)
Definition push_metric (s : rstate) (k : nat) : nres rstate :=
  fc <~ of_opt (fit_of s k) ;;
  let g := r_g s in NOk (with_g s (mkG (g_heap g) (g_hs g) (g_pdfs g) (push_fun (g_arr g) (FMetric (getMetric fc))))).
Definition run_comp_probs (s : rstate) (k : nat) : nres (list (list f64) * rstate) :=
  let fc := fit_of s k in
  s <~ gcall s (GSetFitControl k ProbFit) ;;
  s <~ run_normalize s k ;;
  first <~ evaluate_with_metric s k ;;
  p <~ of_opt (nth_error (g_pdfs (r_g s)) k) ;;
  ' (s, values) <~ nfold (fun st c =>
                            s1 <~ gcall (fst st) (GSetIndices c) ;;
                            s1 <~ run_normalize s1 c ;;
                            s1 <~ push_metric s1 k ;;
                            r <~ evaluate_with_metric s1 k ;;
                            NOk (s1, snd st ++ [r]))
                         (p_comps p) (s, [first]) ;;
  fc <~ of_opt fc ;;
  s <~ gcall s (GSetFitControl k fc) ;;
  NOk (values, s).

(** ** Programs *)
Inductive rop : Type :=
| RG (o : gop)                               (* any call on a Variable, Observable or PDF modelled so far *)
| RSet (i : nat) (d : dset)                  (* build data set i, or change its contents (DataSetModel, BinModel) *)
| RSetData (k : nat) (i : option nat)        (* pdf.setData(&data), pdf.setData(nullptr) *)
| RNll (k : nat)                             (* pdf.calculateNLL() *)
| RValue (k : nat) (fc : fitcontrol)         (* pdf.getValue(...) *)
| RPoints (k v : nat)                        (* pdf.evaluateAtPoints(x) *)
| RCompProbs (k : nat).                      (* pdf.getCompProbsAtDataPoints() *)
Inductive rout : Type := OGot (o : gout) | ODone | OIll | OVal (x : f64) | OList (l : list f64) | OTable (l : list (list f64)).

Definition put_set (l : list dset) (i : nat) (d : dset) : option (list dset) :=
  if Nat.ltb i (List.length l) then Some (upd l i d)
  else if Nat.eqb i (List.length l) then Some (l ++ [d]) else None.
Definition with_sets (s : rstate) (l : list dset) : rstate := mkR (r_g s) l (r_mem s) (r_buf s) (r_total s).
Definition out_of {A} (f : A -> rout) (x : nres (A * rstate)) : nres (rstate * rout) :=
  ' (a, s) <~ x ;; NOk (s, f a).

Definition rstep (s : rstate) (o : rop) : nres (rstate * rout) :=
  let there := fun k => Nat.ltb k (List.length (g_pdfs (r_g s))) in
  match o with
  | RG o => let '(g, out) := gstep (r_g s) o in
            match out with GUB => NUB | _ => NOk (with_g s g, OGot out) end
  | RSet i d => NOk (match put_set (r_sets s) i d with Some l => (with_sets s l, ODone) | None => (s, OIll) end)
  | RSetData k None => if there k then s' <~ set_data s k None None ;; NOk (s', ODone) else NOk (s, OIll)
  | RSetData k (Some i) =>
      match nth_error (r_sets s) i with
      | Some d => if there k then s' <~ set_data s k (Some i) (Some d) ;; NOk (s', ODone) else NOk (s, OIll)
      | None => NOk (s, OIll)
      end
  | RNll k => if there k then out_of OVal (calculateNLL s k) else NOk (s, OIll)
  | RValue k fc => if there k then out_of OVal (run_getValue s k fc) else NOk (s, OIll)
  | RPoints k v => if there k && is_obs (g_hs (r_g s)) v then out_of OList (run_points s k v) else NOk (s, OIll)
  | RCompProbs k => if there k then out_of OTable (run_comp_probs s k) else NOk (s, OIll)
  end.

(** The state after a program, together with the constructor calls made so far (bookkeeping as in [PdfSpec.history]). *)
Definition rnote (s : rstate) (o : rop) (out : rout) (ns : list snode) : list snode :=
  match o, out with RG o, OGot g => note (r_g s) o g ns | _, _ => ns end.
Fixpoint rrun (s : rstate) (ns : list snode) (ops : list rop) : nres (rstate * list snode) :=
  match ops with
  | [] => NOk (s, ns)
  | o :: t => ' (s', out) <~ rstep s o ;; rrun s' (rnote s o out ns) t
  end.
Definition session (ops : list rop) : nres (rstate * list snode) := rrun rinit [] ops.
End Run.
