(** normalize() of the PDFs modelled in [PdfModel], and the numerical integration behind it.

    [red] is the reduction of thrust::transform_reduce (GooPdf.cu:99-104): the sum of a list in the order the back end
    chooses (see Reduce.v).  The d_ arrays are taken equal to the host vectors; the copying is modelled in SmartVectorModel. *)
From Coq Require Import List ZArith Bool.
From Verif Require Import F64 ListAux VariableModel LeafFormulas DeviceModel PdfModel BinModel.
From Verif Require LeafGen.
Import ListNotations.

(** [NThrow]: GooFit::abort (Abort.cpp:10-42, throws GeneralError) or std::out_of_range. *)
Inductive nres (A : Type) : Type := NOk (a : A) | NThrow | NUB | NFuel.
Arguments NOk {A}. Arguments NThrow {A}. Arguments NUB {A}. Arguments NFuel {A}.
Definition nbind {A B} (x : nres A) (k : A -> nres B) : nres B :=
  match x with NOk a => k a | NThrow => NThrow | NUB => NUB | NFuel => NFuel end.
Notation "x <~ e ;; k" := (nbind e (fun x => k)) (at level 61, e at next level, right associativity).
Notation "' p <~ e ;; k" := (nbind e (fun x => match x with p => k end))
  (at level 61, p pattern, e at next level, right associativity).
Definition of_dres {A} (x : dres A) : nres A := match x with DOk a => NOk a | DUB => NUB | DFuel => NFuel end.
Definition of_opt {A} (x : option A) : nres A := match x with Some a => NOk a | None => NUB end.

Section Norm.
Variable L : libm.
Variable red : list f64 -> f64.
Variable hp : heap.

Definition nstate := (pdfs * arrays)%type.

(** `host_normalizations.at(normalIdx + 1) = x; cachedNormalization = x;` ([checked]: at() rather than operator[]). *)
Definition put_norm (checked : bool) (s : nstate) (id : nat) (x : f64) : nres nstate :=
  let '(ps, A) := s in
  match nth_error ps id with
  | Some p => if Nat.ltb (p_ni p + 1) (List.length (a_nor A))
              then NOk (upd ps id (with_norm p x),
                        mkArrays (a_fun A) (a_par A) (a_con A) (a_obs A) (upd (a_nor A) (p_ni p + 1) x))
              else if checked then NThrow else NUB
  | None => NUB
  end.

(** hasAnalyticIntegral: GooPdf.cpp:15, ExpPdf.h:35, GaussianPdf.h:24, StepPdf.h:28, JohnsonSUPdf.h:25. *)
Definition hasAnalyticIntegral (p : pdf) (A : arrays) : nres bool :=
  match p_kind p with
  | KGaussian | KStep | KJohnsonSU => NOk true
  | KExp | KExpOffset | KExpPoly | KExpPolyOffset =>
      v <~ of_opt (nth_error (a_par A) (p_pi p)) ;; NOk (feq fone v)
  | _ => NOk false
  end.
(** ExpPdf.cu:120-131, GaussianPdf.cu:28-35, StepPdf.cu:52-61, JohnsonSUPdf.cu:36-38; the formulas are in LeafGen.v. *)
Definition exp_integral : f64 -> f64 -> f64 -> f64 := LeafGen.exp_integral f64_ops L.
Definition gauss_integral : f64 -> f64 := LeafGen.gauss_integral f64_ops L.
Definition step_integral : f64 -> Z -> f64 -> f64 -> f64 := LeafGen.step_integral f64_ops.
Definition integrate (p : pdf) (A : arrays) (lo hi : f64) : nres f64 :=
  match p_kind p with
  | KGaussian => s <~ of_opt (nth_error (a_par A) (p_pi p + 2)) ;; NOk (gauss_integral s)
  | KStep => v <~ of_opt (hd_error (p_pars p)) ;; c <~ of_opt (hd_error (p_cons p)) ;; up <~ of_opt (f2int c) ;;
             NOk (step_integral (get_f hp v FValue) up lo hi)
  | KJohnsonSU => NOk (LeafGen.johnson_integral f64_ops)
  | _ => alpha <~ of_opt (nth_error (a_par A) (p_pi p + 1)) ;; NOk (exp_integral alpha lo hi)
  end.

(** get_bin_grid_size, GooPdf.cpp:32-40: a size_t product returned as int. *)
Definition bins_of (p : pdf) (v : handle) : Z := if Z.ltb 0 (p_bins p) then p_bins p else get_n hp v FNumBins.
Definition grid_size (p : pdf) : Z := i32 (fold_left (fun acc v => u64 (acc * bins_of p v)) (p_obs p) 1%Z).
(** get_bin_grid_volume, GooPdf.cpp:42-50. *)
Definition grid_volume (p : pdf) : f64 :=
  fold_left (fun acc v => fmul acc (fsub (get_f hp v FUpper) (get_f hp v FLower))) (p_obs p) fone.

(** MetricTaker::operator() for integration, MetricTaker.cu:48-96.  Every dimension writes the position of the first
    observable.  Writing beyond the ten numbers allocated, division by zero: undefined. *)
Fixpoint grid_event (id : nat) (ranges : list (f64 * f64 * f64)) (bin : Z) (e : event) : dres event :=
  match ranges with
  | [] => DOk e
  | (lo, up, n) :: t =>
      nb <- of_option (floor_int (fadd n fhalf)) ;;
      if Z.eqb nb 0 then DUB
      else let local := Z.rem bin nb in
           let x := fadd (fmul (fdiv (fsub up lo) (f_of_Z nb)) (fadd (f_of_Z local) fhalf)) lo in
           if Nat.ltb id (List.length e) then grid_event id t (Z.quot bin nb) (upd e id (Some x)) else DUB
  end.
Definition grid_value (fuel : nat) (A : arrays) (p : pdf) (bin : Z) : dres f64 :=
  c <- skip A cur0 (p_fi p) ;;
  v <- getObservable A c 0 ;; id <- to_index v ;;
  e <- grid_event id (p_ranges p) bin (repeat None 10) ;;
  ' (r, _) <- callFunction fuel L A e c ;; DOk r.
(** reduce_with_bins, GooPdf.cu:83-108.  A negative number of bins becomes a huge size_t: undefined. *)
Definition reduce_with_bins (s : nstate) (p : pdf) : nres f64 :=
  if Z.ltb (grid_size p) 0 then NUB
  else vs <~ of_dres (dmap (fun b => grid_value (S (List.length (fst s))) (snd s) p (Z.of_nat b))
                           (seq 0 (Z.to_nat (grid_size p)))) ;;
       NOk (red vs).

(** GooPdf::normalize, GooPdf.cu:340-396. *)
Definition default_normalize (s : nstate) (id : nat) : nres (f64 * nstate) :=
  p <~ of_opt (nth_error (fst s) id) ;;
  fc <~ of_opt (p_fit p) ;;
  if negb (metricIsPdf fc) then s' <~ put_norm true s id fone ;; NOk (fone, s')
  else
    an <~ hasAnalyticIntegral p (snd s) ;;
    if an then
      ret <~ fold_left (fun acc v => a <~ acc ;; i <~ integrate p (snd s) (get_f hp v FLower) (get_f hp v FUpper) ;;
                                     NOk (fmul a i)) (p_obs p) (NOk fone) ;;
      s' <~ put_norm true s id (fdiv fone ret) ;; NOk (ret, s')
    else
      let ret := fdiv (fmul fone (grid_volume p)) (f_of_Z (u64 (grid_size p))) in
      sum <~ reduce_with_bins s p ;;
      if f_isnan sum then NThrow
      else if fle sum fzero then NThrow
      else let ret := fmul ret sum in
           if feq fzero ret then NThrow
           else s' <~ put_norm true s id (fdiv fone ret) ;; NOk (ret, s').

(** recursiveSetNormalization, PdfBase.cpp:30-39. *)
Fixpoint set_norms (fuel : nat) (s : nstate) (id : nat) (x : f64) : nres nstate :=
  match fuel with
  | O => NFuel
  | S n =>
      p <~ of_opt (nth_error (fst s) id) ;;
      s1 <~ put_norm true s id x ;;
      fold_left (fun acc c => s' <~ acc ;; set_norms n s' c x) (p_comps p) (NOk s1)
  end.

Section Loops.
Variable norm : nstate -> nat -> nres (f64 * nstate).
(** The loops over components: AddPdf.cu:149-168, ProdPdf.cu:91-93, EventWeightedAddPdf.cu:151-152, MappedPdf.cu:87-90,
    CompositePdf.cu:72-74. *)
Fixpoint norm_add (ext : bool) (s : nstate) (ws : list handle) (ks : list nat) (ret total : f64)
  : nres (f64 * nstate) :=
  match ks with
  | [] => NUB
  | [k] =>
      ' (last, s') <~ norm s k ;;
      if ext then
        w <~ of_opt (hd_error ws) ;;
        let lw := get_f hp w FValue in
        NOk (fdiv (fadd ret (fmul last lw)) (fadd total lw), s')
      else NOk (fadd ret (fmul (fsub fone total) last), s')
  | k :: ks' =>
      w <~ of_opt (hd_error ws) ;;
      let wv := get_f hp w FValue in
      ' (curr, s') <~ norm s k ;;
      norm_add ext s' (tl ws) ks' (fadd ret (fmul curr wv)) (fadd total wv)
  end.
Fixpoint norm_all (s : nstate) (ks : list nat) (sum : f64) : nres (f64 * nstate) :=
  match ks with
  | [] => NOk (sum, s)
  | k :: ks' => ' (curr, s') <~ norm s k ;; norm_all s' ks' (fadd sum curr)
  end.
End Loops.
(** AddPdf.cu:173-182. *)
Fixpoint common_norm (s : nstate) (ks : list nat) (x : f64) : nres nstate :=
  match ks with [] => NOk s | k :: ks' => s' <~ put_norm false s k x ;; common_norm s' ks' x end.

(** The virtual normalize(): AddPdf.cu:143-185, ProdPdf.cu:75-99, EventWeightedAddPdf.cu:145-158, MappedPdf.cu:84-96,
    CompositePdf.cu:54-78; the basic PDFs inherit GooPdf::normalize. *)
Fixpoint normalize (fuel : nat) (s : nstate) (id : nat) : nres (f64 * nstate) :=
  match fuel with
  | O => NFuel
  | S n =>
      p <~ of_opt (nth_error (fst s) id) ;;
      match p_kind p with
      | KAdd | KAddExt =>
          ' (ret, s1) <~ norm_add (normalize n) (match p_kind p with KAddExt => true | _ => false end)
                                  s (p_pars p) (p_comps p) fzero fzero ;;
          s2 <~ put_norm false s1 id fone ;;
          if p_common p then s3 <~ common_norm s2 (p_comps p) (fdiv fone ret) ;; NOk (ret, s3) else NOk (ret, s2)
      | KProd =>
          if p_overlap p then s1 <~ set_norms fuel s id fone ;; default_normalize s1 id
          else ' (_, s1) <~ norm_all (normalize n) s (p_comps p) fzero ;; s2 <~ put_norm true s1 id fone ;; NOk (fone, s2)
      | KEWAdd | KEWAddExt =>
          ' (_, s1) <~ norm_all (normalize n) s (p_comps p) fzero ;; s2 <~ put_norm false s1 id fone ;; NOk (fone, s2)
      | KMapped =>
          ' (ret, s1) <~ norm_all (normalize n) s (tl (p_comps p)) fzero ;;
          s2 <~ put_norm false s1 id fone ;; NOk (ret, s2)
      | KComposite =>
          s1 <~ set_norms fuel s id fone ;;
          ' (_, s2) <~ norm_all (normalize n) s1 (p_comps p) fzero ;; default_normalize s2 id
      | _ => default_normalize s id
      end
  end.
End Norm.
