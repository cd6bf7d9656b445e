(** Host side of GooFit's PDF objects: construction, the component tree, flattening into the global arrays, parameter
    refresh.  PdfBase.h, PdfBase.cpp, PdfBase.cu, GooPdf.cu, GooPdf.cpp, and the constructors in src/PDFs.

    PDF objects are numbered in the order of construction; `PdfBase*` is such a number, so components always have
    smaller numbers than the PDF that holds them (a component must exist when it is passed).  Representation of numbers: IEEE doubles.
    The host_* vectors are the fields of [arrays]; host_*_name (debug output only) is not modelled. *)
From Coq Require Import List ZArith String Bool.
From Verif Require Import F64 ListAux VariableModel LeafFormulas DeviceModel.
Import ListNotations.

(** ** Fit controls: FitControl.h:19-78. *)
Inductive fitcontrol : Type := UnbinnedNllFit | BinnedNllFit | BinnedErrorFit | BinnedChisqFit | ProbFit | EvalFit.
Definition getMetric (fc : fitcontrol) : metric :=
  match fc with
  | UnbinnedNllFit => MNLL | BinnedNllFit => MBinAvg | BinnedErrorFit => MBinWithError
  | BinnedChisqFit => MChisq | ProbFit => MProb | EvalFit => MEval
  end.
Definition binnedFit (fc : fitcontrol) : bool :=
  match fc with BinnedNllFit | BinnedErrorFit | BinnedChisqFit => true | _ => false end.
Definition metricIsPdf (fc : fitcontrol) : bool := match fc with BinnedErrorFit => false | _ => true end.

(** ** Leaf PDFs: constructor arguments in the order of the C++ constructors ([V]: how a Variable or Observable is named).
    The constructors that create a default Variable for a missing argument (ArgusPdf.cu:52, CrystalBallPdf.cu:43) are not
    listed.  [LKinLimitBW] carries the two masses (1.8645 and 0.13957 from the constructor, KinLimitBWPdf.cu:60-61). *)
Inductive leaf (V : Type) : Type :=
| LArgus (x m0 slope : V) (upper : bool) (power : V)
| LBW (x mean width : V)
| LBernstein (x : V) (coeffs : list V) (mindeg : nat)
| LBifurGauss (x mean sigmaL sigmaR : V)
| LBinTransform (axes : list (V * f64 * f64 * Z))
| LCorrGaussian (x y mean1 sigma1 mean2 sigma2 corr : V)
| LCrystalBall (x mean sigma alpha power : V)
| LExpGaus (x mean sigma tau : V)
| LExp (x alpha : V)
| LExpOffset (x alpha offset : V)
| LExpPoly (x : V) (weights : list V)
| LExpPolyOffset (x : V) (weights : list V) (offset : V)
| LGaussian (x mean sigma : V)
| LJohnsonSU (x mean sigma gamma delta : V)
| LKinLimitBW (x mean width : V) (bigM smallM : f64)
| LLandau (x mpv sigma : V)
| LNovosibirsk (x mean sigma tail : V)
| LPolynomial (x : V) (weights : list V) (lowest : nat)
| LOffsetPolynomial (x : V) (weights : list V) (x0 : V) (lowest : nat)
| LMultiPolynomial (obses coeffs offsets : list V) (maxDegree : nat)
| LScaledGaussian (x mean sigma delta epsilon : V)
| LStep (x x0 : V) (up : Z)
| LTrig (x thresh trigConst linConst : V) (upper : bool)
| LTrig2 (x y thresh trigConst linConst mass : V) (upper : bool)
| LVoigtian (x m s w : V)
| LVarBin (x : V) (limits : list f64)
| LDalitzVeto (x y motherM d1 d2 d3 : V) (vetos : list (V * V * Z))
| LSquareDalitz (x y c0 c1 c2 c3 c4 c5 c6 c7 : V).
Arguments LArgus {V}. Arguments LBW {V}. Arguments LBernstein {V}. Arguments LBifurGauss {V}.
Arguments LBinTransform {V}. Arguments LCorrGaussian {V}. Arguments LCrystalBall {V}. Arguments LExpGaus {V}.
Arguments LExp {V}. Arguments LExpOffset {V}. Arguments LExpPoly {V}. Arguments LExpPolyOffset {V}.
Arguments LGaussian {V}. Arguments LJohnsonSU {V}. Arguments LKinLimitBW {V}. Arguments LLandau {V}.
Arguments LNovosibirsk {V}. Arguments LPolynomial {V}. Arguments LOffsetPolynomial {V}.
Arguments LMultiPolynomial {V}. Arguments LScaledGaussian {V}. Arguments LStep {V}. Arguments LTrig {V}.
Arguments LTrig2 {V}. Arguments LVoigtian {V}. Arguments LVarBin {V}. Arguments LDalitzVeto {V}.
Arguments LSquareDalitz {V}.

(** The function registered by the constructor (registerFunction). *)
Definition leaf_kind {V} (l : leaf V) : kind :=
  match l with
  | LArgus _ _ _ up _ => if up then KArgusUpper else KArgusLower
  | LBW _ _ _ => KBW
  | LBernstein _ _ _ => KBernstein
  | LBifurGauss _ _ _ _ => KBifurGauss
  | LBinTransform _ => KBinTransform
  | LCorrGaussian _ _ _ _ _ _ _ => KCorrGaussian
  | LCrystalBall _ _ _ _ _ => KCrystalBall
  | LExpGaus _ _ _ _ => KExpGaus
  | LExp _ _ => KExp
  | LExpOffset _ _ _ => KExpOffset
  | LExpPoly _ _ => KExpPoly
  | LExpPolyOffset _ _ _ => KExpPolyOffset
  | LGaussian _ _ _ => KGaussian
  | LJohnsonSU _ _ _ _ _ => KJohnsonSU
  | LKinLimitBW _ _ _ _ _ => KKinLimitBW
  | LLandau _ _ _ => KLandau
  | LNovosibirsk _ _ _ _ => KNovosibirsk
  | LPolynomial _ _ _ => KPolynomial
  | LOffsetPolynomial _ _ _ _ => KOffsetPolynomial
  | LMultiPolynomial _ _ _ _ => KMultiPolynomial
  | LScaledGaussian _ _ _ _ _ => KScaledGaussian
  | LStep _ _ _ => KStep
  | LTrig _ _ _ _ up => if up then KTrigUpper else KTrigLower
  | LTrig2 _ _ _ _ _ _ up => if up then KTrigUpper2 else KTrigLower2
  | LVoigtian _ _ _ _ => KVoigtian
  | LVarBin _ _ => KVarBin
  | LDalitzVeto _ _ _ _ _ _ _ => KDalitzVeto
  | LSquareDalitz _ _ _ _ _ _ _ _ _ _ => KSquareDalitz
  end.

(** The observables passed to registerObservable, in order. *)
Definition leaf_obs {V} (l : leaf V) : list V :=
  match l with
  | LArgus x _ _ _ _ | LBW x _ _ | LBernstein x _ _ | LBifurGauss x _ _ _ | LCrystalBall x _ _ _ _
  | LExpGaus x _ _ _ | LExp x _ | LExpOffset x _ _ | LExpPoly x _ | LExpPolyOffset x _ _ | LGaussian x _ _
  | LJohnsonSU x _ _ _ _ | LKinLimitBW x _ _ _ _ | LLandau x _ _ | LNovosibirsk x _ _ _ | LPolynomial x _ _
  | LOffsetPolynomial x _ _ _ | LScaledGaussian x _ _ _ _ | LStep x _ _ | LTrig x _ _ _ _ | LVoigtian x _ _ _
  | LVarBin x _ => [x]
  | LCorrGaussian x y _ _ _ _ _ | LTrig2 x y _ _ _ _ _ | LDalitzVeto x y _ _ _ _ _
  | LSquareDalitz x y _ _ _ _ _ _ _ _ => [x; y]
  | LBinTransform axes => map (fun a => fst (fst (fst a))) axes
  | LMultiPolynomial obses _ _ _ => obses
  end.

(** The variables passed to registerParameter, in order.  ArgusPdf.cu:56, BWPdf.cu:23, BernsteinPdf.cu:78-83,
    BifurGaussPdf.cu:29, CorrGaussianPdf.cu:46, CrystalBallPdf.cu:48, ExpGausPdf.cu:29, ExpPdf.cu:75, 84, 96, 107-112,
    GaussianPdf.cu:22, JohnsonSUPdf.cu:30, KinLimitBWPdf.cu:59, LandauPdf.cu:85, NovosibirskPdf.cu:45,
    PolynomialPdf.cu:132-134, 148-152, 199-205, ScaledGaussianPdf.cu:26, StepPdf.cu:43, TrigThresholdPdf.cu:89, 106,
    VoigtianPdf.cu:329, DalitzVetoPdf.cu:50-57, SquareDalitzEffPdf.cu:89. *)
Definition leaf_pars {V} (l : leaf V) : list V :=
  match l with
  | LArgus _ m0 slope _ power => [m0; slope; power]
  | LBW _ m w => [m; w]
  | LBernstein _ cs _ => cs
  | LBifurGauss _ m sl sr => [m; sl; sr]
  | LBinTransform _ => []
  | LCorrGaussian _ _ m1 s1 m2 s2 c => [m1; s1; m2; s2; c]
  | LCrystalBall _ m s a p => [m; s; a; p]
  | LExpGaus _ m s t => [m; s; t]
  | LExp _ a => [a]
  | LExpOffset _ a o => [o; a]
  | LExpPoly _ ws => ws
  | LExpPolyOffset _ ws o => o :: ws
  | LGaussian _ m s => [m; s]
  | LJohnsonSU _ m s g d => [m; s; g; d]
  | LKinLimitBW _ m w _ _ => [m; w]
  | LLandau _ m s => [m; s]
  | LNovosibirsk _ m s t => [m; s; t]
  | LPolynomial _ ws _ => ws
  | LOffsetPolynomial _ ws x0 _ => ws ++ [x0]
  | LMultiPolynomial _ cs offs _ => offs ++ cs
  | LScaledGaussian _ m s d e => [m; s; d; e]
  | LStep _ x0 _ => [x0]
  | LTrig _ t c l _ => [t; c; l]
  | LTrig2 _ _ t c l m _ => [t; c; l; m]
  | LVoigtian _ m s w => [m; s; w]
  | LVarBin _ _ => []
  | LDalitzVeto _ _ m d1 d2 d3 vs => [m; d1; d2; d3] ++ flat_map (fun v => [fst (fst v); snd (fst v)]) vs
  | LSquareDalitz _ _ c0 c1 c2 c3 c4 c5 c6 c7 => [c0; c1; c2; c3; c4; c5; c6; c7]
  end.

Definition f_of_nat (n : nat) : f64 := f_of_Z (Z.of_nat n).

(** The numbers passed to registerConstant, in order; BernsteinPdf.cu:73-76 reads the limits of its observable. *)
Definition leaf_cons (hp : heap) (l : leaf handle) : list f64 :=
  match l with
  | LBernstein x cs mindeg =>
      [f_of_nat (List.length cs); get_f hp x FLower; get_f hp x FUpper; f_of_nat mindeg]
  | LBinTransform axes => flat_map (fun a => [snd (fst (fst a)); snd (fst a); f_of_Z (snd a)]) axes
  | LKinLimitBW _ _ _ b s => [b; s]
  | LPolynomial _ _ lowest | LOffsetPolynomial _ _ _ lowest => [f_of_nat lowest]
  | LMultiPolynomial obses _ _ d => f_of_nat d :: map (fun i => f_of_nat (d + 1 + i)) (seq 0 (List.length obses))
  | LStep _ _ up => [f_of_Z up]
  | LVarBin _ limits => f_of_nat (List.length limits) :: limits
  | LDalitzVeto _ _ _ _ _ _ vs => f_of_nat (List.length vs) :: map (fun v => f_of_Z (snd v)) vs
  | _ => []
  end.

(** Naming of arguments: by number in programs, by handle in the objects. *)
Definition map1 {A B C D} (f : A -> B) (p : A * C * D) : B * C * D := let '(a, c, d) := p in (f a, c, d).
Definition leaf_map {V W} (f : V -> W) (l : leaf V) : leaf W :=
  match l with
  | LArgus x m s u p => LArgus (f x) (f m) (f s) u (f p)
  | LBW x m w => LBW (f x) (f m) (f w)
  | LBernstein x cs d => LBernstein (f x) (map f cs) d
  | LBifurGauss x m a b => LBifurGauss (f x) (f m) (f a) (f b)
  | LBinTransform axes => LBinTransform (map (fun a => (f (fst (fst (fst a))), snd (fst (fst a)), snd (fst a), snd a)) axes)
  | LCorrGaussian x y a b c d e => LCorrGaussian (f x) (f y) (f a) (f b) (f c) (f d) (f e)
  | LCrystalBall x a b c d => LCrystalBall (f x) (f a) (f b) (f c) (f d)
  | LExpGaus x a b c => LExpGaus (f x) (f a) (f b) (f c)
  | LExp x a => LExp (f x) (f a)
  | LExpOffset x a o => LExpOffset (f x) (f a) (f o)
  | LExpPoly x ws => LExpPoly (f x) (map f ws)
  | LExpPolyOffset x ws o => LExpPolyOffset (f x) (map f ws) (f o)
  | LGaussian x a b => LGaussian (f x) (f a) (f b)
  | LJohnsonSU x a b c d => LJohnsonSU (f x) (f a) (f b) (f c) (f d)
  | LKinLimitBW x a b m1 m2 => LKinLimitBW (f x) (f a) (f b) m1 m2
  | LLandau x a b => LLandau (f x) (f a) (f b)
  | LNovosibirsk x a b c => LNovosibirsk (f x) (f a) (f b) (f c)
  | LPolynomial x ws l => LPolynomial (f x) (map f ws) l
  | LOffsetPolynomial x ws o l => LOffsetPolynomial (f x) (map f ws) (f o) l
  | LMultiPolynomial os cs offs d => LMultiPolynomial (map f os) (map f cs) (map f offs) d
  | LScaledGaussian x a b c d => LScaledGaussian (f x) (f a) (f b) (f c) (f d)
  | LStep x a u => LStep (f x) (f a) u
  | LTrig x a b c u => LTrig (f x) (f a) (f b) (f c) u
  | LTrig2 x y a b c d u => LTrig2 (f x) (f y) (f a) (f b) (f c) (f d) u
  | LVoigtian x a b c => LVoigtian (f x) (f a) (f b) (f c)
  | LVarBin x ls => LVarBin (f x) ls
  | LDalitzVeto x y a b c d vs =>
      LDalitzVeto (f x) (f y) (f a) (f b) (f c) (f d) (map (fun v => (f (fst (fst v)), f (snd (fst v)), snd v)) vs)
  | LSquareDalitz x y a b c d e g h i =>
      LSquareDalitz (f x) (f y) (f a) (f b) (f c) (f d) (f e) (f g) (f h) (f i)
  end.

(** The number of coefficients a multi-dimensional polynomial asks for, PolynomialPdf.cu:160-179: an unsigned int, so each
    product is taken modulo 2^32 before the divisions. *)
Definition demanded_terms (nobs maxDegree : nat) : Z :=
  (fold_left (fun n i => n / Z.of_nat i) (rev (seq 2 (nobs - 1)))
     (fold_left (fun n i => (n * ((Z.of_nat maxDegree + 1 + Z.of_nat i) mod 2 ^ 32)) mod 2 ^ 32) (seq 0 nobs) 1))%Z.

(** ** PDF objects: the members of PdfBase (PdfBase.h:239-277) that the modelled code uses, with AddPdf::extended,
    ProdPdf::varOverlaps and whether an ExpPdf/GaussianPdf/... was built. *)
Record pdf : Type := mkPdf {
  p_kind : kind;
  p_pars : list handle;          (* parametersList *)
  p_cons : list f64;             (* constantsList *)
  p_obs : list handle;           (* observablesList *)
  p_comps : list nat;            (* components *)
  p_norm : f64;                  (* cachedNormalization *)
  p_fit : option fitcontrol;     (* fitControl *)
  p_ranges : list (f64 * f64 * f64);  (* normRanges: lower, upper, number of bins per observable *)
  p_bins : Z;                    (* integrationBins *)
  p_fi : nat; p_pi : nat; p_ci : nat; p_oi : nat; p_ni : nat;
                                 (* functionIdx, parametersIdx, constantsIdx, observablesIdx, normalIdx *)
  p_overlap : bool;              (* ProdPdf::varOverlaps *)
  p_common : bool; p_separate : bool  (* commonNorm, separateNorm *) }.

Definition with_indices (p : pdf) (fi pi ci oi ni : nat) : pdf :=
  mkPdf (p_kind p) (p_pars p) (p_cons p) (p_obs p) (p_comps p) (p_norm p) (p_fit p) (p_ranges p) (p_bins p)
        fi pi ci oi ni (p_overlap p) (p_common p) (p_separate p).
Definition with_fit (p : pdf) (fc : fitcontrol) : pdf :=
  mkPdf (p_kind p) (p_pars p) (p_cons p) (p_obs p) (p_comps p) (p_norm p) (Some fc) (p_ranges p) (p_bins p)
        (p_fi p) (p_pi p) (p_ci p) (p_oi p) (p_ni p) (p_overlap p) (p_common p) (p_separate p).
Definition with_norm (p : pdf) (v : f64) : pdf :=
  mkPdf (p_kind p) (p_pars p) (p_cons p) (p_obs p) (p_comps p) v (p_fit p) (p_ranges p) (p_bins p)
        (p_fi p) (p_pi p) (p_ci p) (p_oi p) (p_ni p) (p_overlap p) (p_common p) (p_separate p).
Definition with_ranges (p : pdf) (r : list (f64 * f64 * f64)) : pdf :=
  mkPdf (p_kind p) (p_pars p) (p_cons p) (p_obs p) (p_comps p) (p_norm p) (p_fit p) r (p_bins p)
        (p_fi p) (p_pi p) (p_ci p) (p_oi p) (p_ni p) (p_overlap p) (p_common p) (p_separate p).
Definition with_cons (p : pdf) (c : list f64) : pdf :=
  mkPdf (p_kind p) (p_pars p) c (p_obs p) (p_comps p) (p_norm p) (p_fit p) (p_ranges p) (p_bins p)
        (p_fi p) (p_pi p) (p_ci p) (p_oi p) (p_ni p) (p_overlap p) (p_common p) (p_separate p).
Definition with_bins (p : pdf) (n : Z) : pdf :=
  mkPdf (p_kind p) (p_pars p) (p_cons p) (p_obs p) (p_comps p) (p_norm p) (p_fit p) (p_ranges p) n
        (p_fi p) (p_pi p) (p_ci p) (p_oi p) (p_ni p) (p_overlap p) (p_common p) (p_separate p).
Definition with_flags (p : pdf) (common separate : bool) : pdf :=
  mkPdf (p_kind p) (p_pars p) (p_cons p) (p_obs p) (p_comps p) (p_norm p) (p_fit p) (p_ranges p) (p_bins p)
        (p_fi p) (p_pi p) (p_ci p) (p_oi p) (p_ni p) (p_overlap p) common separate.

Definition pdfs := list pdf.

(** Variable::getIndex, Variable.h:83; -1 until setupObservables. *)
Definition get_i (hp : heap) (h : handle) : Z :=
  match get_field hp h FIndex with Some (CI z) => z | _ => (-1)%Z end.
Definition set_i (hp : heap) (h : handle) (z : Z) : heap :=
  match set_field hp h FIndex (CI z) with Some hp' => hp' | None => hp end.

(** find_in, PdfBase.cpp:22-25 *)
Definition find_in (l : list handle) (h : handle) : bool := existsb (fun p => handle_eqb p h) l.
(** registerObservable, PdfBase.cpp:102-107 *)
Definition registerObservable (l : list handle) (h : handle) : list handle := if find_in l h then l else l ++ [h].
Definition registerObservables (l hs : list handle) : list handle := fold_left registerObservable hs l.

(** getParameters / getObservables, PdfBase.cpp:58-70, 88-100.  [fuel] bounds the depth of the tree. *)
Definition merge_new (acc sub : list handle) : list handle :=
  fold_left (fun ret h => if find_in ret h then ret else ret ++ [h]) sub acc.
Fixpoint collect (get : pdf -> list handle) (fuel : nat) (ps : pdfs) (id : nat) : list handle :=
  match fuel, nth_error ps id with
  | S n, Some p => fold_left (fun acc c => merge_new acc (collect get n ps c)) (p_comps p) (get p)
  | _, _ => []
  end.
Definition getParameters (ps : pdfs) (id : nat) : list handle := collect p_pars (S id) ps id.
Definition getObservables (ps : pdfs) (id : nat) : list handle := collect p_obs (S id) ps id.
(** getObservables of an object under construction (its components are set, its own list is [own]). *)
Definition gather (ps : pdfs) (own : list handle) (comps : list nat) : list handle :=
  fold_left (fun acc c => merge_new acc (getObservables ps c)) comps own.

(** generateNormRange, PdfBase.cu:532-557 *)
Definition normRange (hp : heap) (p : pdf) : list (f64 * f64 * f64) :=
  map (fun v => (get_f hp v FLower, get_f hp v FUpper, f_of_Z (if Z.ltb 0 (p_bins p) then p_bins p else get_n hp v FNumBins)))
      (p_obs p).

(** What populateArrays pushes for one object (PdfBase.cu:275-305) and the function pushed by recursiveSetIndices. *)
Definition push_block (hp : heap) (p : pdf) (A : arrays) : arrays :=
  mkArrays (a_fun A ++ [FPdf (p_kind p)])
           (a_par A ++ f_of_nat (List.length (p_pars p)) :: map (fun v => get_f hp v FValue) (p_pars p))
           (a_con A ++ f_of_nat (List.length (p_cons p)) :: p_cons p)
           (a_obs A ++ f_of_nat (List.length (p_obs p)) :: map (fun v => f_of_Z (get_i hp v)) (p_obs p))
           (a_nor A ++ [fone; p_norm p]).
Definition set_pdf (ps : pdfs) (id : nat) (f : pdf -> pdf) : pdfs :=
  match nth_error ps id with Some p => upd ps id (f p) | None => ps end.

(** recursiveSetIndices, PdfBase.cu:95-119, with populateArrays, PdfBase.cu:268-311. *)
Fixpoint recursiveSetIndices (fuel : nat) (hp : heap) (ps : pdfs) (A : arrays) (id : nat) : pdfs * arrays :=
  match fuel, nth_error ps id with
  | S n, Some p =>
      let ps1 := upd ps id (with_indices p (List.length (a_fun A)) (List.length (a_par A)) (List.length (a_con A))
                                           (List.length (a_obs A)) (List.length (a_nor A))) in
      let '(ps2, A2) := fold_left (fun s c => recursiveSetIndices n hp (fst s) (snd s) c) (p_comps p)
                                  (ps1, push_block hp p A) in
      (set_pdf ps2 id (fun q => with_ranges q (normRange hp q)), A2)
  | _, _ => (ps, A)
  end.
Definition no_arrays : arrays := mkArrays [] [] [] [] [].
Definition push_fun (A : arrays) (f : fentry) : arrays :=
  mkArrays (a_fun A ++ [f]) (a_par A) (a_con A) (a_obs A) (a_nor A).

(** GooPdf::setIndices, GooPdf.cu:182-200 for an object that has a fit control, and PdfBase::setIndices,
    PdfBase.cu:313-327. *)
Definition setIndices_fc (hp : heap) (ps : pdfs) (id : nat) (fc : fitcontrol) : pdfs * arrays :=
  let '(ps1, A1) := recursiveSetIndices (S id) hp ps no_arrays id in
  (ps1, push_fun A1 (FMetric (getMetric fc))).
(** GooPdf::setFitControl, GooPdf.cpp:113-124. *)
Fixpoint setFitControl (fuel : nat) (hp : heap) (ps : pdfs) (A : arrays) (id : nat) (fc : fitcontrol) : pdfs * arrays :=
  match fuel, nth_error ps id with
  | S n, Some p =>
      let '(ps1, _) := fold_left (fun s c => setFitControl n hp (fst s) (snd s) c fc) (p_comps p) (ps, A) in
      setIndices_fc hp (set_pdf ps1 id (fun q => with_fit q fc)) id fc
  | _, _ => (ps, A)
  end.
(** GooPdf::setIndices, GooPdf.cu:182-200. *)
Definition setIndices (hp : heap) (ps : pdfs) (A : arrays) (id : nat) : pdfs * arrays :=
  match nth_error ps id with
  | Some p =>
      match p_fit p with
      | Some fc => setIndices_fc hp ps id fc
      | None => let '(ps1, _) := setFitControl (S id) hp ps A id UnbinnedNllFit in setIndices_fc hp ps1 id UnbinnedNllFit
      end
  | None => (ps, A)
  end.

(** GooPdf::initialize, GooPdf.cpp:52-67 with PdfBase::initializeIndices, PdfBase.cu:46-93: after the first flattening,
    place holders are appended (observable values instead of positions, normalisation 0). *)
Definition initialize (hp : heap) (ps : pdfs) (A : arrays) (id : nat) : pdfs * arrays :=
  let '(ps1, A1) :=
    match nth_error ps id with
    | Some p => match p_fit p with None => setFitControl (S id) hp ps A id UnbinnedNllFit | Some _ => (ps, A) end
    | None => (ps, A)
    end in
  match nth_error ps1 id with
  | Some p =>
      (upd ps1 id (with_indices p (p_fi p) (List.length (a_par A1)) (List.length (a_con A1))
                                (List.length (a_obs A1)) (List.length (a_nor A1))),
       mkArrays (a_fun A1)
                (a_par A1 ++ f_of_nat (List.length (p_pars p)) :: map (fun v => get_f hp v FValue) (p_pars p))
                (a_con A1 ++ f_of_nat (List.length (p_cons p)) :: p_cons p)
                (a_obs A1 ++ f_of_nat (List.length (p_obs p)) :: map (fun v => get_f hp v FValue) (p_obs p))
                (a_nor A1 ++ [fone; fzero]))
  | None => (ps1, A1)
  end.

(** A freshly constructed object, PdfBase.h:145-158 and the member initialisers, PdfBase.h:239-277. *)
Definition new_pdf (k : kind) (pars : list handle) (cons_ : list f64) (obs : list handle) (comps : list nat)
                   (overlap : bool) : pdf :=
  mkPdf k pars cons_ obs comps fone None [] (-1) 0 0 0 0 0 overlap false false.

(** updateParameters, PdfBase.cu:131-140; [false]: std::out_of_range from vector::at (earlier writes stay). *)
Fixpoint write_pars (hp : heap) (par : list f64) (at_ : nat) (vs : list handle) : list f64 * bool :=
  match vs with
  | [] => (par, true)
  | v :: t => if Nat.ltb at_ (List.length par)
              then write_pars hp (upd par at_ (get_f hp v FValue)) (S at_) t
              else (par, false)
  end.
Fixpoint updateParameters (fuel : nat) (hp : heap) (ps : pdfs) (par : list f64) (id : nat) : list f64 * bool :=
  match fuel, nth_error ps id with
  | S n, Some p =>
      fold_left (fun (s : list f64 * bool) c => if snd s then updateParameters n hp ps (fst s) c else s) (p_comps p)
                (write_pars hp par (p_pi p + 1) (p_pars p))
  | _, _ => (par, true)
  end.
(** updateVariable, PdfBase.cu:121-129: every parameter of the tree with the same name is set. *)
Fixpoint updateVariable (fuel : nat) (hp : heap) (ps : pdfs) (id : nat) (name : string) (v : f64) : heap :=
  match fuel, nth_error ps id with
  | S n, Some p =>
      fold_left (fun h c => updateVariable n h ps c name v) (p_comps p)
                (fold_left (fun h x => if String.eqb (h_name x) name then set_f h x FValue v else h) (p_pars p) hp)
  | _, _ => hp
  end.

(** setupObservables, PdfBase.cpp:109-117. *)
Fixpoint number_from (hp : heap) (n : Z) (obs : list handle) : heap :=
  match obs with [] => hp | h :: t => number_from (set_i hp h n) (n + 1)%Z t end.
Definition setupObservables (hp : heap) (ps : pdfs) (id : nat) : heap :=
  match nth_error ps id with Some p => number_from hp 0 (p_obs p) | None => hp end.

(** countComponents, MappedPdf.cu:42-53. *)
Fixpoint countComponents (fuel : nat) (ps : pdfs) (id : nat) : nat :=
  match fuel, nth_error ps id with
  | S n, Some p => fold_left (fun acc c => acc + 1 + countComponents n ps c) (p_comps p) 0
  | _, _ => 0
  end.

(** The overlap check of ProdPdf.cu:44-68. *)
Fixpoint overlap_check (ps : pdfs) (check : list handle) (comps : list nat) : bool :=
  match comps with
  | [] => false
  | c :: t => let cur := getObservables ps c in
              if existsb (fun o => find_in check o) cur then true else overlap_check ps cur t
  end.
Definition separate_norm (ps : pdfs) (c : nat) : bool :=
  match nth_error ps c with Some p => p_separate p | None => false end.
Definition prod_overlaps (ps : pdfs) (comps : list nat) : bool :=
  overlap_check ps [] comps && negb (existsb (separate_norm ps) comps).

(** ** Programs. *)
Record gstate : Type := mkG { g_heap : heap; g_hs : list handle; g_pdfs : pdfs; g_arr : arrays }.
Definition ginit : gstate := mkG [] [] [] no_arrays.

Inductive gop : Type :=
| GVar (o : op)                                (* any action on Variables and Observables *)
| GLeaf (l : leaf nat)                         (* new ...Pdf(...) *)
| GAdd (ws comps : list nat)                   (* AddPdf(n, weights, comps) *)
| GAdd2 (frac p1 p2 : nat)                     (* AddPdf(n, frac1, func1, func2) *)
| GProd (comps : list nat)
| GEWAdd (ws comps : list nat)
| GMapped (m : nat) (ts : list nat)
| GComposite (core shell : nat)
| GSetMasses (id : nat) (bigM smallM : f64)    (* KinLimitBWPdf::setMasses *)
| GSetupObservables (id : nat)
| GSetIndices (id : nat)
| GSetFitControl (id : nat) (fc : fitcontrol)
| GCopyParams (id : nat)
| GUpdateVariable (id v : nat) (x : f64)
| GSetNormalization (id : nat) (x : f64)
| GSetFineness (id : nat) (n : Z)
| GSetCommonNorm (id : nat) (b : bool) | GSetSeparateNorm (id : nat) (b : bool)
| GGetParameters (id : nat) | GGetObservables (id : nat).

Inductive gout : Type :=
| GDone | GThrow | GUB
| GIll                       (* not a C++ program: an object that does not exist, an argument of the wrong type *)
| GUnmodelled                (* a constructor that invents extra Variables *)
| GVarOut (o : output) | GHandles (l : list handle).

Definition exists_all {T} (l : list T) (ids : list nat) : bool := forallb (fun i => Nat.ltb i (List.length l)) ids.
Definition is_var (hs : list handle) (i : nat) : bool :=
  match nth_error hs i with Some h => match h_ext h with XVariable _ _ _ _ _ => true | _ => false end | None => false end.
Definition is_obs (hs : list handle) (i : nat) : bool :=
  match nth_error hs i with Some h => match h_ext h with XObservable _ _ => true | _ => false end | None => false end.
Definition no_handle : handle := mkHandle "" 0 0 0 0 (XObservable 0 false).
Definition hget (hs : list handle) (i : nat) : handle := nth i hs no_handle.

(** push a new object and initialise it *)
Definition construct (st : gstate) (p : pdf) (init : bool) : gstate :=
  let ps := g_pdfs st ++ [p] in
  let '(ps', A') := if init then initialize (g_heap st) ps (g_arr st) (List.length (g_pdfs st)) else (ps, g_arr st) in
  mkG (g_heap st) (g_hs st) ps' A'.

(** Constructors that can throw before anything is done: ExpPdf.cu:93, 108; PolynomialPdf.cu:184-199 creates Variables. *)
Definition leaf_check {V} (l : leaf V) : gout :=
  match l with
  | LExpPoly _ [] | LExpPolyOffset _ [] _ => GThrow
  | LMultiPolynomial obses coeffs offsets d =>
      if Z.ltb (Z.of_nat (List.length coeffs)) (demanded_terms (List.length obses) d) || Nat.ltb (List.length offsets) (List.length obses)
      then GUnmodelled else GDone
  | _ => GDone
  end.
(** VariableBinTransform1DPdf.cu:30-42 does not call initialize(). *)
Definition leaf_initializes {V} (l : leaf V) : bool := match l with LVarBin _ _ => false | _ => true end.
Definition leaf_pdf (hp : heap) (l : leaf handle) : pdf :=
  new_pdf (leaf_kind l) (leaf_pars l) (leaf_cons hp l) (registerObservables [] (leaf_obs l)) [] false.

Definition gstep (st : gstate) (o : gop) : gstate * gout :=
  let hp := g_heap st in let hs := g_hs st in let ps := g_pdfs st in let A := g_arr st in
  match o with
  | GVar o => let '((hp', hs'), out) := vstep (hp, hs) o in (mkG hp' hs' ps A, GVarOut out)
  | GLeaf l =>
      if forallb (is_obs hs) (leaf_obs l) && forallb (is_var hs) (leaf_pars l) then
        match leaf_check l with
        | GDone => (construct st (leaf_pdf hp (leaf_map (hget hs) l)) (leaf_initializes l), GDone)
        | out => (st, out)
        end
      else (st, GIll)
  (* AddPdf.cu:85-125 *)
  | GAdd ws comps =>
      if forallb (is_var hs) ws && exists_all ps comps then
        if Nat.eqb (List.length ws) (List.length comps) || Nat.eqb (List.length ws + 1) (List.length comps) then
          match comps with
          | [] => (st, GUB)                       (* components.back() of an empty vector, AddPdf.cu:107 *)
          | _ => let k := if Nat.ltb (List.length ws) (List.length comps) then KAdd else KAddExt in
                 (construct st (new_pdf k (map (hget hs) ws) [] (gather ps [] comps) comps false) true, GDone)
          end
        else (st, GThrow)
      else (st, GIll)
  (* AddPdf.cu:127-141 *)
  | GAdd2 frac p1 p2 =>
      if is_var hs frac && exists_all ps [p1; p2] then
        (construct st (new_pdf KAdd [hget hs frac] [] (gather ps [] [p1; p2]) [p1; p2] false) true, GDone)
      else (st, GIll)
  (* ProdPdf.cu:30-73 *)
  | GProd comps =>
      if exists_all ps comps then
        (construct st (new_pdf KProd [] [f_of_nat (List.length comps)] (gather ps [] comps) comps
                               (prod_overlaps ps comps)) true, GDone)
      else (st, GIll)
  (* EventWeightedAddPdf.cu:96-143 *)
  | GEWAdd ws comps =>
      if forallb (is_obs hs) ws && exists_all ps comps then
        if Nat.eqb (List.length ws) (List.length comps) || Nat.eqb (List.length ws + 1) (List.length comps) then
          match comps with
          | [] => (st, GUB)
          | _ => let k := if Nat.ltb (List.length ws) (List.length comps) then KEWAdd else KEWAddExt in
                 (construct st (new_pdf k [] [f_of_nat (List.length comps)]
                                        (gather ps (registerObservables [] (map (hget hs) ws)) comps) comps false) true, GDone)
          end
        else (st, GThrow)
      else (st, GIll)
  (* MappedPdf.cu:55-82 *)
  | GMapped m ts =>
      if exists_all ps (m :: ts) then
        (construct st (new_pdf KMapped [] (f_of_nat (List.length ts)
                                           :: map (fun t => f_of_nat (countComponents (S t) ps t + 1)) ts)
                               (gather ps [] (m :: ts)) (m :: ts) false) true, GDone)
      else (st, GIll)
  (* CompositePdf.cu:41-52 *)
  | GComposite core shell =>
      if exists_all ps [core; shell] then
        (construct st (new_pdf KComposite [] [] (gather ps [] [core; shell]) [core; shell] false) true, GDone)
      else (st, GIll)
  (* KinLimitBWPdf.cu:68-71 *)
  | GSetMasses id b s =>
      match nth_error ps id with
      | Some p => match p_kind p with
                  | KKinLimitBW => (mkG hp hs (upd ps id (with_cons p [b; s])) A, GDone)
                  | _ => (st, GIll)
                  end
      | None => (st, GIll)
      end
  | GSetupObservables id =>
      if Nat.ltb id (List.length ps) then (mkG (setupObservables hp ps id) hs ps A, GDone) else (st, GIll)
  | GSetIndices id =>
      if Nat.ltb id (List.length ps) then let '(ps', A') := setIndices hp ps A id in (mkG hp hs ps' A', GDone)
      else (st, GIll)
  | GSetFitControl id fc =>
      if Nat.ltb id (List.length ps) then let '(ps', A') := setFitControl (S id) hp ps A id fc in (mkG hp hs ps' A', GDone)
      else (st, GIll)
  (* copyParams, PdfBase.cu:38-44 *)
  | GCopyParams id =>
      if Nat.ltb id (List.length ps) then
        let '(par, ok) := updateParameters (S id) hp ps (a_par A) id in
        (mkG hp hs ps (mkArrays (a_fun A) par (a_con A) (a_obs A) (a_nor A)), if ok then GDone else GThrow)
      else (st, GIll)
  | GUpdateVariable id v x =>
      if Nat.ltb id (List.length ps) && is_var hs v then
        (mkG (updateVariable (S id) hp ps id (h_name (hget hs v)) x) hs ps A, GDone)
      else (st, GIll)
  (* setNormalization, PdfBase.h:204-207 *)
  | GSetNormalization id x =>
      match nth_error ps id with
      | Some p => if Nat.ltb (p_ni p + 1) (List.length (a_nor A)) then
                    (mkG hp hs (upd ps id (with_norm p x))
                         (mkArrays (a_fun A) (a_par A) (a_con A) (a_obs A) (upd (a_nor A) (p_ni p + 1) x)), GDone)
                  else (st, GUB)
      | None => (st, GIll)
      end
  (* setIntegrationFineness, PdfBase.cpp:119-122 *)
  | GSetFineness id n =>
      if Nat.ltb id (List.length ps) then
        (mkG hp hs (set_pdf ps id (fun p => let q := with_bins p n in with_ranges q (normRange hp q))) A, GDone)
      else (st, GIll)
  (* PdfBase.h:228-229 *)
  | GSetCommonNorm id b =>
      if Nat.ltb id (List.length ps) then
        (mkG hp hs (set_pdf ps id (fun p => with_flags p b (p_separate p))) A, GDone) else (st, GIll)
  | GSetSeparateNorm id b =>
      if Nat.ltb id (List.length ps) then
        (mkG hp hs (set_pdf ps id (fun p => with_flags p (p_common p) b)) A, GDone) else (st, GIll)
  | GGetParameters id => if Nat.ltb id (List.length ps) then (st, GHandles (getParameters ps id)) else (st, GIll)
  | GGetObservables id => if Nat.ltb id (List.length ps) then (st, GHandles (getObservables ps id)) else (st, GIll)
  end.

Fixpoint grun (st : gstate) (ops : list gop) : gstate * list gout :=
  match ops with
  | [] => (st, [])
  | o :: t => let '(st1, out) := gstep st o in let '(st2, outs) := grun st1 t in (st2, out :: outs)
  end.
Definition gstate_after (ops : list gop) : gstate := fst (grun ginit ops).
