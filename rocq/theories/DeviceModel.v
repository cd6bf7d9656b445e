(** Device side of GooFit: the flattened arrays, the ParameterContainer cursor and the device functions.

    Representation: IEEE doubles; array positions are natural numbers.  A read outside an array, of an uninitialised
    slot of an event, a conversion of a number that does not fit, or a call through a pointer of another function type
    is undefined behaviour, [DUB].  [DFuel] only says that the recursion bound of the model was too small.
    d_parameters, d_constants, ... are taken equal to the host vectors; the copying is modelled in SmartVectorModel. *)
From Coq Require Import List ZArith Bool.
From Verif Require Import F64 ListAux LeafFormulas.
Import ListNotations.

Inductive dres (A : Type) : Type := DOk (a : A) | DUB | DFuel.
Arguments DOk {A}. Arguments DUB {A}. Arguments DFuel {A}.
Definition dbind {A B} (x : dres A) (k : A -> dres B) : dres B :=
  match x with DOk a => k a | DUB => DUB | DFuel => DFuel end.
Notation "x <- e ;; k" := (dbind e (fun x => k)) (at level 61, e at next level, right associativity).
Notation "' p <- e ;; k" := (dbind e (fun x => match x with p => k end))
  (at level 61, p pattern, e at next level, right associativity).
Definition of_option {A} (x : option A) : dres A := match x with Some a => DOk a | None => DUB end.
Fixpoint dmap {A B} (f : A -> dres B) (l : list A) : dres (list B) :=
  match l with [] => DOk [] | a :: t => b <- f a ;; bs <- dmap f t ;; DOk (b :: bs) end.

(** The metric functions, MetricPointer.cu:8-65 (EvalFunc). *)
Inductive metric : Type := MEval | MNLL | MProb | MBinAvg | MBinWithError | MChisq.

(** The device functions: one constructor per function registered with registerFunction. *)
Inductive kind : Type :=
| KArgusUpper | KArgusLower | KBW | KBernstein | KBifurGauss | KBinTransform | KCorrGaussian | KCrystalBall | KExpGaus
| KExp | KExpOffset | KExpPoly | KExpPolyOffset | KGaussian | KJohnsonSU | KKinLimitBW | KLandau | KNovosibirsk
| KPolynomial | KOffsetPolynomial | KMultiPolynomial | KScaledGaussian | KStep
| KTrigUpper | KTrigLower | KTrigUpper2 | KTrigLower2 | KVoigtian | KVarBin | KDalitzVeto | KSquareDalitz
| KAdd | KAddExt | KEWAdd | KEWAddExt | KProd | KMapped | KComposite.

(** Entries of d_function_table: device_function_ptr or device_metric_ptr, both stored as void*. *)
Inductive fentry : Type := FPdf (k : kind) | FMetric (m : metric).

(** The global arrays, src/PDFs/detail/Globals.cu. *)
Record arrays : Type := mkArrays {
  a_fun : list fentry; a_par : list f64; a_con : list f64; a_obs : list f64; a_nor : list f64 }.

(** ParameterContainer, ParameterContainer.h:14-52: five positions. *)
Record cursor : Type := mkCur { c_fun : nat; c_par : nat; c_con : nat; c_obs : nat; c_nor : nat }.
Definition cur0 : cursor := mkCur 0 0 0 0 0.

(** An event is what [evt] points to; [None] is a slot that was never written. *)
Definition event := list (option f64).

Definition rd (l : list f64) (i : nat) : dres f64 := of_option (nth_error l i).
(** ParameterContainer.h:25-31 *)
Definition getParameter (A : arrays) (c : cursor) (i : nat) : dres f64 := rd (a_par A) (c_par c + i + 1).
Definition getConstant (A : arrays) (c : cursor) (i : nat) : dres f64 := rd (a_con A) (c_con c + i + 1).
Definition getObservable (A : arrays) (c : cursor) (i : nat) : dres f64 := rd (a_obs A) (c_obs c + i + 1).
Definition getNormalization (A : arrays) (c : cursor) (i : nat) : dres f64 := rd (a_nor A) (c_nor c + i + 1).

(** double -> int used as an array position or a count; a negative number is undefined behaviour here (it would be a
    read in front of an array, or a cursor moving backwards). *)
Definition to_index (v : f64) : dres nat :=
  match f2int v with Some z => if Z.ltb z 0 then DUB else DOk (Z.to_nat z) | None => DUB end.
(** ParameterContainer.h:33-39 *)
Definition getNumParameters (A : arrays) (c : cursor) : dres nat := v <- rd (a_par A) (c_par c) ;; to_index v.
Definition getNumConstants (A : arrays) (c : cursor) : dres nat := v <- rd (a_con A) (c_con c) ;; to_index v.
Definition getNumObservables (A : arrays) (c : cursor) : dres nat := v <- rd (a_obs A) (c_obs c) ;; to_index v.
Definition getNumNormalizations (A : arrays) (c : cursor) : dres nat := v <- rd (a_nor A) (c_nor c) ;; to_index v.

(** incrementIndex(funcs, params, cons, obs, norms), ParameterContainer.cu:22-46 (without GOOFIT_TRACE_FLAG). *)
Definition incrementIndex5 (c : cursor) (f p k o n : nat) : cursor :=
  mkCur (c_fun c + f) (c_par c + (p + 1)) (c_con c + (k + 1)) (c_obs c + (o + 1)) (c_nor c + (n + 1)).
(** incrementIndex(), ParameterContainer.cu:48-60. *)
Definition incrementIndex (A : arrays) (c : cursor) : dres cursor :=
  np <- getNumParameters A c ;; nc <- getNumConstants A c ;; no <- getNumObservables A c ;;
  nn <- getNumNormalizations A c ;;
  DOk (incrementIndex5 c 1 np nc no nn).
(** `while(pc.funcIdx < target) pc.incrementIndex();`: every step adds one to funcIdx, so it is target - funcIdx steps. *)
Fixpoint skip (A : arrays) (c : cursor) (n : nat) : dres cursor :=
  match n with O => DOk c | S n' => c' <- incrementIndex A c ;; skip A c' n' end.

(** evt[id] *)
Definition ev (e : event) (i : nat) : dres f64 := match nth_error e i with Some (Some v) => DOk v | _ => DUB end.
(** `int id = pc.getObservable(i); fptype x = RO_CACHE(evt[id]);` *)
Definition obs_value (A : arrays) (c : cursor) (e : event) (i : nat) : dres f64 :=
  v <- getObservable A c i ;; id <- to_index v ;; ev e id.

(** The parameters (constants) number [i0], ..., [i0+n-1]: the loops of the device functions read them one per iteration. *)
Definition getParams (A : arrays) (c : cursor) (i0 n : nat) : dres (list f64) := dmap (getParameter A c) (seq i0 n).

Section Bodies.
Variable L : libm.
Variable A : arrays.

(** Leaves with one observable and a fixed number of parameters.
    ArgusPdf.cu:7-47, BWPdf.cu:6-18, BifurGaussPdf.cu:6-24, CrystalBallPdf.cu:7-39, ExpGausPdf.cu:6-24, ExpPdf.cu:7-30,
    GaussianPdf.cu:7-17, JohnsonSUPdf.cu:8-24, LandauPdf.cu:30-80, NovosibirskPdf.cu:6-40, ScaledGaussianPdf.cu:9-20,
    TrigThresholdPdf.cu:12-36, VoigtianPdf.cu:278-324. *)
Definition dev_argus (formula : f64 -> f64 -> f64 -> f64 -> f64) (e : event) (c : cursor) : dres (f64 * cursor) :=
  x <- obs_value A c e 0 ;; m0 <- getParameter A c 0 ;; slope <- getParameter A c 1 ;; power <- getParameter A c 2 ;;
  DOk (formula x m0 slope power, incrementIndex5 c 1 3 0 1 1).
Definition dev_bw (e : event) (c : cursor) : dres (f64 * cursor) :=
  x <- obs_value A c e 0 ;; mean <- getParameter A c 0 ;; gamma <- getParameter A c 1 ;;
  DOk (breit_wigner L x mean gamma, incrementIndex5 c 1 2 0 1 1).
Definition dev_bifur (e : event) (c : cursor) : dres (f64 * cursor) :=
  x <- obs_value A c e 0 ;; mean <- getParameter A c 0 ;; sl <- getParameter A c 1 ;; sr <- getParameter A c 2 ;;
  DOk (bifur_gauss L x mean sl sr, incrementIndex5 c 1 3 0 1 1).
Definition dev_crystal (e : event) (c : cursor) : dres (f64 * cursor) :=
  x <- obs_value A c e 0 ;; mean <- getParameter A c 0 ;; sigma <- getParameter A c 1 ;;
  alpha <- getParameter A c 2 ;; power <- getParameter A c 3 ;;
  DOk (crystal_ball L x mean sigma alpha power, incrementIndex5 c 1 4 0 1 1).
Definition dev_expgaus (e : event) (c : cursor) : dres (f64 * cursor) :=
  x <- obs_value A c e 0 ;; mean <- getParameter A c 0 ;; sigma <- getParameter A c 1 ;; alpha <- getParameter A c 2 ;;
  DOk (exp_gaus L x mean sigma alpha, incrementIndex5 c 1 3 0 1 1).
Definition dev_exp (e : event) (c : cursor) : dres (f64 * cursor) :=
  alpha <- getParameter A c 0 ;; x <- obs_value A c e 0 ;;
  DOk (exponential L x alpha, incrementIndex5 c 1 1 0 1 1).
Definition dev_expoffset (e : event) (c : cursor) : dres (f64 * cursor) :=
  x <- obs_value A c e 0 ;; x0 <- getParameter A c 0 ;; alpha <- getParameter A c 1 ;;
  DOk (exponential L (fsub x x0) alpha, incrementIndex5 c 1 2 0 1 1).
Definition dev_gaussian (e : event) (c : cursor) : dres (f64 * cursor) :=
  x <- obs_value A c e 0 ;; mean <- getParameter A c 0 ;; sigma <- getParameter A c 1 ;;
  DOk (gauss L x mean sigma, incrementIndex5 c 1 2 0 1 1).
Definition dev_johnson (e : event) (c : cursor) : dres (f64 * cursor) :=
  x <- obs_value A c e 0 ;; jm <- getParameter A c 0 ;; js <- getParameter A c 1 ;;
  jg <- getParameter A c 2 ;; jd <- getParameter A c 3 ;;
  DOk (johnson_su L x jm js jg jd, incrementIndex5 c 1 4 0 1 1).
Definition dev_landau (e : event) (c : cursor) : dres (f64 * cursor) :=
  x <- obs_value A c e 0 ;; mpv <- getParameter A c 0 ;; sigma <- getParameter A c 1 ;;
  DOk (landau L x mpv sigma, incrementIndex5 c 1 2 0 1 1).
Definition dev_novosibirsk (e : event) (c : cursor) : dres (f64 * cursor) :=
  mean <- getParameter A c 0 ;; sigma <- getParameter A c 1 ;; tail <- getParameter A c 2 ;; x <- obs_value A c e 0 ;;
  DOk (novosibirsk L x mean sigma tail, incrementIndex5 c 1 3 0 1 1).
Definition dev_scaled (e : event) (c : cursor) : dres (f64 * cursor) :=
  x <- obs_value A c e 0 ;; p0 <- getParameter A c 0 ;; p2 <- getParameter A c 2 ;;
  p1 <- getParameter A c 1 ;; p3 <- getParameter A c 3 ;;
  DOk (scaled_gauss L x p0 p1 p2 p3, incrementIndex5 c 1 4 0 1 1).
Definition dev_trig (formula : f64 -> f64 -> f64 -> f64 -> f64) (e : event) (c : cursor) : dres (f64 * cursor) :=
  x <- obs_value A c e 0 ;; thresh <- getParameter A c 0 ;; trig <- getParameter A c 1 ;; lin <- getParameter A c 2 ;;
  DOk (formula x thresh trig lin, incrementIndex5 c 1 3 0 1 1).
(** VoigtianPdf.cu:281-284: parameter 1 is read as the width w, parameter 2 as the resolution s. *)
Definition dev_voigtian (e : event) (c : cursor) : dres (f64 * cursor) :=
  x <- obs_value A c e 0 ;; m <- getParameter A c 0 ;; w <- getParameter A c 1 ;; s <- getParameter A c 2 ;;
  DOk (voigt L x m w s, incrementIndex5 c 1 3 0 1 1).
(** KinLimitBWPdf.cu:26-54 *)
Definition dev_kinlimit (e : event) (c : cursor) : dres (f64 * cursor) :=
  x <- obs_value A c e 0 ;; mean <- getParameter A c 0 ;; width <- getParameter A c 1 ;;
  d0 <- getConstant A c 0 ;; pi_ <- getConstant A c 1 ;;
  DOk (kin_limit_bw x mean width d0 pi_, incrementIndex5 c 1 2 2 1 1).
(** StepPdf.cu:15-37: advances with the slow incrementIndex(). *)
Definition dev_step (e : event) (c : cursor) : dres (f64 * cursor) :=
  x <- obs_value A c e 0 ;; x0 <- getParameter A c 0 ;; u <- getConstant A c 0 ;; up <- of_option (f2int u) ;;
  c' <- incrementIndex A c ;;
  DOk (step x x0 up, c').
(** CorrGaussianPdf.cu:6-34 *)
Definition dev_corr (e : event) (c : cursor) : dres (f64 * cursor) :=
  m1 <- getParameter A c 0 ;; s1 <- getParameter A c 1 ;; m2 <- getParameter A c 2 ;; s2 <- getParameter A c 3 ;;
  corr <- getParameter A c 4 ;; x <- obs_value A c e 0 ;; y <- obs_value A c e 1 ;;
  DOk (corr_gauss L x y m1 s1 m2 s2 corr, incrementIndex5 c 1 5 0 2 1).
(** TrigThresholdPdf.cu:38-78 *)
Definition dev_trig2 (formula : f64 -> f64 -> f64 -> f64 -> f64 -> f64 -> f64) (e : event) (c : cursor)
  : dres (f64 * cursor) :=
  x <- obs_value A c e 0 ;; y <- obs_value A c e 1 ;;
  thresh <- getParameter A c 0 ;; trig <- getParameter A c 1 ;; lin <- getParameter A c 2 ;; mass <- getParameter A c 3 ;;
  DOk (formula x y thresh trig lin mass, incrementIndex5 c 1 4 0 2 1).
(** SquareDalitzEffPdf.cu:30-73 *)
Definition dev_square_dalitz (e : event) (c : cursor) : dres (f64 * cursor) :=
  x <- obs_value A c e 0 ;; y <- obs_value A c e 1 ;;
  c0 <- getParameter A c 0 ;; c1 <- getParameter A c 1 ;; c2 <- getParameter A c 2 ;; c3 <- getParameter A c 3 ;;
  c4 <- getParameter A c 4 ;; c5 <- getParameter A c 5 ;; c6 <- getParameter A c 6 ;; c7 <- getParameter A c 7 ;;
  DOk (square_dalitz x y c0 c1 c2 c3 c4 c5 c6 c7, incrementIndex5 c 1 8 0 2 1).

(** ExpPdf.cu:32-48 *)
Definition dev_exppoly (e : event) (c : cursor) : dres (f64 * cursor) :=
  x <- obs_value A c e 0 ;; np <- getNumParameters A c ;; ws <- getParams A c 0 np ;;
  DOk (exp_poly L x 0 ws, incrementIndex5 c 1 np 0 1 1).
(** ExpPdf.cu:50-67: the loop starts at parameter 1 and uses the parameter number as the power. *)
Definition dev_exppolyoffset (e : event) (c : cursor) : dres (f64 * cursor) :=
  x <- obs_value A c e 0 ;; x0 <- getParameter A c 0 ;; np <- getNumParameters A c ;; ws <- getParams A c 1 (np - 1) ;;
  DOk (exp_poly L (fsub x x0) 1 ws, incrementIndex5 c 1 np 0 1 1).
(** PolynomialPdf.cu:8-26 *)
Definition dev_polynomial (e : event) (c : cursor) : dres (f64 * cursor) :=
  np <- getNumParameters A c ;; lo <- getConstant A c 0 ;; lowest <- of_option (f2int lo) ;;
  x <- obs_value A c e 0 ;; cs <- getParams A c 0 np ;;
  DOk (polynomial L x lowest cs, incrementIndex5 c 1 np 1 1 1).
(** PolynomialPdf.cu:28-45: the loop starts at parameter 2; the offset is not subtracted. *)
Definition dev_offsetpolynomial (e : event) (c : cursor) : dres (f64 * cursor) :=
  np <- getNumParameters A c ;; lo <- getConstant A c 0 ;; lowest <- of_option (f2int lo) ;;
  x <- obs_value A c e 0 ;; cs <- getParams A c 2 (np - 2) ;;
  DOk (polynomial L x lowest cs, incrementIndex5 c 1 np 1 1 1).
(** PolynomialPdf.cu:47-118.  Coefficients are read from parameter num_observables on; running out of own coefficients
    would read the next PDF's parameters (here: undefined). *)
Definition dev_multipolynomial (e : event) (c : cursor) : dres (f64 * cursor) :=
  nc <- getNumConstants A c ;; np <- getNumParameters A c ;; no <- getNumObservables A c ;;
  d <- getConstant A c 0 ;; md <- to_index (fadd d fone) ;;
  xs <- dmap (obs_value A c e) (seq 0 no) ;; offs <- getParams A c 0 no ;; cs <- getParams A c no (np - no) ;;
  r <- of_option (multi_polynomial L (md - 1) xs offs cs) ;;
  DOk (r, incrementIndex5 c 1 np nc no 1).
(** BernsteinPdf.cu:27-63 *)
Definition dev_bernstein (e : event) (c : cursor) : dres (f64 * cursor) :=
  np <- getNumParameters A c ;; nc <- getNumConstants A c ;; x <- obs_value A c e 0 ;;
  lo <- getConstant A c 1 ;; up <- getConstant A c 2 ;; md <- getConstant A c 3 ;; mindeg <- to_index md ;;
  n0 <- getConstant A c 0 ;; maxdeg <- to_index (fadd n0 (f_of_Z (Z.of_nat mindeg))) ;;
  cs <- getParams A c 0 (maxdeg - mindeg) ;;
  DOk (bernstein_from L (fdiv (fsub x lo) (fsub up lo)) (fsub up lo) (maxdeg - 1) 0 cs fzero,
       incrementIndex5 c 1 np nc 1 1).
(** BinTransformPdf.cu:6-28 *)
Definition dev_bintransform (e : event) (c : cursor) : dres (f64 * cursor) :=
  nc <- getNumConstants A c ;; no <- getNumObservables A c ;;
  axes <- dmap (fun i => x <- obs_value A c e i ;; lo <- getConstant A c (i * 3) ;;
                         size <- getConstant A c (i * 3 + 1) ;; n <- getConstant A c (i * 3 + 2) ;;
                         nb <- of_option (f2int n) ;; DOk (x, lo, size, nb)) (seq 0 no) ;;
  r <- of_option (bin_number axes 0 1) ;;
  DOk (f_of_Z r, incrementIndex5 c 1 0 nc no 1).
(** VariableBinTransform1DPdf.cu:6-25: the cursor is not advanced. *)
Definition dev_varbin (e : event) (c : cursor) : dres (f64 * cursor) :=
  x <- obs_value A c e 0 ;; n <- getConstant A c 0 ;; nl <- to_index n ;;
  limits <- dmap (getConstant A c) (seq 1 nl) ;;
  DOk (var_bin x limits, c).
(** DalitzVetoPdf.cu:7-38 *)
Definition dev_dalitzveto (e : event) (c : cursor) : dres (f64 * cursor) :=
  m <- getParameter A c 0 ;; d1 <- getParameter A c 1 ;; d2 <- getParameter A c 2 ;; d3 <- getParameter A c 3 ;;
  x <- obs_value A c e 0 ;; y <- obs_value A c e 1 ;;
  n <- getConstant A c 0 ;; nv <- to_index n ;;
  vs <- dmap (fun i => k <- getConstant A c (1 + i) ;; pno <- of_option (f2int k) ;;
                       mn <- getParameter A c (4 + i * 2) ;; mx <- getParameter A c (4 + i * 2 + 1) ;;
                       DOk (pno, mn, mx)) (seq 0 nv) ;;
  c' <- incrementIndex A c ;;
  DOk (dalitz_veto x y m d1 d2 d3 vs, c').

(** ** Combinations.  [rec] is callFunction (GooPdf.cu:398-400). *)
Variable rec : event -> cursor -> dres (f64 * cursor).

(** The loop of AddPdf.cu:28-40: ret += weight * curr * norm, total += weight. *)
Fixpoint add_loop (e : event) (ws : list f64) (ret total : f64) (c : cursor) : dres (f64 * f64 * cursor) :=
  match ws with
  | [] => DOk (ret, total, c)
  | w :: ws' =>
      norm <- getNormalization A c 0 ;;
      ' (curr, c') <- rec e c ;;
      add_loop e ws' (fadd ret (fmul (fmul w curr) norm)) (fadd total w) c'
  end.
(** AddPdf.cu:16-51 *)
Definition dev_add (e : event) (c : cursor) : dres (f64 * cursor) :=
  np <- getNumParameters A c ;; ws <- getParams A c 0 np ;;
  c1 <- incrementIndex A c ;;
  ' (ret, total, c2) <- add_loop e ws fzero fzero c1 ;;
  normFactor <- getNormalization A c2 0 ;;
  ' (last, c3) <- rec e c2 ;;
  DOk (fadd ret (fmul (fmul (fsub fone total) last) normFactor), c3).
(** AddPdf.cu:53-80 *)
Definition dev_addext (e : event) (c : cursor) : dres (f64 * cursor) :=
  np <- getNumParameters A c ;; ws <- getParams A c 0 np ;;
  c1 <- incrementIndex A c ;;
  ' (ret, total, c2) <- add_loop e ws fzero fzero c1 ;;
  DOk (fdiv ret total, c2).

(** ProdPdf.cu:17-23 *)
Fixpoint prod_loop (e : event) (n : nat) (ret : f64) (c : cursor) : dres (f64 * cursor) :=
  match n with
  | O => DOk (ret, c)
  | S n' =>
      norm <- getNormalization A c 0 ;;
      ' (curr, c') <- rec e c ;;
      prod_loop e n' (fmul ret (fmul curr norm)) c'
  end.
(** ProdPdf.cu:9-26 *)
Definition dev_prod (e : event) (c : cursor) : dres (f64 * cursor) :=
  nc <- getNumConstants A c ;; k <- getConstant A c 0 ;; comps <- to_index k ;; no <- getNumObservables A c ;;
  prod_loop e comps fone (incrementIndex5 c 1 0 nc no 1).

(** EventWeightedAddPdf.cu:8-44; the weights are read through the old cursor [c]. *)
Definition dev_ewadd (e : event) (c : cursor) : dres (f64 * cursor) :=
  nc <- getNumConstants A c ;; no <- getNumObservables A c ;; k <- getConstant A c 0 ;; comps <- to_index k ;;
  ws <- dmap (obs_value A c e) (seq 0 (comps - 1)) ;;
  ' (ret, total, c2) <- add_loop e ws fzero fzero (incrementIndex5 c 1 0 nc no 1) ;;
  normFactor <- getNormalization A c2 0 ;;
  ' (last, c3) <- rec e c2 ;;
  DOk (fadd ret (fmul (fmul (fsub fone total) last) normFactor), c3).
(** EventWeightedAddPdf.cu:46-91 *)
Definition dev_ewaddext (e : event) (c : cursor) : dres (f64 * cursor) :=
  nc <- getNumConstants A c ;; no <- getNumObservables A c ;; k <- getConstant A c 0 ;; comps <- to_index k ;;
  ws <- dmap (obs_value A c e) (seq 0 comps) ;;
  ' (ret, total, c2) <- add_loop e ws fzero fzero (incrementIndex5 c 1 0 nc no 1) ;;
  DOk (fdiv ret total, c2).

(** Sum of `(int)getConstant(i)` over the given positions, MappedPdf.cu:18-20, 31-33. *)
Fixpoint sum_constants (c : cursor) (is : list nat) : dres nat :=
  match is with
  | [] => DOk 0
  | i :: t => v <- getConstant A c i ;; n <- to_index v ;; s <- sum_constants c t ;; DOk (n + s)
  end.
(** MappedPdf.cu:6-38.  A negative target runs the first loop zero times, like target 0. *)
Definition dev_mapped (e : event) (c : cursor) : dres (f64 * cursor) :=
  nc <- getNumConstants A c ;;
  c1 <- incrementIndex A c ;;
  ' (m, c2) <- rec e c1 ;;
  target <- of_option (floor_int (fadd fhalf m)) ;;
  toskip <- sum_constants c (map S (seq 0 (Z.to_nat target))) ;;
  c3 <- skip A c2 toskip ;;
  norm <- getNormalization A c3 0 ;;
  ' (ret, c4) <- rec e c3 ;;
  all <- sum_constants c (seq 1 (nc - 1)) ;;
  c5 <- skip A c4 (c_fun c2 + all - c_fun c4) ;;
  DOk (fmul ret norm, c5).

(** CompositePdf.cu:6-37: a local array of 10 uninitialised numbers gets the core value at one position. *)
Definition dev_composite (e : event) (c : cursor) : dres (f64 * cursor) :=
  c1 <- incrementIndex A c ;;
  ' (core, c2) <- rec e c1 ;;
  v <- getObservable A c2 0 ;; id <- to_index v ;;
  if Nat.ltb id 10 then rec (upd (repeat None 10) id (Some core)) c2 else DUB.

Definition body (k : kind) : event -> cursor -> dres (f64 * cursor) :=
  match k with
  | KArgusUpper => dev_argus (argus_upper L)
  | KArgusLower => dev_argus (argus_lower L)
  | KBW => dev_bw
  | KBernstein => dev_bernstein
  | KBifurGauss => dev_bifur
  | KBinTransform => dev_bintransform
  | KCorrGaussian => dev_corr
  | KCrystalBall => dev_crystal
  | KExpGaus => dev_expgaus
  | KExp => dev_exp
  | KExpOffset => dev_expoffset
  | KExpPoly => dev_exppoly
  | KExpPolyOffset => dev_exppolyoffset
  | KGaussian => dev_gaussian
  | KJohnsonSU => dev_johnson
  | KKinLimitBW => dev_kinlimit
  | KLandau => dev_landau
  | KNovosibirsk => dev_novosibirsk
  | KPolynomial => dev_polynomial
  | KOffsetPolynomial => dev_offsetpolynomial
  | KMultiPolynomial => dev_multipolynomial
  | KScaledGaussian => dev_scaled
  | KStep => dev_step
  | KTrigUpper => dev_trig (trig_upper L)
  | KTrigLower => dev_trig (trig_lower L)
  | KTrigUpper2 => dev_trig2 (trig_upper2 L)
  | KTrigLower2 => dev_trig2 (trig_lower2 L)
  | KVoigtian => dev_voigtian
  | KVarBin => dev_varbin
  | KDalitzVeto => dev_dalitzveto
  | KSquareDalitz => dev_square_dalitz
  | KAdd => dev_add
  | KAddExt => dev_addext
  | KEWAdd => dev_ewadd
  | KEWAddExt => dev_ewaddext
  | KProd => dev_prod
  | KMapped => dev_mapped
  | KComposite => dev_composite
  end.
End Bodies.

(** callFunction, GooPdf.cu:398-400: jump through the function table at the cursor. *)
Fixpoint callFunction (fuel : nat) (L : libm) (A : arrays) (e : event) (c : cursor) : dres (f64 * cursor) :=
  match fuel with
  | O => DFuel
  | S n =>
      match nth_error (a_fun A) (c_fun c) with
      | Some (FPdf k) => body L A (callFunction n L A) k e c
      | _ => DUB
      end
  end.

(** What the metric functions are given: (raw value, the two numbers behind evtVal if they can be read, norm) and
    c_totalEvents.  MetricPointer.cu:8-58. *)
Definition metric_value (L : libm) (m : metric) (total raw : f64) (evtVal : event) (norm : f64) : dres f64 :=
  match m with
  | MEval => DOk raw
  | MNLL => let p := fmul raw norm in DOk (if flt fzero p then fopp (m_log L p) else fzero)
  | MProb => DOk (fmul raw norm)
  | MBinAvg =>
      vol <- ev evtVal 1 ;;
      let p := fmul (fmul raw norm) vol in
      if flt fzero p then
        n <- ev evtVal 0 ;; let expEvents := fmul total p in
        DOk (fsub expEvents (fmul n (m_log L expEvents)))
      else DOk fzero
  | MBinWithError =>
      n <- ev evtVal 0 ;; err <- ev evtVal 1 ;;
      let p := fdiv (fsub raw n) err in DOk (fmul p p)
  | MChisq =>
      vol <- ev evtVal 1 ;; n <- ev evtVal 0 ;;
      let p := fmul (fmul raw norm) vol in
      DOk (fdiv (pow2 (fsub (fmul p total) n)) (if flt fone n then n else fone))
  end.

(** MetricTaker::operator() for data, MetricTaker.cu:17-44: evaluate from the root, then call the function-table entry
    the cursor has reached as a metric.  [rest] is the memory at eventAddress + (|eventSize| - 2).  The two unused
    arguments are evaluated without reading memory. *)
Definition metric_taker (fuel : nat) (L : libm) (A : arrays) (total : f64) (e rest : event) : dres f64 :=
  norm <- getNormalization A cur0 0 ;;
  ' (raw, c) <- callFunction fuel L A e cur0 ;;
  match nth_error (a_fun A) (c_fun c) with
  | Some (FMetric m) => metric_value L m total raw rest norm
  | _ => DUB
  end.
