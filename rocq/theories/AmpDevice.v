(** Amplitude PDFs in the flattened arrays: device_DalitzPlot (Amp3Body.cu), device_incoherent (Amp3Body_IS.cu) and the way
    the integrators find the efficiency and the resonance.  IEEE doubles; undefined behaviour as in DeviceModel.v.

    The registration of the amplitude PDF and of its resonances is given by what their constructors register; the
    function-table entries of these (device functions of other types) are not looked at and may be anything. *)
From Coq Require Import List ZArith Bool.
From Verif Require Import F64 ListAux VariableModel LeafFormulas DeviceModel PdfModel PdfSpec AmpModel.
Import ListNotations.
Local Notation len := List.length.

(** ** Registration *)
(** What PdfBase::populateArrays (PdfBase.cu:268-311) appends for an object with these lists. *)
Record reg : Type := mkReg { r_fun : fentry; r_pars : list f64; r_cons : list f64; r_obs : list f64; r_norm : f64 }.
Definition reg_arrays (r : reg) : arrays :=
  mkArrays [r_fun r] (f_of_nat (len (r_pars r)) :: r_pars r) (f_of_nat (len (r_cons r)) :: r_cons r)
           (f_of_nat (len (r_obs r)) :: r_obs r) [fone; r_norm r].
Definition push_regs (rs : list reg) (A : arrays) : arrays := fold_left (fun A r => join A (reg_arrays r)) rs A.

(** Amp3Body::Amp3Body, Amp3Body.cu:128-180: constants number of resonances and cache number, two parameters per resonance,
    observables m12, m13 and the event number (at the given columns). *)
Definition amp_reg (f : fentry) (coefs : list (f64 * f64)) (cache p12 p13 pn : nat) (norm : f64) : reg :=
  mkReg f (flat_map (fun a => [fst a; snd a]) coefs) [f_of_nat (len coefs); f_of_nat cache]
        [f_of_nat p12; f_of_nat p13; f_of_nat pn] norm.
(** Amp3Body_IS::Amp3Body_IS, Amp3Body_IS.cu:59-120: six constants and no parameter. *)
Definition is_reg (f : fentry) (n cache p12 p13 pn : nat) (norm : f64) : reg :=
  mkReg f [] [f_of_nat 3; fzero; fzero; fzero; f_of_nat n; f_of_nat cache] [f_of_nat p12; f_of_nat p13; f_of_nat pn] norm.
(** The same for resonances with these amplitude parameters (ResonancePdf::amp_real): they are counted, and not registered. *)
Definition is_reg_of (f : fentry) (weights : list f64) (cache p12 p13 pn : nat) (norm : f64) : reg :=
  is_reg f (len weights) cache p12 p13 pn norm.

(** The arrays behind [A0] after the amplitude PDF [r], its resonances [rs] (which have no components) and its efficiency,
    PDF number [k], have been flattened: recursiveSetIndices, PdfBase.cu:95-119, components in order, Amp3Body.cu:160-168. *)
Definition layout (hp : heap) (ps : pdfs) (r : reg) (rs : list reg) (k : nat) (A0 : arrays) : arrays :=
  snd (recursiveSetIndices (S k) hp ps (push_regs (r :: rs) A0) k).
(** populateArrays of Amp3Body, Amp3Body.cu:190-195 (and Amp3Body_IS.cu:122-127): host_function_table.size() - 1 after the
    components were flattened. *)
Definition efficiencyFunction (A : arrays) : nat := len (a_fun A) - 1.

Section Dev.
Variables (L : libm) (A : arrays).
Variable inD : f64 -> f64 -> bool.                        (* inDalitz with the masses of the decay *)
Variable cRes : nat -> Z -> dres (f64 * f64).              (* cResonances[i][event] / cResonanceValues[cache][...] *)
Variable rec : event -> cursor -> dres (f64 * cursor).     (* callFunction *)

(** device_DalitzPlot, Amp3Body.cu:61-120. *)
Definition dev_dalitz (e : event) (c : cursor) : dres (f64 * cursor) :=
  no <- getNumObservables A c ;;
  m12 <- obs_value A c e 0 ;; m13 <- obs_value A c e 1 ;;
  n <- (v <- getConstant A c 0 ;; to_index v) ;;
  cache <- (v <- getConstant A c 1 ;; to_index v) ;;
  if inD m12 m13 then
    num <- obs_value A c e 2 ;;
    evt <- of_option (floor_int (fadd fhalf num)) ;;
    terms <- dmap (fun i => re <- getParameter A c (i * 2) ;; im <- getParameter A c (i * 2 + 1) ;;
                            me <- cRes (i + 16 * cache) evt ;;
                            DOk (c_mul f64_ops (re, im) me)) (seq 0 n) ;;
    c2 <- skip A (incrementIndex5 c 1 (n * 2) 2 no 1) n ;;
    ' (eff, c3) <- rec e c2 ;;
    DOk (fmul (c_norm f64_ops (c_sum f64_ops terms)) eff, c3)
  else
    c2 <- skip A (incrementIndex5 c 1 (n * 2) 2 no 1) n ;;
    c3 <- incrementIndex A c2 ;;
    DOk (fzero, c3).

(** device_incoherent, Amp3Body_IS.cu:25-55. *)
Definition dev_incoherent (e : event) (c : cursor) : dres (f64 * cursor) :=
  num <- obs_value A c e 2 ;;
  evt <- of_option (floor_int (fadd fhalf num)) ;;
  n <- (v <- getConstant A c 4 ;; to_index v) ;;
  cache <- (v <- getConstant A c 5 ;; to_index v) ;;
  terms <- dmap (fun i => a <- getParameter A c i ;; me <- cRes cache (evt * Z.of_nat n + Z.of_nat i)%Z ;;
                          DOk (fmul a (c_norm f64_ops me))) (seq 0 n) ;;
  c1 <- incrementIndex A c ;;
  c2 <- skip A c1 n ;;
  ' (eff, c3) <- rec e c2 ;;
  DOk (fmul (fold_left fadd terms fzero) eff, c3).

(** How SpecialResonanceIntegrator.cu:79-105 gets the efficiency at (x, y): skip to the amplitude PDF at table position
    [dalitz], read its columns of m12 and m13, fill an array of ten numbers, skip to position [effFunc], call. *)
Definition integral_efficiency (dalitz effFunc : nat) (x y : f64) : dres f64 :=
  c1 <- skip A cur0 dalitz ;;
  id12 <- (v <- getObservable A c1 0 ;; to_index v) ;;
  id13 <- (v <- getObservable A c1 1 ;; to_index v) ;;
  if Nat.ltb id12 10 && Nat.ltb id13 10 then
    c2 <- skip A c1 (effFunc - c_fun c1) ;;
    ' (eff, _) <- rec (upd (upd (upd (repeat None 10) 0 (Some (f_of_Z 2))) id12 (Some x)) id13 (Some y)) c2 ;;
    DOk eff
  else DUB.
(** Where SpecialIncoherentIntegrator.cu:42-66 looks for the resonance function: from the incoherent sum at table position
    [sum], `while(pc.funcIdx < num_res) pc.incrementIndex()`.  The number of the resonance, set by setResonanceIndex, is not
    used. *)
Definition is_integrator_cursor (sum resonance_i : nat) : dres cursor :=
  c1 <- skip A cur0 sum ;;
  n <- (v <- getConstant A c1 4 ;; to_index v) ;;
  skip A c1 (n - c_fun c1).
(** Where SpecialIncoherentResonanceCalculator.cu:23-47 looks for it: the position is used. *)
Definition is_calculator_cursor (sum resonance_i : nat) : dres cursor :=
  c1 <- skip A cur0 sum ;;
  skip A c1 (resonance_i - c_fun c1).
End Dev.
