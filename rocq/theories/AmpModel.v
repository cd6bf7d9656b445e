(** The coherent sum over resonances, Amp3Body.cu: what is kept between calls, the
    normalisation integrals and the fit fractions, for any arithmetic.

    The resonance functions BW_i (getResonanceAmplitude at the place of resonance i) and the efficiency are parameters: any
    functions of (m12, m13).  Array positions are not modelled here; AmpDevice.v does that.  Sums are taken from left to
    right; thrust::transform_reduce may take any order, see Reduce.v for what that means in exact arithmetic. *)
From Coq Require Import List ZArith Bool.
From Verif Require LeafGen.
Import ListNotations.

Section Amp.
Context {T : Type} (Ar : LeafGen.ops T).
Notation "0" := (LeafGen.o_zero Ar).
Notation "1" := (LeafGen.o_one Ar).
Infix "+" := (LeafGen.o_add Ar).
Infix "-" := (LeafGen.o_sub Ar).
Infix "*" := (LeafGen.o_mul Ar).
Infix "/" := (LeafGen.o_div Ar).

(** thrust::complex: addition, multiplication, conjugate, multiplication by a real, norm (the square of the modulus). *)
Definition cx : Type := (T * T)%type.
Definition c_zero : cx := (0, 0).
Definition c_add (a b : cx) : cx := (fst a + fst b, snd a + snd b).
Definition c_mul (a b : cx) : cx := (fst a * fst b - snd a * snd b, fst a * snd b + snd a * fst b).
Definition c_conj (a : cx) : cx := (fst a, LeafGen.o_opp Ar (snd a)).
Definition c_scale (a : cx) (s : T) : cx := (fst a * s, snd a * s).
Definition c_norm (a : cx) : T := fst a * fst a + snd a * snd a.
Definition c_sum (l : list cx) : cx := fold_left c_add l c_zero.
Definition r_sum (l : list T) : T := fold_left (LeafGen.o_add Ar) l 0.

(** The normalisation grid handed to the device, Amp3Body.cu:244-251: limits and numbers of bins of m12 and m13. *)
Record grid : Type := mkGrid { lo12 : T; up12 : T; n12 : nat; lo13 : T; up13 : T; n13 : nat }.
Definition of_nat (n : nat) : T := LeafGen.o_ofZ Ar (Z.of_nat n).
(** Observable::getBinSize, Variable.h: (upper - lower) / bins. *)
Definition size12 (g : grid) : T := (up12 g - lo12 g) / of_nat (n12 g).
Definition size13 (g : grid) : T := (up13 g - lo13 g) / of_nat (n13 g).
(** `binCenter = upper - lower; binCenter /= numBins; binCenter *= (bin + 0.5); binCenter += lower`. *)
Definition centre (lo up : T) (bins bin : nat) : T := (up - lo) / of_nat bins * (of_nat bin + LeafGen.o_half Ar) + lo.
(** The centre of bin [b] in SpecialResonanceIntegrator.cu:58-77.  The number of m13 bins is read from element 2 of the
    range, which is the number of m12 bins (line 72).  `floor(numBins + 0.5)` of an integer is that integer. *)
Definition cell (g : grid) (b : nat) : T * T :=
  (centre (lo12 g) (up12 g) (n12 g) (b mod n12 g), centre (lo13 g) (up13 g) (n12 g) (b / n12 g)).
(** The centre of bin [b] in SpecialIncoherentIntegrator.cu:20-40: element 5 is read. *)
Definition cell_IS (g : grid) (b : nat) : T * T :=
  (centre (lo12 g) (up12 g) (n12 g) (b mod n12 g), centre (lo13 g) (up13 g) (n13 g) (b / n12 g)).

(** What one call of normalize() finds: the amplitudes a_i, the resonance functions, the efficiency, the kinematic region
    (inDalitz with the masses of the decay), the grid, the events (m12, m13), whether the integrals are forced
    (forceRedoIntegrals) and the answer of each resonance's parametersChanged(). *)
Record call : Type := mkCall {
  amps : list cx; bw : nat -> T -> T -> cx; eff : T -> T -> T; inside : T -> T -> bool;
  range : grid; events : list (T * T); force : bool; changed : nat -> bool }.
Definition nres (c : call) : nat := length (amps c).

(** SpecialResonanceIntegrator::operator(), SpecialResonanceIntegrator.cu:8-47, 79-115: BW_i times the conjugate of BW_j, or
    zero outside, times the efficiency. *)
Definition integrand (c : call) (i j b : nat) : cx :=
  let '(x, y) := cell (range c) b in
  c_scale (if inside c x y then c_mul (bw c i x y) (c_conj (bw c j x y)) else c_zero) (eff c x y).
(** SpecialResonanceCalculator::operator(), SpecialResonanceCalculator.cu:12-48. *)
Definition wave (c : call) (i : nat) (e : T * T) : cx :=
  if inside c (fst e) (snd e) then bw c i (fst e) (snd e) else c_zero.

(** What an Amp3Body keeps between calls: cachedWaves[i] and integrals[i][j].  In the code these are arrays; a function of the
    index here.  The limit of 16 resonances (cachedWaves[16], Amp3Body.h) is not modelled. *)
Record kept : Type := mkKept { k_wave : nat -> list cx; k_int : nat -> nat -> cx }.
(** After the constructor, Amp3Body.cu:141-188: no waves, integrals zero. *)
Definition kept0 : kept := mkKept (fun _ => []) (fun _ _ => c_zero).
(** Amp3Body.cu:258-267 *)
Definition redo (c : call) (i : nat) : bool := force c || changed c i.
(** Amp3Body.cu:283-322 *)
Definition refresh (c : call) (k : kept) : kept :=
  mkKept (fun i => if redo c i then map (wave c i) (events c) else k_wave k i)
         (fun i j => if negb (redo c i) && negb (redo c j) then k_int k i j
                     else c_sum (map (integrand c i j) (seq 0 (n12 (range c) * n13 (range c))))).
(** Amp3Body.cu:324-340: sum over i, j of a_i * conj(a_j) * integrals[i][j]. *)
Definition amp (c : call) (i : nat) : cx := nth i (amps c) c_zero.
Definition sum_integral (c : call) (k : kept) : cx :=
  fold_left (fun s i => fold_left (fun s j => c_add s (c_mul (c_mul (amp c i) (c_conj (amp c j))) (k_int k i j))) (seq 0 (nres c)) s)
            (seq 0 (nres c)) c_zero.
(** Amp3Body::normalize, Amp3Body.cu:225-349: what is kept afterwards and the value returned. *)
Definition normalize (c : call) (k : kept) : kept * T :=
  let k' := refresh c k in
  (k', fst (sum_integral c k') * (1 * size12 (range c) * size13 (range c))).
(** A sequence of calls of normalize(), the first one on a new object; [None] before any call. *)
Definition calls (cs : list call) : kept * option T :=
  fold_left (fun s c => let '(k, r) := normalize c (fst s) in (k, Some r)) cs (kept0, None).

(** device_DalitzPlot without its cursor, Amp3Body.cu:76-118, for event number [e] at (m12, m13). *)
Definition coherent (c : call) (k : kept) (e : nat) (x y : T) : T :=
  if inside c x y then
    c_norm (fold_left (fun s i => c_add s (c_mul (amp c i) (nth e (k_wave k i) c_zero))) (seq 0 (nres c)) c_zero) * eff c x y
  else 0.

(** CoefSumFunctor, Amp3Body.cu:28-41 *)
Definition coef_sum (ci cj wi wj : cx) : T := fst (c_mul (c_mul (c_mul ci (c_conj cj)) wi) (c_conj wj)).
(** Amp3Body::fit_fractions, Amp3Body.cu:367-420: [coefs] the amplitudes of the resonances, [w i] the cached wave i, all of the
    same length [nEntries]. *)
Definition buffer (coefs : list cx) (w : nat -> list cx) (i j : nat) : T :=
  0 + r_sum (map (fun p => coef_sum (nth i coefs c_zero) (nth j coefs c_zero) (fst p) (snd p)) (combine (w i) (w j))).
Definition fit_fractions (coefs : list cx) (w : nat -> list cx) : list (list T) :=
  let n := length coefs in
  let nEntries := of_nat (length (w O)) in
  let all := fold_left (fun s i => fold_left (fun s j => s + buffer coefs w i j) (seq 0 n) s) (seq 0 n) 0 in
  map (fun i => map (fun j => buffer coefs w i j / nEntries / (all / nEntries)) (seq 0 n)) (seq 0 n).

End Amp.
Arguments mkGrid {T}. Arguments mkCall {T}. Arguments mkKept {T}.
Arguments lo12 {T}. Arguments up12 {T}. Arguments n12 {T}. Arguments lo13 {T}. Arguments up13 {T}. Arguments n13 {T}.
Arguments amps {T}. Arguments bw {T}. Arguments eff {T}. Arguments inside {T}. Arguments range {T}. Arguments events {T}.
Arguments force {T}. Arguments changed {T}. Arguments k_wave {T}. Arguments k_int {T}.
