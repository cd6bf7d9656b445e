(** The time-dependent Dalitz-plot PDF, Amp3Body_TD.cu: value at an event, normalisation, what is kept between calls and
    getFractions, for any arithmetic and any resolution.

    As in AmpModel.v the resonance functions and the efficiency are parameters, any functions of (m12, m13), and sums are taken
    from left to right. The third mass given to a resonance is the same for (m12, m13) and (m13, m12). The positions in the flattened
    arrays are not modelled here. Builds without MPI, constructor with one resolution (the other one says that it is not supported). *)
From Coq Require Import List ZArith Bool.
From Verif Require Import AmpModel.
From Verif Require LeafGen.
Import ListNotations.

(** A MixingTimeResolution: its device function (factors of cosh, cos, sinh, sin, then tau, time, x, y, error) and its method
    normalization (integrals of |A|^2, |B|^2, Re A B*, Im A B*, then tau, x, y). *)
Record time_resolution (T : Type) : Type := mkRes {
  r_rate : T -> T -> T -> T -> T -> T -> T -> T -> T -> T; r_norm : T -> T -> T -> T -> T -> T -> T -> T }.
Arguments r_rate {T}. Arguments r_norm {T}. Arguments mkRes {T}.

Section Td.
Context {T : Type} (Ar : LeafGen.ops T) (res : time_resolution T).
Local Notation "0" := (LeafGen.o_zero Ar).
Local Notation "1" := (LeafGen.o_one Ar).
Local Notation "2" := (LeafGen.o_ofZ Ar 2).
Local Infix "+" := (LeafGen.o_add Ar).
Local Infix "-" := (LeafGen.o_sub Ar).
Local Infix "*" := (LeafGen.o_mul Ar).
Local Infix "/" := (LeafGen.o_div Ar).
Local Notation cx := (@cx T).
Local Notation c_zero := (c_zero Ar).
Local Notation c_add := (c_add Ar).
Local Notation c_mul := (c_mul Ar).
Local Notation c_conj := (c_conj Ar).
Local Notation c_scale := (c_scale Ar).

(** What one call of normalize(), getFractions() or of the cost function finds: the resonances, the efficiency, the masses, the limits
    and bins, the events (m12, m13) and the flags as in AmpModel.v; the lifetime and the mixing parameters; the fraction given to
    setD0Fraction; the value of the observable `mistag` itself (not of an event) and whether it lies in its limits. *)
Record td_call : Type := mkTd {
  td_dp : call (T := T); td_tau : T; td_x : T; td_y : T; td_dx : T; td_dy : T; td_d0 : T; td_mistag : T; td_in_limits : bool }.

(** SpecialWaveCalculator::operator(), SpecialWaveCalculator.cu:13-66. *)
Definition td_wave (c : call (T := T)) (i : nat) (e : T * T) : cx * cx :=
  if inside c (fst e) (snd e) then (bw c i (fst e) (snd e), bw c i (snd e) (fst e)) else (c_zero, c_zero).

(** ThreeComplex: the products A_i A_j*, A_i B_j*, B_i B_j*. *)
Definition three : Type := (cx * cx * cx)%type.
Definition t_zero : three := (c_zero, c_zero, c_zero).
(** SpecialComplexSum.h:11-18 *)
Definition t_add (a b : three) : three :=
  (c_add (fst (fst a)) (fst (fst b)), c_add (snd (fst a)) (snd (fst b)), c_add (snd a) (snd b)).
Definition aa (t : three) : cx := fst (fst t).
Definition ab (t : three) : cx := snd (fst t).
Definition bb (t : three) : cx := snd t.
(** device_Tddp_calcIntegrals and SpecialDalitzIntegrator::operator(), SpecialDalitzIntegrator.cu:10-134, for bin [b] of the range [g]
    that was copied to the device. A ThreeComplex starts as zeros. The array of ten numbers that holds the point for the efficiency is
    left out: the places of m12 and m13 must be below 10. *)
Definition td_integrand (c : call (T := T)) (g : grid (T := T)) (i j b : nat) : three :=
  let '(x, y) := cell_IS Ar g b in
  let p := if inside c x y then
             let ai := bw c i x y in let bi := bw c i y x in let aj := c_conj (bw c j x y) in let bj := c_conj (bw c j y x) in
             (c_mul ai aj, c_mul ai bj, c_mul bi bj)
           else t_zero in
  (c_scale (aa p) (eff c x y), c_scale (ab p) (eff c x y), c_scale (bb p) (eff c x y)).
Definition td_integral (c : call (T := T)) (g : grid (T := T)) (i j : nat) : three :=
  fold_left t_add (map (td_integrand c g i j) (seq 0 (n12 (range c) * n13 (range c)))) t_zero.

(** What is kept between calls: cachedWaves[i], integrals[i][j], dalitzNormRange. *)
Record td_kept : Type := mkTdKept { w_kept : nat -> list (cx * cx); i_kept : nat -> nat -> three; g_kept : option (grid (T := T)) }.
Definition td_kept0 : td_kept := mkTdKept (fun _ => []) (fun _ _ => t_zero) None.
(** Lines 601-615: the range is copied at the first call only. *)
Definition td_range (c : call (T := T)) (k : td_kept) : grid (T := T) := match g_kept k with Some g => g | None => range c end.
(** Lines 601-680. *)
Definition td_refresh (c : call (T := T)) (k : td_kept) : td_kept :=
  let g := td_range c k in
  mkTdKept (fun i => if redo c i then map (td_wave c i) (events c) else w_kept k i)
           (fun i j => if negb (redo c i) && negb (redo c j) then i_kept k i j else td_integral c g i j)
           (Some g).
(** Lines 684-704: the sum over i, j of a_i conj(a_j) times one part of the kept integrals. *)
Definition td_sum (c : call (T := T)) (k : td_kept) (part : three -> cx) : cx :=
  fold_left (fun s i => fold_left (fun s j => c_add s (c_mul (c_mul (amp Ar c i) (c_conj (amp Ar c j))) (part (i_kept k i j)))) (seq 0 (nres c)) s)
            (seq 0 (nres c)) c_zero.
(** The constants 0.0039, 0.0065 and 0.4101 of lines 731-733 (and 227-229); a double quotient of the two integers is the nearest double. *)
Definition xfix : T := LeafGen.o_ofZ Ar 39 / LeafGen.o_ofZ Ar 10000.
Definition yfix : T := LeafGen.o_ofZ Ar 65 / LeafGen.o_ofZ Ar 10000.
Definition taufix : T := LeafGen.o_ofZ Ar 4101 / LeafGen.o_ofZ Ar 10000.
(** Lines 706-757: from the kept integrals to the returned number. *)
Definition td_result (t : td_call) (k : td_kept) : T :=
  let c := td_dp t in
  let one := fst (td_sum c k aa) in
  let two := fst (td_sum c k bb) in
  let thr := fst (td_sum c k ab) in
  let fou := snd (td_sum c k ab) in
  let ret_D0 := r_norm res one two thr fou (td_tau t) (td_x t + td_dx t) (td_y t + td_dy t) in
  let ret_D0bar := r_norm res one two thr fou (td_tau t) (td_x t - td_dx t) (td_y t - td_dy t) in
  let ret := td_d0 t * ret_D0 + (1 - td_d0 t) * ret_D0bar in
  let ret := if td_in_limits t then
               let ret := ret * (1 - 2 * td_mistag t) in
               let ret := ret + td_mistag t * r_norm res one two thr fou taufix xfix yfix in
               ret + td_mistag t * r_norm res two one thr (LeafGen.o_opp Ar fou) taufix xfix yfix
             else ret in
  ret * (1 * size12 Ar (range c) * size13 Ar (range c)).
(** Amp3Body_TD::normalize, lines 590-758. *)
Definition td_normalize (t : td_call) (k : td_kept) : td_kept * T :=
  let k' := td_refresh (td_dp t) k in (k', td_result t k').

(** getFractions, lines 800-868: the integrals are refreshed row by row; element (j, i) also gets the complex conjugates of the
    three parts of element (i, j). *)
Definition t_conj (t : three) : three := (c_conj (aa t), c_conj (ab t), c_conj (bb t)).
Definition put (m : nat -> nat -> three) (i j : nat) (v : three) : nat -> nat -> three :=
  fun a b => if Nat.eqb a i && Nat.eqb b j then v else m a b.
Definition f_step (c : call (T := T)) (g : grid (T := T)) (m : nat -> nat -> three) (ij : nat * nat) : nat -> nat -> three :=
  let '(i, j) := ij in
  if negb (redo c i) && negb (redo c j) then m
  else let v := td_integral c g i j in
       let m := put m i j v in
       if Nat.eqb i j then m else put m j i (t_conj v).
Definition pairs (n : nat) : list (nat * nat) := flat_map (fun i => map (fun j => (i, j)) (seq 0 n)) (seq 0 n).
(** getFractions, lines 760-913: what is kept afterwards and the returned matrix (the printed fractions are left out). *)
Definition td_fractions (t : td_call) (k : td_kept) : td_kept * list (list T) :=
  let c := td_dp t in
  let g := td_range c k in
  let k' := mkTdKept (fun i => if redo c i then map (td_wave c i) (events c) else w_kept k i)
                     (fold_left (f_step c g) (pairs (nres c)) (i_kept k)) (Some g) in
  (k', map (fun i => map (fun j => fst (c_mul (c_mul (amp Ar c i) (c_conj (amp Ar c j))) (aa (i_kept k' i j)))) (seq 0 (nres c))) (seq 0 (nres c))).

(** A history of calls on one object. *)
Inductive td_op : Type := TdNormalize (t : td_call) | TdFractions (t : td_call).
Definition td_step (s : td_kept * option T) (o : td_op) : td_kept * option T :=
  match o with
  | TdNormalize t => let '(k, r) := td_normalize t (fst s) in (k, Some r)
  | TdFractions t => (fst (td_fractions t (fst s)), snd s)
  end.
Definition td_calls (os : list td_op) : td_kept * option T := fold_left td_step os (td_kept0, None).

(** One event: masses, measured time and its error, the mistag observable, the charm tag (already converted to int). *)
Record td_event : Type := mkEvent { e_m12 : T; e_m13 : T; e_time : T; e_sigma : T; e_mistag : T; e_tag : Z }.
(** device_Tddp without its cursor, lines 41-258, for event number [n]. *)
Definition td_value (t : td_call) (k : td_kept) (n : nat) (e : td_event) : T :=
  let c := td_dp t in
  if inside c (e_m12 e) (e_m13 e) then
    let sum (part : cx * cx -> cx) :=
      fold_left (fun s i => c_add s (c_mul (part (nth n (w_kept k i) (c_zero, c_zero))) (amp Ar c i))) (seq 0 (nres c)) c_zero in
    let A := sum fst in
    let B := sum snd in
    let x := if Z.eqb (e_tag e) 1 then td_x t + td_dx t else if Z.eqb (e_tag e) (-1) then td_x t - td_dx t else td_x t in
    let y := if Z.eqb (e_tag e) 1 then td_y t + td_dy t else if Z.eqb (e_tag e) (-1) then td_y t - td_dy t else td_y t in
    let term1 := c_norm Ar A + c_norm Ar B in
    let term2 := c_norm Ar A - c_norm Ar B in
    let AB := c_mul A (c_conj B) in
    let ret := r_rate res term1 term2 (fst AB) (snd AB) (td_tau t) (e_time e) x y (e_sigma e) in
    let w := e_mistag e in
    let ret := if LeafGen.o_lt Ar 0 w then
                 let ret := ret * (1 - 2 * w) in
                 let ret := ret + w * r_rate res term1 (LeafGen.o_opp Ar term2) (fst AB) (LeafGen.o_opp Ar (snd AB)) taufix (e_time e) xfix yfix (e_sigma e) in
                 ret + w * r_rate res term1 term2 (fst AB) (snd AB) taufix (e_time e) xfix yfix (e_sigma e)
               else ret in
    ret * eff c (e_m12 e) (e_m13 e)
  else 0.
End Td.
Arguments mkTd {T}. Arguments td_dp {T}. Arguments td_tau {T}. Arguments td_x {T}. Arguments td_y {T}. Arguments td_dx {T}. Arguments td_dy {T}.
Arguments td_d0 {T}. Arguments td_mistag {T}. Arguments td_in_limits {T}. Arguments mkTdKept {T}. Arguments w_kept {T}. Arguments i_kept {T}. Arguments g_kept {T}.
Arguments TdNormalize {T}. Arguments TdFractions {T}. Arguments mkEvent {T}. Arguments e_m12 {T}. Arguments e_m13 {T}. Arguments e_time {T}. Arguments e_sigma {T}.
Arguments e_mistag {T}. Arguments e_tag {T}. Arguments aa {T}. Arguments ab {T}. Arguments bb {T}.

(** ** The pointers to the cached waves *)
(** cWaves[16 * 20] (Amp3Body_TD.cu:32) and cResonances[16 * 20] (Amp3Body.cu:54): who filled each place. A PDF is numbered by its
    cacheToUse; setDataSize (Amp3Body_TD.cu:565-579, Amp3Body.cu:221-234) stores 16 pointers, at 16 cacheToUse and after. None: a write
    or a read beyond the array, or a read of a pointer nobody stored. *)
Definition cw_size : nat := 320.
Definition set_data_size (pdf : nat) (a : nat -> option (nat * nat)) : option (nat -> option (nat * nat)) :=
  if Nat.leb (16 * pdf + 16) cw_size then
    Some (fun p => if Nat.leb (16 * pdf) p && Nat.ltb p (16 * pdf + 16) then Some (pdf, p - 16 * pdf)%nat else a p)
  else None.
(** normalize() writes the wave of resonance i to cachedWaves[i] (an array of 16, Amp3Body_TD.h:157, Amp3Body.h:88), and the device reads at
    i + 16 cacheToUse (Amp3Body_TD.cu:99, Amp3Body.cu:106): the PDF and the resonance whose wave is read. *)
Definition read_wave (pdf i : nat) (a : nat -> option (nat * nat)) : option (nat * nat) :=
  if Nat.ltb (i + 16 * pdf) cw_size then a (i + 16 * pdf)%nat else None.
Definition set_all (pdfs : list nat) (a : nat -> option (nat * nat)) : option (nat -> option (nat * nat)) :=
  fold_left (fun a p => match a with Some a => set_data_size p a | None => None end) pdfs (Some a).
