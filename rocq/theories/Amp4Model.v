(** Four-body amplitude PDFs, Amp4Body.cu and Amp4Body_TD.cu: the table that tells the device which lineshapes and spin factors
    make up which amplitude, what is kept between calls of normalize(), and the normalisation, for any arithmetic.

    A lineshape or a spin factor is a number; two that compare equal (Lineshape.h:49-53, SpinFactors.h:60-63) have the same
    number.  Their values are parameters: any functions of the number and of the point in phase space.  An outcome [None] is
    undefined behaviour: a read or write outside an array, or a division by zero. *)
From Coq Require Import List ZArith Bool.
From Verif Require Import AmpModel.
From Verif Require LeafGen.
Import ListNotations.

Definition obind {A B : Type} (a : option A) (f : A -> option B) : option B := match a with Some x => f x | None => None end.
Notation "x <-- a ;; b" := (obind a (fun x => b)) (at level 90, a at level 60, right associativity).
Fixpoint omap {A B : Type} (f : A -> option B) (l : list A) : option (list B) :=
  match l with [] => Some [] | a :: t => x <-- f a ;; y <-- omap f t ;; Some (x :: y) end.

(** Amplitude, Amplitude.cu:12-32: its lineshapes, spin factors and number of permutations.  [a_flag] is the entry that only
    Amp4Body_TD writes (which of the two decays the amplitude belongs to), Amp4Body_TD.cu:412-428. *)
Record amp4 : Type := mkAmp4 { a_ls : list nat; a_sf : list nat; a_perm : nat; a_flag : nat }.

(** LineShapes and SpinFactors of the constructor: every one once, in the order of first use.  Amp4Body.cu:119-165,
    Amp4Body_TD.cu:366-408. *)
Definition add_new (l : list nat) (k : nat) : list nat := if existsb (Nat.eqb k) l then l else l ++ [k].
Definition line_shapes (amps : list amp4) : list nat := fold_left add_new (flat_map a_ls amps) [].
Definition spin_factors (amps : list amp4) : list nat := fold_left add_new (flat_map a_sf amps) [].
(** std::find_if and std::distance, Amp4Body.cu:207-225; nothing is pushed when it is not found. *)
Fixpoint position (l : list nat) (k : nat) : option nat :=
  match l with [] => None | a :: t => if Nat.eqb k a then Some O else option_map S (position t k) end.
Definition positions (l ks : list nat) : list nat := flat_map (fun k => match position l k with Some i => [i] | None => [] end) ks.

Section Td.
Variable td : bool.        (* Amp4Body_TD instead of Amp4Body *)
(** The entries of one amplitude in amp_idx, Amp4Body.cu:198-226 (and 319-330), Amp4Body_TD.cu:424-430. *)
Definition entries (amps : list amp4) (a : amp4) : list nat :=
  [length (a_ls a); length (a_sf a); a_perm a] ++ (if td then [a_flag a] else []) ++
  positions (line_shapes amps) (a_ls a) ++ positions (spin_factors amps) (a_sf a).
Definition head : nat := if td then 4 else 3.
Definition amp_idx (amps : list amp4) : list nat := flat_map (entries amps) amps.
(** amp_idx_start: the length of amp_idx before the amplitude, Amp4Body.cu:196. *)
Definition start (amps : list amp4) (i : nat) : nat := length (flat_map (entries amps) (firstn i amps)).
Definition amp_idx_start (amps : list amp4) : list nat := map (start amps) (seq 0 (length amps)).

(** The device array AmpIndices[500], Amp4BodyGlobals.cu:11, one for the program; MEMCPY_TO_SYMBOL of [vals] at [off]. *)
Definition table0 : list nat := repeat O 500.
Definition write (t : list nat) (off : nat) (vals : list nat) : option (list nat) :=
  if Nat.leb (off + length vals) (length t) then Some (firstn off t ++ vals ++ skipn (off + length vals) t) else None.
(** The end of the constructor, Amp4Body.cu:229-238, Amp4Body_TD.cu:534-541. *)
Definition construct (t : list nat) (amps : list amp4) : option (list nat) :=
  t1 <-- write t 0 (amp_idx_start amps) ;; write t1 (length amps) (amp_idx amps).
(** populateArrays of Amp4Body, Amp4Body.cu:303-343: only the entries are written again. *)
Definition populate (t : list nat) (amps : list amp4) : option (list nat) := write t (length amps) (amp_idx amps).

Section Arith.
Context {T : Type} (Ar : LeafGen.ops T).
Notation "1" := (LeafGen.o_one Ar).
Infix "/" := (LeafGen.o_div Ar).
Definition c_one : T * T := (1, LeafGen.o_zero Ar).

(** AmpCalc::operator(), AmpCalc.cu:14-62, and AmpCalc_TD::operator(), AmpCalc_TD.cu:13-90, for the amplitude at [at] of
    amp_idx with [nPerm] permutations: [lsv] and [sfv] are the kept values of the lineshapes and spin factors at the event
    (indices that do not exist are undefined; in the code they would run into the next event). *)
Definition mul_sf (ret : T * T) (s : T) : T * T := if td then c_scale Ar ret s else c_mul Ar ret (s, LeafGen.o_zero Ar).
Definition amp_calc (t : list nat) (nAMP at_ nPerm : nat) (lsv : nat -> option (T * T)) (sfv : nat -> option T) : option (T * T) :=
  numLS <-- nth_error t (nAMP + at_) ;;
  numSF <-- nth_error t (nAMP + at_ + 1) ;;
  if Nat.eqb nPerm 0 then None else
  terms <-- omap (fun i =>
    ls <-- omap (fun j => id <-- nth_error t (nAMP + at_ + head + j) ;; lsv id) (seq (i * (numLS / nPerm)) (numLS / nPerm)) ;;
    sf <-- omap (fun j => id <-- nth_error t (nAMP + at_ + head + numLS + j) ;; sfv id) (seq (i * (numSF / nPerm)) (numSF / nPerm)) ;;
    Some (fold_left mul_sf sf (fold_left (c_mul Ar) ls c_one))) (seq 0 nPerm) ;;
  Some (c_scale Ar (c_sum Ar terms) (1 / LeafGen.o_sqrt Ar (of_nat Ar nPerm))).

(** NormIntegrator::operator(), NormIntegrator.cu:15-71 (Amp4Body only): the start and the number of permutations are read from
    the table. *)
Definition norm_amp (t : list nat) (nAMP a : nat) (lsv : nat -> option (T * T)) (sfv : nat -> option T) : option (T * T) :=
  at_ <-- nth_error t a ;;
  numLS <-- nth_error t (nAMP + at_) ;;
  numSF <-- nth_error t (nAMP + at_ + 1) ;;
  nPerm <-- nth_error t (nAMP + at_ + 2) ;;
  if Nat.eqb nPerm 0 then None else
  terms <-- omap (fun j =>
    ls <-- omap (fun i => id <-- nth_error t (nAMP + at_ + 3 + i) ;; lsv id) (seq (j * (numLS / nPerm)) (numLS / nPerm)) ;;
    sf <-- omap (fun i => id <-- nth_error t (nAMP + at_ + 3 + numLS + i) ;; sfv id) (seq (j * (numSF / nPerm)) (numSF / nPerm)) ;;
    Some (fold_left (c_scale Ar) sf (fold_left (c_mul Ar) ls c_one))) (seq 0 nPerm) ;;
  Some (c_scale Ar (c_sum Ar terms) (1 / LeafGen.o_sqrt Ar (of_nat Ar nPerm))).
Definition norm_event (t : list nat) (coefs : list (T * T)) (lsv : nat -> option (T * T)) (sfv : nat -> option T) : option T :=
  terms <-- omap (fun a => v <-- norm_amp t (length coefs) a lsv sfv ;; Some (c_mul Ar v (nth a coefs (c_zero Ar)))) (seq 0 (length coefs)) ;;
  Some (c_norm Ar (c_sum Ar terms)).

Section Calls.
Context {P : Type}.           (* points of phase space: m12, m34, cos12, cos34, phi *)
Variables (amps : list amp4) (mc : list P).   (* the amplitudes and the normalisation events of the object *)
(** What a call of normalize() finds: values of the lineshapes and spin factors, the complex coefficients, the efficiency, the data,
    forceRedoIntegrals, parametersChanged() of each lineshape, and whether it is called by GenerateSig. *)
Record call4 : Type := mkCall4 {
  v_ls : nat -> P -> T * T; v_sf : nat -> P -> T; coef4 : list (T * T); eff4 : P -> T;
  evts : list P; force4 : bool; changed4 : nat -> bool; generating : bool }.
Definition LS : list nat := line_shapes amps.
Definition SF : list nat := spin_factors amps.

(** What is kept: redoIntegral, cachedResSF (split into its two parts, by event and slot; the code keeps them in one array, at
    event * stride + slot), cachedAMPs, norm_LS, norm_SF, and generation_no_norm. *)
Record kept4 : Type := mkKept4 {
  q_redo : list bool; q_ls : nat -> nat -> T * T; q_sf : nat -> nat -> T; q_amp : nat -> nat -> T * T;
  q_nls : nat -> nat -> T * T; q_nsf : nat -> nat -> T; q_nonorm : bool }.
(** After the constructor, Amp4Body.cu:172-192: the array has as many elements as amplitudes, all true. *)
Definition kept40 : kept4 :=
  mkKept4 (repeat true (length amps)) (fun _ _ => c_zero Ar) (fun _ _ => LeafGen.o_zero Ar) (fun _ _ => c_zero Ar)
          (fun _ _ => c_zero Ar) (fun _ _ => LeafGen.o_zero Ar) false.

Definition shape_redo (c : call4) (i : nat) : bool := force4 c || match nth_error LS i with Some k => changed4 c k | None => false end.
(** Amp4Body.cu:407-414: element i of redoIntegral is written for every lineshape i. *)
Definition flags (c : call4) (k : kept4) : option (list bool) :=
  if Nat.leb (length LS) (length (q_redo k)) then Some (map (shape_redo c) (seq 0 (length LS)) ++ skipn (length LS) (q_redo k)) else None.
(** Amp4Body_TD::areAmplitudeComponentsChanged, Amp4Body_TD.cu:706-727, with Amplitude::lineshapeParametersChanged, Amplitude.cu:44-46. *)
Definition amp_changed (c : call4) (i : nat) : bool :=
  force4 c || match nth_error amps i with Some a => existsb (changed4 c) (a_ls a) | None => false end.

Definition at_point {B : Type} (ps : list P) (e : nat) (f : P -> B) (old : B) : B := match nth_error ps e with Some p => f p | None => old end.
(** The lineshape and spin factor caches, Amp4Body.cu:428-490 and Amp4Body_TD.cu:605-665: spin factors when the integrals are
    forced (SpinsCalculated), lineshapes when their flag is set. *)
Definition fill_ls (c : call4) (ps : list P) (redo : nat -> bool) (old : nat -> nat -> T * T) (e i : nat) : T * T :=
  match nth_error LS i with Some k => if redo i then at_point ps e (v_ls c k) (old e i) else old e i | None => old e i end.
Definition fill_sf (c : call4) (ps : list P) (old : nat -> nat -> T) (e i : nat) : T :=
  match nth_error SF i with Some k => if force4 c then at_point ps e (v_sf c k) (old e i) else old e i | None => old e i end.
Definition has {B : Type} (n : nat) (f : nat -> B) (i : nat) : option B := if Nat.ltb i n then Some (f i) else None.
(** The amplitude cache, Amp4Body.cu:491-503, Amp4Body_TD.cu:667-688: for the amplitudes with flag set, at all events. *)
Definition calc (t : list nat) (ls : nat -> nat -> T * T) (sf : nat -> nat -> T) (e i : nat) : option (T * T) :=
  a <-- nth_error amps i ;;
  amp_calc t (length amps) (start amps i) (a_perm a) (has (length LS) (ls e)) (has (length SF) (sf e)).
Definition fill_amp (t : list nat) (c : call4) (redo : nat -> bool) (ls : nat -> nat -> T * T) (sf : nat -> nat -> T)
    (old : nat -> nat -> T * T) : option (nat -> nat -> T * T) :=
  vals <-- omap (fun e => omap (fun i => if redo i then calc t ls sf e i else Some (old e i)) (seq 0 (length amps))) (seq 0 (length (evts c))) ;;
  Some (fun e i => nth i (nth e vals []) (old e i)).

(** Amp4Body::normalize, Amp4Body.cu:398-548; the order of the reduction is not modelled. *)
Definition normalize4 (t : list nat) (c : call4) (k : kept4) : option (kept4 * T) :=
  fl <-- flags c k ;;
  let nonorm := q_nonorm k || generating c in
  let ls := fill_ls c (evts c) (shape_redo c) (q_ls k) in
  let sf := fill_sf c (evts c) (q_sf k) in
  let nsf := if nonorm then q_nsf k else fill_sf c mc (q_nsf k) in
  am <-- fill_amp t c (fun i => nth i fl false) ls sf (q_amp k) ;;
  let nls := if nonorm then q_nls k else fill_ls c mc (shape_redo c) (q_nls k) in
  ret <-- (if nonorm then Some 1
           else vs <-- omap (fun e => norm_event t (coef4 c) (has (length LS) (nls e)) (has (length SF) (nsf e))) (seq 0 (length mc)) ;;
                Some (r_sum Ar vs / of_nat Ar (length mc))) ;;
  Some (mkKept4 fl ls sf am nls nsf nonorm, ret).
(** Amp4Body_TD::normalize, Amp4Body_TD.cu:742-795, as far as the caches of the data are concerned; the normalisation is not
    modelled. *)
Definition normalize4_TD (t : list nat) (c : call4) (k : kept4) : option kept4 :=
  let ls := fill_ls c (evts c) (shape_redo c) (q_ls k) in
  let sf := fill_sf c (evts c) (q_sf k) in
  am <-- fill_amp t c (amp_changed c) ls sf (q_amp k) ;;
  Some (mkKept4 (q_redo k) ls sf am (q_nls k) (q_nsf k) (q_nonorm k || generating c)).

(** A sequence of calls on a new object; the table is that of the program at each call. *)
Fixpoint calls4 (cs : list (list nat * call4)) (k : kept4) (r : option T) : option (kept4 * option T) :=
  match cs with
  | [] => Some (k, r)
  | (t, c) :: cs => kr <-- normalize4 t c k ;; calls4 cs (fst kr) (Some (snd kr))
  end.
Fixpoint calls4_TD (cs : list (list nat * call4)) (k : kept4) : option kept4 :=
  match cs with [] => Some k | (t, c) :: cs => k' <-- normalize4_TD t c k ;; calls4_TD cs k' end.

(** device_DP without its cursor, Amp4Body.cu:53-89, at event [e] of the data, which is [p]. *)
Definition value4 (c : call4) (k : kept4) (e : nat) (p : P) : T :=
  LeafGen.o_mul Ar (c_norm Ar (c_sum Ar (map (fun i => c_mul Ar (q_amp k e i) (nth i (coef4 c) (c_zero Ar))) (seq 0 (length (coef4 c)))))) (eff4 c p).
End Calls.
End Arith.
End Td.
Arguments mkCall4 {T P}. Arguments v_ls {T P}. Arguments v_sf {T P}. Arguments coef4 {T P}. Arguments eff4 {T P}. Arguments evts {T P}.
Arguments force4 {T P}. Arguments changed4 {T P}. Arguments generating {T P}.
Arguments mkKept4 {T}. Arguments q_redo {T}. Arguments q_ls {T}. Arguments q_sf {T}. Arguments q_amp {T}. Arguments q_nls {T}. Arguments q_nsf {T}. Arguments q_nonorm {T}.
