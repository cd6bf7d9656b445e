(** Amp4Body_TD.cu with its normalisation events, NormEvents_4Body_*.cu, for any arithmetic: which coefficient goes with which
    amplitude, the value at an event, the normalisation, and the acceptance of generated events.

    The caches of the data are those of Amp4Model.v.  Lineshapes and spin factors are numbers as there.  An outcome [None] is
    undefined behaviour or a read that does not find what the code expects there. *)
From Coq Require Import List ZArith Bool.
From Verif Require Import AmpModel Amp4Model CombineSpec UtilModel.
From Verif Require LeafGen.
Import ListNotations.

(** An Amplitude as the user makes it, Amplitude.h:37-42: the name of the decay, the two coefficient variables, its lineshapes and
    spin factors, the addresses of both, and the number of permutations. *)
Record amplitude : Type := mkAmplitude {
  m_name : nat; m_ar : nat; m_ai : nat; m_ls : list nat; m_sf : list nat; m_at : list nat; m_perm : nat }.
Definition amplitude_dec : forall a b : amplitude, {a = b} + {a <> b}.
Proof. decide equality; auto using Nat.eq_dec, list_eq_dec. Defined.
(** Amplitude::operator==, Amplitude.cu:39-42: every member.  Variables are compared by identity (Variable.h:97), lineshapes and
    spin factors by address. *)
Definition same (a b : amplitude) : bool := if amplitude_dec a b then true else false.

(** The entry of an amplitude in the tables, Amp4Body_TD.cu:412-430: [flag] is 0, 1 or 2 for an amplitude of the first decay, of the
    second, of both. *)
Definition entry (flag : nat) (a : amplitude) : amp4 := mkAmp4 (m_ls a) (m_sf a) (m_perm a) flag.
Definition vars (a : amplitude) : list nat := [m_ar a; m_ai a].
(** The loop over AmpsA, Amp4Body_TD.cu:366-432: entry and coefficient variables of each. *)
Definition of_A (B : list amplitude) (a : amplitude) : amp4 * list nat :=
  match find (same a) B with
  | Some b => (entry 2 a, vars a ++ vars b)
  | None => (entry 0 a, vars a)
  end.
(** The loop over AmpsB, Amp4Body_TD.cu:440-503: those that are found among AmpsA are left out. *)
Definition of_B (A : list amplitude) (a : amplitude) : list (amp4 * list nat) :=
  match find (same a) A with Some _ => [] | None => [(entry 1 a, vars a)] end.
Definition built (A B : list amplitude) : list (amp4 * list nat) := map (of_A B) A ++ flat_map (of_B A) B.
Definition td_amps (A B : list amplitude) : list amp4 := map fst (built A B).
Definition td_vars (A B : list amplitude) : list nat := flat_map snd (built A B).
(** total_lineshapes_spinfactors, Amp4Body_TD.cu:360-398, 457-478. *)
Definition total_ls_sf (amps : list amp4) : nat := fold_left (fun n a => n + length (a_ls a) + length (a_sf a)) amps 0.

(** The functions of the PDF and of its components in the order of the device table: PdfBase.cu:95-122 and 307-308,
    Amplitude.cu:33-37; the components are pushed at Amp4Body_TD.cu:372, 450, 512-513. *)
Inductive fn : Type := FnSelf | FnLs (k : nat) | FnSf (k : nat) | FnResolution | FnEfficiency.
Definition fn_table (amps : list amp4) : list fn :=
  FnSelf :: flat_map (fun a => map FnLs (a_ls a) ++ map FnSf (a_sf a)) amps ++ [FnResolution; FnEfficiency].

Section Arith.
Context {T : Type} (Ar : LeafGen.ops T).
Notation "0" := (LeafGen.o_zero Ar).
Notation "1" := (LeafGen.o_one Ar).
Infix "+" := (LeafGen.o_add Ar).
Infix "-" := (LeafGen.o_sub Ar).
Infix "*" := (LeafGen.o_mul Ar).
Infix "/" := (LeafGen.o_div Ar).

(** The object: the two lists of amplitudes, the resolution and its normalization.  The arguments of the resolution are the
    factors of cosh, cos, sinh, sin, then tau, the decay time, x, y and the error of the time; those of the normalization are the sums of
    |A|^2, |B|^2, Re(A B* ), Im(A B* ), then tau, x, y. *)
Variables (A B : list amplitude).
Variable res : T -> T -> T -> T -> T -> T -> T -> T -> T -> T.
Variable nrm : T -> T -> T -> T -> T -> T -> T -> T.
Let amps : list amp4 := td_amps A B.

Section Points.
Context {P : Type}.
(** What a call finds: values of the lineshapes and spin factors, of the variables, tau, x, y and the square root of the rate ratio, the
    efficiency, the data (point, time and error of the time), and the flags as in [call4]. *)
Record call : Type := mkCall {
  u_ls : nat -> P -> T * T; u_sf : nat -> P -> T; u_var : nat -> T; u_tau : T; u_x : T; u_y : T; u_rate : T;
  u_eff : P * T * T -> T; u_data : list (P * T * T); u_force : bool; u_changed : nat -> bool; u_generating : bool }.
(** As a call of Amp4Model; the coefficients are not read there. *)
Definition as4 (c : call) : call4 (T := T) (P := P) :=
  mkCall4 (u_ls c) (u_sf c) (repeat (c_zero Ar) (length amps)) (fun _ => 1) (map (fun d => fst (fst d)) (u_data c)) (u_force c) (u_changed c) (u_generating c).
(** The parameters in the order of registration, Amp4Body_TD.cu:341-344 and 375-376, 419-420, 453-454. *)
Definition pars (c : call) : list T := [u_tau c; u_x c; u_y c; u_rate c] ++ map (u_var c) (td_vars A B).

(** The loop that adds up the two decays: Amp4Body_TD.cu:189-217, NormIntegrator_TD.cu:38-92, NormIntegrator_TD_Weighted.cu:42-96.
    [amp] gives the amplitude number [i]; [k] counts the entries with two coefficients so far.  Another flag than 0, 1, 2 adds
    nothing. *)
Definition coef (ps : list T) (i k : nat) : option (T * T) :=
  re <-- nth_error ps (4 + 2 * (i + k)) ;; im <-- nth_error ps (5 + 2 * (i + k)) ;; Some (re, im).
Fixpoint decays (ps : list T) (t : list nat) (n : nat) (amp : nat -> option (T * T)) (is : list nat) (k : nat) (sA sB : T * T) : option ((T * T) * (T * T)) :=
  match is with
  | [] => Some (sA, sB)
  | i :: is =>
    start <-- nth_error t i ;;
    flag <-- nth_error t (n + start + 3) ;;
    z <-- amp i ;;
    match flag with
    | O => c <-- coef ps i k ;; decays ps t n amp is k (c_add Ar sA (c_mul Ar z c)) sB
    | 1%nat => c <-- coef ps i k ;; decays ps t n amp is k sA (c_add Ar sB (c_mul Ar z c))
    | 2%nat => c <-- coef ps i k ;; d <-- coef ps i (S k) ;; decays ps t n amp is (S k) (c_add Ar sA (c_mul Ar z c)) (c_add Ar sB (c_mul Ar z d))
    | _ => decays ps t n amp is k sA sB
    end
  end.
(** Both sums, the first times the square root of the rate ratio, Amp4Body_TD.cu:226, NormIntegrator_TD.cu:94-95. *)
Definition both (c : call) (t : list nat) (amp : nat -> option (T * T)) : option ((T * T) * (T * T)) :=
  ab <-- decays (pars c) t (length amps) amp (seq 0 (length amps)) 0 (c_zero Ar) (c_zero Ar) ;;
  rate <-- nth_error (pars c) 3 ;;
  Some (c_scale Ar (fst ab) rate, snd ab).
Definition smeared (c : call) (ab : (T * T) * (T * T)) (time sigma : T) : T :=
  let '(a, b) := ab in
  let ab := c_mul Ar a (c_conj Ar b) in
  res (c_norm Ar a + c_norm Ar b) (c_norm Ar a - c_norm Ar b) (fst ab) (snd ab) (u_tau c) time (u_x c) (u_y c) sigma.
(** device_Amp4Body_TD, Amp4Body_TD.cu:171-261, at event number [e] of the data, which is [d]; the kept amplitudes are [k]. *)
Definition value (t : list nat) (c : call) (k : kept4 (T := T)) (e : nat) (d : P * T * T) : option T :=
  ab <-- both c t (fun i => Some (q_amp k e i)) ;;
  match nth_error (fn_table amps) (1 + total_ls_sf amps)%nat, nth_error (fn_table amps) (2 + total_ls_sf amps)%nat with
  | Some FnResolution, Some FnEfficiency => Some (smeared c ab (snd (fst d)) (snd d) * u_eff c d)
  | _, _ => None
  end.

(** ** The normalisation events *)
(** A batch: kept on the host or on the device; its points, and for weighted events time, error and weight of each.  Amp4Body_TD
    makes unweighted batches only (Amp4Body_TD.cu:283-312), or is handed any.  The vectors of one batch are taken to be equally long. *)
Record batch : Type := mkBatch { b_host : bool; b_points : list P; b_extra : option (list (T * T * T)) }.
(** int of a double: towards zero; out of range is undefined. *)
Definition to_int (x : T) : option Z :=
  z <-- (if LeafGen.o_lt Ar x 0 then option_map Z.opp (LeafGen.o_floor Ar (LeafGen.o_opp Ar x)) else LeafGen.o_floor Ar x) ;;
  if (Z.leb (-2147483648) z && Z.leb z 2147483647)%bool then Some z else None.
Definition in_int (z : Z) : option Z := if (Z.leb (-2147483648) z && Z.leb z 2147483647)%bool then Some z else None.
(** thrust::reduce with the initial value 0, an int: each weight is converted to int before it is added.
    NormEvents_4Body_Weighted.cu:36, NormEvents_4Body_WeightedDevice.cu:36; the order of the reduction is that of the list. *)
Fixpoint int_reduce (ws : list T) (s : Z) : option Z :=
  match ws with [] => Some s | w :: ws => z <-- to_int w ;; s' <-- in_int (s + z) ;; int_reduce ws s' end.
(** getSumInitWeights: NormEvents_4Body_HostCached.cu:48, NormEvents_4Body_DeviceCached.cu:39, and the above. *)
Definition init_weights (b : batch) : option T :=
  match b_extra b with
  | None => Some (of_nat Ar (length (b_points b)))
  | Some ex => z <-- int_reduce (map snd ex) 0 ;; Some (LeafGen.o_ofZ Ar z)
  end.

(** What a batch keeps: _norm_SF and _norm_LS, element [i * events + e] for spin factor or lineshape [i] and event [e]. *)
Record kept : Type := mkKept { n_sf : list T; n_ls : list (T * T) }.
Definition kept0 : kept := mkKept [] [].
(** std::vector::resize. *)
Definition resize {X : Type} (z : X) (n : nat) (l : list X) : list X := firstn n l ++ repeat z (n - length l).
(** thrust::transform with the output at [off] of [l]. *)
Definition put {X : Type} (l : list X) (off : nat) (vals : list X) : option (list X) :=
  if Nat.leb (off + length vals) (length l) then Some (firstn off l ++ vals ++ skipn (off + length vals) l) else None.
Fixpoint put_all {X : Type} (redo : nat -> bool) (f : nat -> P -> X) (ps : list P) (keys : list nat) (i : nat) (l : list X) : option (list X) :=
  match keys with
  | [] => Some l
  | k :: keys => l' <-- (if redo i then put l (i * length ps)%nat (map (f k) ps) else Some l) ;; put_all redo f ps keys (S i) l'
  end.
(** NormEvents_4Body_Base::computeCachedSFValuesForBatch_TD and computeCachedLSValuesForBatch_TD, NormEvents_4Body_Base.cu:80-164, with the
    value they return: whether anything was computed. *)
Definition new_sf (c : call) (spins : bool) (ps : list P) (l : list T) : option (bool * list T) :=
  l' <-- put_all (fun _ => negb spins) (u_sf c) ps (SF amps) 0 l ;; Some ((negb spins && negb (Nat.eqb (length (SF amps)) 0))%bool, l').
Definition new_ls (c : call) (changed : nat -> bool) (ps : list P) (l : list (T * T)) : option (bool * list (T * T)) :=
  l' <-- put_all changed (u_ls c) ps (LS amps) 0 l ;; Some (existsb changed (seq 0 (length (LS amps))), l').

(** The amplitude number [i] at normalisation event [e], NormIntegrator_TD.cu:38-71. *)
Definition norm_amp_TD (t : list nat) (nAMP i : nat) (lsv : nat -> option (T * T)) (sfv : nat -> option T) : option (T * T) :=
  at_ <-- nth_error t i ;;
  nPerm <-- nth_error t (nAMP + at_ + 2)%nat ;;
  numLS <-- nth_error t (nAMP + at_)%nat ;;
  numSF <-- nth_error t (nAMP + at_ + 1)%nat ;;
  if Nat.eqb nPerm 0 then None else
  terms <-- omap (fun j =>
    ls <-- omap (fun i => id <-- nth_error t (nAMP + at_ + 4 + i)%nat ;; lsv id) (seq (j * (numLS / nPerm)) (numLS / nPerm)) ;;
    sf <-- omap (fun i => id <-- nth_error t (nAMP + at_ + 4 + numLS + i)%nat ;; sfv id) (seq (j * (numSF / nPerm)) (numSF / nPerm)) ;;
    Some (fold_left (c_scale Ar) sf (fold_left (c_mul Ar) ls (c_one Ar)))) (seq 0 nPerm) ;;
  Some (c_scale Ar (c_sum Ar terms) (1 / LeafGen.o_sqrt Ar (of_nat Ar nPerm))).
Definition norm_both (c : call) (t : list nat) (k : kept) (n e : nat) : option ((T * T) * (T * T)) :=
  both c t (fun i => norm_amp_TD t (length amps) i (fun id => nth_error (n_ls k) (id * n + e)) (fun id => nth_error (n_sf k) (id * n + e))).
(** doNormIntegral_TD, NormEvents_4Body_Base.cu:166-255: with weights, the sum of weight times smeared rate; without, the
    normalization of the four sums (FourDblTupleAdd).  The order of the reduction is that of the list. *)
Definition integral (c : call) (t : list nat) (b : batch) (k : kept) : option T :=
  let n := length (b_points b) in
  match b_extra b with
  | Some ex => vs <-- omap (fun e => ab <-- norm_both c t k n e ;; x <-- nth_error ex e ;; Some (smeared c ab (fst (fst x)) (snd (fst x)) * snd x)) (seq 0 (length ex)) ;;
               Some (r_sum Ar vs)
  | None => abs <-- omap (norm_both c t k n) (seq 0 n) ;;
            let s (f : (T * T) * (T * T) -> T) := r_sum Ar (map f abs) in
            let prod ab := c_mul Ar (fst ab) (c_conj Ar (snd ab)) in
            Some (nrm (s (fun ab => c_norm Ar (fst ab))) (s (fun ab => c_norm Ar (snd ab))) (s (fun ab => fst (prod ab))) (s (fun ab => snd (prod ab))) (u_tau c) (u_x c) (u_y c))
  end.
(** computeNorm_TD of the classes that keep the values on the device, NormEvents_4Body_DeviceCached.cu:44-97,
    NormEvents_4Body_WeightedDevice.cu:42-102: the arrays are changed in place. *)
Definition norm_device (t : list nat) (c : call) (idle spins : bool) (changed : nat -> bool) (b : batch) (k : kept) : option (kept * T) :=
  let n := length (b_points b) in
  k' <-- (if idle then Some k
          else sf <-- new_sf c spins (b_points b) (resize 0 (n * length (SF amps)) (n_sf k)) ;;
               ls <-- new_ls c changed (b_points b) (resize (c_zero Ar) (n * length (LS amps)) (n_ls k)) ;;
               Some (mkKept (snd sf) (snd ls))) ;;
  v <-- integral c t b k' ;; Some (k', v).
(** ... and of those that keep them on the host, NormEvents_4Body_HostCached.cu:62-143, NormEvents_4Body_Weighted.cu:42-126: a copy is
    changed, and copied back when something was computed. *)
Definition norm_host (t : list nat) (c : call) (idle spins : bool) (changed : nat -> bool) (b : batch) (k : kept) : option (kept * T) :=
  let n := length (b_points b) in
  let k1 := if idle then k else mkKept (resize 0 (n * length (SF amps)) (n_sf k)) (resize (c_zero Ar) (n * length (LS amps)) (n_ls k)) in
  if idle then v <-- integral c t b k1 ;; Some (k1, v)
  else
    sf <-- new_sf c spins (b_points b) (n_sf k1) ;;
    ls <-- new_ls c changed (b_points b) (n_ls k1) ;;
    v <-- integral c t b (mkKept (snd sf) (snd ls)) ;;
    Some (mkKept (if fst sf then snd sf else n_sf k1) (if fst ls then snd ls else n_ls k1), v).
Definition norm_batch (t : list nat) (c : call) (idle spins : bool) (changed : nat -> bool) (b : batch) (k : kept) : option (kept * T) :=
  if b_host b then norm_host t c idle spins changed b k else norm_device t c idle spins changed b k.

(** Amp4Body_TD::normalize, Amp4Body_TD.cu:742-798: what is kept is that of the data and one [kept] for each batch. *)
Fixpoint norm_batches (t : list nat) (c : call) (idle spins : bool) (changed : nat -> bool) (bs : list batch) (ks : list kept) : option (list kept * list T) :=
  match bs, ks with
  | b :: bs, k :: ks => r <-- norm_batch t c idle spins changed b k ;; rs <-- norm_batches t c idle spins changed bs ks ;; Some (fst r :: fst rs, snd r :: snd rs)
  | _, _ => Some ([], [])
  end.
Definition as_arith : arith T := Arith T 0 1 (LeafGen.o_add Ar) (LeafGen.o_sub Ar) (LeafGen.o_mul Ar) (LeafGen.o_div Ar).
Definition ge_abs (a b : T) : bool := LeafGen.o_le Ar (LeafGen.o_abs Ar b) (LeafGen.o_abs Ar a).
Definition normalize (bs : list batch) (t : list nat) (c : call) (k : kept4 (T := T) * list kept) : option ((kept4 (T := T) * list kept) * T) :=
  kd <-- normalize4_TD true Ar amps t (as4 c) (fst k) ;;
  if q_nonorm kd then Some ((kd, snd k), 1)
  else
    let spins := negb (u_force c) in
    let changed := shape_redo amps (as4 c) in
    let idle := (spins && forallb (fun i => negb (changed i)) (seq 0 (length (LS amps))))%bool in
    rs <-- norm_batches t c idle spins changed bs (snd k) ;;
    ws <-- omap init_weights bs ;;
    Some ((kd, fst rs), neumaier as_arith ge_abs (snd rs) / r_sum Ar ws).
(** Calls on a new object, with the table of the program at each call; the result is that of the last. *)
Definition fresh (bs : list batch) : kept4 (T := T) * list kept := (kept40 Ar amps, map (fun _ => kept0) bs).
Fixpoint calls (bs : list batch) (cs : list (list nat * call)) (k : kept4 (T := T) * list kept) (r : option T) : option ((kept4 (T := T) * list kept) * option T) :=
  match cs with
  | [] => Some (k, r)
  | (t, c) :: cs => kr <-- normalize bs t c k ;; calls bs cs (fst kr) (Some (snd kr))
  end.
End Points.

(** ** GenerateSig, Amp4Body_TD.cu:824-1018 *)
(** gammamin, :872. *)
Definition gammamin (tau y : T) : T := 1 / tau - LeafGen.o_abs Ar y / tau.
(** wmax, :964: 1.1 times the largest of the values [vs] at decay time 0 (thrust::max_element). *)
Definition wmax (vs : list T) : T :=
  LeafGen.o_lit Ar 2476979795053773 (-51) * match vs with [] => 0 | v :: vs => fold_left (fun m v => if LeafGen.o_lt Ar m v then v else m) vs v end.
(** maxWeight, :966-976, :996: kept by the object from one GenerateSig to the next, 0 at first; None: GeneralError. *)
Definition next_max (m w : T) : option T :=
  if LeafGen.o_lt Ar m w && negb (LeafGen.o_eq Ar m 0) then None else Some (if LeafGen.o_lt Ar m w then w else m).
(** The weights wmax used in exp_functor (:1004) by a sequence of calls of GenerateSig whose events have the values [vss] at decay time 0. *)
Fixpoint batch_weights (m : T) (vss : list (list T)) : option (list T) :=
  match vss with
  | [] => Some []
  | vs :: vss => match next_max m (wmax vs) with
                 | Some m' => match batch_weights m' vss with Some l => Some (m' :: l) | None => None end
                 | None => None
                 end
  end.
(** exp_functor, :72-117: the envelope at decay time [time]; an event of value [v] is accepted for the random number [u]. *)
Definition envelope (exp : T -> T) (gamma w time : T) : T := exp (LeafGen.o_opp Ar time * gamma) * w.
Definition accepted (exp : T -> T) (gamma w time v u : T) : bool := LeafGen.o_lt Ar (u * envelope exp gamma w time) v.
End Arith.
Arguments mkCall {T P}. Arguments u_ls {T P}. Arguments u_sf {T P}. Arguments u_var {T P}. Arguments u_tau {T P}. Arguments u_x {T P}. Arguments u_y {T P}.
Arguments u_rate {T P}. Arguments u_eff {T P}. Arguments u_data {T P}. Arguments u_force {T P}. Arguments u_changed {T P}. Arguments u_generating {T P}.
Arguments mkBatch {T P}. Arguments b_host {T P}. Arguments b_points {T P}. Arguments b_extra {T P}. Arguments mkKept {T}. Arguments n_sf {T}. Arguments n_ls {T}.
