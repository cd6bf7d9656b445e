(** Amp3Body::GenerateSig (src/PDFs/physics/Amp3Body.cu:430-547), Dim2 (include/goofit/PDFs/physics/detail/Dim2.h) and the arrays returned in
    Python, for any arithmetic.  AmpModel has normalize() and the value at an event.  mcbooster (submodule extern/MCBooster, not in
    the repository) makes the momenta and phase-space weights and the random numbers: they are arguments here. *)
From Coq Require Import List ZArith Bool.
From Verif Require Import AmpModel KinModel Dim5Model.
From Verif Require LeafGen.
Import ListNotations.

Section Gen.
Context {T : Type} (Ar : LeafGen.ops T).
Local Notation "x [+] y" := (LeafGen.o_add Ar x y) (at level 50, left associativity).
Local Notation "x [*] y" := (LeafGen.o_mul Ar x y) (at level 40, left associativity).
Local Notation "x [/] y" := (LeafGen.o_div Ar x y) (at level 40, left associativity).

(** The momenta of the daughters of one event. *)
Definition daughters : Type := (vec4 T * vec4 T * vec4 T)%type.
(** Dim2::operator(), Dim2.h:22-36: variables 0, 1, 2.  (Its member dim is 2; mcbooster::EvaluateArray does not use it.) *)
Definition dim2 (d : daughters) : T * T * T :=
  let '(p1, p2, p3) := d in
  let p12 := v_add Ar p1 p2 in
  let p23 := v_add Ar p2 p3 in
  let p13 := v_add Ar p1 p3 in
  (v_mass2 Ar p12, v_mass2 Ar p23, v_mass2 Ar p13).
Definition sg_m12 (ds : list daughters) : list T := map (fun d => fst (fst (dim2 d))) ds.
Definition sg_m23 (ds : list daughters) : list T := map (fun d => snd (fst (dim2 d))) ds.
Definition sg_m13 (ds : list daughters) : list T := map (fun d => snd (dim2 d)) ds.

(** thrust::copy to mcbooster::strided_range(begin() + off, end(), stride), :503-509: element e goes to place off + stride * e. *)
Fixpoint put (b : list T) (i : nat) (v : T) : list T :=
  match b, i with
  | [], _ => []
  | _ :: b, O => v :: b
  | x :: b, S i => x :: put b i v
  end.
Definition copy_strided (off stride : nat) (src b : list T) : list T :=
  fold_left (fun b ev => put b (off + stride * fst ev) (snd ev)) (combine (seq 0 (length src)) src) b.
(** DS, :497-509: a new vector of 3 * numEvents; GooVarSet_d is (VarSet_d[0], VarSet_d[2], VarSet_d[1]), and its first two are copied. *)
Definition event_array (ds : list daughters) : list T :=
  let n := length ds in
  copy_strided 2 3 (map (of_nat Ar) (seq 0 n)) (copy_strided 1 3 (sg_m13 ds) (copy_strided 0 3 (sg_m12 ds) (repeat (LeafGen.o_zero Ar) (3 * n)))).
(** Event e of an array of events of three numbers: evt[id_m12], evt[id_m13], evt[id_num] (SpecialResonanceCalculator.cu:20-30, Amp3Body.cu:66-86). *)
Definition at_event (b : list T) (e k : nat) : T := nth (e * 3 + k) b (LeafGen.o_zero Ar).
Definition device_events (b : list T) (n : nat) : list (T * T) := map (fun e => (at_event b e 0, at_event b e 1)) (seq 0 n).
(** evtNum, Amp3Body.cu:86: static_cast<int>(floor(0.5 + evt[id_num])); None if that does not fit an int. *)
Definition event_number (b : list T) (e : nat) : option nat :=
  match LeafGen.o_floor Ar (LeafGen.o_half Ar [+] at_event b e 2) with Some z => Some (Z.to_nat z) | None => None end.

Fixpoint all_some {A : Type} (l : list (option A)) : option (list A) :=
  match l with
  | [] => Some []
  | x :: l => match x, all_some l with Some x, Some l => Some (x :: l) | _, _ => None end
  end.
(** thrust::max_element *)
Definition max_element (l : list T) : option T :=
  match l with [] => None | v :: l => Some (fold_left (fun m v => if LeafGen.o_lt Ar m v then v else m) l v) end.
(** fillMCFlags, Amp3BodyBase.cu:13-22: with no events *max reads beyond the end: None.  mcbooster::FlagAcceptReject(wmax) compares a random number between 0
    and wmax, here u e * wmax with u e between 0 and 1, with the weight. *)
Definition fill_flags (u : nat -> T) (ws : list T) : option (list bool) :=
  match max_element ws with
  | Some m => Some (map (fun ew => LeafGen.o_lt Ar (u (fst ew) [*] m) (snd ew)) (combine (seq 0 (length ws)) ws))
  | None => None
  end.

(** The tuple returned, :546. *)
Record generated : Type := mkGenerated { g_particles : list daughters; g_vars : list T * list T * list T; g_weights : list T; g_flags : list bool }.
(** The call of normalize(), :521: setDataSize(numEvents, 3) has forced the integrals; dev_event_array is DS. *)
Definition gen_call (c : call (T := T)) (ds : list daughters) : call (T := T) :=
  mkCall (amps c) (bw c) (eff c) (inside c) (range c) (device_events (event_array ds) (length ds)) true (changed c).
(** results, :525-529: ProbFit, that is, calculateProb (MetricPointer.cu:18-21) of every event with the normalisation 1 / normalize(). *)
Definition results (c : call (T := T)) (ds : list daughters) (k' : kept (T := T)) (n : T) : option (list T) :=
  let b := event_array ds in
  all_some (map (fun e => match event_number b e with
                          | Some num => Some (coherent Ar (gen_call c ds) k' num (at_event b e 0) (at_event b e 1) [*] (LeafGen.o_one Ar [/] n))
                          | None => None
                          end) (seq 0 (length ds))).
(** GenerateSig with the momenta [ds], phase-space weights [pw] and random numbers [u]; the weights returned are results times phase-space weights, :532-533. *)
Definition generate (c : call (T := T)) (k : kept (T := T)) (ds : list daughters) (pw : list T) (u : nat -> T) : option (kept (T := T) * generated) :=
  let '(k', n) := normalize Ar (gen_call c ds) k in
  match results c ds k' n with
  | Some rs =>
      let ws := map (fun rw => fst rw [*] snd rw) (combine rs pw) in
      match fill_flags u ws with
      | Some fs => Some (k', mkGenerated ds (sg_m12 ds, sg_m23 ds, sg_m13 ds) ws fs)
      | None => None
      end
  | None => None
  end.

(** What the next evaluation finds if the user does nothing: dev_event_array, numEntries and cachedWaves are those of the generated events, and
    setForceIntegrals() (:522) has been called; data_ is not touched. *)
Definition after_gen (c : call (T := T)) (ds : list daughters) : call (T := T) :=
  mkCall (amps c) (bw c) (eff c) (inside c) (range c) (device_events (event_array ds) (length ds)) true (fun _ => false).
(** If the user calls setData with the data [evs] again (PdfBase.cu:329-): dev_event_array and numEntries change, the size of cachedWaves does not. *)
Definition after_set_data (c : call (T := T)) (evs : list (T * T)) : call (T := T) :=
  mkCall (amps c) (bw c) (eff c) (inside c) (range c) evs true (fun _ => false).
(** normalize() when cachedWaves have [cap] elements each: thrust::transform writes one element per event; beyond the end: None. *)
Definition normalize_cap (cap : nat) (c : call (T := T)) (k : kept (T := T)) : option (kept (T := T) * T) :=
  if Nat.leb (length (events c)) cap then Some (normalize Ar c k) else None.
(** The values of the PDF at the events on the device (evaluate_with_metric, GooPdf.cu:112-136), before normalisation. *)
Definition values (c : call (T := T)) (k : kept (T := T)) : list T :=
  map (fun ep => coherent Ar c k (fst ep) (fst (snd ep)) (snd (snd ep))) (combine (seq 0 (length (events c))) (events c)).

(** The arrays of momenta returned in Python: Vector4R::get(k) is E, px, py, pz for k = 0, 1, 2, 3.
    python/PDFs/physics/Amp3Body.cpp:49, 54-60 takes k < 3; Amp4Body.cu:46, 51-57 and Amp4Body_TD.cu:52, 57-63 take k < 4. *)
Definition vget (p : vec4 T) (k : nat) : T := match k with 0%nat => ve p | 1%nat => vx p | 2%nat => vy p | _ => vz p end.
Definition py_particles (n : nat) (ps : list (list (vec4 T))) : list (list (list T)) := map (map (fun p => map (vget p) (seq 0 n))) ps.
Definition py_particles3 (ds : list daughters) : list (list (list T)) :=
  py_particles 3 [map (fun d => fst (fst d)) ds; map (fun d => snd (fst d)) ds; map (fun d => snd d) ds].
Definition py_particles4 (ps : list (list (vec4 T))) : list (list (list T)) := py_particles 4 ps.
End Gen.
Arguments mkGenerated {T}. Arguments g_particles {T}. Arguments g_vars {T}. Arguments g_weights {T}. Arguments g_flags {T}.
