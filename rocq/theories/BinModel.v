(** Model of BinnedDataSet.h/.cpp.

    Contents are IEEE doubles; bin numbers are integers with the C++ widths (size_t 64 bits, unsigned int 32 bits,
    int 32 bits) made explicit.  Undefined behaviour is the outcome [BUB]. *)
From Coq Require Import List ZArith String Bool.
From Verif Require Import F64 ListAux VariableModel DataSetModel.
Import ListNotations.
Open Scope Z_scope.

Inductive bres (A : Type) : Type := BOk (a : A) | BThrow (e : exc) | BUB.
Arguments BOk {A}. Arguments BThrow {A}. Arguments BUB {A}.

Definition bbind {A B} (r : bres A) (k : A -> bres B) : bres B :=
  match r with BOk a => k a | BThrow e => BThrow e | BUB => BUB end.

(** Conversions between the integer types. *)
Definition u32 (z : Z) : Z := z mod 2 ^ 32.
Definition u64 (z : Z) : Z := z mod 2 ^ 64.
Definition i32 (z : Z) : Z := (z + 2 ^ 31) mod 2 ^ 32 - 2 ^ 31.

(** The object: observables (DataSet.h:66), bin counts captured at construction, contents and errors
    (BinnedDataSet.h:61-63), numEventsAdded (DataSet.h:54). *)
Record binned : Type := mkBinned {
  b_obs : list handle; b_sizes : list Z; b_values : list f64; b_errors : list f64; b_num : nat }.

(** collectBins, BinnedDataSet.cpp:50-56. *)
Definition collectBins (hp : heap) (obs : list handle) : list Z := map (fun o => get_n hp o FNumBins) obs.

(** getNumBins, BinnedDataSet.cpp:135-137: std::accumulate whose accumulator has the type of the literal 1 (int), while
    std::multiplies<size_t> multiplies in 64 bits. *)
Definition getNumBins (sizes : list Z) : Z := u64 (fold_left (fun acc b => i32 (u64 (u64 acc * b))) sizes 1).

(** Constructors, BinnedDataSet.cpp:12-34: contents 0, no errors. *)
Definition new_binned (hp : heap) (obs : list handle) : binned :=
  let sizes := collectBins hp obs in
  mkBinned obs sizes (repeat fzero (Z.to_nat (getNumBins sizes))) [] 0.

(** localToGlobal, BinnedDataSet.cpp:64-75: ret and priorMatrixSize are unsigned int. *)
Fixpoint l2g_loop (ret prior : Z) (locals sizes : list Z) : Z :=
  match locals, sizes with
  | l :: ls, s :: ss => l2g_loop (u32 (ret + u64 (l * prior))) (u32 (prior * s)) ls ss
  | _, _ => ret
  end.
Definition localToGlobal (sizes locals : list Z) : Z := l2g_loop 0 1 locals sizes.

(** globalToLocal, BinnedDataSet.cpp:77-90.  Remainder by 0 is undefined. *)
Fixpoint globalToLocal (sizes : list Z) (g : Z) : bres (list Z) :=
  match sizes with
  | [] => BOk []
  | s :: ss => if s =? 0 then BUB
               else bbind (globalToLocal ss (g / s)) (fun r => BOk (g mod s :: r))
  end.

(** getBinSize, BinnedDataSet.cpp:107-109, for the observable with limits lo, up and n bins. *)
Definition bin_size (lo up : f64) (n : Z) : f64 := fdiv (fsub up lo) (f_of_Z n).

Definition getBinSize (hp : heap) (b : binned) (ivar : nat) : bres f64 :=
  match nth_error (b_obs b) ivar with
  | None => BThrow EStdOutOfRange                               (* observables.at(ivar) *)
  | Some o => match nth_error (b_sizes b) ivar with
              | Some n => BOk (bin_size (get_f hp o FLower) (get_f hp o FUpper) n)
              | None => BUB end
  end.

(** std::max and std::min of <algorithm>. *)
Definition std_max (a b : f64) : f64 := if flt a b then b else a.
Definition std_min (a b : f64) : f64 := if flt b a then b else a.

(** static_cast<size_t>(floor(x)): undefined unless the integer fits. *)
Definition floor_to_size_t (x : f64) : bres Z :=
  if f_isfinite x && (0 <=? ffloorZ x) && (ffloorZ x <? 2 ^ 64) then BOk (ffloorZ x) else BUB.

(** One iteration of convertValuesToBins, BinnedDataSet.cpp:149-158 (the log message is not modelled). *)
Definition value_to_bin (lo up : f64) (n : Z) (currval : f64) : bres Z :=
  let betval := std_min (std_max currval lo) up in
  floor_to_size_t (fdiv (fsub betval lo) (bin_size lo up n)).

(** convertValuesToBins, BinnedDataSet.cpp:143-162 (the sizes agree by construction, so no exception). *)
Fixpoint convertValuesToBins (hp : heap) (obs : list handle) (sizes : list Z) (vals : list f64) : bres (list Z) :=
  match obs, sizes, vals with
  | o :: os, n :: ns, v :: vs =>
      bbind (value_to_bin (get_f hp o FLower) (get_f hp o FUpper) n v) (fun l =>
      bbind (convertValuesToBins hp os ns vs) (fun r => BOk (l :: r)))
  | _, _, _ => BOk []
  end.

(** getBinNumber, BinnedDataSet.cpp:58-62. *)
Definition getBinNumber (hp : heap) (b : binned) : bres Z :=
  bbind (convertValuesToBins hp (b_obs b) (b_sizes b) (getCurrentValues hp (b_obs b))) (fun locals =>
  BOk (localToGlobal (b_sizes b) locals)).

(** addEvent and addWeightedEvent, BinnedDataSet.cpp:36-48. *)
Definition add_weight (hp : heap) (b : binned) (w : f64) : binned * bres unit :=
  match checkAllVars hp (b_obs b) with
  | Throw e => (b, BThrow e)
  | Ok _ =>
      match getBinNumber hp b with
      | BOk ibin =>
          match nth_error (b_values b) (Z.to_nat ibin) with
          | Some old => (mkBinned (b_obs b) (b_sizes b) (upd (b_values b) (Z.to_nat ibin) (fadd old w)) (b_errors b)
                                  (S (b_num b)), BOk tt)
          | None => (b, BThrow EStdOutOfRange)                    (* binvalues.at(ibin) *)
          end
      | BThrow e => (b, BThrow e)
      | BUB => (b, BUB)
      end
  end.
Definition b_addEvent (hp : heap) (b : binned) : binned * bres unit := add_weight hp b fone.
Definition b_addWeightedEvent (hp : heap) (b : binned) (w : f64) : binned * bres unit := add_weight hp b w.

(** DataSet::addEvent(value, args...), DataSet.h:30-41. *)
Definition b_addEventValues (hp : heap) (b : binned) (vals : list f64) : heap * binned * bres unit :=
  if Nat.eqb (List.length vals) (List.length (b_obs b))
  then let hp' := set_values hp (b_obs b) vals in
       let '(b', r) := b_addEvent hp' b in (hp', b', r)
  else (hp, b, BThrow EGeneral).

(** getBinContent, BinnedDataSet.h:28; setBinContent, BinnedDataSet.h:49. *)
Definition getBinContent (b : binned) (bin : nat) : bres f64 :=
  match nth_error (b_values b) bin with Some x => BOk x | None => BThrow EStdOutOfRange end.
Definition setBinContent (b : binned) (bin : nat) (x : f64) : binned * bres unit :=
  match nth_error (b_values b) bin with
  | Some _ => (mkBinned (b_obs b) (b_sizes b) (upd (b_values b) bin x) (b_errors b) (b_num b), BOk tt)
  | None => (b, BThrow EStdOutOfRange) end.

(** getBinCenter, BinnedDataSet.cpp:92-100: size * (local + 0.5) + lower. *)
Definition bin_center (lo up : f64) (n : Z) (localBin : Z) : f64 :=
  fadd (fmul (bin_size lo up n) (fadd (f_of_Z localBin) fhalf)) lo.
Definition getBinCenter (hp : heap) (b : binned) (ivar : nat) (bin : Z) : bres f64 :=
  bbind (globalToLocal (b_sizes b) bin) (fun locals =>
  match nth_error locals ivar, nth_error (b_obs b) ivar, nth_error (b_sizes b) ivar with
  | Some l, Some o, Some n => BOk (bin_center (get_f hp o FLower) (get_f hp o FUpper) n l)
  | None, _, _ => BThrow EStdOutOfRange                          (* locals.at(ivar) *)
  | _, _, _ => BUB
  end).

(** getBinVolume, BinnedDataSet.cpp:111-119 (does not depend on the bin). *)
Fixpoint volume_loop (hp : heap) (obs : list handle) (sizes : list Z) (ret : f64) : f64 :=
  match obs, sizes with
  | o :: os, n :: ns => volume_loop hp os ns (fmul ret (bin_size (get_f hp o FLower) (get_f hp o FUpper) n))
  | _, _ => ret
  end.
Definition getBinVolume (hp : heap) (b : binned) : f64 := volume_loop hp (b_obs b) (b_sizes b) fone.

(** getBinError / setBinError, BinnedDataSet.cpp:121-133. *)
Definition getBinError (b : binned) (bin : nat) : bres f64 :=
  match b_errors b with
  | [] => match nth_error (b_values b) bin with Some x => BOk (fsqrt x) | None => BThrow EStdOutOfRange end
  | _ => match nth_error (b_errors b) bin with Some x => BOk x | None => BThrow EStdOutOfRange end
  end.
Definition setBinError (b : binned) (bin : nat) (e : f64) : binned * bres unit :=
  let errs := match b_errors b with [] => map (fun _ => fzero) (b_values b) | es => es end in
  match nth_error errs bin with
  | Some _ => (mkBinned (b_obs b) (b_sizes b) (b_values b) (upd errs bin e) (b_num b), BOk tt)
  | None => (mkBinned (b_obs b) (b_sizes b) (b_values b) errs (b_num b), BThrow EStdOutOfRange)
  end.

(** getNumWeightedEvents, BinnedDataSet.cpp:139-141: std::accumulate with an int accumulator (literal 0): each partial
    sum int + double is converted back to int by truncation, undefined when it does not fit. *)
Fixpoint weighted_loop (acc : Z) (l : list f64) : bres Z :=
  match l with
  | [] => BOk acc
  | x :: t => let s := fadd (f_of_Z acc) x in
              if f_isfinite s && (- 2 ^ 31 <=? ftruncZ s) && (ftruncZ s <? 2 ^ 31)
              then weighted_loop (ftruncZ s) t else BUB
  end.
Definition getNumWeightedEvents (b : binned) : bres f64 :=
  bbind (weighted_loop 0 (b_values b)) (fun z => BOk (f_of_Z z)).

(** ** Histories of API calls. *)
Inductive bop : Type :=
| BSet (h : handle) (f : field) (c : cell)
| BAddEvent
| BAddEventValues (vals : list f64)
| BAddWeighted (w : f64)
| BSetContent (bin : nat) (x : f64)
| BSetError (bin : nat) (e : f64)
| BGetContent (bin : nat)
| BGetError (bin : nat)
| BGetNumEvents
| BGetNumBins
| BGetBinNumber
| BGetBinCenter (ivar : nat) (bin : nat)
| BGetBinSize (ivar : nat)
| BGetBinVolume
| BGetNumWeighted.

Inductive bout : Type := BROk | BRThrow (e : exc) | BRUB | BRVal (x : f64) | BRNum (n : Z).

Definition bout_unit (r : bres unit) : bout := match r with BOk _ => BROk | BThrow e => BRThrow e | BUB => BRUB end.
Definition bout_val (r : bres f64) : bout := match r with BOk x => BRVal x | BThrow e => BRThrow e | BUB => BRUB end.
Definition bout_num (r : bres Z) : bout := match r with BOk x => BRNum x | BThrow e => BRThrow e | BUB => BRUB end.

Definition bstep (st : heap * binned) (o : bop) : heap * binned * bout :=
  let '(hp, b) := st in
  match o with
  | BSet h f c => (match set_field hp h f c with Some hp' => hp' | None => hp end, b, BROk)
  | BAddEvent => let '(b', r) := b_addEvent hp b in (hp, b', bout_unit r)
  | BAddEventValues vals => let '(hp', b', r) := b_addEventValues hp b vals in (hp', b', bout_unit r)
  | BAddWeighted w => let '(b', r) := b_addWeightedEvent hp b w in (hp, b', bout_unit r)
  | BSetContent i x => let '(b', r) := setBinContent b i x in (hp, b', bout_unit r)
  | BSetError i e => let '(b', r) := setBinError b i e in (hp, b', bout_unit r)
  | BGetContent i => (hp, b, bout_val (getBinContent b i))
  | BGetError i => (hp, b, bout_val (getBinError b i))
  | BGetNumEvents => (hp, b, BRNum (Z.of_nat (b_num b)))
  | BGetNumBins => (hp, b, BRNum (getNumBins (b_sizes b)))
  | BGetBinNumber => (hp, b, bout_num (getBinNumber hp b))
  | BGetBinCenter i k => (hp, b, bout_val (getBinCenter hp b i (Z.of_nat k)))
  | BGetBinSize i => (hp, b, bout_val (getBinSize hp b i))
  | BGetBinVolume => (hp, b, BRVal (getBinVolume hp b))
  | BGetNumWeighted => (hp, b, bout_val (getNumWeightedEvents b))
  end.

Fixpoint brun (st : heap * binned) (ops : list bop) : heap * binned * list bout :=
  match ops with
  | [] => (st, [])
  | o :: t => let '(st1, out) := bstep st o in
              let '(st2, outs) := brun st1 t in (st2, out :: outs)
  end.
