(** Model of DataSet.h/.cpp and UnbinnedDataSet.h/.cpp.

    Values are IEEE doubles; the observables are handles into the heap of [VariableModel].
    Counts of type size_t are unbounded naturals (a data set of 2^64 events does not fit in memory). *)
From Coq Require Import List ZArith String Bool.
From Verif Require Import F64 ListAux VariableModel.
Import ListNotations.

(** Exceptions a call can end with: GooFit::OutOfRange, GooFit::GeneralError, std::out_of_range (vector::at). *)
Inductive exc : Type := EOutOfRange | EGeneral | EStdOutOfRange.
Inductive res (A : Type) : Type := Ok (a : A) | Throw (e : exc).
Arguments Ok {A}. Arguments Throw {A}.

(** UnbinnedDataSet: observables (DataSet.h:66), one column of doubles per observable (UnbinnedDataSet.h:85), and
    numEventsAdded (DataSet.h:54). *)
Record dataset : Type := mkDS { d_obs : list handle; d_data : list (list f64); d_num : nat }.

(** Constructors, UnbinnedDataSet.cpp:11-29: one empty column per observable. *)
Definition new_dataset (obs : list handle) : dataset := mkDS obs (map (fun _ => []) obs) 0.

(** DataSet::getCurrentValues, DataSet.cpp:40-48. *)
Definition getCurrentValues (hp : heap) (obs : list handle) : list f64 := map (fun h => get_f hp h FValue) obs.

(** DataSet::indexOfVariable, DataSet.cpp:52-58. *)
Fixpoint indexOfVariable (obs : list handle) (v : handle) : res nat :=
  match obs with
  | [] => Throw EGeneral
  | h :: t => if handle_eqb v h then Ok 0
              else match indexOfVariable t v with Ok i => Ok (S i) | Throw e => Throw e end
  end.

(** DataSet::checkAllVars, DataSet.cpp:72-77. *)
Fixpoint checkAllVars (hp : heap) (obs : list handle) : res unit :=
  match obs with
  | [] => Ok tt
  | h :: t => if handle_in_range hp h then checkAllVars hp t else Throw EOutOfRange
  end.

(** The loop of UnbinnedDataSet::addEvent, UnbinnedDataSet.cpp:60-62: `data.at(i++).push_back(v.getValue())`. *)
Fixpoint push_columns (hp : heap) (obs : list handle) (data : list (list f64)) : list (list f64) * res unit :=
  match obs, data with
  | [], _ => (data, Ok tt)
  | h :: t, col :: cols => let '(cols', r) := push_columns hp t cols in ((col ++ [get_f hp h FValue]) :: cols', r)
  | _ :: _, [] => ([], Throw EStdOutOfRange)
  end.

(** UnbinnedDataSet::addEvent, UnbinnedDataSet.cpp:58-64. *)
Definition addEvent (hp : heap) (d : dataset) : dataset * res unit :=
  match checkAllVars hp (d_obs d) with
  | Throw e => (d, Throw e)
  | Ok _ => let '(cols, r) := push_columns hp (d_obs d) (d_data d) in
            match r with
            | Ok _ => (mkDS (d_obs d) cols (S (d_num d)), Ok tt)
            | Throw e => (mkDS (d_obs d) cols (d_num d), Throw e)
            end
  end.

(** Writing a list of values through the observables, DataSet.h:38-39 and UnbinnedDataSet.h:57-59. *)
Fixpoint set_values (hp : heap) (obs : list handle) (vals : list f64) : heap :=
  match obs, vals with
  | h :: t, x :: xs => set_values (set_f hp h FValue x) t xs
  | _, _ => hp
  end.

(** DataSet::addEvent(value, args...), DataSet.h:30-41. *)
Definition addEventValues (hp : heap) (d : dataset) (vals : list f64) : heap * dataset * res unit :=
  if Nat.eqb (List.length vals) (List.length (d_obs d))
  then let hp' := set_values hp (d_obs d) vals in
       let '(d', r) := addEvent hp' d in (hp', d', r)
  else (hp, d, Throw EGeneral).

(** DataSet::addWeightedEvent, DataSet.cpp:36-38 (not overridden by UnbinnedDataSet). *)
Definition addWeightedEvent (d : dataset) (w : f64) : dataset * res unit := (d, Throw EGeneral).

(** UnbinnedDataSet::clear, UnbinnedDataSet.h:29-33. *)
Definition clear (d : dataset) : dataset := mkDS (d_obs d) (map (fun _ => []) (d_data d)) 0.

(** UnbinnedDataSet::getValue, UnbinnedDataSet.cpp:31-42.  `data[var_idx]` is unchecked in C++; a missing column would be
    undefined behaviour, here it is reported as std::out_of_range (proved not to happen). *)
Definition getValue (d : dataset) (v : handle) (idx : nat) : res f64 :=
  if Nat.leb (d_num d) idx then Throw EGeneral
  else match indexOfVariable (d_obs d) v with
       | Throw e => Throw e
       | Ok i => match nth_error (d_data d) i with
                 | Some col => match nth_error col idx with Some x => Ok x | None => Throw EStdOutOfRange end
                 | None => Throw EStdOutOfRange
                 end
       end.

(** UnbinnedDataSet::loadEvent, UnbinnedDataSet.cpp:44-49. *)
Fixpoint load_columns (hp : heap) (obs : list handle) (data : list (list f64)) (idx : nat) : heap * res unit :=
  match obs, data with
  | [], _ => (hp, Ok tt)
  | h :: t, col :: cols => match nth_error col idx with
                           | Some x => load_columns (set_f hp h FValue x) t cols idx
                           | None => (hp, Throw EStdOutOfRange) end
  | _ :: _, [] => (hp, Throw EStdOutOfRange)
  end.
Definition loadEvent (hp : heap) (d : dataset) (idx : nat) : heap * res unit :=
  load_columns hp (d_obs d) (d_data d) idx.

(** UnbinnedDataSet::setValueForAllEvents, UnbinnedDataSet.cpp:51-56: writes data[ivar][0..numEvents-1]. *)
Fixpoint fill_prefix (n : nat) (x : f64) (col : list f64) : list f64 :=
  match n, col with S n', _ :: t => x :: fill_prefix n' x t | _, _ => col end.
Definition setValueForAllEvents (hp : heap) (d : dataset) (v : handle) : dataset * res unit :=
  match indexOfVariable (d_obs d) v with
  | Throw e => (d, Throw e)
  | Ok i => match nth_error (d_data d) i with
            | Some col => (mkDS (d_obs d) (upd (d_data d) i (fill_prefix (d_num d) (get_f hp v FValue) col)) (d_num d), Ok tt)
            | None => (d, Throw EStdOutOfRange) end
  end.

(** UnbinnedDataSet::from_matrix, UnbinnedDataSet.h:48-69.  The Eigen matrix is given by its number of rows and its
    columns (one column per event, each with [rows] entries). *)
Fixpoint from_matrix_loop (hp : heap) (d : dataset) (rows : nat) (cols : list (list f64)) (filter_ : bool)
         (optional_index : nat) : heap * dataset * res unit :=
  match cols with
  | [] => (hp, d, Ok tt)
  | c :: cs =>
      let hp1 := set_values hp (firstn rows (d_obs d)) c in
      let extra := Nat.eqb (List.length (d_obs d)) (rows + 1) in
      let hp2 := if extra
                 then match nth_error (d_obs d) rows with
                      | Some h => set_f hp1 h FValue (f_of_Z (Z.of_nat optional_index))
                      | None => hp1 end
                 else hp1 in
      let next := if extra then S optional_index else optional_index in
      if negb filter_ || forallb (handle_in_range hp2) (d_obs d)
      then let '(d', r) := addEvent hp2 d in
           match r with
           | Ok _ => from_matrix_loop hp2 d' rows cs filter_ next
           | Throw e => (hp2, d', Throw e)
           end
      else from_matrix_loop hp2 d rows cs filter_ next
  end.
Definition from_matrix (hp : heap) (d : dataset) (rows : nat) (cols : list (list f64)) (filter_ : bool)
  : heap * dataset * res unit :=
  if negb (Nat.eqb (List.length (d_obs d)) rows) && negb (Nat.eqb (List.length (d_obs d)) (rows + 1))
  then (hp, d, Throw EGeneral)
  else from_matrix_loop hp d rows cols filter_ (d_num d).

(** UnbinnedDataSet::to_matrix, UnbinnedDataSet.h:73-82: number of rows and columns and the entries row by row. *)
Fixpoint all_some {A} (l : list (option A)) : option (list A) :=
  match l with
  | [] => Some []
  | Some x :: t => match all_some t with Some xs => Some (x :: xs) | None => None end
  | None :: _ => None
  end.
Definition to_matrix (d : dataset) : res (list (list f64)) :=
  match d_data d with
  | [] => Throw EStdOutOfRange                                  (* data.at(0) *)
  | c0 :: _ =>
      let cols := List.length c0 in
      match all_some (map (fun col => all_some (map (fun j => nth_error col j) (seq 0 cols))) (d_data d)) with
      | Some m => Ok m
      | None => Throw EStdOutOfRange
      end
  end.

(** make_a_grid, UnbinnedDataSet.cpp:67-89.  The list is kept reversed, so that its head is `ret.back()`.
    The bin count, read at every iteration in C++, is read once: nothing in the loop body writes it. *)
Fixpoint grid_loop (body : nat -> heap * dataset -> heap * dataset * res unit) (n i : nat) (st : heap * dataset)
  : heap * dataset * res unit :=
  match n with
  | O => (st, Ok tt)
  | S n' => let '(st', r) := body i st in
            match r with Ok _ => grid_loop body n' (S i) st' | Throw e => (st', Throw e) end
  end.

(** UnbinnedDataSet.cpp:84-85: lower + (i + 0.5) * step, step = (upper - lower) / numBins. *)
Definition grid_point (lo up : f64) (nb : Z) (i : nat) : f64 :=
  fadd lo (fmul (fadd (f_of_Z (Z.of_nat i)) fhalf) (fdiv (fsub up lo) (f_of_Z nb))).

Fixpoint make_a_grid (ret_rev : list handle) (eventNum : option handle) (st : heap * dataset)
  : heap * dataset * res unit :=
  match ret_rev with
  | [] => let '(hp, d) := st in
          let '(d', r) := addEvent hp d in
          match r with
          | Ok _ => (match eventNum with
                     | Some e => set_f hp e FValue (fadd (get_f hp e FValue) fone)
                     | None => hp end, d', Ok tt)
          | Throw e => (hp, d', Throw e)
          end
  | var :: rest =>
      if isEventNumber var then make_a_grid rest eventNum st
      else grid_loop (fun i '(hp, d) =>
             make_a_grid rest eventNum
               (set_f hp var FValue (grid_point (get_f hp var FLower) (get_f hp var FUpper) (get_n hp var FNumBins) i), d))
           (Z.to_nat (get_n (fst st) var FNumBins)) 0 st
  end.

(** The last event-number observable, UnbinnedDataSet.cpp:98-102. *)
Definition last_event_number (obs : list handle) : option handle :=
  fold_left (fun acc h => if isEventNumber h then Some h else acc) obs None.

(** UnbinnedDataSet::fillWithGrid, UnbinnedDataSet.cpp:91-105. *)
Definition fillWithGrid (hp : heap) (d : dataset) : heap * dataset * res unit :=
  if forallb (fun col => match col with [] => true | _ => false end) (d_data d)
  then make_a_grid (rev (d_obs d)) (last_event_number (d_obs d)) (hp, d)
  else (hp, d, Throw EGeneral).

(** ** Histories of API calls on one data set. *)
Inductive dop : Type :=
| DSet (h : handle) (f : field) (c : cell)           (* any user write to any observable or variable *)
| DAddEvent
| DAddEventValues (vals : list f64)
| DAddWeighted (w : f64)
| DSetAll (v : handle)
| DClear
| DLoad (idx : nat)
| DFromMatrix (rows : nat) (cols : list (list f64)) (filter_ : bool)
| DGetValue (v : handle) (idx : nat)
| DGetNumEvents
| DToMatrix.

Inductive dout : Type :=
| ROk | RThrow (e : exc) | RVal (x : f64) | RNum (n : nat) | RMat (m : list (list f64)).

Definition out_unit (r : res unit) : dout := match r with Ok _ => ROk | Throw e => RThrow e end.

Definition dstep (st : heap * dataset) (o : dop) : heap * dataset * dout :=
  let '(hp, d) := st in
  match o with
  | DSet h f c => (match set_field hp h f c with Some hp' => hp' | None => hp end, d, ROk)
  | DAddEvent => let '(d', r) := addEvent hp d in (hp, d', out_unit r)
  | DAddEventValues vals => let '(hp', d', r) := addEventValues hp d vals in (hp', d', out_unit r)
  | DAddWeighted w => let '(d', r) := addWeightedEvent d w in (hp, d', out_unit r)
  | DSetAll v => let '(d', r) := setValueForAllEvents hp d v in (hp, d', out_unit r)
  | DClear => (hp, clear d, ROk)
  | DLoad idx => let '(hp', r) := loadEvent hp d idx in (hp', d, out_unit r)
  | DFromMatrix rows cols fl => let '(hp', d', r) := from_matrix hp d rows cols fl in (hp', d', out_unit r)
  | DGetValue v idx => (hp, d, match getValue d v idx with Ok x => RVal x | Throw e => RThrow e end)
  | DGetNumEvents => (hp, d, RNum (d_num d))
  | DToMatrix => (hp, d, match to_matrix d with Ok m => RMat m | Throw e => RThrow e end)
  end.

Fixpoint drun (st : heap * dataset) (ops : list dop) : heap * dataset * list dout :=
  match ops with
  | [] => (st, [])
  | o :: t => let '(st1, out) := dstep st o in
              let '(st2, outs) := drun st1 t in (st2, out :: outs)
  end.
