(** Specification of an unbinned data set: a list of events, each event the list of the values of the observables. *)
From Coq Require Import List ZArith Bool.
From Verif Require Import F64 VariableModel DataSetModel.
Import ListNotations.

(** The current values of the observables live in the heap that the user shares with the data set. *)
Record dspec : Type := mkSpec { e_heap : heap; e_events : list (list f64) }.

Definition current (hp : heap) (obs : list handle) : list f64 := map (fun h => get_f hp h FValue) obs.
Definition all_in_range (hp : heap) (obs : list handle) : bool := forallb (handle_in_range hp) obs.

(** Position of a variable among the observables: the first one that is the same quantity. *)
Definition position (obs : list handle) (v : handle) : option nat :=
  find (fun i => match nth_error obs i with Some h => handle_eqb v h | None => false end) (seq 0 (length obs)).

(** Assign the listed values to the observables. *)
Definition assign (hp : heap) (obs : list handle) (vals : list f64) : heap :=
  fold_left (fun hp p => set_f hp (fst p) FValue (snd p)) (combine obs vals) hp.

Definition spec_add (obs : list handle) (s : dspec) : dspec * dout :=
  if all_in_range (e_heap s) obs
  then (mkSpec (e_heap s) (e_events s ++ [current (e_heap s) obs]), ROk)
  else (s, RThrow EOutOfRange).

Definition set_coordinate (i : nat) (x : f64) (ev : list f64) : list f64 := firstn i ev ++ x :: skipn (S i) ev.

(** Importing events one after the other: each event's values are assigned (with the running index as last observable when
    the matrix has one row less than there are observables), then the event is added, or skipped when filtering. *)
Fixpoint spec_import (obs : list handle) (s : dspec) (with_index filter_ : bool) (index : nat) (evs : list (list f64))
  : dspec * dout :=
  match evs with
  | [] => (s, ROk)
  | ev :: rest =>
      let vals := if with_index then ev ++ [f_of_Z (Z.of_nat index)] else ev in
      let s1 := mkSpec (assign (e_heap s) obs vals) (e_events s) in
      if filter_ && negb (all_in_range (e_heap s1) obs)
      then spec_import obs s1 with_index filter_ (S index) rest
      else match spec_add obs s1 with
           | (s2, ROk) => spec_import obs s2 with_index filter_ (S index) rest
           | (s2, e) => (s2, e)
           end
  end.

Definition spec_step (obs : list handle) (s : dspec) (o : dop) : dspec * dout :=
  let n := length obs in
  match o with
  | DSet h f c => (mkSpec (match set_field (e_heap s) h f c with Some hp => hp | None => e_heap s end) (e_events s), ROk)
  | DAddEvent => spec_add obs s
  | DAddEventValues vals =>
      if Nat.eqb (length vals) n then spec_add obs (mkSpec (assign (e_heap s) obs vals) (e_events s))
      else (s, RThrow EGeneral)
  | DAddWeighted _ => (s, RThrow EGeneral)
  | DSetAll v => match position obs v with
                 | Some i => (mkSpec (e_heap s) (map (set_coordinate i (get_f (e_heap s) v FValue)) (e_events s)), ROk)
                 | None => (s, RThrow EGeneral) end
  | DClear => (mkSpec (e_heap s) [], ROk)
  | DLoad idx => match nth_error (e_events s) idx with
                 | Some ev => (mkSpec (assign (e_heap s) obs ev) (e_events s), ROk)
                 | None => (s, if Nat.eqb n 0 then ROk else RThrow EStdOutOfRange) end
  | DFromMatrix rows cols fl =>
      if Nat.eqb n rows then spec_import obs s false fl (length (e_events s)) cols
      else if Nat.eqb n (rows + 1) then spec_import obs s true fl (length (e_events s)) cols
      else (s, RThrow EGeneral)
  | DGetValue v idx =>
      (s, match nth_error (e_events s) idx, position obs v with
          | Some ev, Some i => match nth_error ev i with Some x => RVal x | None => RThrow EStdOutOfRange end
          | _, _ => RThrow EGeneral end)
  | DGetNumEvents => (s, RNum (length (e_events s)))
  | DToMatrix =>
      (s, if Nat.eqb n 0 then RThrow EStdOutOfRange
          else RMat (map (fun j => map (fun ev => nth j ev fzero) (e_events s)) (seq 0 n)))
  end.

Fixpoint spec_run (obs : list handle) (s : dspec) (ops : list dop) : dspec * list dout :=
  match ops with
  | [] => (s, [])
  | o :: t => let '(s1, out) := spec_step obs s o in
              let '(s2, outs) := spec_run obs s1 t in (s2, out :: outs)
  end.

(** Matrices in a history have the number of entries per event that they declare. *)
Definition op_ok (o : dop) : Prop :=
  match o with DFromMatrix rows cols _ => Forall (fun c => length c = rows) cols | _ => True end.
