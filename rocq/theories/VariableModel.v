(** Model of Variable.h / Variable.cpp: quantities are reached through handles whose members are shared pointers.

    The heap is a list of cells; std::make_shared appends a cell and returns its position.  Cells are never reclaimed
    (the reference count of a shared_ptr keeps a cell alive as long as a handle can reach it, so reclamation is not
    observable).  Representation of values: IEEE doubles. *)
From Coq Require Import List ZArith String Bool.
From Verif Require Import F64 ListAux.
Import ListNotations.

(** The four payload types behind the shared pointers. *)
Inductive cell : Type := CF (x : f64) | CI (x : Z) | CB (x : bool) | CN (x : Z).

Definition heap := list cell.

(** The members that are shared pointers.
    Indexable: Variable.h:28-37; Observable: Variable.h:114; Variable: Variable.h:228-240. *)
Inductive field : Type :=
| FValue | FLower | FUpper | FIndex      (* Indexable *)
| FNumBins                               (* Observable *)
| FError | FBlind | FChanged | FFixed | FFitterIndex. (* Variable *)

(** Pointers of the derived classes.  [is_event_number] (Variable.h:117) is a plain bool, copied with the handle. *)
Inductive ext : Type :=
| XObservable (numbins : nat) (is_event_number : bool)
| XVariable (error blind changed fixed fitter_index : nat).

(** A C++ object of type Observable / EventNumber / Variable (Variable.h:22-241): the name and its shared pointers. *)
Record handle : Type := mkHandle {
  h_name : string; h_value : nat; h_lower : nat; h_upper : nat; h_index : nat; h_ext : ext }.

(** Pointer member of a handle; [None] when the static type has no such member (does not compile in C++). *)
Definition ptr_of (h : handle) (f : field) : option nat :=
  match f with
  | FValue => Some (h_value h)
  | FLower => Some (h_lower h)
  | FUpper => Some (h_upper h)
  | FIndex => Some (h_index h)
  | FNumBins => match h_ext h with XObservable n _ => Some n | _ => None end
  | FError => match h_ext h with XVariable e _ _ _ _ => Some e | _ => None end
  | FBlind => match h_ext h with XVariable _ b _ _ _ => Some b | _ => None end
  | FChanged => match h_ext h with XVariable _ _ c _ _ => Some c | _ => None end
  | FFixed => match h_ext h with XVariable _ _ _ x _ => Some x | _ => None end
  | FFitterIndex => match h_ext h with XVariable _ _ _ _ i => Some i | _ => None end
  end.

(** Decimal literals of the constructors as doubles. *)
Definition f_0_01 : f64 := f_of_ZE 5764607523034235 (-59).
Definition f_0_002 : f64 := f_of_ZE 1152921504606847 (-59).
Definition f_0_1 : f64 := f_of_ZE 3602879701896397 (-55).
(** EventNumber::maxint, Variable.h:248: 1L << 53. *)
Definition f_maxint : f64 := f_of_Z (2 ^ 53).

(** The Observable constructor, Variable.h:120-121 with Indexable's, Variable.h:44-48: value 0, the given limits, index -1
    (Variable.h:37), 100 bins (Variable.h:114), not an event number. *)
Definition new_observable (hp : heap) (n : string) (lo up : f64) : heap * handle :=
  let b := List.length hp in
  (hp ++ [CF fzero; CF lo; CF up; CI (-1); CN 100],
   mkHandle n b (b + 1) (b + 2) (b + 3) (XObservable (b + 4) false)).

(** EventNumber::EventNumber, Variable.h:250-254 (same members, is_event_number = true, value 0). *)
Definition new_eventnumber (hp : heap) (n : string) (lo up : f64) : heap * handle :=
  let b := List.length hp in
  (hp ++ [CF fzero; CF lo; CF up; CI (-1); CN 100],
   mkHandle n b (b + 1) (b + 2) (b + 3) (XObservable (b + 4) true)).

(** Common part of the Variable constructors: members in declaration order, Variable.h:228-240: blind 0, changed true,
    fitter index -1. *)
Definition new_variable_cells (hp : heap) (n : string) (v lo up err : f64) (fix_ : bool) : heap * handle :=
  let b := List.length hp in
  (hp ++ [CF v; CF lo; CF up; CI (-1); CF err; CF fzero; CB true; CB fix_; CI (-1)],
   mkHandle n b (b + 1) (b + 2) (b + 3) (XVariable (b + 4) (b + 5) (b + 6) (b + 7) (b + 8))).

(** Variable(n, v), Variable.h:164-168. *)
Definition new_variable2 (hp : heap) (n : string) (v : f64) : heap * handle :=
  new_variable_cells hp n v (fadd v f_0_01) (fsub v f_0_01) f_0_002 true.
(** Variable(n, v, err), Variable.h:171-175. *)
Definition new_variable3 (hp : heap) (n : string) (v err : f64) : heap * handle :=
  new_variable_cells hp n v fzero fzero err true.
(** Variable(n, v, dn, up), Variable.h:178-180. *)
Definition new_variable4 (hp : heap) (n : string) (v dn up : f64) : heap * handle :=
  new_variable_cells hp n v dn up (fmul f_0_1 (fsub up dn)) false.
(** Variable(n, v, e, dn, up, fix = false), Variable.h:183-186. *)
Definition new_variable6 (hp : heap) (n : string) (v e dn up : f64) (fix_ : bool) : heap * handle :=
  new_variable_cells hp n v dn up e fix_.

Definition same_cell_type (a b : cell) : bool :=
  match a, b with CF _, CF _ | CI _, CI _ | CB _, CB _ | CN _, CN _ => true | _, _ => false end.

(** The getters: `*member` (Variable.h:58, 68, 73, 78, 128, 193, 198, 203, 206, 218). *)
Definition get_field (hp : heap) (h : handle) (f : field) : option cell :=
  match ptr_of h f with Some p => nth_error hp p | None => None end.

(** The setters: `*member = val` (Variable.h:60, 70, 75, 80, 126, 195, 200, 209, 212, 215).  A payload of the wrong type
    is ruled out by the C++ type system: [None]. *)
Definition set_field (hp : heap) (h : handle) (f : field) (v : cell) : option heap :=
  match ptr_of h f with
  | Some p => match nth_error hp p with
              | Some old => if same_cell_type old v then Some (upd hp p v) else None
              | None => None
              end
  | None => None
  end.

(** Reading a double member; 0 only when there is none (never for a handle made by a constructor). *)
Definition get_f (hp : heap) (h : handle) (f : field) : f64 :=
  match get_field hp h f with Some (CF x) => x | _ => fzero end.
Definition get_n (hp : heap) (h : handle) (f : field) : Z :=
  match get_field hp h f with Some (CN x) => x | _ => 0%Z end.
Definition set_f (hp : heap) (h : handle) (f : field) (x : f64) : heap :=
  match set_field hp h f (CF x) with Some hp' => hp' | None => hp end.

(** operator==, Variable.h:97: same value pointer. *)
Definition handle_eqb (a b : handle) : bool := Nat.eqb (h_value a) (h_value b).

(** isEventNumber, Variable.h:134. *)
Definition isEventNumber (h : handle) : bool :=
  match h_ext h with XObservable _ e => e | _ => false end.

(** operator bool, Variable.h:103-105, on the three numbers. *)
Definition in_range (lo up v : f64) : bool := feq up lo || (fle v up && fle lo v).
(** operator bool on a handle. *)
Definition handle_in_range (hp : heap) (h : handle) : bool :=
  in_range (get_f hp h FLower) (get_f hp h FUpper) (get_f hp h FValue).

(** isEqualNameValLimits / isEqualNameValLimitsErrBlindFixed, Variable.cpp:9-17. *)
Definition isEqualNameValLimits (a b : handle) : bool :=
  String.eqb (h_name a) (h_name b) && Nat.eqb (h_value a) (h_value b)
  && Nat.eqb (h_lower a) (h_lower b) && Nat.eqb (h_upper a) (h_upper b).
Definition isEqualNameValLimitsErrBlindFixed (a b : handle) : bool :=
  isEqualNameValLimits a b &&
  match h_ext a, h_ext b with
  | XVariable e1 b1 _ f1 _, XVariable e2 b2 _ f2 _ => Nat.eqb e1 e2 && Nat.eqb b1 b2 && Nat.eqb f1 f2
  | _, _ => false
  end.

(** ** Programs: sequences of user actions on numbered handles (handle k is the k-th object created). *)
Inductive op : Type :=
| NewObservable (n : string) (lo up : f64)
| NewEventNumber (n : string) (lo up : f64)
| NewVariable2 (n : string) (v : f64)
| NewVariable3 (n : string) (v err : f64)
| NewVariable4 (n : string) (v dn up : f64)
| NewVariable6 (n : string) (v e dn up : f64) (fix_ : bool)
| Copy (h : nat)                     (* copy construction, Variable.h:161 (defaulted): all pointers are copied *)
| Assign (dst src : nat)             (* a = b between objects of one type: implicit copy assignment *)
| Set_ (h : nat) (f : field) (v : cell)
| Get (h : nat) (f : field)
| Equal (a b : nat)
| EqualAll (a b : nat)
| InRange (h : nat)
| IsEventNumber (h : nat).

Inductive output : Type := ODone | OVal (c : cell) | OIllTyped.

Definition same_kind (a b : handle) : bool :=
  match h_ext a, h_ext b with XObservable _ _, XObservable _ _ | XVariable _ _ _ _ _, XVariable _ _ _ _ _ => true
  | _, _ => false end.

Definition vstate : Type := heap * list handle.

Definition add_handle (st : vstate) (r : heap * handle) : vstate := (fst r, snd st ++ [snd r]).

Definition vstep (st : vstate) (o : op) : vstate * output :=
  let '(hp, hs) := st in
  match o with
  | NewObservable n lo up => (add_handle st (new_observable hp n lo up), ODone)
  | NewEventNumber n lo up => (add_handle st (new_eventnumber hp n lo up), ODone)
  | NewVariable2 n v => (add_handle st (new_variable2 hp n v), ODone)
  | NewVariable3 n v e => (add_handle st (new_variable3 hp n v e), ODone)
  | NewVariable4 n v dn up => (add_handle st (new_variable4 hp n v dn up), ODone)
  | NewVariable6 n v e dn up fx => (add_handle st (new_variable6 hp n v e dn up fx), ODone)
  | Copy a => match nth_error hs a with
              | Some h => ((hp, hs ++ [h]), ODone)
              | None => (st, OIllTyped) end
  | Assign a b => match nth_error hs a, nth_error hs b with
                  | Some ha, Some hb => if same_kind ha hb then ((hp, upd hs a hb), ODone) else (st, OIllTyped)
                  | _, _ => (st, OIllTyped) end
  | Set_ a f v => match nth_error hs a with
                  | Some h => match set_field hp h f v with
                              | Some hp' => ((hp', hs), ODone)
                              | None => (st, OIllTyped) end
                  | None => (st, OIllTyped) end
  | Get a f => match nth_error hs a with
               | Some h => match get_field hp h f with Some c => (st, OVal c) | None => (st, OIllTyped) end
               | None => (st, OIllTyped) end
  | Equal a b => match nth_error hs a, nth_error hs b with
                 | Some ha, Some hb => (st, OVal (CB (handle_eqb ha hb)))
                 | _, _ => (st, OIllTyped) end
  | EqualAll a b => match nth_error hs a, nth_error hs b with
                    | Some ha, Some hb =>
                        match h_ext ha, h_ext hb with
                        | XVariable _ _ _ _ _, XVariable _ _ _ _ _ =>
                            (st, OVal (CB (isEqualNameValLimitsErrBlindFixed ha hb)))
                        | _, _ => (st, OIllTyped) end
                    | _, _ => (st, OIllTyped) end
  | InRange a => match nth_error hs a with
                 | Some h => (st, OVal (CB (handle_in_range hp h)))
                 | None => (st, OIllTyped) end
  | IsEventNumber a => match nth_error hs a with
                       | Some h => match h_ext h with
                                   | XObservable _ e => (st, OVal (CB e))
                                   | _ => (st, OIllTyped) end
                       | None => (st, OIllTyped) end
  end.

Fixpoint vrun (st : vstate) (ops : list op) : vstate * list output :=
  match ops with
  | [] => (st, [])
  | o :: t => let '(st1, out) := vstep st o in
              let '(st2, outs) := vrun st1 t in (st2, out :: outs)
  end.

Definition vinit : vstate := ([], []).
