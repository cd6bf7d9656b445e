(** Small utilities: compensated summation, Uncertain values and SmartVector. *)
From Coq Require Import List Bool Arith.
From Verif Require Import F64 ListAux CombineSpec.
Import ListNotations.

(** ** MathUtils::doNeumaierSummation, MathUtils.cpp:11-30
    In any arithmetic: doubles are the code; [ge_abs a b] is std::abs(a) >= std::abs(b).  The int loop counter is unbounded
    here: vectors of more than 2^31 - 1 elements are not modelled. *)
Section Neumaier.
Context {T : Type} (A : arith T) (ge_abs : T -> T -> bool).
(** One pass of the loop, :19-27, on (sum, c). *)
Definition neumaier_step (st : T * T) (x : T) : T * T :=
  let '(sum, c) := st in
  let t := add A sum x in
  let c' := if ge_abs sum x then add A c (add A (sub A sum t) x) else add A c (add A (sub A x t) sum) in
  (t, c').
Definition neumaier (vals : list T) : T :=
  match vals with
  | [x] => x
  | _ => let '(sum, c) := fold_left neumaier_step vals (zero A, zero A) in add A sum c
  end.
End Neumaier.
Definition f64_ge_abs (a b : f64) : bool := fle (fabs b) (fabs a).
Definition doNeumaierSummation (vals : list f64) : f64 := neumaier f64_arith f64_ge_abs vals.

(** ** Uncertain, Uncertain.h:38-95
    [neg u] is m_uncertainty < 0, which throws (:45-50); [None]: that exception. *)
Section Uncertain.
Context {T : Type} (A : arith T) (neg : T -> bool).
Record uncertain : Type := mkU { u_value : T; u_unc : T }.
Definition uncertain_of (v u : T) : option uncertain := if neg u then None else Some (mkU v u).
(** get_relative_uncertainty, :60 *)
Definition relative (a : uncertain) : T := div A (u_unc a) (u_value a).
(** :70-72, :74-76, :78-80, :85-87 *)
Definition u_add (a b : uncertain) := uncertain_of (add A (u_value a) (u_value b)) (add A (u_unc a) (u_unc b)).
Definition u_sub (a b : uncertain) := uncertain_of (sub A (u_value a) (u_value b)) (add A (u_unc a) (u_unc b)).
Definition u_mul (a b : uncertain) := uncertain_of (mul A (u_value a) (u_value b)) (add A (relative a) (relative b)).
Definition u_div (a b : uncertain) := uncertain_of (div A (u_value a) (u_value b)) (add A (relative a) (relative b)).
(** :83 and :93-95, :89 *)
Definition u_scale (a : uncertain) (k : T) := uncertain_of (mul A (u_value a) k) (mul A (u_unc a) k).
Definition u_over (a : uncertain) (k : T) := uncertain_of (div A (u_value a) k) (div A (u_unc a) k).
(** Expressions a program can write with these operators. *)
Inductive uexpr : Type :=
| UConst (v u : T) | UAdd (a b : uexpr) | USub (a b : uexpr) | UMul (a b : uexpr) | UDiv (a b : uexpr) | UScale (a : uexpr) (k : T) | UOver (a : uexpr) (k : T).
Definition bind2 (x y : option uncertain) (f : uncertain -> uncertain -> option uncertain) : option uncertain :=
  match x, y with Some a, Some b => f a b | _, _ => None end.
Fixpoint u_eval (e : uexpr) : option uncertain :=
  match e with
  | UConst v u => uncertain_of v u
  | UAdd a b => bind2 (u_eval a) (u_eval b) u_add
  | USub a b => bind2 (u_eval a) (u_eval b) u_sub
  | UMul a b => bind2 (u_eval a) (u_eval b) u_mul
  | UDiv a b => bind2 (u_eval a) (u_eval b) u_div
  | UScale a k => match u_eval a with Some x => u_scale x k | None => None end
  | UOver a k => match u_eval a with Some x => u_over x k | None => None end
  end.
End Uncertain.
Arguments mkU {T}.

(** ** SmartVector on a GPU, SmartVectorGPU.h:22-67
    The vector itself (host), local_copy and device_copy.  [neqb] is the != of the element type.  [None]: a write past the
    end of device_copy, :55 after clear_device. *)
Section Smart.
Context {T : Type} (neqb : T -> T -> bool).
Record smart : Type := mkS { s_host : list T; s_local : list T; s_dev : list T }.
Inductive sop : Type := Push (x : T) | Clear | Assign (i : nat) (x : T) | Sync | SmartSync | ClearDevice.
(** :36-44 *)
Definition s_sync (v : smart) : smart := mkS (s_host v) (s_host v) (s_host v).
(** The loop :53-55. *)
Fixpoint s_loop (host local dev : list T) : option (list T * list T) :=
  match host, local with
  | h :: host', l :: local' =>
      if neqb l h then
        match dev with
        | [] => None
        | _ :: dev' => match s_loop host' local' dev' with Some (ls, ds) => Some (h :: ls, h :: ds) | None => None end
        end
      else match s_loop host' local' (tl dev) with
           | Some (ls, ds) => Some (l :: ls, match dev with [] => [] | d :: _ => d :: ds end)
           | None => None
           end
  | _, _ => Some (local, dev)
  end.
(** :48-57 *)
Definition s_smart_sync (v : smart) : option smart :=
  if Nat.eqb (length (s_local v)) (length (s_host v)) then
    match s_loop (s_host v) (s_local v) (s_dev v) with Some (l, d) => Some (mkS (s_host v) l d) | None => None end
  else Some (s_sync v).
(** push_back, clear and operator[] are those of std::vector; an Assign outside the vector is not a call a program may
    make and is ignored.  :62-66 for ClearDevice. *)
Definition s_step (v : smart) (o : sop) : option smart :=
  match o with
  | Push x => Some (mkS (s_host v ++ [x]) (s_local v) (s_dev v))
  | Clear => Some (mkS [] (s_local v) (s_dev v))
  | Assign i x => Some (mkS (if Nat.ltb i (length (s_host v)) then upd (s_host v) i x else s_host v) (s_local v) (s_dev v))
  | Sync => Some (s_sync v)
  | SmartSync => s_smart_sync v
  | ClearDevice => Some (mkS (s_host v) (s_local v) [])
  end.
Fixpoint s_run (v : smart) (ops : list sop) : option smart :=
  match ops with [] => Some v | o :: t => match s_step v o with Some v' => s_run v' t | None => None end end.
End Smart.
Arguments mkS {T}.
Arguments sop T : clear implicits.
Definition s_new {T} : smart := @mkS T [] [] [].

(** ** SmartVector on a CPU, SmartVectorCPU.h:19-45
    The device pointer is the address of the vector's storage.  Storage blocks are numbered; a push_back beyond the
    capacity moves the elements to a new block ([grow n] is the capacity of the new block, chosen by the library), which
    leaves pointers to the old one dangling. *)
Section SmartCpu.
Context {T : Type} (grow : nat -> nat).
Record cvec : Type := mkC { c_data : list T; c_cap : nat; c_block : nat; c_ptr : option nat }.
Definition c_new : cvec := mkC [] 0 0 None.
Definition c_step (v : cvec) (o : sop T) : cvec :=
  match o with
  | Push x => if Nat.ltb (length (c_data v)) (c_cap v) then mkC (c_data v ++ [x]) (c_cap v) (c_block v) (c_ptr v)
              else mkC (c_data v ++ [x]) (grow (length (c_data v))) (S (c_block v)) (c_ptr v)
  | Clear => mkC [] (c_cap v) (c_block v) (c_ptr v)
  | Assign i x => mkC (if Nat.ltb i (length (c_data v)) then upd (c_data v) i x else c_data v) (c_cap v) (c_block v) (c_ptr v)
  | Sync | SmartSync => mkC (c_data v) (c_cap v) (c_block v) (Some (c_block v))
  | ClearDevice => v
  end.
Definition c_run (v : cvec) (ops : list (sop T)) : cvec := fold_left c_step ops v.
(** The device code reads element [i] through the pointer; [None]: undefined. *)
Definition c_read (v : cvec) (i : nat) : option T :=
  match c_ptr v with Some b => if Nat.eqb b (c_block v) then nth_error (c_data v) i else None | None => None end.
End SmartCpu.
