(** Specification for handles (C02, C03): there are *quantities*, plain records of values, and every handle name simply
    denotes one quantity.  No pointers. *)
From Coq Require Import List ZArith String Bool Reals.
From Verif Require Import F64 VariableModel.
Import ListNotations.

Inductive kind : Type := KObservable (event_number : bool) | KVariable.

Record quantity : Type := { q_name : string; q_kind : kind; q_val : field -> option cell }.

(** What each kind of quantity consists of. *)
Definition obs_quantity (n : string) (ev : bool) (lo up : f64) : quantity :=
  {| q_name := n; q_kind := KObservable ev;
     q_val := fun f => match f with
       | FValue => Some (CF fzero) | FLower => Some (CF lo) | FUpper => Some (CF up) | FIndex => Some (CI (-1))
       | FNumBins => Some (CN 100) | _ => None end |}.
Definition var_quantity (n : string) (v e lo up : f64) (fixed_ : bool) : quantity :=
  {| q_name := n; q_kind := KVariable;
     q_val := fun f => match f with
       | FValue => Some (CF v) | FLower => Some (CF lo) | FUpper => Some (CF up) | FIndex => Some (CI (-1))
       | FError => Some (CF e) | FBlind => Some (CF fzero) | FChanged => Some (CB true)
       | FFixed => Some (CB fixed_) | FFitterIndex => Some (CI (-1)) | FNumBins => None end |}.

Definition field_eqb (f g : field) : bool :=
  match f, g with
  | FValue, FValue | FLower, FLower | FUpper, FUpper | FIndex, FIndex | FNumBins, FNumBins | FError, FError
  | FBlind, FBlind | FChanged, FChanged | FFixed, FFixed | FFitterIndex, FFitterIndex => true
  | _, _ => false end.

Definition q_set (q : quantity) (f : field) (v : cell) : quantity :=
  {| q_name := q_name q; q_kind := q_kind q; q_val := fun g => if field_eqb g f then Some v else q_val q g |}.

(** The specification state: the quantities, and which quantity each handle denotes. *)
Record sstate : Type := { s_quantities : list quantity; s_denotes : list nat }.

Definition s_new (s : sstate) (q : quantity) : sstate :=
  {| s_quantities := s_quantities s ++ [q]; s_denotes := s_denotes s ++ [List.length (s_quantities s)] |}.

Definition replace_nth {A} (l : list A) (i : nat) (x : A) : list A := firstn i l ++ match skipn i l with [] => [] | _ :: t => x :: t end.

Definition s_quantity (s : sstate) (h : nat) : option quantity :=
  match nth_error (s_denotes s) h with Some q => nth_error (s_quantities s) q | None => None end.

Definition kinds_agree (a b : kind) : bool :=
  match a, b with KObservable _, KObservable _ | KVariable, KVariable => true | _, _ => false end.

Definition fval (q : quantity) (f : field) : f64 := match q_val q f with Some (CF x) => x | _ => fzero end.

Definition sstep (s : sstate) (o : op) : sstate * output :=
  match o with
  | NewObservable n lo up => (s_new s (obs_quantity n false lo up), ODone)
  | NewEventNumber n lo up => (s_new s (obs_quantity n true lo up), ODone)
  | NewVariable2 n v => (s_new s (var_quantity n v f_0_002 (fadd v f_0_01) (fsub v f_0_01) true), ODone)
  | NewVariable3 n v e => (s_new s (var_quantity n v e fzero fzero true), ODone)
  | NewVariable4 n v dn up => (s_new s (var_quantity n v (fmul f_0_1 (fsub up dn)) dn up false), ODone)
  | NewVariable6 n v e dn up fx => (s_new s (var_quantity n v e dn up fx), ODone)
  | Copy a => match nth_error (s_denotes s) a with
              | Some q => ({| s_quantities := s_quantities s; s_denotes := s_denotes s ++ [q] |}, ODone)
              | None => (s, OIllTyped) end
  | Assign a b => match s_quantity s a, s_quantity s b, nth_error (s_denotes s) b with
                  | Some qa, Some qb, Some ib =>
                      if kinds_agree (q_kind qa) (q_kind qb)
                      then ({| s_quantities := s_quantities s; s_denotes := replace_nth (s_denotes s) a ib |}, ODone)
                      else (s, OIllTyped)
                  | _, _, _ => (s, OIllTyped) end
  | Set_ a f v => match nth_error (s_denotes s) a, s_quantity s a with
                  | Some i, Some q =>
                      match q_val q f with
                      | Some old => if same_cell_type old v
                          then ({| s_quantities := replace_nth (s_quantities s) i (q_set q f v);
                                   s_denotes := s_denotes s |}, ODone)
                          else (s, OIllTyped)
                      | None => (s, OIllTyped) end
                  | _, _ => (s, OIllTyped) end
  | Get a f => match s_quantity s a with
               | Some q => match q_val q f with Some c => (s, OVal c) | None => (s, OIllTyped) end
               | None => (s, OIllTyped) end
  | Equal a b => match nth_error (s_denotes s) a, nth_error (s_denotes s) b with
                 | Some i, Some j => (s, OVal (CB (Nat.eqb i j)))
                 | _, _ => (s, OIllTyped) end
  | EqualAll a b => match nth_error (s_denotes s) a, nth_error (s_denotes s) b, s_quantity s a, s_quantity s b with
                 | Some i, Some j, Some qa, Some qb =>
                     match q_kind qa, q_kind qb with
                     | KVariable, KVariable => (s, OVal (CB (Nat.eqb i j)))
                     | _, _ => (s, OIllTyped) end
                 | _, _, _, _ => (s, OIllTyped) end
  | InRange a => match s_quantity s a with
                 | Some q => (s, OVal (CB (in_range (fval q FLower) (fval q FUpper) (fval q FValue))))
                 | None => (s, OIllTyped) end
  | IsEventNumber a => match s_quantity s a with
                 | Some q => match q_kind q with KObservable e => (s, OVal (CB e)) | _ => (s, OIllTyped) end
                 | None => (s, OIllTyped) end
  end.

Fixpoint srun (s : sstate) (ops : list op) : sstate * list output :=
  match ops with
  | [] => (s, [])
  | o :: t => let '(s1, out) := sstep s o in
              let '(s2, outs) := srun s1 t in (s2, out :: outs)
  end.

Definition sinit : sstate := {| s_quantities := []; s_denotes := [] |}.

(** C02: when a value is acceptable for limits lo, up, in terms of the numbers the doubles stand for. *)
Definition acceptable (lo up v : f64) : Prop :=
  xeq (meaning lo) (meaning up) \/ (xle (meaning lo) (meaning v) /\ xle (meaning v) (meaning up)).
