(** What the claims about fitting (C32-C35) talk about. *)
From Coq Require Import List ZArith String Bool.
From Verif Require Import F64 VariableModel DeviceModel PdfModel PdfSpec FitModel.
Import ListNotations.
Open Scope nat_scope.

(** What may happen between the creation of the parameter object of PDF [k] (with [n] parameters) and a later call: calls
    with vectors of the right size, results, and anything of [quiet] (setting values, errors, limits and blinding offsets
    of any Variable, refreshing, normalising).  Not: another parameter object, which would renumber shared Variables. *)
Definition fquiet (ns : list snode) (k n : nat) (o : fop) : Prop :=
  match o with
  | FOther o => quiet ns k o
  | FCall v | FEval1 v => List.length v = n
  | _ => True
  end.

(** The members of a Variable as the getters return them. *)
Definition value_of (st : gstate) (h : handle) : f64 := get_f (g_heap st) h FValue.
Definition error_of (st : gstate) (h : handle) : f64 := get_f (g_heap st) h FError.
Definition blind_of (st : gstate) (h : handle) : f64 := get_f (g_heap st) h FBlind.
Definition lower_of (st : gstate) (h : handle) : f64 := get_f (g_heap st) h FLower.
Definition upper_of (st : gstate) (h : handle) : f64 := get_f (g_heap st) h FUpper.
Definition changed_of (st : gstate) (h : handle) : bool := match get_field (g_heap st) h FChanged with Some (CB b) => b | _ => false end.
Definition fixed_of (st : gstate) (h : handle) : bool := match get_field (g_heap st) h FFixed with Some (CB b) => b | _ => false end.

(** A cost function call of either minimiser interface. *)
Definition call (minuit1 : bool) (v : list f64) : fop := if minuit1 then FEval1 v else FCall v.
