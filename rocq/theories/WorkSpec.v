(** What a program did with a convolution, for C117. *)
From Coq Require Import List.
From Verif Require Import ConvModel WorkModel.
Import ListNotations.

Section Spec.
Context {T : Type}.
(** The model and the resolution at the last normalisation. *)
Fixpoint last_normalised (now : option ((T -> T) * (T -> T))) (h : list (op T)) : option ((T -> T) * (T -> T)) :=
  match h with
  | [] => now
  | Normalize f _ g _ :: t => last_normalised (Some (f, g)) t
  | _ :: t => last_normalised now t
  end.
(** Whenever the model, or the resolution, is not what it was at the previous normalisation, parametersChanged() says so. *)
Fixpoint announced (before : option ((T -> T) * (T -> T))) (h : list (op T)) : Prop :=
  match h with
  | [] => True
  | Normalize f b g b' :: t =>
      match before with
      | None => True
      | Some (f0, g0) => (b = true \/ forall x, f0 x = f x) /\ (b' = true \/ forall x, g0 x = g x)
      end /\ announced (Some (f, g)) t
  | _ :: t => announced before t
  end.
Definition keeps_constants (h : list (op T)) : Prop := forall c, ~ In (Set_constants c) h.
End Spec.
