(** List helpers shared by the models: updating a position, and facts about it. *)
From Coq Require Import List Arith Lia.
Import ListNotations.

(** [upd l i x]: l with position i replaced by x (unchanged when i is out of range; every use in a model is guarded). *)
Fixpoint upd {A} (l : list A) (i : nat) (x : A) : list A :=
  match l, i with
  | [], _ => []
  | _ :: t, O => x :: t
  | a :: t, S j => a :: upd t j x
  end.

Lemma upd_length : forall {A} (l : list A) i x, length (upd l i x) = length l.
Proof. intros A l; induction l as [|a t IH]; intros [|i] x; simpl; auto. Qed.

Lemma nth_error_upd_same : forall {A} (l : list A) i x, i < length l -> nth_error (upd l i x) i = Some x.
Proof. intros A l; induction l as [|a t IH]; intros [|i] x H; simpl in *; try lia; auto. apply IH; lia. Qed.

Lemma nth_error_upd_other : forall {A} (l : list A) i j x, i <> j -> nth_error (upd l i x) j = nth_error l j.
Proof. intros A l; induction l as [|a t IH]; intros [|i] [|j] x H; simpl; auto; try lia. Qed.

Lemma nth_upd_same : forall {A} (l : list A) i x d, i < length l -> nth i (upd l i x) d = x.
Proof. intros A l; induction l as [|a t IH]; intros [|i] x d H; simpl in *; try lia; auto. apply IH; lia. Qed.

Lemma nth_upd_other : forall {A} (l : list A) i j x d, i <> j -> nth j (upd l i x) d = nth j l d.
Proof. intros A l; induction l as [|a t IH]; intros [|i] [|j] x d H; simpl; auto; try lia. Qed.

Lemma upd_app_r : forall {A} (l1 l2 : list A) i x, upd (l1 ++ l2) (length l1 + i) x = l1 ++ upd l2 i x.
Proof. intros A l1; induction l1 as [|a t IH]; intros; simpl; f_equal; auto. Qed.

Lemma upd_app_l : forall {A} (l1 l2 : list A) i x, i < length l1 -> upd (l1 ++ l2) i x = upd l1 i x ++ l2.
Proof.
  intros A l1; induction l1 as [|a t IH]; intros l2 [|i] x H; simpl in *; try lia; auto.
  f_equal. apply IH. lia.
Qed.

Lemma nth_error_Some_lt : forall {A} (l : list A) i x, nth_error l i = Some x -> i < length l.
Proof. intros A l i x H. apply nth_error_Some. rewrite H. discriminate. Qed.

Lemma nth_error_map_iff : forall {A B} (f : A -> B) l i y,
  nth_error (map f l) i = Some y <-> exists x, nth_error l i = Some x /\ y = f x.
Proof.
  intros A B f l; induction l as [|a t IH]; intros [|i] y; simpl; split; intros H; try discriminate.
  - destruct H as [x [H _]]; discriminate.
  - destruct H as [x [H _]]; discriminate.
  - inversion H; subst. exists a; auto.
  - destruct H as [x [H1 H2]]. inversion H1; subst; auto.
  - apply IH; auto.
  - apply IH; auto.
Qed.

Lemma nth_error_ext : forall {A} (l1 l2 : list A),
  (forall i, nth_error l1 i = nth_error l2 i) -> l1 = l2.
Proof.
  intros A l1; induction l1 as [|a t IH]; intros [|b u] H; auto.
  - specialize (H 0); discriminate.
  - specialize (H 0); discriminate.
  - f_equal. + specialize (H 0); simpl in H; congruence.
    + apply IH. intros i. apply (H (S i)).
Qed.

Lemma filter_len_le : forall {A} (f : A -> bool) l, (length (filter f l) <= length l)%nat.
Proof. intros A f l; induction l as [|a t IH]; simpl; [auto|]. destruct (f a); simpl; lia. Qed.
