(** Toy generation: the cell picked. *)
From Coq Require Import List ZArith Reals Lra Lia Bool Psatz.
From Flocq Require Import Core BinarySingleNaN.
From Verif Require Import F64 F64Lemmas F64Err LeafFormulas FormulaSpec VariableModel DataSetModel McModel McSpec.
From Verif Require LeafGen.
Import ListNotations.
Open Scope nat_scope.

Lemma lower_bound_ok : forall (p : nat -> bool) k fuel first len, len <= fuel -> first <= k <= first + len ->
  (forall i, first <= i < k -> p i = true) -> (forall i, k <= i < first + len -> p i = false) -> lower_bound fuel p first len = k.
Proof.
  intros p k. induction fuel as [|f IH]; intros first len HF HK HT HN.
  - cbn. lia.
  - destruct len as [|len]; [cbn; lia|]. cbn [lower_bound]. set (L := S len) in *. pose proof (Nat.div2_decr L len ltac:(lia)) as D1.
    set (h := Nat.div2 L) in *. destruct (p (first + h)) eqn:E.
    + assert (first + h < k). { destruct (Nat.lt_ge_cases (first + h) k); [assumption|]. rewrite HN in E by lia. discriminate. }
      apply IH; try lia; intros i Hi; [apply HT|apply HN]; lia.
    + assert (k <= first + h). { destruct (Nat.le_gt_cases k (first + h)); [assumption|]. rewrite HT in E by lia. discriminate. }
      apply IH; try lia; intros i Hi; [apply HT|apply HN]; lia.
Qed.
Section Any.
Context {T : Type} (Ar : LeafGen.ops T).
Lemma running_length : forall l acc, length (running Ar acc l) = length l.
Proof. induction l as [|v l IH]; intro acc; cbn; [reflexivity|now rewrite IH]. Qed.
Lemma sums_length : forall l, length (partial_sum Ar l) = length l.
Proof. intros [|v l]; cbn; [reflexivity|now rewrite running_length]. Qed.
Lemma fractions_length : forall l, length (fractions Ar l) = length l.
Proof. intro l. unfold fractions. now rewrite map_length, sums_length. Qed.
(** [pick] is the number of fractions below r, if these come first. *)
Lemma pick_ok : forall l r k, k <= length l ->
  (forall i, i < k -> LeafGen.o_lt Ar (nth i (fractions Ar l) (LeafGen.o_zero Ar)) r = true) ->
  (forall i, k <= i < length l -> LeafGen.o_lt Ar (nth i (fractions Ar l) (LeafGen.o_zero Ar)) r = false) -> pick Ar l r = k.
Proof. intros l r k HK H1 H2. unfold pick. rewrite fractions_length. apply lower_bound_ok; try lia; intros; [apply H1|apply H2]; lia. Qed.
Lemma running_nth : forall l acc i d, i < length l -> nth (S i) (acc :: running Ar acc l) d = LeafGen.o_add Ar (nth i (acc :: running Ar acc l) d) (nth i l d).
Proof.
  induction l as [|v l IH]; intros acc i d H; [cbn in H; lia|]. cbn [running]. destruct i as [|i]; [reflexivity|].
  change (nth (S (S i)) (acc :: LeafGen.o_add Ar acc v :: running Ar (LeafGen.o_add Ar acc v) l) d) with (nth (S i) (LeafGen.o_add Ar acc v :: running Ar (LeafGen.o_add Ar acc v) l) d).
  cbn in H. rewrite IH by lia. reflexivity.
Qed.
Lemma sums_nth : forall l i d, S i < length l -> nth (S i) (partial_sum Ar l) d = LeafGen.o_add Ar (nth i (partial_sum Ar l) d) (nth (S i) l d).
Proof. intros [|v l] i d H; [cbn in H; lia|]. cbn [partial_sum]. cbn in H. rewrite running_nth by lia. reflexivity. Qed.
Lemma sums_0 : forall l d, nth 0 (partial_sum Ar l) d = nth 0 l d.
Proof. now intros [|v l] d. Qed.
Lemma last_nth : forall (l : list T) d, last l d = nth (length l - 1) l d.
Proof.
  induction l as [|v l IH]; intro d; [reflexivity|]. destruct l as [|w l]; [reflexivity|]. change (last (v :: w :: l) d) with (last (w :: l) d). rewrite IH.
  cbn [length]. replace (S (S (length l)) - 1) with (S (S (length l) - 1)) by lia. reflexivity.
Qed.
Lemma fractions_nth : forall l i, i < length l -> nth i (fractions Ar l) (LeafGen.o_zero Ar) =
  LeafGen.o_div Ar (nth i (partial_sum Ar l) (LeafGen.o_zero Ar)) (nth (length l - 1) (partial_sum Ar l) (LeafGen.o_zero Ar)).
Proof.
  intros l i H. unfold fractions. set (tot := last (partial_sum Ar l) (LeafGen.o_zero Ar)). rewrite (nth_indep _ _ (LeafGen.o_div Ar (LeafGen.o_zero Ar) tot)) by (rewrite map_length, sums_length; exact H).
  rewrite (map_nth (fun v => LeafGen.o_div Ar v tot)). unfold tot. now rewrite last_nth, sums_length.
Qed.
End Any.
(** A downward closed predicate on 0 .. n-1 that fails at n-1. *)
Lemma split_point : forall (p : nat -> bool) n, n <> 0 -> (forall i, S i < n -> p (S i) = true -> p i = true) -> p (n - 1) = false ->
  exists k, k < n /\ (forall i, i < k -> p i = true) /\ (forall i, k <= i < n -> p i = false).
Proof.
  intros p n Hn HD HL.
  assert (A : forall i j, i <= j -> j < n -> p j = true -> p i = true).
  { intros i j Hij. induction Hij as [|j Hij IH]; intros Hj E; [exact E|]. apply IH; [lia|]. apply HD; assumption. }
  assert (X : forall m, m <= n -> (forall i, i < m -> p i = true) \/ exists k, k < m /\ p k = false /\ forall i, i < k -> p i = true).
  { induction m as [|m IH]; intro Hm; [left; intros i Hi; lia|]. destruct (IH ltac:(lia)) as [B|(k & K1 & K2 & K3)].
    - destruct (p m) eqn:E.
      + left. intros i Hi. destruct (Nat.eq_dec i m) as [->|]; [exact E|apply B; lia].
      + right. exists m. repeat split; [lia|exact E|exact B].
    - right. exists k. repeat split; [lia|exact K2|exact K3]. }
  destruct (X n ltac:(lia)) as [B|(k & K1 & K2 & K3)]; [rewrite B in HL by lia; discriminate|].
  exists k. split; [exact K1|]. split; [exact K3|]. intros i [Hi Hi']. destruct (p i) eqn:E; [|reflexivity]. rewrite (A k i Hi Hi' E) in K2. discriminate.
Qed.
Open Scope R_scope.
(** ** Exact sums *)
Lemma rsum_app : forall a b, rsum (a ++ b) = rsum a + rsum b.
Proof. induction a as [|v a IH]; intro b; cbn [rsum app]; [lra|rewrite IH; lra]. Qed.
Lemma firstn_S : forall (l : list R) i, (i < length l)%nat -> firstn (S i) l = firstn i l ++ [nth i l 0].
Proof.
  induction l as [|v l IH]; intros i H; [cbn in H; lia|]. destruct i as [|i]; [reflexivity|]. cbn in H. change (v :: firstn (S i) l = v :: (firstn i l ++ [nth i l 0])). now rewrite IH by lia.
Qed.
Lemma prefix_S : forall l i, (i < length l)%nat -> rsum (firstn (S i) l) = rsum (firstn i l) + nth i l 0.
Proof. intros l i H. rewrite firstn_S, rsum_app by exact H. cbn [rsum]. lra. Qed.
Lemma prefix_mono : forall l, Forall (fun v => 0 <= v) l -> forall i j, (i <= j)%nat -> rsum (firstn i l) <= rsum (firstn j l).
Proof.
  intros l HP i j Hij. induction Hij as [|j Hij IH]; [lra|]. eapply Rle_trans; [exact IH|]. destruct (Nat.lt_ge_cases j (length l)) as [H|H].
  - rewrite prefix_S by exact H. assert (0 <= nth j l 0); [|lra]. apply (proj1 (Forall_forall _ _) HP). now apply nth_In.
  - rewrite !firstn_all2 by lia. lra.
Qed.
Lemma sums_R : forall l i, (i < length l)%nat -> nth i (partial_sum R_ops l) 0 = rsum (firstn (S i) l).
Proof.
  intros l i. induction i as [|i IH]; intro H.
  - rewrite sums_0. rewrite prefix_S by exact H. cbn [firstn rsum]. lra.
  - rewrite sums_nth by exact H. cbn [LeafGen.o_add R_ops]. rewrite IH by lia. rewrite <- prefix_S by exact H. reflexivity.
Qed.
Lemma fractions_R : forall l i, (i < length l)%nat -> nth i (fractions R_ops l) 0 = below l (S i).
Proof.
  intros l i H. change 0 with (LeafGen.o_zero R_ops). rewrite fractions_nth by exact H. cbn [LeafGen.o_div LeafGen.o_zero R_ops]. rewrite !sums_R by lia. unfold below. do 2 f_equal.
  replace (S (length l - 1)) with (length l) by lia. now rewrite firstn_all.
Qed.
Lemma below_mono : forall l, Forall (fun v => 0 <= v) l -> 0 < rsum l -> forall i j, (i <= j)%nat -> below l i <= below l j.
Proof. intros l HP HS i j H. unfold below. apply Rmult_le_compat_r; [apply Rlt_le, Rinv_0_lt_compat, HS|]. now apply prefix_mono. Qed.
Lemma Rltb_true : forall x y, Rltb x y = true <-> x < y.
Proof. intros x y. unfold Rltb. destruct (Rlt_dec x y); split; intro; try discriminate; try lra; reflexivity. Qed.
Lemma Rltb_false : forall x y, Rltb x y = false <-> y <= x.
Proof. intros x y. unfold Rltb. destruct (Rlt_dec x y); split; intro; try discriminate; try lra; reflexivity. Qed.
Lemma pick_R : forall l r, Forall (fun v => 0 <= v) l -> 0 < rsum l -> 0 <= r < 1 -> forall j, pick R_ops l r = j <-> belongs l r j.
Proof.
  intros l r HP HS Hr.
  assert (NE : (length l <> 0)%nat) by (destruct l; [cbn in HS; lra|discriminate]).
  assert (B1 : below l (length l) = 1) by (unfold below; rewrite firstn_all; field; lra).
  assert (X : exists k, (k < length l)%nat /\ belongs l r k /\ pick R_ops l r = k).
  { destruct (split_point (fun i => Rltb (nth i (fractions R_ops l) 0) r) (length l) NE) as (k & K & K1 & K2).
    - intros i Hi E. rewrite fractions_R in * by lia. apply Rltb_true. apply Rltb_true in E. eapply Rle_lt_trans; [|exact E]. apply below_mono; try assumption. lia.
    - rewrite fractions_R by lia. apply Rltb_false. replace (S (length l - 1)) with (length l) by lia. lra.
    - exists k. split; [exact K|]. split.
      + split; [exact K|]. split.
        * destruct k as [|k]; [now left|]. right. specialize (K1 k ltac:(lia)). cbv beta in K1. rewrite fractions_R in K1 by lia. now apply Rltb_true.
        * specialize (K2 k ltac:(lia)). cbv beta in K2. rewrite fractions_R in K2 by lia. now apply Rltb_false.
      + apply pick_ok; [lia|exact K1|exact K2]. }
  destruct X as (k & K & BK & EK). intro j. split; [intros <-; now rewrite EK|]. intro BJ. rewrite EK.
  destruct BK as (_ & L1 & U1). destruct BJ as (J & L2 & U2).
  destruct (Nat.lt_trichotomy k j) as [C|[C|C]]; [|exact C|]; exfalso.
  - destruct L2 as [->|L2]; [lia|]. pose proof (below_mono l HP HS (S k) j ltac:(lia)). lra.
  - destruct L1 as [->|L1]; [lia|]. pose proof (below_mono l HP HS (S j) k ltac:(lia)). lra.
Qed.
