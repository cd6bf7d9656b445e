(** The convolution sum and the convolution integral. *)
From Coq Require Import List Reals Lra.
From Flocq Require Import Core.
From Coquelicot Require Import Coquelicot.
From Verif Require Import ConvModel ConvSpec.
Import ListNotations.
Open Scope R_scope.

(** ** The midpoint sum and the integral *)
Lemma midpoint_S : forall f lo s n, midpoint_sum f lo s (S n) = midpoint_sum f lo s n + f (lo + (INR n + / 2) * s).
Proof. intros. unfold midpoint_sum. rewrite seq_S, map_app, fold_left_app. reflexivity. Qed.
Lemma midpoint_linear : forall s n, midpoint_sum (fun t => 1 * (3 + (t - 1))) (-1) s n = INR n * (1 + INR n * s / 2).
Proof. intros s n. induction n as [|n IH]; [unfold midpoint_sum; cbn; lra|]. rewrite midpoint_S, IH, S_INR. field. Qed.
Lemma lipschitz_continuous : forall (f : R -> R) K x, (forall s t, Rabs (f s - f t) <= K * Rabs (s - t)) -> continuous f x.
Proof.
  intros f K x H. apply continuity_pt_filterlim. intros e He. exists (e / (Rabs K + 1)). pose proof (Rabs_pos K) as PK. split.
  - apply Rdiv_lt_0_compat; lra.
  - intros y [_ Hy]. unfold dist in *. cbn in *. unfold R_dist in *. eapply Rle_lt_trans; [apply H|].
    apply Rle_lt_trans with ((Rabs K + 1) * Rabs (y - x)).
    + apply Rmult_le_compat_r; [apply Rabs_pos|]. pose proof (Rle_abs K). lra.
    + apply Rlt_le_trans with ((Rabs K + 1) * (e / (Rabs K + 1))); [apply Rmult_lt_compat_l; lra|]. right. field. lra.
Qed.
Lemma lipschitz_int : forall (f : R -> R) K a b, (forall s t, Rabs (f s - f t) <= K * Rabs (s - t)) -> ex_RInt f a b.
Proof. intros f K a b H. apply (ex_RInt_continuous (V := R_CompleteNormedModule)). intros x _. now apply (lipschitz_continuous f K). Qed.
Lemma RInt_near : forall (f : R -> R) v e a b, a <= b -> ex_RInt f a b -> (forall t, a < t < b -> Rabs (f t - v) <= e) -> Rabs ((b - a) * v - RInt f a b) <= (b - a) * e.
Proof.
  intros f v e a b Hab Hf H. 
  assert (HU : RInt f a b <= (b - a) * (v + e)).
  { replace ((b - a) * (v + e)) with (RInt (fun _ => v + e) a b) by (rewrite RInt_const; reflexivity). apply RInt_le; [exact Hab|exact Hf|apply ex_RInt_const|].
    intros x Hx. specialize (H x Hx). apply Rabs_le_inv in H. lra. }
  assert (HD : (b - a) * (v - e) <= RInt f a b).
  { replace ((b - a) * (v - e)) with (RInt (fun _ => v - e) a b) by (rewrite RInt_const; reflexivity). apply RInt_le; [exact Hab|apply ex_RInt_const|exact Hf|].
    intros x Hx. specialize (H x Hx). apply Rabs_le_inv in H. lra. }
  apply Rabs_le. lra.
Qed.
Lemma midpoint_near : forall (F G : R -> R) e lo s n, 0 < s -> (forall a b, ex_RInt F a b) ->
  (forall t m, Rabs (t - m) <= s -> Rabs (F t - G m) <= e) -> Rabs (s * midpoint_sum G lo s n - RInt F lo (lo + INR n * s)) <= INR n * s * e.
Proof.
  intros F G e lo s n HS HF H. induction n as [|n IH].
  - unfold midpoint_sum. cbn [seq map fold_left INR]. rewrite Rmult_0_l, Rplus_0_r, RInt_point. change zero with 0. rewrite Rmult_0_r, Rminus_0_r, Rabs_R0. lra.
  - rewrite midpoint_S. set (a := lo + INR n * s) in *. set (b := lo + INR (S n) * s).
    assert (EB : b = a + s) by (unfold a, b; rewrite S_INR; ring).
    assert (CH : RInt F lo b = RInt F lo a + RInt F a b) by (symmetry; apply (RInt_Chasles (V := R_CompleteNormedModule) F); apply HF).
    rewrite CH. pose proof (RInt_near F (G (lo + (INR n + / 2) * s)) e a b ltac:(lra) (HF a b)) as N.
    assert (NN : forall t, a < t < b -> Rabs (F t - G (lo + (INR n + / 2) * s)) <= e).
    { intros t Ht. apply H. replace (lo + (INR n + / 2) * s) with (a + s / 2) by (unfold a; field). apply Rabs_le. lra. }
    specialize (N NN). replace (b - a) with s in N by lra. rewrite S_INR. apply Rabs_le_inv in N, IH. apply Rabs_le. lra.
Qed.
Lemma product_lip : forall (f g : R -> R) A B K L s t p q, (forall t, Rabs (f t) <= A) -> (forall t, Rabs (g t) <= B) ->
  (forall s t, Rabs (f s - f t) <= K * Rabs (s - t)) -> (forall s t, Rabs (g s - g t) <= L * Rabs (s - t)) ->
  Rabs (f s * g p - f t * g q) <= A * (L * Rabs (p - q)) + B * (K * Rabs (s - t)).
Proof.
  intros f g A B K L s t p q HA HB HK HL. replace (f s * g p - f t * g q) with (f s * (g p - g q) + g q * (f s - f t)) by ring.
  eapply Rle_trans; [apply Rabs_triang|]. rewrite !Rabs_mult. apply Rplus_le_compat; apply Rmult_le_compat; try apply Rabs_pos; auto.
Qed.
Lemma conv_integral : forall (f g : R -> R) A B K L lo s hi x0 x' n v, 0 < s -> hi - lo = INR n * s -> x' <= x0 < x' + s -> (forall y, g (- y) = g y) ->
  (forall t, Rabs (f t) <= A) -> (forall t, Rabs (g t) <= B) -> (forall s t, Rabs (f s - f t) <= K * Rabs (s - t)) -> (forall s t, Rabs (g s - g t) <= L * Rabs (s - t)) ->
  v = midpoint_sum (fun t => f t * g (t - x')) lo s n ->
  ex_RInt (fun t => f t * g (x0 - t)) lo hi /\ Rabs (s * v - RInt (fun t => f t * g (x0 - t)) lo hi) <= (2 * A * L + B * K) * (hi - lo) * s.
Proof.
  intros f g A B K L lo s hi x0 x' n v HS EH BX EV HA HB HK HL ->.
  assert (EX : forall a b, ex_RInt (fun t => f t * g (x0 - t)) a b).
  { intros a b. apply (lipschitz_int _ (A * L + B * K)). intros p q. eapply Rle_trans; [apply (product_lip f g A B K L); assumption|].
    replace (x0 - p - (x0 - q)) with (- (p - q)) by ring. rewrite Rabs_Ropp. lra. }
  split; [apply EX|].
  assert (PA : 0 <= A) by (eapply Rle_trans; [apply Rabs_pos|apply (HA 0)]). assert (PB : 0 <= B) by (eapply Rle_trans; [apply Rabs_pos|apply (HB 0)]).
  assert (PK : 0 <= K) by (pose proof (HK 1 0) as H; replace (1 - 0) with 1 in H by ring; rewrite Rabs_R1 in H; pose proof (Rabs_pos (f 1 - f 0)); lra).
  assert (PL : 0 <= L) by (pose proof (HL 1 0) as H; replace (1 - 0) with 1 in H by ring; rewrite Rabs_R1 in H; pose proof (Rabs_pos (g 1 - g 0)); lra).
  replace hi with (lo + INR n * s) by lra.
  eapply Rle_trans; [apply (midpoint_near _ _ ((2 * A * L + B * K) * s) lo s n HS EX)|].
  - intros t m Ht. rewrite <- (EV (m - x')). replace (- (m - x')) with (x' - m) by ring.
    eapply Rle_trans; [apply (product_lip f g A B K L); assumption|].
    assert (Rabs (x0 - t - (x' - m)) <= 2 * s) by (apply Rabs_le; apply Rabs_le_inv in Ht; lra).
    assert (A * (L * Rabs (x0 - t - (x' - m))) <= A * (L * (2 * s))) by (apply Rmult_le_compat_l; [exact PA|]; apply Rmult_le_compat_l; assumption).
    assert (B * (K * Rabs (t - m)) <= B * (K * s)) by (apply Rmult_le_compat_l; [exact PB|]; apply Rmult_le_compat_l; assumption). lra.
  - right. ring.
Qed.
