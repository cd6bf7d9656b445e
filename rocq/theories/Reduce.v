(** thrust::transform_reduce(first, last, f, 0.0, plus<double>()), as used by GooPdf.cu:45-108.

    Thrust may add the elements in any order and with any bracketing (its contract asks for an associative and commutative
    operator), and which one depends on the back end and the number of threads.  [reduces n l r]: r is the result of
    some schedule for the elements l, using n additions; the start value 0 may enter anywhere. *)
From Coq Require Import List ZArith Reals Permutation Lra Lia.
From Flocq Require Import Core BinarySingleNaN.
From Verif Require Import F64 F64Lemmas F64Err.
Import ListNotations.

Inductive reduces : nat -> list f64 -> f64 -> Prop :=
| red_start : reduces 0 [] fzero
| red_one : forall x, reduces 0 [x] x
| red_plus : forall n m l1 l2 a b, reduces n l1 a -> reduces m l2 b -> reduces (S (n + m)) (l1 ++ l2) (fadd a b)
| red_order : forall n l l' a, Permutation l l' -> reduces n l a -> reduces n l' a.

(** A way to reduce lists of any length: one schedule for each list. *)
Definition schedule (red : list f64 -> f64) : Prop := forall l, exists n, reduces n l (red l).

(** The sequential schedule of the C++ back end. *)
Definition seq_red (l : list f64) : f64 := fold_left fadd l fzero.
Lemma seq_red_schedule : schedule seq_red.
Proof.
  assert (G : forall l n l0 a, reduces n l0 a -> exists m, reduces m (l0 ++ l) (fold_left fadd l a)).
  { induction l as [|x l IH]; intros n l0 a H; cbn [fold_left].
    - rewrite app_nil_r. now exists n.
    - destruct (IH (S (n + 0)) (l0 ++ [x]) (fadd a x)) as [m M]; [apply red_plus; [exact H|constructor]|].
      exists m. now rewrite <- app_assoc in M. }
  intro l. exact (G l 0%nat [] fzero red_start).
Qed.

Open Scope R_scope.
Definition Rsum (l : list R) : R := fold_right Rplus 0 l.
Definition Rsum_abs (l : list R) : R := Rsum (map Rabs l).

Lemma Rsum_app : forall a b, Rsum (a ++ b) = Rsum a + Rsum b.
Proof. unfold Rsum. induction a; intro b; cbn [fold_right app]; [lra|]. rewrite IHa. lra. Qed.
Lemma Rsum_perm : forall a b, Permutation a b -> Rsum a = Rsum b.
Proof. unfold Rsum. induction 1; cbn [fold_right]; lra. Qed.
Lemma Rsum_abs_pos : forall l, 0 <= Rsum_abs l.
Proof. unfold Rsum_abs, Rsum. induction l; cbn [fold_right map]; [lra|]. pose proof (Rabs_pos a). lra. Qed.
Lemma Rsum_le_abs : forall l, Rabs (Rsum l) <= Rsum_abs l.
Proof.
  unfold Rsum_abs, Rsum. induction l as [|x l IH]; cbn [fold_right map]; [rewrite Rabs_R0; lra|].
  eapply Rle_trans; [apply Rabs_triang|]. lra.
Qed.
Lemma Rsum_abs_app : forall a b, Rsum_abs (a ++ b) = Rsum_abs a + Rsum_abs b.
Proof. intros. unfold Rsum_abs. rewrite map_app. apply Rsum_app. Qed.
Lemma Rsum_abs_perm : forall a b, Permutation a b -> Rsum_abs a = Rsum_abs b.
Proof. intros. apply Rsum_perm. now apply Permutation_map. Qed.

Lemma fadd_finite : forall x y, is_finite (fadd x y) = true ->
  is_finite x = true /\ is_finite y = true /\ B2R (fadd x y) = rnd (B2R x + B2R y).
Proof.
  intros x y H.
  assert (F : is_finite x = true /\ is_finite y = true).
  { destruct x as [s|s| |s m e p], y as [t|t| |t m' e' p']; cbn in *; try (now split); try discriminate; try (now destruct (Bool.eqb s t)). }
  destruct F as [Fx Fy]. repeat split; try assumption.
  pose proof (Bplus_correct 53 1024 f64_prec_gt f64_prec_lt mode_NE x y Fx Fy) as E. cbv zeta in E.
  destruct (Rlt_bool _ _) eqn:B in E.
  - apply E.
  - destruct E as [E _]. exfalso. unfold fadd in H. rewrite <- (is_finite_SF_B2SF) in H. rewrite E in H. discriminate.
Qed.

Definition reals (l : list f64) : list R := map f2R l.
Definition growth (n : nat) : R := (1 + uro) ^ n - 1.
Lemma growth_pos : forall n, 0 <= growth n.
Proof. intro n. unfold growth. pose proof uro_pos. pose proof (pow_R1_Rle (1 + uro) n ltac:(lra)). lra. Qed.
Lemma growth_mono : forall n m, (n <= m)%nat -> growth n <= growth m.
Proof. intros n m H. unfold growth. pose proof uro_pos. pose proof (Rle_pow (1 + uro) n m ltac:(lra) H). lra. Qed.

(** Whatever the schedule, a finite result is the sum of the elements up to the rounding of its additions. *)
Lemma reduces_error : forall n l r, reduces n l r -> is_finite r = true ->
  Forall (fun x => is_finite x = true) l /\
  Rabs (B2R r - Rsum (reals l)) <= growth n * Rsum_abs (reals l).
Proof.
  induction 1 as [|x|n m l1 l2 a b H1 IH1 H2 IH2|n l l' a P H IH]; intro F.
  - split; [constructor|]. cbn. unfold Rsum_abs, growth. cbn. rewrite Rabs_pos_eq; lra.
  - split; [now repeat constructor|]. unfold growth, Rsum_abs, Rsum, reals, f2R. cbn [map fold_right pow].
    replace (B2R x - (B2R x + 0)) with 0 by ring. rewrite Rabs_R0. lra.
  - destruct (fadd_finite _ _ F) as (Fa & Fb & E). destruct (IH1 Fa) as [F1 E1]. destruct (IH2 Fb) as [F2 E2].
    split; [now apply Forall_app|]. unfold reals at 1 2; rewrite map_app; fold (reals l1) (reals l2); rewrite Rsum_app, Rsum_abs_app, E.
    destruct (rnd_plus_rel a b) as (d & Hd & ->).
    set (A := B2R a) in *. set (B := B2R b) in *. set (s1 := Rsum (reals l1)) in *. set (s2 := Rsum (reals l2)) in *.
    set (t1 := Rsum_abs (reals l1)) in *. set (t2 := Rsum_abs (reals l2)) in *.
    assert (T1 : 0 <= t1) by apply Rsum_abs_pos. assert (T2 : 0 <= t2) by apply Rsum_abs_pos.
    assert (S1 : Rabs s1 <= t1) by apply Rsum_le_abs. assert (S2 : Rabs s2 <= t2) by apply Rsum_le_abs.
    replace ((A + B) * (1 + d) - (s1 + s2)) with ((A - s1) * (1 + d) + (B - s2) * (1 + d) + (s1 + s2) * d) by ring.
    pose proof uro_pos as U.
    assert (D1 : Rabs (1 + d) <= 1 + uro). { eapply Rle_trans; [apply Rabs_triang|]. rewrite Rabs_R1. lra. }
    assert (B1 : Rabs ((A - s1) * (1 + d)) <= growth n * t1 * (1 + uro)).
    { rewrite Rabs_mult. apply Rmult_le_compat; try apply Rabs_pos; assumption. }
    assert (B2 : Rabs ((B - s2) * (1 + d)) <= growth m * t2 * (1 + uro)).
    { rewrite Rabs_mult. apply Rmult_le_compat; try apply Rabs_pos; assumption. }
    assert (B3 : Rabs ((s1 + s2) * d) <= (t1 + t2) * uro).
    { rewrite Rabs_mult. apply Rmult_le_compat; try apply Rabs_pos; [|exact Hd]. eapply Rle_trans; [apply Rabs_triang|]. lra. }
    assert (G : forall k t, 0 <= t -> (k <= n + m)%nat -> growth k * t * (1 + uro) + t * uro <= growth (S (n + m)) * t).
    { intros k t T K. pose proof (growth_mono k (n + m) K) as M.
      replace (growth (S (n + m))) with (growth (n + m) * (1 + uro) + uro) by (unfold growth; cbn [pow]; ring).
      assert (growth k * t <= growth (n + m) * t) by (apply Rmult_le_compat_r; assumption).
      assert (X : growth k * t * (1 + uro) <= growth (n + m) * t * (1 + uro)) by (apply Rmult_le_compat_r; lra).
      replace ((growth (n + m) * (1 + uro) + uro) * t) with (growth (n + m) * t * (1 + uro) + t * uro) by ring. apply Rplus_le_compat_r. exact X. }
    pose proof (G n t1 T1 ltac:(lia)). pose proof (G m t2 T2 ltac:(lia)).
    rewrite (Rmult_plus_distr_l (growth (S (n + m)))). rewrite (Rmult_plus_distr_r t1 t2) in B3.
    set (g1 := growth n * t1 * (1 + uro)) in *. set (g2 := growth m * t2 * (1 + uro)) in *. set (g3 := growth (S (n + m)) * t1) in *.
    set (g4 := growth (S (n + m)) * t2) in *. set (h1 := t1 * uro) in *. set (h2 := t2 * uro) in *.
    eapply Rle_trans; [apply Rabs_triang|]. eapply Rle_trans; [apply Rplus_le_compat_r; apply Rabs_triang|].
    clearbody g1 g2 g3 g4 h1 h2. lra.
  - destruct (IH F) as [F1 E1]. split.
    + apply Forall_forall. rewrite Forall_forall in F1. intros x Hx. apply F1. eapply Permutation_in; [apply Permutation_sym; exact P|exact Hx].
    + pose proof (Permutation_map f2R P : Permutation (reals l) (reals l')) as PM. now rewrite <- (Rsum_perm _ _ PM), <- (Rsum_abs_perm _ _ PM).
Qed.
