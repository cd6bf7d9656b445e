(** Proofs about the cubic spline. *)
From Coq Require Import Reals List Lra Lia Arith Bool ZArith.
From Coquelicot Require Import Coquelicot.
From Verif Require Import FormulaSpec AmpModel Amp4Model SplineModel SplineSpec.
From Verif Require LeafGen AmpProofs.
Import ListNotations.
Open Scope R_scope.

(** ** Scanning the knots, in any arithmetic *)
Section Scan.
Context {T : Type} (Ar : LeafGen.ops T).
Lemma scan_some : forall knots m r k, (k + r <= length knots)%nat -> exists i, scan Ar knots m r k = Some i /\ (k <= i <= k + r)%nat /\
  (forall j x, (k <= j < i)%nat -> nth_error knots j = Some x -> LeafGen.o_lt Ar m x = false) /\
  ((i < k + r)%nat -> exists x, nth_error knots i = Some x /\ LeafGen.o_lt Ar m x = true).
Proof.
  induction r as [|r IH]; intros k H.
  - exists k. split; [reflexivity|]. split; [lia|]. split; intros; lia.
  - cbn [scan]. destruct (nth_error knots k) as [x|] eqn:E; [|apply nth_error_None in E; lia]. cbn [obind].
    destruct (LeafGen.o_lt Ar m x) eqn:L.
    + exists k. split; [reflexivity|]. split; [lia|]. split; [intros; lia|]. intros _. eauto.
    + destruct (IH (S k) ltac:(lia)) as (i & E1 & B & F & G). exists i. split; [exact E1|]. split; [lia|]. split.
      * intros j y Hj Hy. destruct (Nat.eq_dec j k) as [->|N]; [congruence|]. apply (F j); [lia|exact Hy].
      * intro Hi. apply G. lia.
Qed.
Definition wf (s : spline (T := T)) : Prop := length (s_knots s) = s_n s /\ length (s_coefs s) = s_n s.
Lemma make_wf : forall limits reals imags cyc symm, length reals = length limits -> length imags = length limits ->
  exists s, make limits reals imags cyc symm = Some s /\ wf s /\ s_knots s = limits /\ s_coefs s = combine reals imags /\ s_n s = length limits /\
  s_cyc s = cyc /\ s_swap s = symm.
Proof.
  intros limits reals imags cyc symm H1 H2. unfold make. rewrite H1, H2, Nat.leb_refl. cbn [andb]. eexists. split; [reflexivity|]. cbn [s_knots s_coefs s_n s_cyc s_swap].
  rewrite firstn_all. split; [split; [cbn [s_knots s_n]; reflexivity|cbn [s_coefs s_n]; rewrite combine_length; lia]|]. repeat split.
Qed.
Lemma run_some : forall t s m ret, wf s -> (s_n s <= length t)%nat -> exists z, run Ar t s m ret = Some z.
Proof.
  intros t s m ret (W1 & W2) L. unfold run. destruct (scan_some (s_knots s) m (s_n s) 0%nat ltac:(lia)) as (i & E & B & _). rewrite E. cbn [obind].
  destruct (Nat.ltb 0 i && Nat.ltb i (s_n s))%bool eqn:Q; [|eauto]. apply andb_true_iff in Q. destruct Q as (Q1 & Q2). apply Nat.ltb_lt in Q1, Q2.
  assert (N : forall {X} (l : list X) j, (j < length l)%nat -> exists x, nth_error l j = Some x).
  { intros X l j H. destruct (nth_error l j) eqn:EE; [eauto|]. apply nth_error_None in EE. lia. }
  destruct (N _ (s_coefs s) (i - 1)%nat ltac:(lia)) as (a1 & ->). destruct (N _ (s_coefs s) i ltac:(lia)) as (a2 & ->).
  destruct (N _ t (i - 1)%nat ltac:(lia)) as (a3 & ->). destruct (N _ t i ltac:(lia)) as (a4 & ->).
  destruct (N _ (s_knots s) i ltac:(lia)) as (a5 & ->). destruct (N _ (s_knots s) (i - 1)%nat ltac:(lia)) as (a6 & ->). cbn [obind]. eauto.
Qed.
(** Outside: below the first knot, or not below any. *)
Lemma run_outside : forall t s m ret, wf s -> (forall x, nth_error (s_knots s) 0 = Some x -> LeafGen.o_lt Ar m x = true) \/
  (forall x, In x (s_knots s) -> LeafGen.o_lt Ar m x = false) -> run Ar t s m ret = Some ret.
Proof.
  intros t s m ret (W1 & W2) H. unfold run. destruct (scan_some (s_knots s) m (s_n s) 0%nat ltac:(lia)) as (i & E & B & F & G). rewrite E. cbn [obind].
  replace (Nat.ltb 0 i && Nat.ltb i (s_n s))%bool with false; [reflexivity|]. symmetry. apply andb_false_iff.
  destruct (Nat.eq_dec i 0) as [->|N]; [now left|]. right. apply Nat.ltb_ge. destruct (Nat.lt_ge_cases i (s_n s)) as [L|L]; [|exact L]. exfalso.
  destruct H as [H|H].
  - destruct (nth_error (s_knots s) 0) as [x|] eqn:E0; [|apply nth_error_None in E0; lia]. specialize (H x eq_refl). rewrite (F 0%nat x ltac:(lia) E0) in H. discriminate.
  - destruct (G ltac:(lia)) as (x & E1 & E2). rewrite (H x (nth_error_In _ _ E1)) in E2. discriminate.
Qed.
Lemma recalc_some : forall t s, (2 <= s_n s <= length t)%nat -> exists t', recalc Ar t s = Some t' /\ length t' = length t.
Proof.
  intros t s H. unfold recalc. replace (Nat.ltb (s_n s) 2) with false by (symmetry; apply Nat.ltb_ge; lia).
  replace (Nat.leb (s_n s) (length t)) with true by (symmetry; apply Nat.leb_le; lia). eexists. split; [reflexivity|].
  rewrite app_length, map_length, seq_length, skipn_length. lia.
Qed.
End Scan.

(** ** The pieces, in the real numbers *)
Section Pieces.
Variables (n : nat) (x y M : nat -> R).
Hypothesis Hx : forall i j, (i < j < n)%nat -> x i < x j.
Let h (k : nat) : R := x (S k) - x k.
Definition aa (k : nat) (m : R) : R := (x (S k) - m) / h k.
Definition P0 (k : nat) (m : R) : R := cubic R_ops (x k) (x (S k)) (y k) (y (S k)) (M k) (M (S k)) m 0.
Definition P1 (k : nat) (m : R) : R := (y (S k) - y k) / h k - (3 * aa k m ^ 2 - 1) / 6 * h k * M k + (3 * (1 - aa k m) ^ 2 - 1) / 6 * h k * M (S k).
Definition P2 (k : nat) (m : R) : R := aa k m * M k + (1 - aa k m) * M (S k).

Lemma h_pos : forall k, (S k < n)%nat -> 0 < h k.
Proof. intros k H. unfold h. pose proof (Hx k (S k) ltac:(lia)). lra. Qed.
Lemma P0_derive : forall k m, (S k < n)%nat -> is_derive (P0 k) m (P1 k m).
Proof.
  intros k m H. pose proof (h_pos k H) as Hh. unfold h in Hh. unfold P0, P1, cubic, aa, h. cbn [LeafGen.o_add LeafGen.o_sub LeafGen.o_mul LeafGen.o_div LeafGen.o_ofZ LeafGen.o_one R_ops].
  auto_derive; [exact I|]. field. lra.
Qed.
Lemma P1_derive : forall k m, (S k < n)%nat -> is_derive (P1 k) m (P2 k m).
Proof. intros k m H. pose proof (h_pos k H) as Hh. unfold h in Hh. unfold P1, P2, aa, h. auto_derive; [exact I|]. field. lra. Qed.
Lemma P2_cont : forall k m, (S k < n)%nat -> continuous (P2 k) m.
Proof.
  intros k m H. apply (ex_derive_continuous (P2 k)). exists ((M (S k) - M k) / h k). pose proof (h_pos k H) as Hh. unfold h in Hh. unfold P2, aa, h. auto_derive; [exact I|]. field. lra.
Qed.
Lemma ends : forall k, (S k < n)%nat -> P0 k (x k) = y k /\ P0 k (x (S k)) = y (S k) /\ P2 k (x k) = M k /\ P2 k (x (S k)) = M (S k) /\
  P1 k (x k) = (y (S k) - y k) / h k - h k / 3 * M k - h k / 6 * M (S k) /\
  P1 k (x (S k)) = (y (S k) - y k) / h k + h k / 6 * M k + h k / 3 * M (S k).
Proof.
  intros k H. pose proof (h_pos k H) as Hh. unfold h in Hh. unfold P0, P1, P2, cubic, aa, h. cbn [LeafGen.o_add LeafGen.o_sub LeafGen.o_mul LeafGen.o_div LeafGen.o_ofZ LeafGen.o_one R_ops].
  repeat split; field; lra.
Qed.

(** *** Gluing *)
Variable K : R -> nat.
Hypothesis HK : forall m, x 0%nat <= m < x (n - 1)%nat -> (S (K m) < n)%nat /\ x (K m) <= m < x (S (K m)).
Hypothesis Hn : (2 <= n)%nat.

Lemma K_unique : forall m k, x 0%nat <= m < x (n - 1)%nat -> (S k < n)%nat -> x k <= m < x (S k) -> K m = k.
Proof.
  intros m k Hm Hk Hb. destruct (HK m Hm) as (A & B). destruct (Nat.lt_trichotomy (K m) k) as [L|[L|L]]; [|exact L|].
  - exfalso. assert (x (S (K m)) <= x k) by (destruct (Nat.eq_dec (S (K m)) k) as [<-|N]; [lra|left; apply Hx; lia]). lra.
  - exfalso. assert (x (S k) <= x (K m)) by (destruct (Nat.eq_dec (S k) (K m)) as [<-|N]; [lra|left; apply Hx; lia]). lra.
Qed.
Lemma near : forall m, x 0%nat < m < x (n - 1)%nat -> locally m (fun z => K z = K m \/ (m = x (K m) /\ K m = S (K z))).
Proof.
  intros m Hm. destruct (HK m ltac:(lra)) as (A & B). destruct (Rle_lt_or_eq_dec _ _ (proj1 B)) as [L|L].
  - assert (D : 0 < Rmin (m - x (K m)) (x (S (K m)) - m)) by (apply Rmin_pos; lra). exists (mkposreal _ D). intros z Hz. left.
    unfold ball in Hz. cbn in Hz. unfold AbsRing_ball, abs, minus, plus, opp in Hz. cbn in Hz. apply Rabs_def2 in Hz.
    pose proof (Rmin_l (m - x (K m)) (x (S (K m)) - m)). pose proof (Rmin_r (m - x (K m)) (x (S (K m)) - m)).
    assert (x 0%nat <= x (K m)) by (destruct (K m); [lra|left; apply Hx; lia]).
    assert (x (S (K m)) <= x (n - 1)%nat) by (destruct (Nat.eq_dec (S (K m)) (n - 1)) as [->|N]; [lra|left; apply Hx; lia]).
    apply K_unique; [lra|exact A|lra].
  - destruct (K m) as [|j] eqn:EK; [lra|].
    assert (Xj : x j < x (S j)) by (apply Hx; lia).
    assert (D : 0 < Rmin (m - x j) (x (S (S j)) - m)) by (apply Rmin_pos; lra). exists (mkposreal _ D). intros z Hz.
    unfold ball in Hz. cbn in Hz. unfold AbsRing_ball, abs, minus, plus, opp in Hz. cbn in Hz. apply Rabs_def2 in Hz.
    pose proof (Rmin_l (m - x j) (x (S (S j)) - m)). pose proof (Rmin_r (m - x j) (x (S (S j)) - m)).
    assert (x 0%nat <= x j) by (destruct j; [lra|left; apply Hx; lia]).
    assert (x (S (S j)) <= x (n - 1)%nat) by (destruct (Nat.eq_dec (S (S j)) (n - 1)) as [->|N]; [lra|left; apply Hx; lia]).
    destruct (Rlt_le_dec z m) as [Z|Z].
    + right. split; [lra|]. f_equal. symmetry. apply K_unique; [lra|lia|lra].
    + left. apply K_unique; [lra|lia|lra].
Qed.
Lemma in_bounds : forall m, x 0%nat < m < x (n - 1)%nat -> locally m (fun z => x 0%nat <= z < x (n - 1)%nat).
Proof.
  intros m Hm. assert (D : 0 < Rmin (m - x 0%nat) (x (n - 1)%nat - m)) by (apply Rmin_pos; lra). exists (mkposreal _ D). intros z Hz.
  unfold ball in Hz. cbn in Hz. unfold AbsRing_ball, abs, minus, plus, opp in Hz. cbn in Hz. apply Rabs_def2 in Hz.
  pose proof (Rmin_l (m - x 0%nat) (x (n - 1)%nat - m)). pose proof (Rmin_r (m - x 0%nat) (x (n - 1)%nat - m)). lra.
Qed.

Lemma glue_cont : forall (Q : nat -> R -> R), (forall k m, (S k < n)%nat -> continuous (Q k) m) ->
  (forall k, (S (S k) < n)%nat -> Q k (x (S k)) = Q (S k) (x (S k))) ->
  forall m, x 0%nat < m < x (n - 1)%nat -> continuous (fun m => Q (K m) m) m.
Proof.
  intros Q HQ Hm m Hb. destruct (HK m ltac:(lra)) as (A & B). apply filterlim_locally. intro eps.
  pose proof (proj1 (filterlim_locally (Q (K m)) (Q (K m) m)) (HQ (K m) m A) eps) as L1.
  assert (A' : (S (pred (K m)) < n)%nat) by lia.
  pose proof (proj1 (filterlim_locally (Q (pred (K m))) (Q (pred (K m)) m)) (HQ (pred (K m)) m A') eps) as L2.
  generalize (filter_and _ _ (near m Hb) (filter_and _ _ L1 L2)). apply filter_imp. intros z ([E|(E1 & E2)] & H1 & H2); [now rewrite E|].
  rewrite E2 in H2. cbn [pred] in H2. assert (QE : Q (K m) m = Q (K z) m) by (rewrite E1 at 2 3; rewrite E2; symmetry; apply Hm; lia). now rewrite QE.
Qed.
Lemma glue_derive : forall (Q Q' : nat -> R -> R), (forall k m, (S k < n)%nat -> is_derive (Q k) m (Q' k m)) ->
  (forall k, (S (S k) < n)%nat -> Q k (x (S k)) = Q (S k) (x (S k)) /\ Q' k (x (S k)) = Q' (S k) (x (S k))) ->
  forall m, x 0%nat < m < x (n - 1)%nat -> is_derive (fun m => Q (K m) m) m (Q' (K m) m).
Proof.
  intros Q Q' HQ Hm m Hb. destruct (HK m ltac:(lra)) as (A & B). assert (A' : (S (pred (K m)) < n)%nat) by lia.
  destruct (HQ (K m) m A) as (Lin & D1). destruct (HQ (pred (K m)) m A') as (_ & D2). split; [exact Lin|].
  intros m' Hm' eps. pose proof (is_filter_lim_locally_unique _ _ Hm') as <-.
  specialize (D1 m Hm' eps). specialize (D2 m Hm' eps).
  generalize (filter_and _ _ (near m Hb) (filter_and _ _ D1 D2)). apply filter_imp. intros z ([E|(E1 & E2)] & H1 & H2); [now rewrite E|].
  rewrite E2 in H2. cbn [pred] in H2.
  assert (QE : Q (K m) m = Q (K z) m) by (rewrite E1 at 2 3; rewrite E2; symmetry; apply Hm; lia).
  assert (QE' : Q' (K m) m = Q' (K z) m) by (rewrite E1 at 2 3; rewrite E2; symmetry; apply Hm; lia).
  now rewrite QE, QE'.
Qed.

(** The condition on the second derivatives that makes the slopes match at knot k + 1. *)
Definition continuity_eq (k : nat) : Prop :=
  h k / 6 * M k + (h k + h (S k)) / 3 * M (S k) + h (S k) / 6 * M (S (S k)) = (y (S (S k)) - y (S k)) / h (S k) - (y (S k) - y k) / h k.
Lemma smooth : (forall k, (S (S k) < n)%nat -> continuity_eq k) -> smooth_between (fun m => P0 (K m) m) (x 0%nat) (x (n - 1)%nat).
Proof.
  intro C. exists (fun m => P1 (K m) m), (fun m => P2 (K m) m). intros m Hm.
  assert (E : forall k, (S (S k) < n)%nat -> P0 k (x (S k)) = P0 (S k) (x (S k)) /\ P1 k (x (S k)) = P1 (S k) (x (S k)) /\ P2 k (x (S k)) = P2 (S k) (x (S k))).
  { intros k Hk. destruct (ends k ltac:(lia)) as (_ & E1 & _ & E2 & _ & E3). destruct (ends (S k) ltac:(lia)) as (F1 & _ & F2 & _ & F3 & _).
    specialize (C k Hk). unfold continuity_eq in C. split; [congruence|]. split; [|congruence]. rewrite E3, F3. lra. }
  split; [|split].
  - apply (glue_derive P0 P1); [intros; now apply P0_derive| |exact Hm]. intros k Hk. destruct (E k Hk) as (? & ? & ?). split; assumption.
  - apply (glue_derive P1 P2); [intros; now apply P1_derive| |exact Hm]. intros k Hk. destruct (E k Hk) as (? & ? & ?). split; assumption.
  - apply (glue_cont P2); [intros; now apply P2_cont| |exact Hm]. intros k Hk. now destruct (E k Hk) as (? & ? & ?).
Qed.
End Pieces.

(** ** The tridiagonal algorithm solves the continuity equations *)
Section Solve.
Variables (n : nat) (x y : nat -> R).
Hypothesis Hx : forall i j, (i < j < n)%nat -> x i < x j.
Hypothesis Hn : (2 <= n)%nat.
Notation dec := (dec R_ops x y).
Lemma sig_range : forall j, (S (S j) < n)%nat -> 0 < (x (S j) - x j) / (x (S (S j)) - x j) < 1.
Proof.
  intros j H. pose proof (Hx j (S j) ltac:(lia)). pose proof (Hx (S j) (S (S j)) ltac:(lia)). split.
  - apply Rdiv_lt_0_compat; lra.
  - apply (Rmult_lt_reg_r (x (S (S j)) - x j)); [lra|]. unfold Rdiv. rewrite Rmult_assoc, Rinv_l by lra. lra.
Qed.
Lemma dec_range : forall i, (S i < n)%nat -> -1 < fst (dec i) <= 0.
Proof.
  induction i as [|j IH]; intro H.
  - cbn. destruct (Rltb _ _); cbn; lra.
  - specialize (IH ltac:(lia)). cbn [SplineModel.dec fst]. cbn [LeafGen.o_add LeafGen.o_sub LeafGen.o_mul LeafGen.o_div LeafGen.o_ofZ LeafGen.o_one R_ops].
    pose proof (sig_range j H) as S. set (sig := (x (Datatypes.S j) - x j) / (x (Datatypes.S (Datatypes.S j)) - x j)) in *.
    assert (P : 1 < sig * fst (dec j) + 2) by nra. split.
    + apply (Rmult_lt_reg_r (sig * fst (dec j) + 2)); [lra|]. unfold Rdiv. rewrite Rmult_assoc, Rinv_l by lra. nra.
    + apply (Rmult_le_reg_r (sig * fst (dec j) + 2)); [lra|]. unfold Rdiv. rewrite Rmult_assoc, Rinv_l by lra. lra.
Qed.
Lemma second_step : forall k, (S k < n)%nat -> second R_ops n x y k = fst (dec k) * second R_ops n x y (S k) + snd (dec k).
Proof.
  intros k H. unfold second. replace (n - 1 - k)%nat with (S (n - 1 - S k)) by lia. cbn [back]. replace (n - 1 - S (n - 1 - S k))%nat with k by lia. reflexivity.
Qed.
Lemma solves : forall k, (S (S k) < n)%nat -> continuity_eq x y (second R_ops n x y) k.
Proof.
  intros k H. unfold continuity_eq. pose proof (second_step k ltac:(lia)) as E1. pose proof (second_step (S k) ltac:(lia)) as E2.
  pose proof (dec_range k ltac:(lia)) as D. pose proof (sig_range k H) as S.
  pose proof (Hx k (Datatypes.S k) ltac:(lia)). pose proof (Hx (Datatypes.S k) (Datatypes.S (Datatypes.S k)) ltac:(lia)).
  revert E1 E2 D. cbn [SplineModel.dec fst snd]. cbn [LeafGen.o_add LeafGen.o_sub LeafGen.o_mul LeafGen.o_div LeafGen.o_ofZ LeafGen.o_one R_ops].
  generalize (second R_ops n x y k) (second R_ops n x y (Datatypes.S k)) (second R_ops n x y (Datatypes.S (Datatypes.S k))).
  generalize (dec k). intros [a u] m0 m1 m2. cbn [fst snd]. intros E1 E2 D.
  set (h1 := x (Datatypes.S k) - x k) in *. set (H2 := x (Datatypes.S (Datatypes.S k)) - x k) in *.
  set (h2 := x (Datatypes.S (Datatypes.S k)) - x (Datatypes.S k)) in *.
  assert (HH : H2 = h1 + h2) by (unfold H2, h1, h2; lra). assert (0 < h1) by (unfold h1; lra). assert (0 < h2) by (unfold h2; lra).
  set (dd := (y (Datatypes.S (Datatypes.S k)) - y (Datatypes.S k)) / h2 - (y (Datatypes.S k) - y k) / h1) in *.
  set (sig := h1 / H2) in *. assert (P : 0 < sig * a + 2) by nra.
  assert (E3 : (sig * a + 2) * m1 = (sig - 1) * m2 + (6 * dd / H2 - sig * u)). { rewrite E2 at 1. field. lra. }
  assert (E4 : sig * m0 + 2 * m1 + (1 - sig) * m2 = 6 * dd / H2) by (rewrite E1; lra).
  assert (SH : sig * H2 = h1) by (unfold sig; field; lra).
  assert (E5 : H2 * (sig * m0 + 2 * m1 + (1 - sig) * m2) = 6 * dd) by (rewrite E4; field; lra).
  replace dd with (H2 * (sig * m0 + 2 * m1 + (1 - sig) * m2) / 6) by (rewrite E5; field).
  rewrite <- SH. replace (sig * H2 + h2) with H2 by (rewrite SH; lra). replace h2 with (H2 - sig * H2) by (rewrite SH; lra). field.
Qed.
End Solve.

(** ** The function of the device *)
Lemma mAB_own : forall {T} (s : spline (T := T)) m12 m13 m23, mAB s m12 m13 m23 = own_mass (s_cyc s) m12 m13 m23.
Proof. intros. unfold mAB, own_mass. destruct (s_cyc s) as [|[|[|]]]; reflexivity. Qed.
Lemma mAC_other : forall {T} (s : spline (T := T)) m12 m13 m23, mAC s m12 m13 m23 = other_mass (s_cyc s) m12 m13 m23.
Proof. intros. unfold mAC, other_mass. destruct (s_cyc s) as [|[|[|]]]; reflexivity. Qed.
Lemma Rltb_iff : forall a b, Rltb a b = true <-> a < b.
Proof. intros a b. unfold Rltb. destruct (Rlt_dec a b); split; intro; try easy. Qed.
Lemma Rltb_false : forall a b, Rltb a b = false <-> b <= a.
Proof. intros a b. unfold Rltb. destruct (Rlt_dec a b); split; intro; try easy; lra. Qed.

Section Device.
Variables (t : list (R * R)) (s : spline (T := R)).
Hypothesis W : wf s.
Hypothesis Hn : (2 <= s_n s <= length t)%nat.
Hypothesis Hi : increasing (s_knots s).
Let x (k : nat) : R := nth k (s_knots s) 0.
Let re (k : nat) : R := fst (nth k (s_coefs s) (0, 0)).
Let im (k : nat) : R := snd (nth k (s_coefs s) (0, 0)).
Let dre (k : nat) : R := fst (nth k t (0, 0)).
Let dim (k : nat) : R := snd (nth k t (0, 0)).
Lemma x_inc : forall i j, (i < j < s_n s)%nat -> x i < x j.
Proof. intros i j H. apply Hi. destruct W as (W1 & _). lia. Qed.
Definition K (m : R) : nat := match scan R_ops (s_knots s) m (s_n s) 0 with Some i => pred i | None => 0%nat end.
Lemma K_spec : forall m, x 0%nat <= m < x (s_n s - 1)%nat -> scan R_ops (s_knots s) m (s_n s) 0 = Some (S (K m)) /\ (S (K m) < s_n s)%nat /\ x (K m) <= m < x (S (K m)).
Proof.
  intros m Hm. destruct W as (W1 & W2). unfold K. destruct (scan_some R_ops (s_knots s) m (s_n s) 0%nat ltac:(lia)) as (i & E & B & F & G). rewrite E.
  assert (N : forall j, (j < s_n s)%nat -> nth_error (s_knots s) j = Some (x j)) by (intros; apply nth_error_nth'; lia).
  assert (I0 : i <> 0%nat). { intros ->. destruct (G ltac:(lia)) as (x0 & E0 & L). rewrite (N 0%nat) in E0 by lia. injection E0 as <-. cbn [LeafGen.o_lt R_ops] in L. apply Rltb_iff in L. lra. }
  assert (IN : (i < s_n s)%nat).
  { destruct (Nat.lt_ge_cases i (s_n s)) as [L|L]; [exact L|]. pose proof (F (s_n s - 1)%nat (x (s_n s - 1)%nat) ltac:(lia) (N (s_n s - 1)%nat ltac:(lia))) as Q. cbn [LeafGen.o_lt R_ops] in Q. apply Rltb_false in Q. lra. }
  destruct i as [|i]; [lia|]. cbn [pred]. split; [reflexivity|]. split; [exact IN|]. split.
  - pose proof (F i (x i) ltac:(lia) (N i ltac:(lia))) as Q. cbn [LeafGen.o_lt R_ops] in Q. now apply Rltb_false in Q.
  - destruct (G ltac:(lia)) as (x0 & E0 & L). rewrite (N (S i) IN) in E0. injection E0 as <-. cbn [LeafGen.o_lt R_ops] in L. now apply Rltb_iff in L.
Qed.
Lemma cubic_acc : forall xl xh yl yh dl dh m a, cubic R_ops xl xh yl yh dl dh m a = a + cubic R_ops xl xh yl yh dl dh m 0.
Proof. intros. unfold cubic. cbn [LeafGen.o_add LeafGen.o_sub LeafGen.o_mul LeafGen.o_div LeafGen.o_ofZ LeafGen.o_one R_ops]. ring. Qed.
Lemma run_inside : forall m ret, x 0%nat <= m < x (s_n s - 1)%nat ->
  run R_ops t s m ret = Some (fst ret + P0 x re dre (K m) m, snd ret + P0 x im dim (K m) m).
Proof.
  intros m ret Hm. destruct (K_spec m Hm) as (E & B & _). destruct W as (W1 & W2). unfold run. rewrite E. cbn [obind].
  replace (Nat.ltb 0 (S (K m)) && Nat.ltb (S (K m)) (s_n s))%bool with true by (symmetry; apply andb_true_iff; split; apply Nat.ltb_lt; lia).
  replace (S (K m) - 1)%nat with (K m) by lia.
  rewrite !(nth_error_nth' (s_coefs s) (0, 0)) by lia. cbn [obind]. rewrite !(nth_error_nth' t (0, 0)) by lia. cbn [obind].
  rewrite !(nth_error_nth' (s_knots s) 0) by lia. cbn [obind]. unfold P0. do 2 f_equal; apply cubic_acc.
Qed.
Lemma value_single : forall m12 m13 m23, s_swap s = false -> x 0%nat <= own_mass (s_cyc s) m12 m13 m23 < x (s_n s - 1)%nat ->
  let m := own_mass (s_cyc s) m12 m13 m23 in value R_ops t s m12 m13 m23 = Some (P0 x re dre (K m) m, P0 x im dim (K m) m).
Proof.
  intros m12 m13 m23 Sw Hm m. unfold value. rewrite mAB_own. fold m in Hm |- *. rewrite (run_inside m _ Hm). cbn [obind fst snd]. rewrite Sw. cbn [LeafGen.o_zero R_ops].
  now rewrite !Rplus_0_l.
Qed.
Lemma smooth_ext : forall f g a b, (forall m, a < m < b -> f m = g m) -> smooth_between f a b -> smooth_between g a b.
Proof.
  intros f g a b H (f1 & f2 & S). exists f1, f2. intros m Hm. destruct (S m Hm) as (D & R). split; [|exact R].
  apply (is_derive_ext_loc f); [|exact D].
  assert (P : 0 < Rmin (m - a) (b - m)) by (apply Rmin_pos; lra). exists (mkposreal _ P). intros z Hz.
  unfold ball in Hz. cbn in Hz. unfold AbsRing_ball, abs, minus, plus, opp in Hz. cbn in Hz. apply Rabs_def2 in Hz.
  pose proof (Rmin_l (m - a) (b - m)). pose proof (Rmin_r (m - a) (b - m)). apply H. lra.
Qed.
Lemma own_same : forall cyc (m : R), own_mass cyc m m m = m.
Proof. intros. unfold own_mass. now destruct (Nat.eqb cyc 1), (Nat.eqb cyc 2). Qed.
Lemma re_smooth : s_swap s = false -> (forall k, (S (S k) < s_n s)%nat -> continuity_eq x re dre k) -> smooth_between (re_of t s) (x 0%nat) (x (s_n s - 1)%nat).
Proof.
  intros Sw C. apply (smooth_ext (fun m => P0 x re dre (K m) m)).
  - intros m Hm. unfold re_of. rewrite value_single; rewrite ?own_same; [reflexivity|exact Sw|lra].
  - apply (smooth (s_n s)); [apply x_inc|intros m Hm; apply (K_spec m Hm)|lia|exact C].
Qed.
Lemma im_smooth : s_swap s = false -> (forall k, (S (S k) < s_n s)%nat -> continuity_eq x im dim k) -> smooth_between (im_of t s) (x 0%nat) (x (s_n s - 1)%nat).
Proof.
  intros Sw C. apply (smooth_ext (fun m => P0 x im dim (K m) m)).
  - intros m Hm. unfold im_of. rewrite value_single; rewrite ?own_same; [reflexivity|exact Sw|lra].
  - apply (smooth (s_n s)); [apply x_inc|intros m Hm; apply (K_spec m Hm)|lia|exact C].
Qed.
(** At a knot other than the last. *)
Lemma run_knot : forall k ret, (S k < s_n s)%nat -> run R_ops t s (x k) ret = Some (fst ret + re k, snd ret + im k).
Proof.
  intros k ret Hk. assert (B : x 0%nat <= x k < x (s_n s - 1)%nat).
  { split; [destruct k; [lra|left; apply x_inc; lia]|]. apply x_inc. lia. }
  destruct (K_spec (x k) B) as (_ & B1 & B2). assert (KE : K (x k) = k).
  { apply (K_unique (s_n s) x x_inc K); [intros m Hm; apply (K_spec m Hm)|lia|exact B|exact Hk|]. split; [lra|]. apply x_inc. lia. }
  rewrite (run_inside (x k) ret B), KE. destruct (ends (s_n s) x re dre x_inc k Hk) as (E1 & _). destruct (ends (s_n s) x im dim x_inc k Hk) as (E2 & _).
  now rewrite E1, E2.
Qed.
End Device.

Lemma recalc_reads : forall t0 s t k, recalc R_ops t0 s = Some t -> (k < s_n s)%nat ->
  nth k t (0, 0) = (second R_ops (s_n s) (fun k => nth k (s_knots s) 0) (fun k => fst (nth k (s_coefs s) (0, 0))) k,
                    second R_ops (s_n s) (fun k => nth k (s_knots s) 0) (fun k => snd (nth k (s_coefs s) (0, 0))) k).
Proof.
  intros t0 s t k H Hk. unfold recalc in H. destruct (Nat.ltb (s_n s) 2); [discriminate|]. destruct (Nat.leb _ _); [|discriminate]. injection H as <-.
  rewrite app_nth1 by (rewrite map_length, seq_length; exact Hk).
  rewrite AmpProofs.nth_map_seq by exact Hk. reflexivity.
Qed.
Lemma recalc_smooth : forall t0 s t, wf s -> increasing (s_knots s) -> s_swap s = false -> recalc R_ops t0 s = Some t ->
  smooth_between (re_of t s) (nth 0 (s_knots s) 0) (nth (s_n s - 1) (s_knots s) 0) /\ smooth_between (im_of t s) (nth 0 (s_knots s) 0) (nth (s_n s - 1) (s_knots s) 0).
Proof.
  intros t0 s t W Hi Sw E.
  assert (B : (2 <= s_n s <= length t)%nat).
  { pose proof E as E'. unfold recalc in E'. destruct (Nat.ltb (s_n s) 2) eqn:E2; [discriminate|]. destruct (Nat.leb _ _) eqn:E3; [|discriminate].
    apply Nat.ltb_ge in E2. apply Nat.leb_le in E3. injection E' as <-. rewrite app_length, map_length, seq_length, skipn_length. lia. }
  assert (X : forall i j, (i < j < s_n s)%nat -> nth i (s_knots s) 0 < nth j (s_knots s) 0) by (intros; apply Hi; destruct W; lia).
  split; [apply re_smooth|apply im_smooth]; try assumption; intros k Hk; unfold continuity_eq; rewrite !(recalc_reads t0 s t _ E) by lia; cbn [fst snd].
  - apply (solves (s_n s) (fun k => nth k (s_knots s) 0) (fun k => fst (nth k (s_coefs s) (0, 0))) X ltac:(lia) k Hk).
  - apply (solves (s_n s) (fun k => nth k (s_knots s) 0) (fun k => snd (nth k (s_coefs s) (0, 0))) X ltac:(lia) k Hk).
Qed.
