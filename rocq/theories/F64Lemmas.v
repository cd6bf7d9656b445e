(** Lemmas about the doubles of [F64]. *)
From Coq Require Import ZArith Reals Bool Lia Lra Floats.SpecFloat.
From Flocq Require Import Core BinarySingleNaN.
From Verif Require Import F64.

Lemma meaning_finite : forall x, is_finite x = true -> meaning x = XFin (B2R x).
Proof. intros [s|s| |s m e H]; simpl; try discriminate; reflexivity. Qed.

Lemma fle_spec : forall x y, fle x y = true <-> xle (meaning x) (meaning y).
Proof.
  intros x y. unfold fle.
  destruct (is_finite x) eqn:Fx; destruct (is_finite y) eqn:Fy.
  - rewrite (Bleb_correct 53 1024 x y Fx Fy).
    rewrite (meaning_finite x Fx), (meaning_finite y Fy). simpl.
    split; intros H.
    + destruct (Rle_bool_spec (B2R x) (B2R y)); [assumption|discriminate].
    + apply Rle_bool_true; assumption.
  - rewrite (meaning_finite x Fx).
    destruct y as [s|s| |s m e H]; simpl in Fy; try discriminate;
    destruct x as [s'|s'| |s' m' e' H']; simpl in Fx; try discriminate;
    try destruct s; try destruct s'; simpl; unfold Bleb, SpecFloat.SFleb; simpl; intuition discriminate.
  - rewrite (meaning_finite y Fy).
    destruct x as [s|s| |s m e H]; simpl in Fx; try discriminate;
    destruct y as [s'|s'| |s' m' e' H']; simpl in Fy; try discriminate;
    try destruct s; try destruct s'; simpl; unfold Bleb, SpecFloat.SFleb; simpl; intuition discriminate.
  - destruct x as [s|s| |s m e H]; simpl in Fx; try discriminate;
    destruct y as [s'|s'| |s' m' e' H']; simpl in Fy; try discriminate;
    try destruct s; try destruct s'; simpl; unfold Bleb, SpecFloat.SFleb; simpl; intuition discriminate.
Qed.

Lemma feq_spec : forall x y, feq x y = true <-> xeq (meaning x) (meaning y).
Proof.
  intros x y. unfold feq, xeq.
  destruct (is_finite x) eqn:Fx; destruct (is_finite y) eqn:Fy.
  - rewrite (Beqb_correct 53 1024 x y Fx Fy).
    rewrite (meaning_finite x Fx), (meaning_finite y Fy). simpl.
    split; intros H.
    + destruct (Req_bool_spec (B2R x) (B2R y)) as [E|E]; [rewrite E; split; apply Rle_refl|discriminate].
    + apply Req_bool_true; lra.
  - rewrite (meaning_finite x Fx).
    destruct y as [s|s| |s m e H]; simpl in Fy; try discriminate;
    destruct x as [s'|s'| |s' m' e' H']; simpl in Fx; try discriminate;
    try destruct s; try destruct s'; simpl; unfold Beqb, SpecFloat.SFeqb; simpl; intuition discriminate.
  - rewrite (meaning_finite y Fy).
    destruct x as [s|s| |s m e H]; simpl in Fx; try discriminate;
    destruct y as [s'|s'| |s' m' e' H']; simpl in Fy; try discriminate;
    try destruct s; try destruct s'; simpl; unfold Beqb, SpecFloat.SFeqb; simpl; intuition discriminate.
  - destruct x as [s|s| |s m e H]; simpl in Fx; try discriminate;
    destruct y as [s'|s'| |s' m' e' H']; simpl in Fy; try discriminate;
    try destruct s; try destruct s'; simpl; unfold Beqb, SpecFloat.SFeqb; simpl; intuition discriminate.
Qed.

(** Integers up to 2^53 convert exactly and add exactly. *)
Lemma generic_format_Z : forall z, (Z.abs z <= 2^53)%Z ->
  generic_format radix2 (SpecFloat.fexp 53 1024) (IZR z).
Proof.
  intros z Hz.
  change (SpecFloat.fexp 53 1024) with (FLT_exp (-1074) 53).
  destruct (Z.eq_dec (Z.abs z) (2^53)) as [E|E].
  - assert (Hg : generic_format radix2 (FLT_exp (-1074) 53) (bpow radix2 53)).
    { apply generic_format_bpow. unfold FLT_exp. lia. }
    destruct (Z.abs_spec z) as [[_ Ha]|[_ Ha]].
    + replace z with (2^53)%Z by lia. exact Hg.
    + replace z with (-(2^53))%Z by lia. rewrite opp_IZR. apply generic_format_opp. exact Hg.
  - apply generic_format_FLT.
    apply FLT_spec with (Float radix2 z 0).
    + unfold F2R; simpl. lra.
    + simpl. change (Z.pow_pos 2 53) with (2^53)%Z. lia.
    + simpl; lia.
Qed.

Lemma round_Z : forall z, (Z.abs z <= 2^53)%Z ->
  round radix2 (SpecFloat.fexp 53 1024) (round_mode mode_NE) (IZR z) = IZR z.
Proof. intros z Hz. apply round_generic. apply valid_rnd_round_mode. now apply generic_format_Z. Qed.

Lemma bpow_1024_big : forall z, (Z.abs z <= 2^53)%Z -> (Rabs (IZR z) < bpow radix2 1024)%R.
Proof.
  intros z Hz. rewrite <- abs_IZR.
  apply Rle_lt_trans with (IZR (2^53)). now apply IZR_le.
  change (IZR (2^53)) with (bpow radix2 53). apply bpow_lt. lia.
Qed.

Lemma f_of_Z_exact : forall z, (Z.abs z <= 2^53)%Z ->
  B2R (f_of_Z z) = IZR z /\ is_finite (f_of_Z z) = true.
Proof.
  intros z Hz.
  pose proof (binary_normalize_correct 53 1024 f64_prec_gt f64_prec_lt mode_NE z 0 false) as H.
  fold (f_of_Z z) in H.
  replace (F2R {| Fnum := z; Fexp := 0 |}) with (IZR z) in H by (unfold F2R; simpl; lra).
  cbv zeta in H.
  rewrite round_Z in H by assumption.
  rewrite Rlt_bool_true in H by now apply bpow_1024_big.
  destruct H as [H1 [H2 _]]. split; assumption.
Qed.

Lemma fadd_Z : forall a b, (Z.abs a <= 2^53)%Z -> (Z.abs b <= 2^53)%Z -> (Z.abs (a+b) <= 2^53)%Z ->
  (0 <= a)%Z -> (0 < b)%Z ->
  fadd (f_of_Z a) (f_of_Z b) = f_of_Z (a + b).
Proof.
  intros a b Ha Hb Hab Hpa Hpb.
  destruct (f_of_Z_exact a Ha) as [Ra Fa].
  destruct (f_of_Z_exact b Hb) as [Rb Fb].
  destruct (f_of_Z_exact (a+b) Hab) as [Rab Fab].
  pose proof (Bplus_correct 53 1024 f64_prec_gt f64_prec_lt mode_NE _ _ Fa Fb) as H.
  rewrite Ra, Rb, <- plus_IZR, round_Z in H by assumption.
  rewrite Rlt_bool_true in H by now apply bpow_1024_big.
  destruct H as [H1 [H2 H3]].
  apply B2R_Bsign_inj; [exact H2|exact Fab| |].
  - unfold fadd. rewrite H1, Rab. reflexivity.
  - unfold fadd. rewrite H3.
    rewrite Rcompare_Gt by (apply IZR_lt; lia).
    pose proof (binary_normalize_correct 53 1024 f64_prec_gt f64_prec_lt mode_NE (a+b) 0 false) as Hn.
    cbv zeta in Hn.
    replace (F2R {| Fnum := a+b; Fexp := 0 |}) with (IZR (a+b)) in Hn by (unfold F2R; simpl; lra).
    rewrite round_Z in Hn by assumption.
    rewrite Rlt_bool_true in Hn by now apply bpow_1024_big.
    destruct Hn as [_ [_ Hs]]. unfold f_of_Z. rewrite Hs.
    rewrite Rcompare_Gt by (apply IZR_lt; lia). reflexivity.
Qed.

Lemma fsame_eq : forall x y, fsame x y = true -> x = y.
Proof.
  intros x y H. apply B2SF_inj.
  destruct x as [s|s| |s m e Hx]; destruct y as [s'|s'| |s' m' e' Hy]; simpl in *; try discriminate; auto.
  - apply eqb_prop in H. subst. reflexivity.
  - apply eqb_prop in H. subst. reflexivity.
  - apply andb_prop in H. destruct H as [H H3]. apply andb_prop in H. destruct H as [H1 H2].
    apply eqb_prop in H1. apply Pos.eqb_eq in H2. apply Z.eqb_eq in H3. subst. reflexivity.
Qed.

Fixpoint list_same {A} (eqb : A -> A -> bool) (l1 l2 : list A) : bool :=
  match l1, l2 with
  | nil, nil => true
  | cons a t, cons b u => eqb a b && list_same eqb t u
  | _, _ => false
  end.
Lemma list_same_eq : forall {A} (eqb : A -> A -> bool), (forall x y, eqb x y = true -> x = y) ->
  forall l1 l2, list_same eqb l1 l2 = true -> l1 = l2.
Proof.
  intros A eqb He l1; induction l1 as [|a t IH]; intros [|b u] H; simpl in H; try discriminate; auto.
  apply andb_prop in H. destruct H as [H1 H2]. f_equal; auto.
Qed.

Lemma fsame_refl : forall x, fsame x x = true.
Proof. intros [s|s| |s m e p]; cbn; try reflexivity; try (now destruct s). rewrite Pos.eqb_refl, Z.eqb_refl. now destruct s. Qed.
Lemma list_same_refl : forall l, list_same fsame l l = true.
Proof. induction l as [|a l IH]; [reflexivity|]. cbn. now rewrite fsame_refl. Qed.
