(** fillWithGrid in terms of real-number bin centres. *)
From Coq Require Import List ZArith Bool Lia Reals Lra.
From Flocq Require Import Core BinarySingleNaN.
From Verif Require Import F64 F64Lemmas F64Err ListAux VariableModel VariableSpec VariableProofs DataSetModel DataSetSpec GridSpec GridProofs DataSetProofs2
  BinModel BinSpec BinProofs BinGeom BinProofs2.
Import ListNotations.
Open Scope nat_scope.

(** Ordinary observables: enough room for the bin arithmetic.  Event number: starts at 0 and its limits admit the count. *)
Definition grid_ready (hp : heap) (obs : list handle) (o : handle) : Prop :=
  if isEventNumber o
  then get_f hp o FValue = f_of_Z 0 /\ fle (get_f hp o FLower) (f_of_Z 0) = true /\
       fle (f_of_Z (Z.of_nat (grid_size hp obs))) (get_f hp o FUpper) = true
  else obs_usable hp o (get_n hp o FNumBins) /\ resolved (get_f hp o FLower) (get_f hp o FUpper) (get_n hp o FNumBins).

Lemma xle_trans : forall a b c, xle a b -> xle b c -> xle a c.
Proof. intros [| |r|] [| |s|] [| |t|]; simpl; try tauto. intros. eapply Rle_trans; eauto. Qed.

Lemma in_combine_seq : forall {A} (l : list A) j a s, In (j, a) (combine (seq s (length l)) l) ->
  s <= j /\ nth_error l (j - s) = Some a.
Proof.
  intros A l; induction l as [|b t IH]; intros j a s H; simpl in H; [contradiction|].
  destruct H as [H|H].
  - inversion H; subst. rewrite Nat.sub_diag. auto.
  - apply IH in H. destruct H as [H1 H2]. split; [lia|]. replace (j - s) with (S (j - S s)) by lia. exact H2.
Qed.

Lemma grid_coordinate_ok : forall hp obs k j o,
  (forall o, In o obs -> grid_ready hp obs o) ->
  (forall o o', In o obs -> In o' obs -> isEventNumber o = true -> isEventNumber o' = true -> o = o') ->
  (Z.of_nat (grid_size hp obs) <= 2 ^ 53)%Z -> k < grid_size hp obs -> nth_error obs j = Some o ->
  in_range (get_f hp o FLower) (get_f hp o FUpper) (grid_coordinate hp obs k j o) = true /\
  (if isEventNumber o then grid_coordinate hp obs k j o = f_of_Z (Z.of_nat k)
   else f_isfinite (grid_coordinate hp obs k j o) = true /\
        (Rabs (f2R (grid_coordinate hp obs k j o) -
              midpoint (f2R (get_f hp o FLower)) (f2R (get_f hp o FUpper)) (get_n hp o FNumBins)
                       (Z.of_nat ((k / stride hp obs j) mod nbins hp o)))
          <= 12 * / 2 ^ 53 * Rmax (Rabs (f2R (get_f hp o FLower))) (Rabs (f2R (get_f hp o FUpper))))%R).
Proof.
  intros hp obs k j o HG HE HS Hk Hj.
  assert (Ho : In o obs) by (eapply nth_error_In; eauto).
  pose proof (HG o Ho) as Hr. unfold grid_ready in Hr. unfold grid_coordinate.
  destruct (isEventNumber o) eqn:Eo.
  - destruct Hr as (V0 & L0 & U0).
    assert (El : last_event_number obs = Some o).
    { pose proof (last_event_number_ok obs) as Hok. pose proof (last_event_number_none obs o Ho Eo) as Hn.
      destruct (last_event_number obs) as [e|]; [|congruence]. destruct Hok as [Hin He]. f_equal. apply HE; auto. }
    rewrite El. unfold handle_eqb. rewrite Nat.eqb_refl. rewrite V0, count_from_zero by lia.
    split; [|reflexivity]. apply orb_true_iff. right. apply andb_true_iff. rewrite !fle_spec in *.
    assert (T : forall a b, (0 <= a <= b)%Z -> (b <= 2^53)%Z -> xle (meaning (f_of_Z a)) (meaning (f_of_Z b))).
    { intros a b H1 H2. destruct (f_of_Z_exact a ltac:(lia)) as [Ea Fa]. destruct (f_of_Z_exact b ltac:(lia)) as [Eb Fb].
      rewrite (meaning_finite _ Fa), (meaning_finite _ Fb). simpl. rewrite Ea, Eb. apply IZR_le. lia. }
    split.
    + eapply xle_trans; [apply (T (Z.of_nat k) (Z.of_nat (grid_size hp obs))); lia|exact U0].
    + eapply xle_trans; [exact L0|]. apply T; lia.
  - destruct Hr as (HU & HR). unfold obs_usable in HU.
    assert (Hn : (1 <= get_n hp o FNumBins)%Z) by (destruct HU as (_ & _ & ? & _); lia).
    assert (Hnb : nbins hp o <> 0) by (unfold nbins; lia).
    pose proof (Nat.mod_upper_bound (k / stride hp obs j) (nbins hp o) Hnb) as Hm.
    set (i := (k / stride hp obs j) mod nbins hp o) in *.
    assert (Hi : (0 <= Z.of_nat i < get_n hp o FNumBins)%Z) by (unfold nbins in Hm; lia).
    destruct (grid_point_err _ _ _ i HU Hi) as [F E]. split; [|split; [exact F|exact E]].
    apply orb_true_iff. right. rewrite grid_point_center.
    assert (HI : inside (get_f hp o FLower) (get_f hp o FUpper) (get_n hp o FNumBins) (Z.of_nat i)
                        (bin_center (get_f hp o FLower) (get_f hp o FUpper) (get_n hp o FNumBins) (Z.of_nat i))).
    { apply center_inside; auto. }
    destruct (inside_limits _ _ _ HU _ _ HI) as [Fc [H1 H2]].
    apply andb_true_iff. rewrite !fle_R; auto; try apply HU.
Qed.

Lemma grid_of_centres : forall hp obs,
  separated hp obs ->
  (forall o, In o obs -> grid_ready hp obs o) ->
  (forall o o', In o obs -> In o' obs -> isEventNumber o = true -> isEventNumber o' = true -> o = o') ->
  (Z.of_nat (grid_size hp obs) <= 2 ^ 53)%Z ->
  exists hp' d', fillWithGrid hp (new_dataset obs) = (hp', d', Ok tt) /\
    d_num d' = grid_size hp obs /\
    forall k j o, k < grid_size hp obs -> nth_error obs j = Some o ->
      exists x, getValue d' o k = Ok x /\
        if isEventNumber o then x = f_of_Z (Z.of_nat k)
        else f_isfinite x = true /\
             (Rabs (f2R x - midpoint (f2R (get_f hp o FLower)) (f2R (get_f hp o FUpper)) (get_n hp o FNumBins)
                                    (Z.of_nat ((k / stride hp obs j) mod nbins hp o)))
               <= 12 * / 2 ^ 53 * Rmax (Rabs (f2R (get_f hp o FLower))) (Rabs (f2R (get_f hp o FUpper))))%R.
Proof.
  intros hp obs HS HG HE HN.
  destruct (fillWithGrid_api hp obs HS) as (hp' & d' & E & N & V).
  - intros k Hk. unfold row_in_range. apply forallb_forall. intros [o x] Hin. cbn [fst snd].
    assert (X : exists j, nth_error obs j = Some o /\ x = grid_coordinate hp obs k j o).
    { unfold grid_event in Hin.
      assert (G : forall l s, In (o, x) (combine l (map (fun p => grid_coordinate hp obs k (fst p) (snd p)) (combine (seq s (length l)) l))) ->
                  exists j, nth_error l (j - s) = Some o /\ s <= j /\ x = grid_coordinate hp obs k j o).
      { intros l; induction l as [|a t IH]; intros s H; simpl in H; [contradiction|]. destruct H as [H|H].
        - inversion H; subst. exists s. rewrite Nat.sub_diag. auto.
        - apply IH in H. destruct H as (j & H1 & H2 & H3). exists j. split; [|split; auto; lia].
          replace (j - s) with (S (j - S s)) by lia. exact H1. }
      apply G in Hin. destruct Hin as (j & H1 & H2 & H3). exists j. rewrite Nat.sub_0_r in H1. auto. }
    destruct X as (j & Hj & ->). apply (grid_coordinate_ok hp obs k j o HG HE HN Hk Hj).
  - exists hp', d'. split; [exact E|]. split; [exact N|]. intros k j o Hk Hj.
    exists (grid_coordinate hp obs k j o). split; [apply V; auto|].
    apply (grid_coordinate_ok hp obs k j o HG HE HN Hk Hj).
Qed.
