(** Property theorems for binned data sets (C06-C11) and the grid of C04 in real numbers. *)
From Coq Require Import List ZArith String Bool Arith Lia Reals Lra.
From Flocq Require Import Core BinarySingleNaN.
From Verif Require Import F64 F64Lemmas F64Err ListAux VariableModel DataSetModel DataSetProofs2 GridSpec GridProofs GridProofs2
  BinModel BinSpec BinProofs BinGeom BinProofs2 DataSetProps.
Import ListNotations.
Open Scope Z_scope.

(** Deciding concrete outputs by computation. *)
Definition bout_same (a b : bout) : bool :=
  match a, b with
  | BROk, BROk | BRUB, BRUB => true
  | BRThrow e, BRThrow f => exc_same e f
  | BRVal x, BRVal y => fsame x y
  | BRNum n, BRNum m => Z.eqb n m
  | _, _ => false
  end.
Lemma bout_same_eq : forall a b, bout_same a b = true -> a = b.
Proof.
  intros [|e| |x|n] [|f| |y|m]; simpl; intros H; try discriminate; auto.
  - destruct e, f; try discriminate; auto.
  - f_equal. apply fsame_eq; auto.
  - f_equal. apply Z.eqb_eq; auto.
Qed.

(** ** C04 (continued) *)

(** With usable limits and bin counts, fillWithGrid produces every grid point: event k has, along each ordinary
    observable, the real-number centre of the bin that the mixed-radix digits of k select (up to rounding), and the event
    number k along the event-number observable. *)
Theorem C04_grid_of_bin_centres : forall hp obs,
  separated hp obs ->
  (forall o, In o obs -> grid_ready hp obs o) ->
  (forall o o', In o obs -> In o' obs -> isEventNumber o = true -> isEventNumber o' = true -> o = o') ->
  (Z.of_nat (grid_size hp obs) <= 2 ^ 53)%Z ->
  exists hp' d', fillWithGrid hp (new_dataset obs) = (hp', d', Ok tt) /\
    d_num d' = grid_size hp obs /\
    forall k j o, (k < grid_size hp obs)%nat -> nth_error obs j = Some o ->
      exists x, getValue d' o k = Ok x /\
        if isEventNumber o then x = f_of_Z (Z.of_nat k)
        else f_isfinite x = true /\
             (Rabs (f2R x - midpoint (f2R (get_f hp o FLower)) (f2R (get_f hp o FUpper)) (get_n hp o FNumBins)
                                    (Z.of_nat ((k / stride hp obs j) mod nbins hp o)))
               <= 12 * / 2 ^ 53 * Rmax (Rabs (f2R (get_f hp o FLower))) (Rabs (f2R (get_f hp o FUpper))))%R.
Proof. exact grid_of_centres. Qed.
Print Assumptions C04_grid_of_bin_centres.

(** The observables of C04_example (x with 2 bins, y with 3 bins, an event number) meet the hypotheses. *)
Example C04_centres_example :
  (separated ex_heap ex_obs) /\ (forall o, In o ex_obs -> grid_ready ex_heap ex_obs o) /\
  (forall o o', In o ex_obs -> In o' ex_obs -> isEventNumber o = true -> isEventNumber o' = true -> o = o') /\
  (Z.of_nat (grid_size ex_heap ex_obs) <= 2 ^ 53)%Z.
Proof.
  split; [apply C04_example|]. split; [|split].
  - intros o Ho. unfold grid_ready.
    assert (E : grid_size ex_heap ex_obs = 6%nat) by (vm_compute; reflexivity). rewrite E.
    assert (Hc : exists a b c, ex_obs = [a; b; c] /\ isEventNumber a = false /\ isEventNumber b = false /\ isEventNumber c = true /\
       list_same fsame [get_f ex_heap a FLower; get_f ex_heap a FUpper; get_f ex_heap b FLower; get_f ex_heap b FUpper; get_f ex_heap c FValue]
                       [f_of_Z 0; f_of_Z 10; f_of_Z (-5); f_of_Z 5; f_of_Z 0] = true /\ fle (get_f ex_heap c FLower) (f_of_Z 0) = true /\ fle (f_of_Z 6) (get_f ex_heap c FUpper) = true /\ get_n ex_heap a FNumBins = 2 /\ get_n ex_heap b FNumBins = 3).
    { do 3 eexists. split; [reflexivity|]. repeat split; vm_compute; reflexivity. }
    destruct Hc as (a & b & c & Eo & Ea & Eb & Ec & V & L1 & L2 & Na & Nb).
    apply (list_same_eq fsame fsame_eq) in V.
    assert (V1 : get_f ex_heap a FLower = f_of_Z 0) by congruence.
    assert (V2 : get_f ex_heap a FUpper = f_of_Z 10) by congruence.
    assert (V3 : get_f ex_heap b FLower = f_of_Z (-5)) by congruence.
    assert (V4 : get_f ex_heap b FUpper = f_of_Z 5) by congruence.
    assert (V5 : get_f ex_heap c FValue = f_of_Z 0) by congruence.
    rewrite Eo in Ho. destruct Ho as [<-|[<-|[<-|[]]]]; rewrite ?Ea, ?Eb, ?Ec.
    + unfold obs_usable, resolved. rewrite V1, V2, Na. destruct (usable_Z 0 10 2) as (U & E0 & E1); try lia.
      split; auto. rewrite E0, E1. unfold width. rewrite Rabs_R0, (Rabs_right 10) by lra. rewrite Rmax_right by lra. lra.
    + unfold obs_usable, resolved. rewrite V3, V4, Nb. destruct (usable_Z (-5) 5 3) as (U & E0 & E1); try lia.
      split; auto. rewrite E0, E1. unfold width. rewrite Rabs_left, Rabs_right by lra. rewrite Rmax_right by lra. lra.
    + change (Z.of_nat 6) with 6. auto.
  - intros o o' H H'. destruct H as [<-|[<-|[<-|[]]]]; destruct H' as [<-|[<-|[<-|[]]]]; cbv; intros; congruence.
  - assert (E : grid_size ex_heap ex_obs = 6%nat) by (vm_compute; reflexivity). rewrite E. lia.
Qed.

(** ** C06 *)

(** The local bins of a global bin are its mixed-radix digits, and the global bin of those is the global bin again. *)
Theorem C06_global_local_global : forall sizes g, Forall (fun s => 1 <= s) sizes -> zproduct sizes <= 2 ^ 32 ->
  0 <= g < zproduct sizes ->
  exists locals, globalToLocal sizes g = BOk locals /\ Forall2 (fun l s => 0 <= l < s) locals sizes /\
    (forall i, (i < List.length sizes)%nat -> nth i locals 0 = local_of sizes g i) /\
    localToGlobal sizes locals = g.
Proof. exact global_roundtrip. Qed.
Print Assumptions C06_global_local_global.

Theorem C06_local_global_local : forall sizes locals, zproduct sizes <= 2 ^ 32 ->
  Forall2 (fun l s => 0 <= l < s) locals sizes ->
  0 <= localToGlobal sizes locals < zproduct sizes /\ globalToLocal sizes (localToGlobal sizes locals) = BOk locals.
Proof. exact local_roundtrip. Qed.
Print Assumptions C06_local_global_local.

(** The closed form of the global bin number. *)
Theorem C06_global_is_sum : forall sizes locals, zproduct sizes <= 2 ^ 32 ->
  Forall2 (fun l s => 0 <= l < s) locals sizes -> localToGlobal sizes locals = global_of sizes locals.
Proof. exact localToGlobal_ok. Qed.
Print Assumptions C06_global_is_sum.

(** getNumBins() is the product of the bin counts as long as it is below 2^31. *)
Theorem C06_number_of_bins : forall sizes, Forall (fun s => 1 <= s) sizes -> zproduct sizes < 2 ^ 31 ->
  getNumBins sizes = zproduct sizes.
Proof. exact numBins_product. Qed.
Print Assumptions C06_number_of_bins.

Example C06_example : Forall (fun s => 1 <= s) [5; 4; 3] /\ zproduct [5; 4; 3] = 60 /\
  globalToLocal [5; 4; 3] 47 = BOk [2; 1; 2] /\ localToGlobal [5; 4; 3] [2; 1; 2] = 47.
Proof. repeat split; repeat constructor; lia. Qed.

(** Beyond the integer types: 65536 x 65536 bins are reported as 0 bins. *)
Theorem C06_number_of_bins_overflow_refuted : exists sizes, Forall (fun s => 1 <= s) sizes /\ zproduct sizes <= 2 ^ 32 /\
  getNumBins sizes = 0 /\ zproduct sizes = 2 ^ 32.
Proof. exists [65536; 65536]. repeat split; repeat constructor; vm_compute; congruence. Qed.
Print Assumptions C06_number_of_bins_overflow_refuted.

(** ** C07 *)

(** An event each of whose values lies in bin k_i of its observable, by at least a rounding margin (n * 2^-50 of a bin,
    needed only at edges between bins and at the upper limit), is accepted, and its bin is the one with local bins k_i. *)
Theorem C07_value_in_bin_partial : forall hp0 obs ops ks,
  let st := bafter hp0 obs ops in let sizes := collectBins hp0 obs in
  Forall2 (obs_usable (fst st)) obs sizes -> zproduct sizes < 2 ^ 31 -> List.length ks = List.length sizes ->
  Forall2 (obs_inside (fst st)) obs (combine sizes ks) ->
  ask st BAddEvent = BROk /\
  ask st BGetBinNumber = BRNum (global_of sizes ks) /\
  0 <= global_of sizes ks < zproduct sizes.
Proof. exact value_in_bin_api. Qed.
Print Assumptions C07_value_in_bin_partial.

(** A histogram of x in [0,10] with 5 bins and y in [0,10] with 2 bins. *)
Definition bx_vstate : vstate :=
  fst (vrun vinit [NewObservable "x" (f_of_Z 0) (f_of_Z 10); NewObservable "y" (f_of_Z 0) (f_of_Z 10);
                   Set_ 0 FNumBins (CN 5); Set_ 1 FNumBins (CN 2)]).
Definition bx_heap := fst bx_vstate.
Definition bx_obs := snd bx_vstate.
Definition bx_event (x y : Z) : bop := BAddEventValues [f_of_Z x; f_of_Z y].

Lemma bx_sizes : collectBins bx_heap bx_obs = [5; 2].
Proof. vm_compute. reflexivity. Qed.
Lemma bx_limits : forall h o, In o bx_obs -> (h = bx_heap \/ exists x y, h = fst (bafter bx_heap bx_obs [bx_event x y])) ->
  get_f h o FLower = f_of_Z 0 /\ get_f h o FUpper = f_of_Z 10.
Proof.
  intros h o Ho Hh.
  assert (L : forall hp : heap, exists a b, bx_obs = [a; b] /\ h_lower a = 1%nat /\ h_upper a = 2%nat /\ h_lower b = 6%nat /\ h_upper b = 7%nat
     /\ h_value a = 0%nat /\ h_value b = 5%nat) by (intros _; do 2 eexists; repeat split).
  destruct (L bx_heap) as (a & b & Eo & La & Ua & Lb & Ub & Va & Vb).
  assert (Hb : nth_error bx_heap 1 = Some (CF (f_of_Z 0)) /\ nth_error bx_heap 2 = Some (CF (f_of_Z 10)) /\
               nth_error bx_heap 6 = Some (CF (f_of_Z 0)) /\ nth_error bx_heap 7 = Some (CF (f_of_Z 10)))
    by (repeat split).
  assert (Hh' : forall i, In i [1; 2; 6; 7]%nat -> nth_error h i = nth_error bx_heap i).
  { destruct Hh as [->|(x & y & ->)]; auto. intros i Hi.
    unfold bafter, bx_event. cbn [brun bstep]. unfold b_addEventValues.
    replace (Nat.eqb _ _) with true by reflexivity.
    destruct (b_addEvent _ _) as [b' r]. cbn [fst]. cbn [b_obs new_binned]. rewrite Eo. cbn [set_values].
    assert (S1 : forall hp c v j, h_value c <> j -> nth_error (set_f hp c FValue v) j = nth_error hp j).
    { intros hp c v j Hj. unfold set_f, set_field. cbn [ptr_of]. destruct (nth_error hp (h_value c)) as [old|]; auto.
      destruct (same_cell_type old (CF v)); auto. apply nth_error_upd_other; auto. }
    rewrite !S1; auto; simpl in Hi; rewrite ?Va, ?Vb; intuition subst; discriminate. }
  unfold get_f, get_field. cbn [ptr_of]. rewrite Eo in Ho.
  destruct Ho as [<-|[<-|[]]]; rewrite ?La, ?Ua, ?Lb, ?Ub, !Hh' by (simpl; tauto);
  destruct Hb as (H1 & H2 & H3 & H4); rewrite ?H1, ?H2, ?H3, ?H4; auto.
Qed.

Example C07_example :
  let st := bafter bx_heap bx_obs [BSet (nth 0 bx_obs (mkHandle "" 0 0 0 0 (XObservable 0 false))) FValue (CF (f_of_Z 7));
                                   BSet (nth 1 bx_obs (mkHandle "" 0 0 0 0 (XObservable 0 false))) FValue (CF (f_of_Z 6))] in
  Forall2 (obs_usable (fst st)) bx_obs [5; 2] /\ Forall2 (obs_inside (fst st)) bx_obs (combine [5; 2] [3; 1]) /\
  zproduct [5; 2] < 2 ^ 31 /\ ask st BGetBinNumber = BRNum 8.
Proof.
  intros st.
  assert (L : forall o, In o bx_obs -> get_f (fst st) o FLower = f_of_Z 0 /\ get_f (fst st) o FUpper = f_of_Z 10).
  { intros o Ho. assert (Hc : forallb (fun o => fsame (get_f (fst st) o FLower) (f_of_Z 0) && fsame (get_f (fst st) o FUpper) (f_of_Z 10)) bx_obs = true)
      by (vm_compute; reflexivity).
    rewrite forallb_forall in Hc. specialize (Hc o Ho). apply andb_prop in Hc. destruct Hc. split; apply fsame_eq; auto. }
  assert (Eo : exists a b, bx_obs = [a; b]) by (do 2 eexists; reflexivity).
  destruct Eo as (a & b & Eo).
  assert (V : list_same fsame (map (fun o => get_f (fst st) o FValue) bx_obs) [f_of_Z 7; f_of_Z 6] = true) by (vm_compute; reflexivity).
  apply (list_same_eq fsame fsame_eq) in V.
  split; [|split; [|split]].
  - rewrite Eo in *. constructor; [|constructor; [|constructor]]; unfold obs_usable.
    { destruct (L a (or_introl eq_refl)) as [-> ->]. apply (usable_Z 0 10 5); lia. }
    { destruct (L b (or_intror (or_introl eq_refl))) as [-> ->]. apply (usable_Z 0 10 2); lia. }
  - clearbody st. rewrite Eo in *. cbn [map] in V. assert (Va : get_f (fst st) a FValue = f_of_Z 7) by congruence. assert (Vb : get_f (fst st) b FValue = f_of_Z 6) by congruence. cbn [combine].
    destruct (usable_Z 0 10 5 ltac:(lia) ltac:(lia) ltac:(lia) ltac:(lia)) as (_ & E0 & E10).
    destruct (f_of_Z_exact 7 ltac:(lia)) as [E7 F7]. destruct (f_of_Z_exact 6 ltac:(lia)) as [E6 F6].
    constructor; [|constructor; [|constructor]]; unfold obs_inside; cbn [fst snd].
    + destruct (L a (or_introl eq_refl)) as [-> ->]. rewrite Va. unfold inside. split; [exact F7|]. split; [lia|].
      rewrite E0, E10. unfold f2R. rewrite E7. unfold edge, width, margin. split; [right|]; simpl; lra.
    + destruct (L b (or_intror (or_introl eq_refl))) as [-> ->]. rewrite Vb. unfold inside. split; [exact F6|]. split; [lia|].
      rewrite E0, E10. unfold f2R. rewrite E6. unfold edge, width, margin. split; [right|]; simpl; lra.
  - vm_compute; reflexivity.
  - apply bout_same_eq. vm_compute. reflexivity.
Qed.

(** At the upper limit the claim fails: the value is in range, but with one observable addEvent throws ... *)
Theorem C07_upper_limit_refuted : exists hp obs v,
  (forall o, In o obs -> in_range (get_f hp o FLower) (get_f hp o FUpper) v = true) /\
  ask (hp, new_binned hp obs) (BAddEventValues [v]) = BRThrow EStdOutOfRange.
Proof.
  exists bx_heap, [nth 0 bx_obs (mkHandle "" 0 0 0 0 (XObservable 0 false))], (f_of_Z 10). split.
  - intros o [<-|[]]. vm_compute. reflexivity.
  - apply bout_same_eq. vm_compute. reflexivity.
Qed.
Print Assumptions C07_upper_limit_refuted.

(** ... and with two observables the event (10, 1) is counted in bin 5, whose y interval is [5, 10). *)
Theorem C07_upper_limit_wrong_bin_refuted : exists hp obs ev,
  let st := bafter hp obs [ev] in
  ev = BAddEventValues [f_of_Z 10; f_of_Z 1] /\
  collectBins hp obs = [5; 2] /\ (forall o, In o obs -> get_f hp o FLower = f_of_Z 0 /\ get_f hp o FUpper = f_of_Z 10) /\
  ask st (BGetContent 5) = BRVal (f_of_Z 1) /\
  local_of [5; 2] 5 1 = 1 /\ (1 < edge 0 10 2 1)%R.
Proof.
  exists bx_heap, bx_obs, (bx_event 10 1). cbv zeta. split; [reflexivity|]. split; [exact bx_sizes|]. split; [|split; [|split]].
  - intros o Ho. apply bx_limits; auto.
  - apply bout_same_eq. vm_compute. reflexivity.
  - vm_compute. reflexivity.
  - unfold edge, width. lra.
Qed.
Print Assumptions C07_upper_limit_wrong_bin_refuted.

(** Rounding alone can also push a value that is strictly below the upper limit out: limits [-1, 2^-60], value 2^-61. *)
Definition by_vstate : vstate :=
  fst (vrun vinit [NewObservable "x" (f_of_Z (-1)) (f_of_ZE 1 (-60)); Set_ 0 FNumBins (CN 2)]).
Theorem C07_rounding_refuted : exists hp obs v,
  (forall o, In o obs -> fle (get_f hp o FLower) v = true /\ flt v (get_f hp o FUpper) = true) /\
  ask (hp, new_binned hp obs) (BAddEventValues [v]) = BRThrow EStdOutOfRange.
Proof.
  exists (fst by_vstate), (snd by_vstate), (f_of_ZE 1 (-61)). split.
  - intros o Ho. destruct Ho as [<-|[]]. vm_compute. auto.
  - apply bout_same_eq. vm_compute. reflexivity.
Qed.
Print Assumptions C07_rounding_refuted.

(** ** C08 *)

(** After every history, the content of every bin is the sum (in double arithmetic, in the order of the calls) of the
    weights of the events that went to that bin since it was last overwritten; getNumEvents() counts the events. *)
Theorem C08_contents_are_sums : forall hp obs ops,
  let st := bafter hp obs ops in
  let log := entries (hp, new_binned hp obs) ops in
  exists n : Z, ask st BGetNumBins = BRNum n /\
  (forall b, Z.of_nat b < n -> ask st (BGetContent b) = BRVal (content_of log (Z.of_nat b))) /\
  (forall b, n <= Z.of_nat b -> ask st (BGetContent b) = BRThrow EStdOutOfRange) /\
  ask st BGetNumEvents = BRNum (Z.of_nat (fills_of log)).
Proof. exact contents_are_sums. Qed.
Print Assumptions C08_contents_are_sums.

(** Unweighted events: the content is exactly the number of events of the bin. *)
Theorem C08_counts_exact : forall hp obs ops n, forallb plain ops = true -> Z.of_nat (List.length ops) <= 2 ^ 53 ->
  ask (bafter hp obs ops) BGetNumBins = BRNum n -> forall b, Z.of_nat b < n ->
  ask (bafter hp obs ops) (BGetContent b) =
    BRVal (f_of_Z (Z.of_nat (fill_count (entries (hp, new_binned hp obs) ops) (Z.of_nat b)))).
Proof. exact plain_counts. Qed.
Print Assumptions C08_counts_exact.

(** A refused call changes nothing. *)
Theorem C08_refused_changes_nothing : forall hp obs ops o,
  (o = BAddEvent \/ (exists w, o = BAddWeighted w) \/ exists i x, o = BSetContent i x) ->
  ask (bafter hp obs ops) o <> BROk -> fst (bstep (bafter hp obs ops) o) = bafter hp obs ops.
Proof. exact refused_changes_nothing. Qed.
Print Assumptions C08_refused_changes_nothing.

Example C08_example :
  snd (brun (bx_heap, new_binned bx_heap bx_obs)
        [bx_event 1 1; bx_event 7 6; bx_event 7 20; BAddWeighted (f_of_Z 3); bx_event 6 7; BAddWeighted (f_of_Z 3); BGetContent 8; BGetContent 0; BGetNumEvents]) =
  [BROk; BROk; BRThrow EOutOfRange; BRThrow EOutOfRange; BROk; BROk; BRVal (f_of_Z 5); BRVal (f_of_Z 1); BRNum 4].
Proof. apply (list_same_eq bout_same bout_same_eq). vm_compute. reflexivity. Qed.

(** ** C09 *)

(** Without weights (fewer than 2^31 calls) getNumWeightedEvents() is the number of events. *)
Theorem C09_unweighted_partial : forall hp obs ops, forallb plain ops = true -> Z.of_nat (List.length ops) < 2 ^ 31 ->
  exists n, ask (bafter hp obs ops) BGetNumEvents = BRNum n /\
            ask (bafter hp obs ops) BGetNumWeighted = BRVal (f_of_Z n).
Proof. exact weighted_is_count. Qed.
Print Assumptions C09_unweighted_partial.

Example C09_example : forallb plain [bx_event 1 1; bx_event 7 6] = true /\
  ask (bafter bx_heap bx_obs [bx_event 1 1; bx_event 7 6]) BGetNumWeighted = BRVal (f_of_Z 2).
Proof. split; [reflexivity|]. apply bout_same_eq. vm_compute. reflexivity. Qed.

(** With weights the sum is truncated to an integer after every bin: weights 0.5 and 0.5 in two bins give 0. *)
Theorem C09_weights_refuted : exists hp obs ops i j,
  ask (bafter hp obs ops) (BGetContent i) = BRVal fhalf /\ ask (bafter hp obs ops) (BGetContent j) = BRVal fhalf /\ i <> j /\
  ask (bafter hp obs ops) BGetNumEvents = BRNum 2 /\
  ask (bafter hp obs ops) BGetNumWeighted = BRVal (f_of_Z 0).
Proof.
  exists bx_heap, bx_obs, [BAddWeighted fhalf; BSet (nth 0 bx_obs (mkHandle "" 0 0 0 0 (XObservable 0 false))) FValue (CF (f_of_Z 7)); BAddWeighted fhalf], 0%nat, 3%nat.
  split; [|split; [|split; [discriminate|split]]]; apply bout_same_eq; vm_compute; reflexivity.
Qed.
Print Assumptions C09_weights_refuted.

(** ** C10 *)

(** getBinCenter is the midpoint of the bin's interval, up to 12 units of rounding of the larger limit. *)
Theorem C10_center_is_midpoint : forall hp0 obs ops i o n g,
  let st := bafter hp0 obs ops in let sizes := collectBins hp0 obs in
  Forall (fun s => 1 <= s) sizes -> nth_error obs i = Some o -> nth_error sizes i = Some n ->
  obs_usable (fst st) o n ->
  exists c, ask st (BGetBinCenter i g) = BRVal c /\ f_isfinite c = true /\
    (Rabs (f2R c - midpoint (f2R (get_f (fst st) o FLower)) (f2R (get_f (fst st) o FUpper)) n (local_of sizes (Z.of_nat g) i))
      <= 12 * / 2 ^ 53 * Rmax (Rabs (f2R (get_f (fst st) o FLower))) (Rabs (f2R (get_f (fst st) o FUpper))))%R.
Proof. exact center_api. Qed.
Print Assumptions C10_center_is_midpoint.

(** Setting the observables to the centre of bin g makes getBinNumber() answer g. *)
Theorem C10_center_found_again : forall hp0 obs ops g hp,
  let st := bafter hp0 obs ops in let sizes := collectBins hp0 obs in
  Forall2 (obs_usable (fst st)) obs sizes -> zproduct sizes <= 2 ^ 32 -> Z.of_nat g < zproduct sizes ->
  Forall2 (fun o n => resolved (get_f (fst st) o FLower) (get_f (fst st) o FUpper) n) obs sizes ->
  (forall o, In o obs -> get_f hp o FLower = get_f (fst st) o FLower /\ get_f hp o FUpper = get_f (fst st) o FUpper) ->
  (forall i o, nth_error obs i = Some o -> ask st (BGetBinCenter i g) = BRVal (get_f hp o FValue)) ->
  ask (hp, snd st) BGetBinNumber = BRNum (Z.of_nat g).
Proof. exact center_found_again. Qed.
Print Assumptions C10_center_found_again.

(** All bins have the same volume, and (number of bins) x (bin volume) is the volume of the box up to rounding. *)
Theorem C10_volumes_fill_box : forall hp b, Forall2 (obs_usable hp) (b_obs b) (b_sizes b) ->
  (List.length (b_obs b) <= 1000)%nat ->
  (forall k, (k <= List.length (b_obs b))%nat ->
     (/ 2 ^ 900 <= bin_volume hp (firstn k (b_obs b)) (firstn k (b_sizes b)) <= 2 ^ 900)%R) ->
  (Rabs (IZR (zproduct (b_sizes b)) * f2R (getBinVolume hp b) - box hp (b_obs b))
    <= 4 * INR (List.length (b_obs b)) * / 2 ^ 53 * box hp (b_obs b))%R.
Proof. exact volumes_fill_box. Qed.
Print Assumptions C10_volumes_fill_box.

Lemma bx_usable : Forall2 (obs_usable bx_heap) bx_obs [5; 2].
Proof.
  assert (Eo : exists a b, bx_obs = [a; b]) by (do 2 eexists; reflexivity). destruct Eo as (a & b & Eo).
  pose proof (fun o Ho => bx_limits bx_heap o Ho (or_introl eq_refl)) as L. rewrite Eo in *.
  constructor; [|constructor; [|constructor]]; unfold obs_usable.
    { destruct (L a (or_introl eq_refl)) as [-> ->]. apply (usable_Z 0 10 5); lia. }
    { destruct (L b (or_intror (or_introl eq_refl))) as [-> ->]. apply (usable_Z 0 10 2); lia. }
Qed.
Example C10_example :
  Forall2 (obs_usable bx_heap) bx_obs [5; 2] /\
  Forall2 (fun o n => resolved (get_f bx_heap o FLower) (get_f bx_heap o FUpper) n) bx_obs [5; 2] /\
  (forall k, (k <= 2)%nat -> (/ 2 ^ 900 <= bin_volume bx_heap (firstn k bx_obs) (firstn k [5%Z; 2%Z]) <= 2 ^ 900)%R) /\
  ask (bafter bx_heap bx_obs []) (BGetBinCenter 0 8) = BRVal (f_of_Z 7) /\
  ask (bafter bx_heap bx_obs []) BGetBinVolume = BRVal (f_of_Z 10).
Proof.
  assert (Eo : exists a b, bx_obs = [a; b]) by (do 2 eexists; reflexivity). destruct Eo as (a & b & Eo).
  pose proof (fun o Ho => bx_limits bx_heap o Ho (or_introl eq_refl)) as L.
  destruct (usable_Z 0 10 5 ltac:(lia) ltac:(lia) ltac:(lia) ltac:(lia)) as (_ & E0 & E10).
  split; [exact bx_usable|]. split; [|split; [|split]].
  - rewrite Eo in *. constructor; [|constructor; [|constructor]]; unfold resolved.
    { destruct (L a (or_introl eq_refl)) as [-> ->].
      rewrite E0, E10; unfold width; rewrite Rabs_R0, (Rabs_right 10) by lra; rewrite Rmax_right by lra; lra. }
    { destruct (L b (or_intror (or_introl eq_refl))) as [-> ->].
      rewrite E0, E10; unfold width; rewrite Rabs_R0, (Rabs_right 10) by lra; rewrite Rmax_right by lra; lra. }
  - intros k Hk.
    assert (P : (1 <= 2 ^ 900)%R) by (apply pow_R1_Rle; lra).
    assert (P2 : (10 <= 2 ^ 900)%R).
    { rewrite pow_bpow. apply Rle_trans with (bpow radix2 4). change (bpow radix2 4) with 16%R. lra. apply bpow_le. lia. }
    assert (Q : (/ 2 ^ 900 <= 1)%R) by (apply Rle_trans with (/ 1)%R; [apply Rinv_le; lra|rewrite Rinv_1; lra]).
    rewrite Eo in *. destruct k as [|[|[|k]]]; [| | |lia]; cbn [firstn bin_volume].
    + lra.
    + destruct (L a (or_introl eq_refl)) as [-> ->]. rewrite E0, E10. unfold width. lra.
    + destruct (L a (or_introl eq_refl)) as [-> ->]. destruct (L b (or_intror (or_introl eq_refl))) as [-> ->]. rewrite E0, E10. unfold width. lra.
  - apply bout_same_eq. vm_compute. reflexivity.
  - apply bout_same_eq. vm_compute. reflexivity.
Qed.

(** ** C11 *)

Theorem C11_default_error : forall hp obs ops b x, forallb (fun o => negb (sets_error o)) ops = true ->
  ask (bafter hp obs ops) (BGetContent b) = BRVal x -> ask (bafter hp obs ops) (BGetError b) = BRVal (fsqrt x).
Proof. exact error_default. Qed.
Print Assumptions C11_default_error.

Theorem C11_set_error : forall hp obs ops b e later, ask (bafter hp obs ops) (BSetError b e) = BROk ->
  forallb (fun o => negb (sets_error o)) later = true ->
  ask (bafter hp obs (ops ++ BSetError b e :: later)) (BGetError b) = BRVal e.
Proof. exact error_set. Qed.
Print Assumptions C11_set_error.

(** Other bins keep their error when some error was set before ... *)
Theorem C11_other_errors_partial : forall hp obs ops b e b' b0 e0 ops0 ops1, b' <> b ->
  ops = ops0 ++ BSetError b0 e0 :: ops1 ->
  ask (bafter hp obs ops0) (BSetError b0 e0) = BROk ->
  ask (fst (bstep (bafter hp obs ops) (BSetError b e))) (BGetError b') = ask (bafter hp obs ops) (BGetError b').
Proof. exact error_frame. Qed.
Print Assumptions C11_other_errors_partial.

Example C11_example :
  snd (brun (bx_heap, new_binned bx_heap bx_obs)
        [BSetContent 3 (f_of_Z 4); BGetError 3; BSetError 2 (f_of_Z 9); BSetError 3 (f_of_Z 1); BGetError 2; BGetError 3]) =
  [BROk; BRVal (f_of_Z 2); BROk; BROk; BRVal (f_of_Z 9); BRVal (f_of_Z 1)].
Proof. apply (list_same_eq bout_same bout_same_eq). vm_compute. reflexivity. Qed.

(** ... but the first setBinError sets the errors of all other bins to 0. *)
Theorem C11_first_set_refuted : exists hp obs ops b b' e, b <> b' /\
  ask (bafter hp obs ops) (BGetError b') = BRVal (f_of_Z 2) /\
  ask (bafter hp obs (ops ++ [BSetError b e])) (BGetError b') = BRVal (f_of_Z 0).
Proof.
  exists bx_heap, bx_obs, [BSetContent 3 (f_of_Z 4)], 2%nat, 3%nat, (f_of_Z 9).
  split; [discriminate|]. split; apply bout_same_eq; vm_compute; reflexivity.
Qed.
Print Assumptions C11_first_set_refuted.
