(** Proofs: the column-wise data set refines the list of events. *)
From Coq Require Import List ZArith Bool Lia Arith.
From Verif Require Import F64 ListAux VariableModel DataSetModel DataSetSpec.
Import ListNotations.

Definition columns (n : nat) (evs : list (list f64)) : list (list f64) :=
  map (fun j => map (fun ev => nth j ev fzero) evs) (seq 0 n).

Definition drel (obs : list handle) (st : heap * dataset) (s : dspec) : Prop :=
  fst st = e_heap s /\ d_obs (snd st) = obs /\ d_num (snd st) = length (e_events s) /\
  d_data (snd st) = columns (length obs) (e_events s) /\
  Forall (fun ev => length ev = length obs) (e_events s).

Lemma checkAllVars_spec : forall hp obs,
  checkAllVars hp obs = if all_in_range hp obs then Ok tt else Throw EOutOfRange.
Proof.
  intros hp obs; induction obs as [|h t IH]; simpl; auto.
  destruct (handle_in_range hp h); simpl; auto.
Qed.

Lemma push_columns_gen : forall hp obs k evs vals,
  length vals = k ->
  push_columns hp obs (map (fun j => map (fun ev => nth j ev fzero) evs) (seq k (length obs)))
  = (map (fun j => map (fun ev => nth j ev fzero) (evs ++ [vals ++ current hp obs])) (seq k (length obs)), Ok tt).
Proof.
  intros hp obs; induction obs as [|h t IH]; intros k evs vals Hk; simpl; auto.
  rewrite (IH (S k) evs (vals ++ [get_f hp h FValue])).
  2:{ rewrite app_length. simpl. lia. }
  rewrite <- app_assoc. simpl. f_equal. f_equal.
  rewrite map_app. simpl. f_equal. f_equal.
  rewrite app_nth2 by lia. replace (k - length vals) with 0 by lia. reflexivity.
Qed.

Lemma push_columns_spec : forall hp obs evs,
  push_columns hp obs (columns (length obs) evs) = (columns (length obs) (evs ++ [current hp obs]), Ok tt).
Proof. intros. apply (push_columns_gen hp obs 0 evs []). reflexivity. Qed.

Lemma current_length : forall hp obs, length (current hp obs) = length obs.
Proof. intros. unfold current. apply map_length. Qed.

Lemma addEvent_spec : forall obs hp d s, drel obs (hp, d) s ->
  let '(d', r) := addEvent hp d in
  drel obs (hp, d') (fst (spec_add obs s)) /\ out_unit r = snd (spec_add obs s).
Proof.
  intros obs hp d s (H1 & H2 & H3 & H4 & H5). simpl in *. subst hp.
  unfold addEvent, spec_add. rewrite H2, checkAllVars_spec.
  destruct (all_in_range (e_heap s) obs) eqn:E.
  - rewrite H4, push_columns_spec. simpl. split; auto.
    split; [reflexivity|]. split; [reflexivity|]. simpl. split.
    + rewrite app_length; simpl. rewrite H3. lia.
    + split; auto. apply Forall_app. split; auto. constructor; auto. apply current_length.
  - simpl. split; auto. split; auto.
Qed.

Lemma set_values_assign : forall obs hp vals, set_values hp obs vals = assign hp obs vals.
Proof.
  intros obs; induction obs as [|h t IH]; intros hp vals; simpl; auto.
  destruct vals as [|x xs]; simpl; auto. rewrite IH. reflexivity.
Qed.

Lemma indexOfVariable_find : forall obs v k,
  match indexOfVariable obs v with
  | Ok i => find (fun i => match nth_error obs (i - k) with Some h => handle_eqb v h | None => false end)
                 (seq k (length obs)) = Some (k + i) /\ i < length obs
  | Throw e => e = EGeneral /\
               find (fun i => match nth_error obs (i - k) with Some h => handle_eqb v h | None => false end)
                 (seq k (length obs)) = None
  end.
Proof.
  intros obs v; induction obs as [|h t IH]; intros k; simpl; auto.
  rewrite Nat.sub_diag. simpl.
  destruct (handle_eqb v h).
  - split; [f_equal; lia|lia].
  - specialize (IH (S k)).
    assert (Hext : forall l, (forall x, In x l -> S k <= x) ->
       find (fun i => match nth_error (h :: t) (i - k) with Some h => handle_eqb v h | None => false end) l
       = find (fun i => match nth_error t (i - S k) with Some h => handle_eqb v h | None => false end) l).
    { intros l; induction l as [|x xs IHl]; intros Hin; simpl; auto.
      assert (Hx : S k <= x) by (apply Hin; left; reflexivity).
      destruct (x - k) as [|m] eqn:Em; [lia|]. simpl.
      replace (x - S k) with m by lia.
      destruct (match nth_error t m with Some h0 => handle_eqb v h0 | None => false end); auto.
      apply IHl. intros y Hy. apply Hin. right; auto. }
    rewrite Hext by (intros x Hx; apply in_seq in Hx; lia).
    destruct (indexOfVariable t v) as [i|e].
    + destruct IH as [IH1 IH2]. rewrite IH1. split; [f_equal; lia|lia].
    + exact IH.
Qed.

Lemma indexOfVariable_spec : forall obs v,
  indexOfVariable obs v = match position obs v with Some i => Ok i | None => Throw EGeneral end.
Proof.
  intros obs v. pose proof (indexOfVariable_find obs v 0) as H. unfold position.
  assert (E : find (fun i => match nth_error obs i with Some h => handle_eqb v h | None => false end) (seq 0 (length obs))
            = find (fun i => match nth_error obs (i - 0) with Some h => handle_eqb v h | None => false end) (seq 0 (length obs))).
  { generalize (seq 0 (length obs)). intros l. induction l as [|x xs IH]; simpl; auto.
    rewrite Nat.sub_0_r, IH. reflexivity. }
  rewrite E. destruct (indexOfVariable obs v) as [i|e].
  - destruct H as [-> _]. reflexivity.
  - destruct H as [-> ->]. reflexivity.
Qed.

Lemma position_lt : forall obs v i, position obs v = Some i -> i < length obs.
Proof. intros obs v i H. unfold position in H. apply find_some in H. destruct H as [H _]. apply in_seq in H. lia. Qed.

Lemma nth_error_columns : forall n evs i, i < n ->
  nth_error (columns n evs) i = Some (map (fun ev => nth i ev fzero) evs).
Proof.
  intros n evs i H. unfold columns. apply nth_error_map_iff. exists i. split; auto.
  rewrite nth_error_nth' with (d := 0) by (rewrite seq_length; auto).
  rewrite seq_nth by auto. reflexivity.
Qed.

Lemma fill_prefix_all : forall col x, fill_prefix (length col) x col = map (fun _ => x) col.
Proof. intros col x; induction col as [|a t IH]; simpl; auto. f_equal; auto. Qed.

Lemma set_coordinate_upd : forall i x ev, i < length ev -> set_coordinate i x ev = upd ev i x.
Proof.
  intros i x ev; revert i; induction ev as [|a t IH]; intros [|i] H; simpl in *; try lia; auto.
  unfold set_coordinate in *. simpl. f_equal. apply IH. lia.
Qed.

Lemma set_coordinate_length : forall i x ev, i < length ev -> length (set_coordinate i x ev) = length ev.
Proof. intros. rewrite set_coordinate_upd by assumption. apply upd_length. Qed.

Lemma columns_set : forall n evs i x, i < n -> Forall (fun ev => length ev = n) evs ->
  upd (columns n evs) i (map (fun _ => x) evs) = columns n (map (set_coordinate i x) evs).
Proof.
  intros n evs i x Hi Hall. apply nth_error_ext. intros j.
  destruct (lt_dec j n) as [Hj|Hj].
  - rewrite (nth_error_columns n (map (set_coordinate i x) evs) j Hj).
    destruct (Nat.eq_dec i j) as [<-|Hne].
    + rewrite nth_error_upd_same by (unfold columns; rewrite map_length, seq_length; auto).
      f_equal. rewrite map_map. apply map_ext_in. intros ev Hev.
      rewrite Forall_forall in Hall. specialize (Hall ev Hev).
      rewrite set_coordinate_upd by lia. rewrite nth_upd_same; auto. lia.
    + rewrite nth_error_upd_other by auto. rewrite nth_error_columns by auto.
      f_equal. rewrite map_map. apply map_ext_in. intros ev Hev.
      rewrite Forall_forall in Hall. specialize (Hall ev Hev).
      rewrite set_coordinate_upd by lia. rewrite nth_upd_other; auto.
  - transitivity (@None (list f64)).
    + apply nth_error_None. rewrite upd_length. unfold columns. rewrite map_length, seq_length. lia.
    + symmetry. apply nth_error_None. unfold columns. rewrite map_length, seq_length. lia.
Qed.

Lemma load_columns_gen : forall obs hp k evs idx ev,
  nth_error evs idx = Some ev -> length ev = k + length obs ->
  load_columns hp obs (map (fun j => map (fun ev => nth j ev fzero) evs) (seq k (length obs))) idx
  = (assign hp obs (skipn k ev), Ok tt).
Proof.
  intros obs; induction obs as [|h t IH]; intros hp k evs idx ev Hev Hlen; simpl.
  - destruct (skipn k ev); reflexivity.
  - rewrite (map_nth_error (fun ev => nth k ev fzero) idx evs Hev).
    simpl in Hlen.
    assert (Hk : k < length ev) by lia.
    assert (Hsk : skipn k ev = nth k ev fzero :: skipn (S k) ev).
    { clear -Hk. revert ev Hk. induction k as [|k IHk]; intros [|a l] Hk; simpl in *; try lia; auto. apply IHk. lia. }
    rewrite (IH _ (S k) evs idx ev Hev) by lia. rewrite Hsk. reflexivity.
Qed.

Lemma load_columns_none : forall obs hp evs idx,
  nth_error evs idx = None -> obs <> [] ->
  load_columns hp obs (columns (length obs) evs) idx = (hp, Throw EStdOutOfRange).
Proof.
  intros [|h t] hp evs idx Hn Hne; [contradiction|].
  simpl. assert (E : nth_error (map (fun ev => nth 0 ev fzero) evs) idx = None).
  { apply nth_error_None. rewrite map_length. apply nth_error_None. auto. }
  rewrite E. reflexivity.
Qed.

Lemma all_some_map : forall {A B} (f : A -> option B) (g : A -> B) l,
  (forall x, In x l -> f x = Some (g x)) -> all_some (map f l) = Some (map g l).
Proof.
  intros A B f g l; induction l as [|x xs IH]; intros H; simpl; auto.
  rewrite (H x) by (left; auto). rewrite IH by (intros; apply H; right; auto). reflexivity.
Qed.

Lemma all_some_self : forall {A} (l : list A), all_some (map (fun j => nth_error l j) (seq 0 (length l))) = Some l.
Proof.
  intros A l.
  destruct l as [|d l']. { reflexivity. }
  set (l := d :: l').
  rewrite (all_some_map (fun j => nth_error l j) (fun j => nth j l d)).
  - f_equal. apply nth_ext with (d := d) (d' := d).
    + rewrite map_length, seq_length. reflexivity.
    + intros n Hn. rewrite map_length, seq_length in Hn.
      change d with ((fun j => nth j l d) (length l)) at 1 || idtac.
      rewrite nth_indep with (d' := nth 0 l d) by (rewrite map_length, seq_length; auto).
      rewrite (map_nth (fun j => nth j l d) (seq 0 (length l)) 0 n).
      rewrite seq_nth by auto. reflexivity.
  - intros j Hj. apply in_seq in Hj. apply nth_error_nth'. lia.
Qed.

Lemma to_matrix_spec : forall (obs : list handle) d evs, obs <> [] ->
  d_data d = columns (length obs) evs -> to_matrix d = Ok (columns (length obs) evs).
Proof.
  intros [|h t] d evs Hne Hd; [contradiction|].
  unfold to_matrix. rewrite Hd. set (C := columns (length (h :: t)) evs).
  assert (HC : C = map (fun ev => nth 0 ev fzero) evs :: tl C) by reflexivity.
  rewrite HC at 1.
  assert (Hlen : forall col : list f64, In col C -> length col = length evs).
  { intros col Hcol. unfold C, columns in Hcol. apply in_map_iff in Hcol. destruct Hcol as (j & <- & _). apply map_length. }
  rewrite map_length.
  rewrite (all_some_map _ (fun c => c)).
  - rewrite map_id. reflexivity.
  - intros col Hcol. rewrite <- (Hlen col Hcol). apply all_some_self.
Qed.

Lemma assign_app_index : forall hp obs (ev : list f64) x h,
  length obs = length ev + 1 -> nth_error obs (length ev) = Some h ->
  set_f (assign hp (firstn (length ev) obs) ev) h FValue x = assign hp obs (ev ++ [x]).
Proof.
  intros hp obs ev; revert hp obs; induction ev as [|a t IH]; intros hp obs x h Hlen Hh; simpl in *.
  - destruct obs as [|o [|]]; simpl in *; try lia. injection Hh as ->. reflexivity.
  - destruct obs as [|o os]; simpl in *; [lia|]. unfold assign in *. simpl. apply IH; auto; lia.
Qed.

Lemma from_matrix_loop_spec : forall cols obs hp d s rows fl idx,
  drel obs (hp, d) s -> Forall (fun c => length c = rows) cols ->
  length obs = rows ->
  let '(hp', d', r) := from_matrix_loop hp d rows cols fl idx in
  drel obs (hp', d') (fst (spec_import obs s false fl idx cols)) /\
  out_unit r = snd (spec_import obs s false fl idx cols).
Proof.
  intros cols; induction cols as [|c cs IH]; intros obs hp d s rows fl idx HR Hall Hrows.
  - simpl. auto.
  - cbn [from_matrix_loop spec_import].
    assert (Hc : length c = rows) by (inversion Hall; auto).
    assert (Hcs : Forall (fun c => length c = rows) cs) by (inversion Hall; auto).
    pose proof HR as (H1 & H2 & H3 & H4 & H5). simpl in H1, H2, H3, H4. subst hp.
    rewrite H2.
    replace (Nat.eqb (length obs) (rows + 1)) with false by (symmetry; apply Nat.eqb_neq; lia).
    rewrite set_values_assign, firstn_all2 by lia.
    assert (HR1 : drel obs (assign (e_heap s) obs c, d) (mkSpec (assign (e_heap s) obs c) (e_events s))).
    { repeat split; auto. }
    cbn [e_heap]. unfold all_in_range.
    destruct (forallb (handle_in_range (assign (e_heap s) obs c)) obs) eqn:Ein.
    + rewrite orb_true_r, andb_false_r.
      pose proof (addEvent_spec obs _ d _ HR1) as HA.
      destruct (addEvent (assign (e_heap s) obs c) d) as [d' r].
      destruct HA as [HA1 HA2].
      destruct (spec_add obs {| e_heap := assign (e_heap s) obs c; e_events := e_events s |}) as [s2 out].
      simpl in HA1, HA2. subst out. destruct r as [u|e]; simpl.
      * specialize (IH obs (assign (e_heap s) obs c) d' s2 rows fl (S idx) HA1 Hcs Hrows).
        assert (Hidx : forall s idx1 idx2, spec_import obs s false fl idx1 cs = spec_import obs s false fl idx2 cs).
        { clear. induction cs as [|c cs IH]; intros s i1 i2; simpl; auto.
          destruct (fl && _); auto. destruct (spec_add obs _) as [s2 o]; destruct o; auto. }
        assert (Hidx2 : forall d hp idx1 idx2, d_obs d = obs -> from_matrix_loop hp d rows cs fl idx1 = from_matrix_loop hp d rows cs fl idx2).
        { clear -Hrows. induction cs as [|c cs IH]; intros d hp i1 i2 Hd; simpl; auto.
          rewrite Hd. replace (Nat.eqb (length obs) (rows + 1)) with false by (symmetry; apply Nat.eqb_neq; lia).
          destruct (negb fl || _); auto.
          unfold addEvent. rewrite Hd. destruct (checkAllVars _ obs); auto.
          destruct (push_columns _ _ _) as [cc rr]; destruct rr; auto.
          }
        rewrite (Hidx2 d' _ idx (S idx)) by apply HA1. exact IH.
      * split; auto.
    + rewrite orb_false_r, andb_true_r. destruct fl; simpl.
      * specialize (IH obs (assign (e_heap s) obs c) d _ rows true idx HR1 Hcs Hrows).
        assert (Hidx : forall s idx1 idx2, spec_import obs s false true idx1 cs = spec_import obs s false true idx2 cs).
        { clear. induction cs as [|c cs IH]; intros s i1 i2; simpl; auto.
          destruct (negb _); auto. destruct (spec_add obs _) as [s2 o]; destruct o; auto. }
        rewrite (Hidx _ (S idx) idx). exact IH.
      * pose proof (addEvent_spec obs _ d _ HR1) as HA.
        destruct (addEvent (assign (e_heap s) obs c) d) as [d' r].
        destruct HA as [HA1 HA2]. unfold spec_add in *. cbn [e_heap e_events] in *.
        unfold all_in_range in *. rewrite Ein in *. simpl in *.
        destruct r as [u|e]; simpl in HA2; [discriminate|]. split; auto.
Qed.

Lemma from_matrix_loop_index_spec : forall cols obs hp d s rows fl idx,
  drel obs (hp, d) s -> Forall (fun c => length c = rows) cols ->
  length obs = rows + 1 ->
  let '(hp', d', r) := from_matrix_loop hp d rows cols fl idx in
  drel obs (hp', d') (fst (spec_import obs s true fl idx cols)) /\
  out_unit r = snd (spec_import obs s true fl idx cols).
Proof.
  intros cols; induction cols as [|c cs IH]; intros obs hp d s rows fl idx HR Hall Hrows.
  - simpl. auto.
  - cbn [from_matrix_loop spec_import].
    assert (Hc : length c = rows) by (inversion Hall; auto).
    assert (Hcs : Forall (fun c => length c = rows) cs) by (inversion Hall; auto).
    pose proof HR as (H1 & H2 & H3 & H4 & H5). simpl in H1, H2, H3, H4. subst hp.
    rewrite H2.
    rewrite Hrows, Nat.eqb_refl.
    destruct (nth_error obs rows) as [h|] eqn:Eh.
    2:{ apply nth_error_None in Eh. lia. }
    rewrite set_values_assign. subst rows.
    rewrite (assign_app_index (e_heap s) obs c _ h) by (auto; lia).
    set (vals := c ++ [f_of_Z (Z.of_nat idx)]).
    assert (HR1 : drel obs (assign (e_heap s) obs vals, d) (mkSpec (assign (e_heap s) obs vals) (e_events s))).
    { repeat split; auto. }
    cbn [e_heap]. unfold all_in_range.
    destruct (forallb (handle_in_range (assign (e_heap s) obs vals)) obs) eqn:Ein.
    + rewrite orb_true_r, andb_false_r.
      pose proof (addEvent_spec obs _ d _ HR1) as HA.
      destruct (addEvent (assign (e_heap s) obs vals) d) as [d' r].
      destruct HA as [HA1 HA2].
      destruct (spec_add obs {| e_heap := assign (e_heap s) obs vals; e_events := e_events s |}) as [s2 out].
      simpl in HA1, HA2. subst out. destruct r as [u|e]; simpl.
      * apply IH; auto.
      * split; auto.
    + rewrite orb_false_r, andb_true_r. destruct fl; simpl.
      * apply IH; auto.
      * pose proof (addEvent_spec obs _ d _ HR1) as HA.
        destruct (addEvent (assign (e_heap s) obs vals) d) as [d' r].
        destruct HA as [HA1 HA2]. unfold spec_add in *. cbn [e_heap e_events] in *.
        unfold all_in_range in *. rewrite Ein in *. simpl in *.
        destruct r as [u|e]; simpl in HA2; [discriminate|]. split; auto.
Qed.

Lemma drel_step : forall obs st s o, drel obs st s -> op_ok o ->
  drel obs (fst (dstep st o)) (fst (spec_step obs s o)) /\ snd (dstep st o) = snd (spec_step obs s o).
Proof.
  intros obs [hp d] s o HR Hok.
  pose proof HR as (H1 & H2 & H3 & H4 & H5). simpl in H1, H2, H3, H4. subst hp.
  destruct o as [h f c| |vals|w|v| |idx|rows cols fl|v idx| | ]; cbn [dstep spec_step].
  - simpl. split; auto. repeat split; auto.
  - pose proof (addEvent_spec obs _ d s HR) as HA.
    destruct (addEvent (e_heap s) d) as [d' r]. exact HA.
  - unfold addEventValues. rewrite H2. destruct (Nat.eqb (length vals) (length obs)) eqn:E.
    + rewrite set_values_assign.
      assert (HR1 : drel obs (assign (e_heap s) obs vals, d) (mkSpec (assign (e_heap s) obs vals) (e_events s))).
      { repeat split; auto. }
      pose proof (addEvent_spec obs _ d _ HR1) as HA.
      destruct (addEvent (assign (e_heap s) obs vals) d) as [d' r]. exact HA.
    + simpl. split; auto.
  - simpl. split; auto.
  - unfold setValueForAllEvents. rewrite H2, indexOfVariable_spec.
    destruct (position obs v) as [i|] eqn:Ei.
    + pose proof (position_lt obs v i Ei) as Hi.
      rewrite H4, (nth_error_columns _ _ _ Hi). simpl. split; auto.
      unfold drel; simpl. rewrite map_length. split; [auto|]. split; [auto|]. split; [auto|]. split.
      * rewrite H3. rewrite <- (map_length (fun ev => nth i ev fzero) (e_events s)).
        rewrite fill_prefix_all, map_map. apply columns_set; auto.
      * apply Forall_forall. intros ev Hev. apply in_map_iff in Hev. destruct Hev as (ev0 & <- & Hin).
        rewrite Forall_forall in H5. specialize (H5 ev0 Hin). rewrite set_coordinate_length; lia.
    + simpl. split; auto.
  - simpl. split; auto. repeat split; simpl; auto.
    rewrite H4. unfold columns. rewrite map_map. reflexivity.
  - unfold loadEvent. rewrite H2, H4.
    destruct (nth_error (e_events s) idx) as [ev|] eqn:Eev.
    + unfold columns. rewrite (load_columns_gen obs (e_heap s) 0 (e_events s) idx ev Eev).
      * simpl. split; auto. repeat split; auto.
      * rewrite Forall_forall in H5. rewrite (H5 ev); [lia|]. eapply nth_error_In; eauto.
    + destruct obs as [|o os].
      * simpl. split; auto.
      * rewrite load_columns_none by (auto; discriminate). simpl. split; auto.
  - unfold from_matrix. rewrite H2. simpl in Hok. rewrite H3.
    destruct (Nat.eqb_spec (length obs) rows) as [E1|E1].
    + simpl. pose proof (from_matrix_loop_spec cols obs _ d s rows fl (length (e_events s)) HR Hok E1) as HL.
      destruct (from_matrix_loop _ d rows cols fl _) as [[hp' d'] r]. exact HL.
    + destruct (Nat.eqb_spec (length obs) (rows + 1)) as [E2|E2]; simpl.
      * pose proof (from_matrix_loop_index_spec cols obs _ d s rows fl (length (e_events s)) HR Hok E2) as HL.
        destruct (from_matrix_loop _ d rows cols fl _) as [[hp' d'] r]. exact HL.
      * split; auto.
  - simpl. split; auto. unfold getValue. rewrite H2, H3, H4, indexOfVariable_spec.
    destruct (Nat.leb_spec (length (e_events s)) idx) as [Hle|Hlt].
    + rewrite (proj2 (nth_error_None (e_events s) idx)) by auto. reflexivity.
    + destruct (nth_error (e_events s) idx) as [ev|] eqn:Eev.
      2:{ apply nth_error_None in Eev. lia. }
      destruct (position obs v) as [i|] eqn:Ei; auto.
      pose proof (position_lt obs v i Ei) as Hi.
      rewrite (nth_error_columns _ _ _ Hi).
      rewrite (map_nth_error (fun ev => nth i ev fzero) idx (e_events s) Eev).
      rewrite (nth_error_nth' ev fzero); auto.
      rewrite Forall_forall in H5. rewrite (H5 ev); auto. eapply nth_error_In; eauto.
  - simpl. rewrite H3. split; auto.
  - simpl. split; auto. destruct (Nat.eqb_spec (length obs) 0) as [E|E].
    + unfold to_matrix. rewrite H4. destruct obs; [reflexivity|discriminate].
    + rewrite (to_matrix_spec obs d (e_events s)); auto. intros ->. apply E; reflexivity.
Qed.

Lemma drel_run : forall obs ops st s, drel obs st s -> Forall op_ok ops ->
  drel obs (fst (drun st ops)) (fst (spec_run obs s ops)) /\ snd (drun st ops) = snd (spec_run obs s ops).
Proof.
  intros obs ops; induction ops as [|o t IH]; intros st s H Hok; simpl; auto.
  assert (Ho : op_ok o) by (inversion Hok; auto). assert (Ht : Forall op_ok t) by (inversion Hok; auto).
  destruct (drel_step obs st s o H Ho) as [H1 H2].
  destruct (dstep st o) as [st1 out1]. destruct (spec_step obs s o) as [s1 out2]. simpl in *. subst out2.
  destruct (IH st1 s1 H1 Ht) as [H3 H4].
  destruct (drun st1 t) as [st2 outs1]. destruct (spec_run obs s1 t) as [s2 outs2]. simpl in *. subst. auto.
Qed.

Lemma drel_new : forall hp obs, drel obs (hp, new_dataset obs) (mkSpec hp []).
Proof.
  intros. repeat split; simpl; auto. unfold columns. simpl.
  generalize 0 as k. induction obs as [|h t IH]; intros k; simpl; auto. f_equal. apply IH.
Qed.

Lemma unbinned_is_list_of_events : forall hp obs ops, Forall op_ok ops ->
  snd (drun (hp, new_dataset obs) ops) = snd (spec_run obs (mkSpec hp []) ops).
Proof. intros. apply drel_run; auto. apply drel_new. Qed.
