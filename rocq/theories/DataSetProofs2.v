(** More lemmas on the unbinned data set: matrix import and API-level corollaries. *)
From Coq Require Import List ZArith Bool Arith Lia.
From Verif Require Import F64 F64Lemmas ListAux VariableModel VariableSpec VariableProofs DataSetModel DataSetSpec
  DataSetProofs GridSpec GridProofs.
Import ListNotations.

Lemma assign_facts : forall obs l vals hp,
  separated hp obs -> incl l obs -> NoDup (map h_value l) -> length vals = length l ->
  separated (assign hp l vals) obs /\ same_limits obs hp (assign hp l vals) /\
  (forall o, In o obs -> ~ In (h_value o) (map h_value l) ->
     get_f (assign hp l vals) o FValue = get_f hp o FValue) /\
  current (assign hp l vals) l = vals.
Proof.
  intros obs l; induction l as [|h t IH]; intros vals hp HS Hin Hnd Hlen.
  - destruct vals; [|discriminate]. simpl. split; [auto|]. split; [apply same_limits_refl|]. split; auto.
  - destruct vals as [|x xs]; [discriminate|]. simpl in Hlen. injection Hlen as Hlen.
    assert (Hh : In h obs) by (apply Hin; left; auto).
    assert (Ht : incl t obs) by (intros y Hy; apply Hin; right; auto).
    simpl in Hnd. inversion Hnd as [|? ? Hnin Hnd']; subst.
    destruct (separated_set hp obs h x HS Hh) as (S1 & S2 & S3).
    destruct (IH xs (set_f hp h FValue x) S1 Ht Hnd' Hlen) as (A1 & A2 & A3 & A4).
    change (assign hp (h :: t) (x :: xs)) with (assign (set_f hp h FValue x) t xs).
    split; [exact A1|]. split; [eapply same_limits_trans; [exact S3|exact A2]|]. split.
    + intros o Ho Hno. rewrite A3; auto.
      * rewrite S2 by auto. destruct (Nat.eqb_spec (h_value h) (h_value o)) as [E|E]; auto.
        exfalso. apply Hno. left; auto.
      * intros Hc. apply Hno. right; auto.
    + simpl. f_equal; [|exact A4].
      rewrite A3; auto. rewrite S2 by auto. rewrite Nat.eqb_refl. reflexivity.
Qed.

(** The event lies in the limits of the observables. *)
Definition row_in_range (hp : heap) (obs : list handle) (row : list f64) : bool :=
  forallb (fun p => in_range (get_f hp (fst p) FLower) (get_f hp (fst p) FUpper) (snd p)) (combine obs row).

Lemma all_in_range_assign : forall hp obs vals, separated hp obs -> length vals = length obs ->
  all_in_range (assign hp obs vals) obs = row_in_range hp obs vals.
Proof.
  intros hp obs vals HS Hlen.
  destruct (assign_facts obs obs vals hp HS (incl_refl _) (proj1 HS) Hlen) as (A1 & A2 & _ & A4).
  unfold all_in_range, row_in_range, handle_in_range.
  set (hp' := assign hp obs vals) in *.
  replace (combine obs vals) with (combine obs (current hp' obs)) by (rewrite A4; reflexivity).
  unfold current. rewrite forallb_combine_map. cbn [fst snd].
  assert (Hext : forall l, incl l obs ->
    forallb (fun h => in_range (get_f hp' h FLower) (get_f hp' h FUpper) (get_f hp' h FValue)) l =
    forallb (fun o => in_range (get_f hp o FLower) (get_f hp o FUpper) (get_f hp' o FValue)) l).
  { intros l; induction l as [|a t IH]; intros Hl; simpl; auto.
    rewrite IH by (intros y Hy; apply Hl; right; auto). f_equal.
    assert (Ha : In a obs) by (apply Hl; left; auto).
    unfold get_f. rewrite (A2 a FLower Ha), (A2 a FUpper Ha) by discriminate. reflexivity. }
  apply Hext. apply incl_refl.
Qed.

Lemma row_in_range_same : forall hp hp' obs row, same_limits obs hp hp' -> row_in_range hp' obs row = row_in_range hp obs row.
Proof.
  intros hp hp' obs row HL. unfold row_in_range.
  assert (Hext : forall l row, incl l obs ->
    forallb (fun p => in_range (get_f hp' (fst p) FLower) (get_f hp' (fst p) FUpper) (snd p)) (combine l row) =
    forallb (fun p => in_range (get_f hp (fst p) FLower) (get_f hp (fst p) FUpper) (snd p)) (combine l row)).
  { intros l; induction l as [|a t IH]; intros r Hl; simpl; auto.
    destruct r as [|x xs]; simpl; auto. rewrite IH by (intros y Hy; apply Hl; right; auto).
    unfold get_f. rewrite !HL by (try discriminate; apply Hl; left; auto). reflexivity. }
  apply Hext. apply incl_refl.
Qed.

(** Rows with the running index appended. *)
Fixpoint with_running_index (i : nat) (evs : list (list f64)) : list (list f64) :=
  match evs with [] => [] | e :: t => (e ++ [f_of_Z (Z.of_nat i)]) :: with_running_index (S i) t end.

Lemma spec_import_filter : forall evs obs s (wi : bool) i,
  separated (e_heap s) obs ->
  Forall (fun e => length e + (if wi then 1 else 0) = length obs) evs ->
  exists hp', spec_import obs s wi true i evs =
    (mkSpec hp' (e_events s ++ filter (row_in_range (e_heap s) obs) (if wi then with_running_index i evs else evs)), ROk).
Proof.
  intros evs; induction evs as [|e t IH]; intros obs s wi i HS Hall.
  - simpl. exists (e_heap s). destruct wi; simpl; rewrite app_nil_r; destruct s; reflexivity.
  - assert (He : length e + (if wi then 1 else 0) = length obs) by (inversion Hall; auto).
    assert (Ht : Forall (fun e => length e + (if wi then 1 else 0) = length obs) t) by (inversion Hall; auto).
    cbn [spec_import].
    set (vals := if wi then e ++ [f_of_Z (Z.of_nat i)] else e).
    assert (Hv : length vals = length obs).
    { unfold vals. destruct wi; [rewrite app_length; simpl; lia|lia]. }
    destruct (assign_facts obs obs vals (e_heap s) HS (incl_refl _) (proj1 HS) Hv) as (A1 & A2 & _ & A4).
    cbn [e_heap e_events]. rewrite (all_in_range_assign _ _ _ HS Hv).
    assert (Hfl : filter (row_in_range (e_heap s) obs) (if wi then with_running_index i (e :: t) else e :: t)
                  = (if row_in_range (e_heap s) obs vals then [vals] else []) ++
                    filter (row_in_range (e_heap s) obs) (if wi then with_running_index (S i) t else t)).
    { unfold vals. destruct wi; simpl; destruct (row_in_range _ _ _); reflexivity. }
    rewrite Hfl.
    assert (Hfs : forall l, filter (row_in_range (assign (e_heap s) obs vals) obs) l = filter (row_in_range (e_heap s) obs) l).
    { intros l. apply filter_ext. intros r. apply row_in_range_same. exact A2. }
    destruct (row_in_range (e_heap s) obs vals) eqn:Er; simpl.
    + unfold spec_add. cbn [e_heap e_events]. rewrite (all_in_range_assign _ _ _ HS Hv), Er.
      rewrite A4.
      destruct (IH obs (mkSpec (assign (e_heap s) obs vals) (e_events s ++ [vals])) wi (S i) A1 Ht) as [hp' E].
      exists hp'. rewrite E. simpl. rewrite Hfs, <- app_assoc. reflexivity.
    + destruct (IH obs (mkSpec (assign (e_heap s) obs vals) (e_events s)) wi (S i) A1 Ht) as [hp' E].
      exists hp'. rewrite E. simpl. rewrite Hfs. reflexivity.
Qed.

Lemma spec_import_all : forall evs obs s (wi : bool) i,
  separated (e_heap s) obs ->
  Forall (fun e => length e + (if wi then 1 else 0) = length obs) evs ->
  forallb (row_in_range (e_heap s) obs) (if wi then with_running_index i evs else evs) = true ->
  exists hp', spec_import obs s wi false i evs =
    (mkSpec hp' (e_events s ++ (if wi then with_running_index i evs else evs)), ROk).
Proof.
  intros evs; induction evs as [|e t IH]; intros obs s wi i HS Hall Hok.
  - simpl. exists (e_heap s). destruct wi; simpl; rewrite app_nil_r; destruct s; reflexivity.
  - assert (He : length e + (if wi then 1 else 0) = length obs) by (inversion Hall; auto).
    assert (Ht : Forall (fun e => length e + (if wi then 1 else 0) = length obs) t) by (inversion Hall; auto).
    cbn [spec_import].
    set (vals := if wi then e ++ [f_of_Z (Z.of_nat i)] else e).
    assert (Hv : length vals = length obs).
    { unfold vals. destruct wi; [rewrite app_length; simpl; lia|lia]. }
    destruct (assign_facts obs obs vals (e_heap s) HS (incl_refl _) (proj1 HS) Hv) as (A1 & A2 & _ & A4).
    cbn [e_heap e_events andb].
    assert (Hcons : (if wi then with_running_index i (e :: t) else e :: t) =
                    vals :: (if wi then with_running_index (S i) t else t)).
    { unfold vals. destruct wi; reflexivity. }
    rewrite Hcons in Hok |- *. simpl in Hok. apply andb_true_iff in Hok. destruct Hok as [Hok1 Hok2].
    unfold spec_add. cbn [e_heap e_events]. rewrite (all_in_range_assign _ _ _ HS Hv), Hok1. rewrite A4.
    destruct (IH obs (mkSpec (assign (e_heap s) obs vals) (e_events s ++ [vals])) wi (S i) A1 Ht) as [hp' E].
    { simpl. rewrite <- Hok2. clear -A2. generalize (if wi then with_running_index (S i) t else t).
      intros l. induction l as [|a t' IH]; simpl; auto. rewrite (row_in_range_same _ _ _ a A2), IH. reflexivity. }
    exists hp'. rewrite E. simpl. rewrite <- app_assoc. reflexivity.
Qed.

(** ** The state reached by a history *)
Definition after (hp : heap) (obs : list handle) (h : list dop) : heap * dataset := fst (drun (hp, new_dataset obs) h).
(** The answer to a query asked after a history. *)
Definition answer (st : heap * dataset) (q : dop) : dout := snd (dstep st q).

Lemma after_rel : forall hp obs h, Forall op_ok h ->
  drel obs (after hp obs h) (fst (spec_run obs (mkSpec hp []) h)).
Proof. intros. apply drel_run; auto. apply drel_new. Qed.

Definition adds_event (o : dop) : bool :=
  match o with DAddEvent | DAddEventValues _ | DAddWeighted _ | DSetAll _ | DLoad _ => true | _ => false end.

Lemma spec_throw_keeps : forall obs s o e, adds_event o = true -> snd (spec_step obs s o) = RThrow e ->
  e_events (fst (spec_step obs s o)) = e_events s.
Proof.
  intros obs s o e Ha Ht.
  destruct o; try discriminate; cbn [spec_step] in *; auto.
  - unfold spec_add in *. destruct (all_in_range _ _); auto; discriminate.
  - destruct (Nat.eqb _ _); auto. unfold spec_add in *. destruct (all_in_range _ _); auto; discriminate.
  - destruct (position obs v); auto; discriminate.
  - destruct (nth_error (e_events s) idx); auto; discriminate.
Qed.

Lemma throw_keeps_events : forall hp obs h o e, Forall op_ok h -> adds_event o = true ->
  answer (after hp obs h) o = RThrow e ->
  forall q, (exists v i, q = DGetValue v i) \/ q = DGetNumEvents \/ q = DToMatrix ->
  answer (fst (dstep (after hp obs h) o)) q = answer (after hp obs h) q.
Proof.
  intros hp obs h o e Hok Ha Ht q Hq. unfold answer in *.
  pose proof (after_rel hp obs h Hok) as HR.
  assert (Hoo : op_ok o) by (destruct o; simpl in *; auto; discriminate).
  assert (Hqo : op_ok q) by (destruct Hq as [(v & i & ->)|[->| ->]]; exact I).
  destruct (drel_step obs _ _ o HR Hoo) as [HR1 HO1].
  destruct (drel_step obs _ _ q HR Hqo) as [_ HQ1].
  destruct (drel_step obs _ _ q HR1 Hqo) as [_ HQ2].
  rewrite HQ1, HQ2. rewrite HO1 in Ht.
  pose proof (spec_throw_keeps obs _ o e Ha Ht) as Hk.
  destruct Hq as [(v & i & ->)|[->| ->]]; cbn [spec_step snd]; rewrite Hk; reflexivity.
Qed.

Lemma addEvent_accept_iff : forall hp obs h, Forall op_ok h ->
  let st := after hp obs h in
  (answer st DAddEvent = ROk <->
   Forall (fun o => acceptable (get_f (fst st) o FLower) (get_f (fst st) o FUpper) (get_f (fst st) o FValue)) obs) /\
  (answer st DAddEvent = ROk \/ answer st DAddEvent = RThrow EOutOfRange) /\
  (answer st DAddEvent = RThrow EOutOfRange -> fst (dstep st DAddEvent) = st).
Proof.
  intros hp obs h Hok st. unfold answer.
  pose proof (after_rel hp obs h Hok) as HR. fold st in HR.
  destruct (drel_step obs _ _ DAddEvent HR I) as [_ HO]. rewrite HO.
  cbn [spec_step]. unfold spec_add.
  destruct HR as (H1 & H2 & _). rewrite H1.
  set (s := fst (spec_run obs (mkSpec hp []) h)) in *.
  assert (Hiff : all_in_range (e_heap s) obs = true <-> Forall (fun o => acceptable (get_f (e_heap s) o FLower) (get_f (e_heap s) o FUpper) (get_f (e_heap s) o FValue)) obs).
  { unfold all_in_range. rewrite forallb_forall, Forall_forall.
    split; intros H o Ho; specialize (H o Ho); apply in_range_acceptable; exact H. }
  split; [|split].
  - rewrite <- Hiff. destruct (all_in_range (e_heap s) obs); simpl; split; intros; auto; discriminate.
  - destruct (all_in_range (e_heap s) obs); simpl; auto.
  - intros Ht. destruct st as [hp0 d]. simpl in H1, H2. subst hp0. cbn [dstep].
    unfold addEvent. rewrite H2, checkAllVars_spec.
    destruct (all_in_range (e_heap s) obs); simpl in *; [discriminate|reflexivity].
Qed.

(** Reading back through the API what a data set that represents [evs] contains. *)
Lemma drel_getValue : forall obs hp d evs j o k x,
  drel obs (hp, d) (mkSpec hp evs) -> NoDup (map h_value obs) -> nth_error obs j = Some o ->
  nth_error evs k = Some x ->
  getValue d o k = Ok (nth j x fzero).
Proof.
  intros obs hp d evs j o k x HR Hnd Hj Hk.
  destruct (drel_step obs (hp, d) _ (DGetValue o k) HR I) as [_ HO].
  cbn [dstep spec_step snd e_events] in HO. rewrite Hk in HO.
  assert (Hpos : position obs o = Some j).
  { clear -Hnd Hj. pose proof (indexOfVariable_spec obs o) as H.
    assert (Hi : indexOfVariable obs o = Ok j).
    { clear H. revert j Hj. induction obs as [|a t IH]; intros [|j] Hj; simpl in *; try discriminate.
      - injection Hj as ->. unfold handle_eqb. rewrite Nat.eqb_refl. reflexivity.
      - inversion Hnd; subst.
        unfold handle_eqb. destruct (Nat.eqb_spec (h_value o) (h_value a)) as [E|E].
        + exfalso. apply H1. rewrite <- E. apply in_map. eapply nth_error_In; eauto.
        + rewrite (IH H2 j Hj). reflexivity. }
    rewrite Hi in H. destruct (position obs o); congruence. }
  rewrite Hpos in HO.
  destruct HR as (_ & _ & _ & _ & H5). simpl in H5. rewrite Forall_forall in H5.
  assert (Hl : length x = length obs) by (apply H5; eapply nth_error_In; eauto).
  assert (Hjl : j < length x) by (rewrite Hl; eapply nth_error_Some_lt; eauto).
  rewrite (nth_error_nth' x fzero Hjl) in HO.
  destruct (getValue d o k) as [y|e]; congruence.
Qed.

Lemma nth_combine_seq : forall {B} (f : nat * handle -> B) l n j o d,
  nth_error l j = Some o -> nth j (map f (combine (seq n (length l)) l)) d = f (n + j, o).
Proof.
  intros B f l; induction l as [|a t IH]; intros n [|j] o d Hj; simpl in *; try discriminate.
  - injection Hj as ->. rewrite Nat.add_0_r. reflexivity.
  - rewrite (IH (S n) j o d Hj). rewrite Nat.add_succ_comm. reflexivity.
Qed.

Lemma fillWithGrid_api : forall hp obs,
  separated hp obs ->
  (forall k, k < grid_size hp obs -> row_in_range hp obs (grid_event hp obs k) = true) ->
  exists hp' d', fillWithGrid hp (new_dataset obs) = (hp', d', Ok tt) /\
    d_num d' = grid_size hp obs /\
    (forall k j o, k < grid_size hp obs -> nth_error obs j = Some o ->
       getValue d' o k = Ok (grid_coordinate hp obs k j o)).
Proof.
  intros hp obs HS Hok.
  destruct (fillWithGrid_ok hp obs HS Hok) as (hp' & d' & E & HR).
  exists hp', d'. split; [exact E|]. split.
  - destruct HR as (_ & _ & H3 & _). simpl in H3. rewrite map_length, seq_length in H3. exact H3.
  - intros k j o Hk Hj.
    assert (Hn : nth_error (map (grid_event hp obs) (seq 0 (grid_size hp obs))) k = Some (grid_event hp obs k)).
    { rewrite nth_error_map_iff. exists k. split; auto.
      rewrite (nth_error_nth' _ 0) by (rewrite seq_length; auto). rewrite seq_nth by auto. reflexivity. }
    rewrite (drel_getValue obs hp' d' _ j o k _ HR (proj1 HS) Hj Hn).
    unfold grid_event. rewrite (nth_combine_seq _ obs 0 j o fzero Hj). reflexivity.
Qed.

(** Import then export. *)
Lemma import_export : forall hp obs h (wi fl : bool) cols,
  Forall op_ok h -> obs <> [] ->
  let st := after hp obs h in
  let old := e_events (fst (spec_run obs (mkSpec hp []) h)) in
  let new := if wi then with_running_index (length old) cols else cols in
  let rows := length obs - (if wi then 1 else 0) in
  separated (fst st) obs ->
  Forall (fun c => length c = rows) cols ->
  forallb (row_in_range (fst st) obs) new = true ->
  answer st (DFromMatrix rows cols fl) = ROk /\
  answer (fst (dstep st (DFromMatrix rows cols fl))) DToMatrix = RMat (columns (length obs) (old ++ new)) /\
  answer st DToMatrix = RMat (columns (length obs) old).
Proof.
  intros hp obs h wi fl cols Hok Hne st old new rows HS Hall Hin. unfold answer.
  pose proof (after_rel hp obs h Hok) as HR. fold st in HR.
  set (s := fst (spec_run obs (mkSpec hp []) h)) in *.
  assert (Hobs : length obs <> 0) by (destruct obs; simpl; [contradiction|lia]).
  assert (Hall' : Forall (fun e => length e + (if wi then 1 else 0) = length obs) cols).
  { eapply Forall_impl; [|exact Hall]. intros c Hc. unfold rows in Hc. simpl in Hc. destruct wi; lia. }
  destruct (drel_step obs st s (DFromMatrix rows cols fl) HR Hall) as [HR1 HO1].
  destruct (drel_step obs st s DToMatrix HR I) as [_ HO0].
  destruct (drel_step obs _ _ DToMatrix HR1 I) as [_ HO2].
  assert (Hheap : fst st = e_heap s) by apply HR.
  rewrite Hheap in HS, Hin.
  assert (Hspec : exists hp', spec_step obs s (DFromMatrix rows cols fl) = (mkSpec hp' (old ++ new), ROk)).
  { cbn [spec_step]. unfold rows.
    assert (Himp : exists hp', spec_import obs s wi fl (length (e_events s)) cols = (mkSpec hp' (old ++ new), ROk)).
    { destruct fl.
      - destruct (spec_import_filter cols obs s wi (length old) HS Hall') as [hp' E].
        exists hp'. unfold old in E. rewrite E. f_equal. f_equal. fold old. f_equal. fold new.
        clear -Hin. induction new as [|a t IH]; simpl in *; auto.
        apply andb_true_iff in Hin. destruct Hin as [-> Hin]. rewrite IH; auto.
      - destruct (spec_import_all cols obs s wi (length old) HS Hall' Hin) as [hp' E]. exists hp'. exact E. }
    destruct wi.
    - replace (Nat.eqb (length obs) (length obs - 1)) with false by (symmetry; apply Nat.eqb_neq; lia).
      replace (Nat.eqb (length obs) (length obs - 1 + 1)) with true by (symmetry; apply Nat.eqb_eq; lia).
      exact Himp.
    - rewrite Nat.sub_0_r, Nat.eqb_refl. exact Himp. }
  destruct Hspec as [hp' Hspec].
  split; [rewrite HO1, Hspec; reflexivity|]. split.
  - rewrite HO2, Hspec. cbn [fst spec_step snd e_events].
    destruct (Nat.eqb_spec (length obs) 0); [contradiction|]. reflexivity.
  - rewrite HO0. cbn [spec_step snd]. destruct (Nat.eqb_spec (length obs) 0); [contradiction|]. reflexivity.
Qed.

Lemma import_filtered : forall hp obs h (wi : bool) cols,
  Forall op_ok h -> obs <> [] ->
  let st := after hp obs h in
  let old := e_events (fst (spec_run obs (mkSpec hp []) h)) in
  let new := if wi then with_running_index (length old) cols else cols in
  let rows := length obs - (if wi then 1 else 0) in
  separated (fst st) obs ->
  Forall (fun c => length c = rows) cols ->
  answer st (DFromMatrix rows cols true) = ROk /\
  answer (fst (dstep st (DFromMatrix rows cols true))) DToMatrix
  = RMat (columns (length obs) (old ++ filter (row_in_range (fst st) obs) new)).
Proof.
  intros hp obs h wi cols Hok Hne st old new rows HS Hall. unfold answer.
  pose proof (after_rel hp obs h Hok) as HR. fold st in HR.
  set (s := fst (spec_run obs (mkSpec hp []) h)) in *.
  assert (Hobs : length obs <> 0) by (destruct obs; simpl; [contradiction|lia]).
  assert (Hall' : Forall (fun e => length e + (if wi then 1 else 0) = length obs) cols).
  { eapply Forall_impl; [|exact Hall]. intros c Hc. unfold rows in Hc. simpl in Hc. destruct wi; lia. }
  destruct (drel_step obs st s (DFromMatrix rows cols true) HR Hall) as [HR1 HO1].
  destruct (drel_step obs _ _ DToMatrix HR1 I) as [_ HO2].
  assert (Hheap : fst st = e_heap s) by apply HR.
  rewrite Hheap in *.
  assert (Hspec : exists hp', spec_step obs s (DFromMatrix rows cols true) = (mkSpec hp' (old ++ filter (row_in_range (e_heap s) obs) new), ROk)).
  { cbn [spec_step]. unfold rows.
    destruct (spec_import_filter cols obs s wi (length old) HS Hall') as [hp' E].
    exists hp'. destruct wi.
    - replace (Nat.eqb (length obs) (length obs - 1)) with false by (symmetry; apply Nat.eqb_neq; lia).
      replace (Nat.eqb (length obs) (length obs - 1 + 1)) with true by (symmetry; apply Nat.eqb_eq; lia).
      exact E.
    - rewrite Nat.sub_0_r, Nat.eqb_refl. exact E. }
  destruct Hspec as [hp' Hspec].
  split; [rewrite HO1, Hspec; reflexivity|].
  rewrite HO2, Hspec. cbn [fst spec_step snd e_events].
  destruct (Nat.eqb_spec (length obs) 0); [contradiction|]. reflexivity.
Qed.

(** Deciding concrete outputs by computation. *)
Definition exc_same (a b : exc) : bool :=
  match a, b with EOutOfRange, EOutOfRange | EGeneral, EGeneral | EStdOutOfRange, EStdOutOfRange => true | _, _ => false end.
Definition dout_same (a b : dout) : bool :=
  match a, b with
  | ROk, ROk => true
  | RThrow e, RThrow f => exc_same e f
  | RVal x, RVal y => fsame x y
  | RNum n, RNum m => Nat.eqb n m
  | RMat m, RMat m' => list_same (list_same fsame) m m'
  | _, _ => false
  end.
Lemma dout_same_eq : forall a b, dout_same a b = true -> a = b.
Proof.
  intros [| e | x | n | m] [| f | y | k | m']; simpl; intros H; try discriminate; auto.
  - destruct e, f; try discriminate; auto.
  - f_equal. apply fsame_eq; auto.
  - f_equal. apply Nat.eqb_eq; auto.
  - f_equal. eapply list_same_eq; [|exact H]. intros a b. apply list_same_eq. apply fsame_eq.
Qed.
Definition cell_same (a b : cell) : bool :=
  match a, b with
  | CF x, CF y => fsame x y | CI x, CI y => Z.eqb x y | CB x, CB y => Bool.eqb x y | CN x, CN y => Z.eqb x y
  | _, _ => false end.
Lemma cell_same_eq : forall a b, cell_same a b = true -> a = b.
Proof.
  intros [x|x|x|x] [y|y|y|y]; simpl; intros H; try discriminate; f_equal.
  - apply fsame_eq; auto.
  - apply Z.eqb_eq; auto.
  - apply eqb_prop; auto.
  - apply Z.eqb_eq; auto.
Qed.
Definition output_same (a b : output) : bool :=
  match a, b with ODone, ODone | OIllTyped, OIllTyped => true | OVal x, OVal y => cell_same x y | _, _ => false end.
Lemma output_same_eq : forall a b, output_same a b = true -> a = b.
Proof.
  intros [|x|] [|y|]; simpl; intros H; try discriminate; auto. f_equal. apply cell_same_eq; auto.
Qed.
