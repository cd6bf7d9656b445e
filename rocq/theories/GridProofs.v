(** Proofs for fillWithGrid. *)
From Coq Require Import List ZArith Bool Arith Lia.
From Verif Require Import F64 F64Lemmas ListAux VariableModel VariableSpec VariableProofs DataSetModel DataSetSpec
  DataSetProofs GridSpec.
Import ListNotations.

(** ** Effect of writing the value of one observable *)
Lemma separated_set : forall hp obs o x, separated hp obs -> In o obs ->
  separated (set_f hp o FValue x) obs /\
  (forall o', In o' obs -> get_f (set_f hp o FValue x) o' FValue =
      if Nat.eqb (h_value o) (h_value o') then x else get_f hp o' FValue) /\
  (forall o' f, In o' obs -> f <> FValue -> get_field (set_f hp o FValue x) o' f = get_field hp o' f).
Proof.
  intros hp obs o x (H1 & H2 & H3) Ho.
  destruct (H2 o Ho) as ((v & Hv) & _).
  assert (E : set_f hp o FValue x = upd hp (h_value o) (CF x)).
  { unfold set_f, set_field. simpl. unfold get_field in Hv; simpl in Hv. rewrite Hv. reflexivity. }
  assert (Lo : h_value o < length hp).
  { unfold get_field in Hv; simpl in Hv. eapply nth_error_Some_lt; eauto. }
  assert (Hother : forall o' f, In o' obs -> f <> FValue ->
            get_field (set_f hp o FValue x) o' f = get_field hp o' f).
  { intros o' f Ho' Hf. rewrite E. unfold get_field.
    destruct (ptr_of o' f) as [p|] eqn:Ep; auto.
    apply nth_error_upd_other. intros <-. apply (H3 o o' f Ho Ho' Hf). exact Ep. }
  assert (Hval : forall o', In o' obs -> get_field (set_f hp o FValue x) o' FValue =
            if Nat.eqb (h_value o) (h_value o') then Some (CF x) else get_field hp o' FValue).
  { intros o' Ho'. rewrite E. unfold get_field. simpl.
    destruct (Nat.eqb_spec (h_value o) (h_value o')) as [Eq|Ne].
    - rewrite <- Eq. apply nth_error_upd_same. auto.
    - apply nth_error_upd_other. auto. }
  split; [|split].
  - split; [exact H1|]. split; [|exact H3].
    intros o' Ho'. rewrite Hval by auto. rewrite !Hother by (auto; discriminate).
    destruct (H2 o' Ho') as (Hv' & Hr). split; auto.
    destruct (Nat.eqb (h_value o) (h_value o')); eauto.
  - intros o' Ho'. unfold get_f. rewrite Hval by auto.
    destruct (Nat.eqb (h_value o) (h_value o')); reflexivity.
  - exact Hother.
Qed.

(** ** Reachable handles are separated *)
Definition cell_type_ok (f : field) (c : cell) : Prop :=
  match f, c with
  | (FValue | FLower | FUpper | FError | FBlind), CF _ => True
  | (FIndex | FFitterIndex), CI _ => True
  | (FChanged | FFixed), CB _ => True
  | FNumBins, CN _ => True
  | _, _ => False
  end.
Definition has_field (k : kind) (f : field) : bool :=
  match f, k with
  | (FValue | FLower | FUpper | FIndex), _ => true
  | FNumBins, KObservable _ => true
  | (FError | FBlind | FChanged | FFixed | FFitterIndex), KVariable => true
  | _, _ => false
  end.
Definition well_typed (q : quantity) : Prop :=
  forall f, if has_field (q_kind q) f then exists c, q_val q f = Some c /\ cell_type_ok f c else q_val q f = None.

Lemma well_typed_obs : forall n e lo up, well_typed (obs_quantity n e lo up).
Proof. intros n e lo up f. destruct f; simpl; try reflexivity; eexists; (split; [reflexivity|exact I]). Qed.
Lemma well_typed_var : forall n v e lo up fx, well_typed (var_quantity n v e lo up fx).
Proof. intros n v e lo up fx f. destruct f; simpl; try reflexivity; eexists; (split; [reflexivity|exact I]). Qed.

Lemma well_typed_set : forall q f old v, well_typed q -> q_val q f = Some old -> same_cell_type old v = true ->
  well_typed (q_set q f v).
Proof.
  intros q f old v H Hold Ht g. specialize (H g) as Hg. simpl.
  destruct (field_eqb g f) eqn:E.
  - assert (g = f) by (destruct g, f; simpl in E; try discriminate; reflexivity). subst g.
    destruct (has_field (q_kind q) f); [|congruence].
    destruct Hg as (c & Hc & Hok). exists v. split; auto.
    rewrite Hold in Hc. injection Hc as <-.
    destruct f, old, v; simpl in *; try contradiction; try discriminate; auto.
  - exact Hg.
Qed.

Lemma Forall_upd : forall {A} (P : A -> Prop) l i x, Forall P l -> P x -> Forall P (upd l i x).
Proof.
  intros A P l; induction l as [|a t IH]; intros [|i] x H Hx; simpl; auto; inversion H; subst; constructor; auto.
Qed.

Lemma well_typed_step : forall s o, Forall well_typed (s_quantities s) -> Forall well_typed (s_quantities (fst (sstep s o))).
Proof.
  intros s o H.
  destruct o as [n lo up|n lo up|n v|n v e|n v dn up|n v e dn up fx|a|a b|a f v|a f|a b|a b|a|a]; cbn [sstep];
  try (simpl; apply Forall_app; split; [exact H|constructor; [apply well_typed_obs || apply well_typed_var|constructor]]).
  - destruct (nth_error (s_denotes s) a); simpl; auto.
  - destruct (s_quantity s a); [|auto]. destruct (s_quantity s b); [|auto]. destruct (nth_error (s_denotes s) b); [|auto].
    destruct (kinds_agree _ _); simpl; auto.
  - destruct (nth_error (s_denotes s) a) as [i|] eqn:Ei; [|auto]. destruct (s_quantity s a) as [q|] eqn:Eq; [|auto].
    destruct (q_val q f) as [old|] eqn:Eo; [|auto].
    destruct (same_cell_type old v) eqn:Et; [|auto].
    simpl. rewrite replace_nth_upd. apply Forall_upd; auto.
    eapply well_typed_set; eauto.
    unfold s_quantity in Eq. rewrite Ei in Eq. apply nth_error_In in Eq. rewrite Forall_forall in H. auto.
  - destruct (s_quantity s a) as [q|]; auto. destruct (q_val q f); auto.
  - destruct (nth_error (s_denotes s) a); auto. destruct (nth_error (s_denotes s) b); auto.
  - destruct (nth_error (s_denotes s) a); auto. destruct (nth_error (s_denotes s) b); auto.
    destruct (s_quantity s a) as [qa|]; auto. destruct (s_quantity s b) as [qb|]; auto.
    destruct (q_kind qa); auto. destruct (q_kind qb); auto.
  - destruct (s_quantity s a); auto.
  - destruct (s_quantity s a) as [q|]; auto. destruct (q_kind q); auto.
Qed.

Lemma well_typed_run : forall ops s, Forall well_typed (s_quantities s) -> Forall well_typed (s_quantities (fst (srun s ops))).
Proof.
  intros ops; induction ops as [|o t IH]; intros s H; simpl; auto.
  pose proof (well_typed_step s o H) as H1. destruct (sstep s o) as [s1 out]. simpl in H1.
  specialize (IH s1 H1). destruct (srun s1 t) as [s2 outs]. exact IH.
Qed.

Definition is_observable (h : handle) : Prop := exists n e, h_ext h = XObservable n e.

Lemma reachable_separated : forall ops hp hs obs,
  fst (vrun vinit ops) = (hp, hs) -> incl obs hs -> NoDup (map h_value obs) ->
  Forall is_observable obs -> separated hp obs.
Proof.
  intros ops hp hs obs E Hin Hnd Hobs.
  assert (HR : rel (hp, hs) (fst (srun sinit ops))).
  { rewrite <- E. apply rel_run, rel_init. }
  assert (HT : Forall well_typed (s_quantities (fst (srun sinit ops)))).
  { apply well_typed_run. constructor. }
  set (s := fst (srun sinit ops)) in *.
  rewrite Forall_forall in Hobs. rewrite Forall_forall in HT.
  assert (Hrep : forall o, In o obs -> exists i q Q, nth_error hs i = Some o /\ nth_error (s_denotes s) i = Some q /\
            nth_error (s_quantities s) q = Some Q /\ represents hp o Q).
  { intros o Ho. apply Hin in Ho. apply In_nth_error in Ho. destruct Ho as [i Hi].
    pose proof (rel_lookup hp hs s i HR) as L. rewrite Hi in L.
    destruct L as (q & Q & A & B & _ & C). exists i, q, Q. auto. }
  split; [exact Hnd|]. split.
  - intros o Ho. destruct (Hrep o Ho) as (i & q & Q & _ & _ & HQ & (R1 & R2 & R3 & R4)).
    apply nth_error_In in HQ. specialize (HT Q HQ).
    destruct (Hobs o Ho) as (n & e & Hx). unfold kind_matches in R2. rewrite Hx in R2.
    destruct (q_kind Q) as [e'|] eqn:Ek; [|contradiction].
    rewrite !R4. repeat split.
    + specialize (HT FValue). simpl in HT. destruct HT as (c & -> & Hc). destruct c; try contradiction. eauto.
    + specialize (HT FLower). simpl in HT. destruct HT as (c & -> & Hc). destruct c; try contradiction. eauto.
    + specialize (HT FUpper). simpl in HT. destruct HT as (c & -> & Hc). destruct c; try contradiction. eauto.
    + specialize (HT FNumBins). rewrite Ek in HT. simpl in HT. destruct HT as (c & -> & Hc). destruct c; try contradiction. eauto.
  - intros o o' f Ho Ho' Hf Hp.
    destruct (Hrep o Ho) as (i & q & Q & Hi & Hq & _). destruct (Hrep o' Ho') as (i' & q' & Q' & Hi' & Hq' & _).
    destruct HR as (c & Hc & Hl & Hd & Hr & Hinj). simpl in *.
    destruct (Hd i q Hq) as (h1 & C1 & D1). rewrite Hi in D1; injection D1 as <-.
    destruct (Hd i' q' Hq') as (h2 & C2 & D2). rewrite Hi' in D2; injection D2 as <-.
    destruct (Hinj q' o' f q o FValue (h_value o) C2 C1 Hp eq_refl) as [_ Hff]. contradiction.
Qed.

(** ** The recursion of make_a_grid *)
Section GRID.
Variable obs : list handle.
Variable ev : option handle.
Hypothesis ev_ok : match ev with Some e => In e obs /\ isEventNumber e = true | None => True end.

Definition is_ev (o : handle) : bool := match ev with Some e => Nat.eqb (h_value e) (h_value o) | None => false end.

Definition V (hp : heap) (o : handle) : f64 := get_f hp o FValue.

Definition same_limits (hp hp' : heap) : Prop :=
  forall o f, In o obs -> f <> FValue -> get_field hp' o f = get_field hp o f.

Lemma same_limits_refl : forall hp, same_limits hp hp.
Proof. intros hp o f _ _. reflexivity. Qed.
Lemma same_limits_trans : forall a b c, same_limits a b -> same_limits b c -> same_limits a c.
Proof. intros a b c H1 H2 o f Ho Hf. rewrite (H2 o f Ho Hf). apply H1; auto. Qed.

Fixpoint gsize (hp : heap) (r : list handle) : nat :=
  match r with
  | [] => 1
  | v :: rest => if isEventNumber v then gsize hp rest else nbins hp v * gsize hp rest
  end.

Definition gp (hp : heap) (o : handle) (i : nat) : f64 :=
  grid_point (get_f hp o FLower) (get_f hp o FUpper) (get_n hp o FNumBins) i.

(** Coordinate of o for the k-th point of the grid spanned by the reversed list r. *)
Fixpoint rv (r : list handle) (hp : heap) (k : nat) (o : handle) : f64 :=
  match r with
  | [] => V hp o
  | v :: rest => if isEventNumber v then rv rest hp k o
                 else if Nat.eqb (h_value v) (h_value o) then gp hp o (k / gsize hp rest)
                 else rv rest hp (k mod gsize hp rest) o
  end.

Definition val (r : list handle) (hp : heap) (k : nat) (o : handle) : f64 :=
  if is_ev o then count_from (V hp o) k else rv r hp k o.

Definition rows (r : list handle) (hp : heap) : list (list f64) :=
  map (fun k => map (val r hp k) obs) (seq 0 (gsize hp r)).

Lemma nbins_same : forall hp hp' o, same_limits hp hp' -> In o obs -> nbins hp' o = nbins hp o.
Proof. intros. unfold nbins, get_n. rewrite H; auto. discriminate. Qed.
Lemma gp_same : forall hp hp' o i, same_limits hp hp' -> In o obs -> gp hp' o i = gp hp o i.
Proof. intros. unfold gp, get_f, get_n. rewrite !H by (auto; discriminate). reflexivity. Qed.
Lemma gsize_same : forall r hp hp', same_limits hp hp' -> incl r obs -> gsize hp' r = gsize hp r.
Proof.
  intros r hp hp' HS; induction r as [|v rest IH]; intros Hin; simpl; auto.
  assert (Hrest : incl rest obs) by (intros x Hx; apply Hin; right; auto).
  rewrite IH by auto. destruct (isEventNumber v); auto.
  rewrite (nbins_same hp hp' v HS); auto. apply Hin; left; auto.
Qed.

Definition spans (r : list handle) (o : handle) : Prop :=
  exists v, In v r /\ isEventNumber v = false /\ h_value v = h_value o.

Lemma rv_same : forall r hp hp' k o, same_limits hp hp' -> incl r obs -> In o obs ->
  (V hp' o = V hp o \/ spans r o) -> rv r hp' k o = rv r hp k o.
Proof.
  intros r hp hp' k o HS; revert k; induction r as [|v rest IH]; intros k Hin Ho HV; simpl.
  - destruct HV as [HV|(v & [] & _)]. exact HV.
  - assert (Hrest : incl rest obs) by (intros x Hx; apply Hin; right; auto).
    assert (HVrest : isEventNumber v = true \/ h_value v <> h_value o -> V hp' o = V hp o \/ spans rest o).
    { intros Hcase. destruct HV as [HV|(w & [->|Hw] & He & Hh)]; auto.
      - destruct Hcase; congruence.
      - right. exists w. auto. }
    destruct (isEventNumber v) eqn:Ee.
    + apply IH; auto.
    + rewrite (gsize_same rest hp hp' HS Hrest).
      destruct (Nat.eqb_spec (h_value v) (h_value o)) as [Eq|Ne].
      * apply gp_same; auto.
      * apply IH; auto.
Qed.

Lemma count_from_add : forall x a b, count_from (count_from x a) b = count_from x (b + a).
Proof. intros x a b. unfold count_from. induction b as [|b IH]; simpl; auto. rewrite IH. reflexivity. Qed.

(** State after running over the reversed list r. *)
Definition grid_post (r : list handle) (hp : heap) (evs : list (list f64)) (n : nat)
           (newrows : list (list f64)) (result : heap * dataset * res unit) : Prop :=
  exists hp' d', result = (hp', d', Ok tt) /\
    drel obs (hp', d') (mkSpec hp' (evs ++ newrows)) /\
    separated hp' obs /\ same_limits hp hp' /\
    (forall o, In o obs -> is_ev o = true -> V hp' o = count_from (V hp o) n) /\
    (forall o, In o obs -> is_ev o = false -> spans r o \/ V hp' o = V hp o).

Lemma is_ev_eq : forall o, In o obs -> is_ev o = true -> exists e, ev = Some e /\ h_value e = h_value o.
Proof.
  intros o Ho H. unfold is_ev in H. destruct ev as [e|]; [|discriminate].
  apply Nat.eqb_eq in H. eauto.
Qed.

Lemma NoDup_value_inj : forall hp o o', separated hp obs -> In o obs -> In o' obs -> h_value o = h_value o' -> o = o'.
Proof.
  intros hp o o' (Hnd & _) Ho Ho' E.
  clear ev_ok. induction obs as [|a t IH]; [contradiction|].
  simpl in Hnd. inversion Hnd; subst.
  destruct Ho as [->|Ho]; destruct Ho' as [->|Ho']; auto.
  - exfalso. apply H1. rewrite E. apply in_map. auto.
  - exfalso. apply H1. rewrite <- E. apply in_map. auto.
Qed.

(** A spanning observable is not the event counter. *)
Lemma spanning_not_ev : forall hp v, separated hp obs -> In v obs -> isEventNumber v = false -> is_ev v = false.
Proof.
  intros hp v HS Hv He. destruct (is_ev v) eqn:E; auto.
  destruct (is_ev_eq v Hv E) as (e & -> & Heq). destruct ev_ok as [Hin Het].
  assert (e = v) by (eapply NoDup_value_inj; eauto). subst. congruence.
Qed.

Lemma map_seq_add : forall {A} (f : nat -> A) n a b, map (fun k => f (a + k)) (seq b n) = map f (seq (a + b) n).
Proof.
  intros A f n; induction n as [|n IH]; intros a b; simpl; auto. f_equal. rewrite IH.
  rewrite Nat.add_succ_r. reflexivity.
Qed.

Lemma flat_seq : forall {A} (f : nat -> A) M n i0,
  flat_map (fun i => map (fun k => f (i * M + k)) (seq 0 M)) (seq i0 n) = map f (seq (i0 * M) (n * M)).
Proof.
  intros A f M n; induction n as [|n IH]; intros i0; simpl; auto.
  rewrite IH, seq_app, map_app. f_equal.
  - rewrite map_seq_add. rewrite Nat.add_0_r. reflexivity.
  - f_equal. f_equal. simpl. lia.
Qed.

Definition evs_ok (newrows : list (list f64)) (hp : heap) : Prop :=
  forall row, In row newrows -> forallb (fun p => in_range (get_f hp (fst p) FLower) (get_f hp (fst p) FUpper) (snd p))
                                   (combine obs row) = true.

Lemma forallb_combine_map : forall (g : handle -> f64) (P : handle * f64 -> bool) l,
  forallb P (combine l (map g l)) = forallb (fun o => P (o, g o)) l.
Proof. intros g P l; induction l as [|a t IH]; simpl; auto. rewrite IH. reflexivity. Qed.

Lemma grid_base : forall hp d evs,
  drel obs (hp, d) (mkSpec hp evs) -> separated hp obs -> evs_ok (rows [] hp) hp ->
  grid_post [] hp evs 1 (rows [] hp) (make_a_grid [] ev (hp, d)).
Proof.
  intros hp d evs HR HS Hok.
  simpl.
  pose proof (addEvent_spec obs hp d _ HR) as HA.
  destruct (addEvent hp d) as [d' r]. destruct HA as [HA1 HA2].
  assert (Hcur : map (val [] hp 0) obs = current hp obs).
  { unfold current. apply map_ext. intros o. unfold val, count_from. simpl. destruct (is_ev o); reflexivity. }
  assert (Hin : all_in_range hp obs = true).
  { unfold all_in_range. specialize (Hok (map (val [] hp 0) obs)).
    assert (Hr : In (map (val [] hp 0) obs) (rows [] hp)) by (left; reflexivity).
    specialize (Hok Hr). rewrite Hcur in Hok. unfold current in Hok. rewrite forallb_combine_map in Hok. exact Hok. }
  unfold spec_add in HA1, HA2. cbn [e_heap e_events] in *. rewrite Hin in HA1, HA2. simpl in HA1, HA2.
  destruct r as [u|e]; [|discriminate].
  assert (Hrows : rows [] hp = [current hp obs]). { unfold rows. simpl. rewrite Hcur. reflexivity. }
  rewrite Hrows.
  destruct ev as [e|] eqn:Eev.
  - destruct ev_ok as [Hein Heev].
    destruct (separated_set hp obs e (fadd (get_f hp e FValue) fone) HS Hein) as (S1 & S2 & S3).
    exists (set_f hp e FValue (fadd (get_f hp e FValue) fone)), d'.
    split; [reflexivity|]. split.
    { destruct HA1 as (A1 & A2 & A3 & A4 & A5). repeat split; auto. }
    split; [exact S1|]. split; [exact S3|]. split.
    + intros o Ho Hev. unfold V. rewrite S2 by auto. unfold is_ev in Hev. rewrite Eev in Hev. rewrite Hev.
      assert (e = o). { eapply NoDup_value_inj; eauto. apply Nat.eqb_eq; auto. } subst o. reflexivity.
    + intros o Ho Hev. right. unfold V. rewrite S2 by auto. unfold is_ev in Hev. rewrite Eev in Hev. rewrite Hev. reflexivity.
  - exists hp, d'. split; [reflexivity|]. split; [exact HA1|]. split; [exact HS|].
    split; [apply same_limits_refl|]. split.
    + intros o Ho Hev. unfold is_ev in Hev. rewrite Eev in Hev. discriminate.
    + intros; right; reflexivity.
Qed.

Lemma grid_step : forall rest v,
  isEventNumber v = false -> incl (v :: rest) obs ->
  (forall hp d evs, drel obs (hp, d) (mkSpec hp evs) -> separated hp obs -> evs_ok (rows rest hp) hp ->
     grid_post rest hp evs (gsize hp rest) (rows rest hp) (make_a_grid rest ev (hp, d))) ->
  ~ spans rest v ->
  forall n i0 hp d evs base,
    drel obs (hp, d) (mkSpec hp evs) -> separated hp obs ->
    let M := gsize hp rest in
    let W := fun i k o => if is_ev o then count_from (V hp o) ((i - i0) * M + k)
                          else if Nat.eqb (h_value v) (h_value o) then gp hp o i else rv rest hp k o in
    base = flat_map (fun i => map (fun k => map (W i k) obs) (seq 0 M)) (seq i0 n) ->
    evs_ok base hp ->
    grid_post (v :: rest) hp evs (n * M) base
      (grid_loop (fun i '(hp, d) => make_a_grid rest ev (set_f hp v FValue (gp hp v i), d)) n i0 (hp, d)).
Proof.
  intros rest v Hev Hin IHrest Hnsp n.
  assert (Hv : In v obs) by (apply Hin; left; auto).
  assert (Hrest : incl rest obs) by (intros x Hx; apply Hin; right; auto).
  induction n as [|n IHn]; intros i0 hp d evs base HR HS M W Hbase Hok.
  - simpl in Hbase. subst base. simpl. exists hp, d. split; [reflexivity|]. rewrite app_nil_r.
    split; [exact HR|]. split; [exact HS|]. split; [apply same_limits_refl|]. split.
    + intros; reflexivity.
    + intros; right; reflexivity.
  - cbn [seq flat_map] in Hbase. cbn [grid_loop].
    set (hp1 := set_f hp v FValue (gp hp v i0)).
    destruct (separated_set hp obs v (gp hp v i0) HS Hv) as (S1 & S2 & S3). fold hp1 in S1, S2, S3.
    assert (Hv_ev : is_ev v = false) by (eapply spanning_not_ev; eauto).
    assert (Hrows1 : rows rest hp1 = map (fun k => map (W i0 k) obs) (seq 0 M)).
    { unfold rows. rewrite (gsize_same rest hp hp1 S3 Hrest). fold M.
      apply map_ext. intros k. apply map_ext_in. intros o Ho.
      unfold val, W. rewrite Nat.sub_diag. simpl.
      destruct (is_ev o) eqn:Eo.
      - unfold V. rewrite S2 by auto.
        destruct (Nat.eqb_spec (h_value v) (h_value o)) as [E|E]; auto.
        exfalso. assert (v = o) by (eapply NoDup_value_inj; eauto). subst. congruence.
      - destruct (Nat.eqb_spec (h_value v) (h_value o)) as [E|E].
        + assert (v = o) by (eapply NoDup_value_inj; eauto). subst o.
          assert (Hgen : forall k, rv rest hp1 k v = V hp1 v).
          { clear -Hnsp. revert Hnsp. induction rest as [|w t IH]; intros Hnsp k; simpl; auto.
            assert (Hn2 : ~ spans t v).
            { intros (u & Hu & He & Hh). apply Hnsp. exists u. simpl; auto. }
            destruct (isEventNumber w) eqn:Ew; [apply IH; auto|].
            destruct (Nat.eqb_spec (h_value w) (h_value v)) as [E|E]; [|apply IH; auto].
            exfalso. apply Hnsp. exists w. simpl; auto. }
          rewrite Hgen. unfold V. rewrite S2 by auto. rewrite Nat.eqb_refl. reflexivity.
        + apply rv_same; auto. left. unfold V. rewrite S2 by auto.
          destruct (Nat.eqb_spec (h_value v) (h_value o)); [contradiction|reflexivity]. }
    assert (Hok1 : evs_ok (rows rest hp1) hp1).
    { intros row Hrow. rewrite Hrows1 in Hrow.
      assert (Hrow' : In row base) by (rewrite Hbase; apply in_or_app; left; exact Hrow).
      specialize (Hok row Hrow'). rewrite <- Hok.
      assert (Hext : forall l row, incl l obs ->
        forallb (fun p => in_range (get_f hp1 (fst p) FLower) (get_f hp1 (fst p) FUpper) (snd p)) (combine l row) =
        forallb (fun p => in_range (get_f hp (fst p) FLower) (get_f hp (fst p) FUpper) (snd p)) (combine l row)).
      { clear -S3. intros l; induction l as [|a t IH]; intros row Hl; simpl; auto.
        destruct row as [|x xs]; simpl; auto. rewrite IH by (intros y Hy; apply Hl; right; auto).
        unfold get_f. rewrite !S3 by (try discriminate; apply Hl; left; auto). reflexivity. }
      apply Hext. apply incl_refl. }
    assert (HR1 : drel obs (hp1, d) (mkSpec hp1 evs)).
    { destruct HR as (A1 & A2 & A3 & A4 & A5). repeat split; auto. }
    destruct (IHrest hp1 d evs HR1 S1 Hok1) as (hp2 & d2 & E2 & HR2 & HS2 & HL2 & HEv2 & HV2).
    rewrite E2.
    assert (HL : same_limits hp hp2) by (eapply same_limits_trans; [exact S3|exact HL2]).
    assert (HM : gsize hp2 rest = M) by (apply gsize_same; auto).
    assert (HM1 : gsize hp1 rest = M) by (apply gsize_same; auto).
    specialize (IHn (S i0) hp2 d2 (evs ++ rows rest hp1)
                (flat_map (fun i => map (fun k => map (W i k) obs) (seq 0 M)) (seq (S i0) n)) HR2 HS2).
    cbv zeta in IHn. rewrite HM in IHn.
    destruct IHn as (hp3 & d3 & E3 & HR3 & HS3 & HL3 & HEv3 & HV3).
    + rewrite !flat_map_concat_map. f_equal. apply map_ext_in. intros i Hi. apply in_seq in Hi.
      apply map_ext. intros k. apply map_ext_in. intros o Ho. unfold W.
      destruct (is_ev o) eqn:Eo.
      * rewrite HEv2 by auto. rewrite HM1. rewrite count_from_add.
        unfold V. rewrite S2 by auto.
        destruct (Nat.eqb_spec (h_value v) (h_value o)) as [E|E].
        { exfalso. assert (v = o) by (eapply NoDup_value_inj; eauto). subst. congruence. }
        f_equal. replace (i - i0) with (S (i - S i0)) by lia. simpl. lia.
      * destruct (Nat.eqb_spec (h_value v) (h_value o)) as [E|E].
        { symmetry. apply gp_same; auto. }
        symmetry. apply rv_same; auto.
        destruct (HV2 o Ho Eo) as [Hsp|Heq]; [right; exact Hsp|left].
        rewrite Heq. unfold V. rewrite S2 by auto.
        destruct (Nat.eqb_spec (h_value v) (h_value o)); [contradiction|reflexivity].
    + intros row Hrow.
      assert (Hrow' : In row base) by (rewrite Hbase; apply in_or_app; right; exact Hrow).
      specialize (Hok row Hrow'). rewrite <- Hok.
      assert (Hext : forall l row, incl l obs ->
        forallb (fun p => in_range (get_f hp2 (fst p) FLower) (get_f hp2 (fst p) FUpper) (snd p)) (combine l row) =
        forallb (fun p => in_range (get_f hp (fst p) FLower) (get_f hp (fst p) FUpper) (snd p)) (combine l row)).
      { clear -HL. intros l; induction l as [|a t IH]; intros row Hl; simpl; auto.
        destruct row as [|x xs]; simpl; auto. rewrite IH by (intros y Hy; apply Hl; right; auto).
        unfold get_f. rewrite !HL by (try discriminate; apply Hl; left; auto). reflexivity. }
      apply Hext. apply incl_refl.
    + exists hp3, d3. split; [exact E3|]. split.
      { rewrite Hbase. rewrite <- Hrows1. rewrite <- app_assoc in HR3. exact HR3. }
      split; [exact HS3|]. split; [eapply same_limits_trans; eauto|]. split.
      * intros o Ho Eo. rewrite HEv3, HEv2 by auto. rewrite HM1, count_from_add.
        unfold V. rewrite S2 by auto.
        destruct (Nat.eqb_spec (h_value v) (h_value o)) as [E|E].
        { exfalso. assert (v = o) by (eapply NoDup_value_inj; eauto). subst. congruence. }
        f_equal. lia.
      * intros o Ho Eo. destruct (HV3 o Ho Eo) as [Hsp|Heq3]; [left; exact Hsp|].
        destruct (HV2 o Ho Eo) as [(w & Hw & He & Hh)|Heq2].
        { left. exists w. simpl; auto. }
        destruct (Nat.eqb_spec (h_value v) (h_value o)) as [E|E].
        { left. exists v. simpl; auto. }
        right. rewrite Heq3, Heq2. unfold V. rewrite S2 by auto.
        destruct (Nat.eqb_spec (h_value v) (h_value o)); [contradiction|reflexivity].
Qed.

Lemma grid_main : forall r, incl r obs -> NoDup (map h_value r) ->
  forall hp d evs, drel obs (hp, d) (mkSpec hp evs) -> separated hp obs -> evs_ok (rows r hp) hp ->
  grid_post r hp evs (gsize hp r) (rows r hp) (make_a_grid r ev (hp, d)).
Proof.
  intros r; induction r as [|v rest IH]; intros Hin Hnd hp d evs HR HS Hok.
  - apply grid_base; auto.
  - assert (Hv : In v obs) by (apply Hin; left; auto).
    assert (Hrest : incl rest obs) by (intros x Hx; apply Hin; right; auto).
    simpl in Hnd. inversion Hnd as [|? ? Hnin Hnd']; subst.
    cbn [make_a_grid]. destruct (isEventNumber v) eqn:Ev.
    + assert (Hrows : rows (v :: rest) hp = rows rest hp).
      { unfold rows. simpl. rewrite Ev. apply map_ext. intros k. apply map_ext. intros o. unfold val. simpl. rewrite Ev. reflexivity. }
      assert (Hgs : gsize hp (v :: rest) = gsize hp rest) by (simpl; rewrite Ev; reflexivity).
      rewrite Hrows, Hgs in *.
      destruct (IH Hrest Hnd' hp d evs HR HS Hok) as (hp' & d' & E & A1 & A2 & A3 & A4 & A5).
      exists hp', d'. repeat (split; [assumption|]).
      intros o Ho Eo. destruct (A5 o Ho Eo) as [(w & Hw & He & Hh)|Heq]; [left|right; auto].
      exists w. simpl; auto.
    + assert (Hnsp : ~ spans rest v).
      { intros (w & Hw & _ & Hh). apply Hnin. rewrite <- Hh. apply in_map. auto. }
      assert (Hgs : gsize hp (v :: rest) = nbins hp v * gsize hp rest) by (simpl; rewrite Ev; reflexivity).
      set (M := gsize hp rest).
      set (W := fun i k o => if is_ev o then count_from (V hp o) ((i - 0) * M + k)
                          else if Nat.eqb (h_value v) (h_value o) then gp hp o i else rv rest hp k o).
      assert (Hrows : rows (v :: rest) hp = flat_map (fun i => map (fun k => map (W i k) obs) (seq 0 M)) (seq 0 (nbins hp v))).
      { unfold rows. rewrite Hgs. fold M.
        rewrite <- (Nat.mul_0_l M) at 1. rewrite <- (flat_seq (fun k => map (val (v :: rest) hp k) obs)).
        rewrite !flat_map_concat_map. f_equal. apply map_ext_in. intros i Hi.
        apply map_ext_in. intros k Hk. apply in_seq in Hk.
        apply map_ext. intros o. unfold val, W. rewrite Nat.sub_0_r.
        destruct (is_ev o); auto. simpl. rewrite Ev. fold M.
        assert (HMpos : M <> 0) by lia.
        rewrite Nat.div_add_l by auto. rewrite (Nat.div_small k M) by lia. rewrite Nat.add_0_r.
        rewrite (Nat.add_comm (i * M) k), Nat.mod_add by auto. rewrite (Nat.mod_small k M) by lia. reflexivity. }
      rewrite Hgs.
      apply (grid_step rest v Ev Hin); auto.
Qed.

(** From the recursive description to the closed form. *)
Lemma gsize_rev_app : forall hp l1 l2, gsize hp (l1 ++ l2) = gsize hp l1 * gsize hp l2.
Proof.
  intros hp l1; induction l1 as [|a t IH]; intros l2; simpl; [lia|].
  rewrite IH. destruct (isEventNumber a); auto. lia.
Qed.
Lemma gsize_grid_size : forall hp l, gsize hp l = grid_size hp l.
Proof.
  intros hp l; induction l as [|a t IH]; simpl; auto. unfold grid_size, spanning in *. simpl.
  destruct (isEventNumber a); simpl; rewrite IH; reflexivity.
Qed.
Lemma gsize_rev : forall hp l, gsize hp (rev l) = grid_size hp l.
Proof.
  intros hp l. rewrite <- gsize_grid_size. induction l as [|a t IH]; simpl; auto.
  rewrite gsize_rev_app, IH. simpl. destruct (isEventNumber a); lia.
Qed.

Lemma div_mod_digit : forall k s b t, s <> 0 -> b <> 0 -> t <> 0 ->
  ((k mod (s * b * t)) / s) mod b = (k / s) mod b.
Proof.
  intros k s b t Hs Hb Ht.
  rewrite (Nat.mul_assoc s b t) || idtac. rewrite <- Nat.mul_assoc.
  rewrite (Nat.mod_mul_r k s (b * t)) by (auto; lia).
  rewrite (Nat.mul_comm s), Nat.div_add by auto.
  rewrite (Nat.div_small (k mod s) s) by (apply Nat.mod_upper_bound; auto). simpl.
  rewrite (Nat.mod_mul_r (k / s) b t) by auto.
  rewrite (Nat.mul_comm b), Nat.mod_add by auto. apply Nat.mod_mod; auto.
Qed.

Lemma rv_closed : forall hp pre k j o,
  NoDup (map h_value pre) -> nth_error pre j = Some o -> isEventNumber o = false ->
  k < grid_size hp pre ->
  rv (rev pre) hp k o = gp hp o ((k / stride hp pre j) mod nbins hp o).
Proof.
  intros hp pre; induction pre as [|v pre IH] using rev_ind; intros k j o Hnd Hj He Hk.
  - destruct j; discriminate.
  - rewrite rev_app_distr. simpl.
    assert (Hgs : grid_size hp (pre ++ [v]) = grid_size hp pre * (if isEventNumber v then 1 else nbins hp v)).
    { rewrite <- !gsize_grid_size, gsize_rev_app. simpl. destruct (isEventNumber v); lia. }
    rewrite map_app in Hnd. simpl in Hnd.
    assert (Hnd1 : NoDup (map h_value pre)).
    { clear -Hnd. induction (map h_value pre) as [|a t IH]; [constructor|]. simpl in Hnd. inversion Hnd; subst.
      constructor; auto. intros Hc. apply H1. apply in_or_app; auto. }
    apply nth_error_snoc in Hj. destruct Hj as [[Hj Hlt]|[-> ->]].
    + assert (Hne : h_value v <> h_value o).
      { intros E. clear -Hnd Hj E. apply NoDup_remove_2 in Hnd. apply Hnd. rewrite app_nil_r. rewrite E.
        apply in_map. eapply nth_error_In; eauto. }
      assert (Hst : stride hp (pre ++ [v]) j = stride hp pre j).
      { unfold stride. rewrite firstn_app. replace (j - length pre) with 0 by lia. simpl. rewrite app_nil_r. reflexivity. }
      rewrite Hst.
      destruct (isEventNumber v).
      * apply IH; auto. lia.
      * destruct (Nat.eqb_spec (h_value v) (h_value o)); [contradiction|].
        rewrite gsize_rev.
        destruct (Nat.eq_dec (grid_size hp pre) 0) as [E0|E0].
        { rewrite E0 in Hgs. lia. }
        rewrite IH with (j := j); auto.
        2:{ apply Nat.mod_upper_bound; auto. }
        f_equal.
        assert (Hsplit : exists t, grid_size hp pre = stride hp pre j * nbins hp o * t).
        { exists (grid_size hp (skipn (S j) pre)).
          assert (Hpre : pre = firstn j pre ++ o :: skipn (S j) pre).
          { clear -Hj. revert j Hj. induction pre as [|a t IH]; intros [|j] Hj; simpl in *; try discriminate.
            - injection Hj as ->. reflexivity.
            - f_equal. apply IH; auto. }
          rewrite Hpre at 1. unfold stride.
          rewrite <- !gsize_grid_size. rewrite gsize_rev_app. cbn [gsize]. rewrite He. lia. }
        destruct Hsplit as [t Ht]. rewrite Ht.
        apply div_mod_digit; intros Hz; rewrite Ht, Hz in E0; lia.
    + rewrite He in *. rewrite Nat.eqb_refl.
      unfold stride. rewrite firstn_app, firstn_all, Nat.sub_diag. simpl. rewrite app_nil_r.
      rewrite gsize_rev. f_equal. symmetry. apply Nat.mod_small.
      apply Nat.div_lt_upper_bound; lia.
Qed.
End GRID.

Lemma last_event_number_fold : forall obs acc e,
  fold_left (fun acc h => if isEventNumber h then Some h else acc) obs acc = Some e ->
  (acc = Some e \/ (In e obs /\ isEventNumber e = true)).
Proof.
  intros obs; induction obs as [|a t IH]; intros acc e H; simpl in *; auto.
  apply IH in H. destruct (isEventNumber a) eqn:Ea.
  - destruct H as [H|[H1 H2]]; [injection H as <-; auto|auto].
  - destruct H as [H|[H1 H2]]; auto.
Qed.

Lemma last_event_number_ok : forall obs,
  match last_event_number obs with Some e => In e obs /\ isEventNumber e = true | None => True end.
Proof.
  intros obs. unfold last_event_number.
  destruct (fold_left _ obs None) as [e|] eqn:E; auto.
  apply last_event_number_fold in E. destruct E as [E|E]; [discriminate|exact E].
Qed.

Lemma last_event_number_none : forall obs o, In o obs -> isEventNumber o = true -> last_event_number obs <> None.
Proof.
  intros obs o Ho He. unfold last_event_number.
  assert (H : forall l (acc : option handle), acc <> None ->
     fold_left (fun acc h => if isEventNumber h then Some h else acc) l acc <> None).
  { intros l; induction l as [|a t IH]; intros acc Hacc; simpl; auto.
    apply IH. destruct (isEventNumber a); auto. discriminate. }
  assert (G : forall acc, fold_left (fun acc h => if isEventNumber h then Some h else acc) obs acc <> None).
  { induction obs as [|a t IH]; [contradiction|]. intros acc. destruct Ho as [->|Ho].
    - simpl. rewrite He. apply H. discriminate.
    - simpl. apply IH. auto. }
  apply G.
Qed.

Lemma handle_eqb_value : forall a b, handle_eqb a b = Nat.eqb (h_value a) (h_value b).
Proof. reflexivity. Qed.

Lemma rows_grid_event : forall hp obs, separated hp obs ->
  rows obs (last_event_number obs) (rev obs) hp = map (grid_event hp obs) (seq 0 (grid_size hp obs)).
Proof.
  intros hp obs HS. unfold rows. rewrite gsize_rev.
  apply map_ext_in. intros k Hk. apply in_seq in Hk. simpl in Hk.
  unfold grid_event.
  assert (Hgen : forall l n, (forall j o, nth_error l j = Some o -> nth_error obs (n + j) = Some o) ->
     map (val (last_event_number obs) (rev obs) hp k) l =
     map (fun p => grid_coordinate hp obs k (fst p) (snd p)) (combine (seq n (length l)) l)).
  { intros l; induction l as [|o t IH]; intros n Hl; simpl; auto.
    assert (Ho : nth_error obs n = Some o) by (rewrite <- (Nat.add_0_r n); apply (Hl 0); reflexivity).
    f_equal.
    - unfold val, grid_coordinate, is_ev.
      assert (Hino : In o obs) by (eapply nth_error_In; eauto).
      pose proof (last_event_number_ok obs) as Hlast.
      destruct (isEventNumber o) eqn:Eo.
      + destruct (last_event_number obs) as [e|] eqn:El.
        * rewrite handle_eqb_value. destruct (Nat.eqb_spec (h_value e) (h_value o)) as [E|E]; auto.
          (* another event number: its value is never touched *)
          assert (Hrv : forall r kk, incl r obs -> rv r hp kk o = V hp o).
          { clear -HS Hino Eo. intros r; induction r as [|v r IH]; intros kk Hr; simpl; auto.
            assert (Hr' : incl r obs) by (intros x Hx; apply Hr; right; auto).
            destruct (isEventNumber v) eqn:Ev; auto.
            destruct (Nat.eqb_spec (h_value v) (h_value o)) as [E|E]; auto.
            exfalso. assert (v = o). { eapply (NoDup_value_inj obs); eauto. apply Hr; left; auto. }
            subst. congruence. }
          rewrite Hrv; auto. intros x Hx. apply in_rev; auto.
        * exfalso. eapply last_event_number_none; eauto.
      + assert (Hnev : match last_event_number obs with Some e => Nat.eqb (h_value e) (h_value o) | None => false end = false).
        { destruct (last_event_number obs) as [e|]; auto.
          apply Nat.eqb_neq. intros E. destruct Hlast as [Hein Hee].
          assert (e = o). { eapply (NoDup_value_inj obs); eauto. } subst. congruence. }
        rewrite Hnev. rewrite (rv_closed hp obs k n o); auto.
        * apply HS.
        * lia.
    - apply IH. intros j o' Hj. rewrite Nat.add_succ_comm. apply (Hl (S j)). exact Hj. }
  apply Hgen. intros j o Hj. exact Hj.
Qed.

Lemma NoDup_rev_values : forall l, NoDup (map h_value l) -> NoDup (map h_value (rev l)).
Proof. intros l H. rewrite map_rev. apply NoDup_rev. exact H. Qed.

Lemma fillWithGrid_ok : forall hp obs,
  separated hp obs ->
  (forall k, k < grid_size hp obs ->
     forallb (fun p => in_range (get_f hp (fst p) FLower) (get_f hp (fst p) FUpper) (snd p))
             (combine obs (grid_event hp obs k)) = true) ->
  exists hp' d', fillWithGrid hp (new_dataset obs) = (hp', d', Ok tt) /\
    drel obs (hp', d') (mkSpec hp' (map (grid_event hp obs) (seq 0 (grid_size hp obs)))).
Proof.
  intros hp obs HS Hok. unfold fillWithGrid.
  assert (Hempty : forallb (fun col : list f64 => match col with [] => true | _ => false end) (d_data (new_dataset obs)) = true).
  { simpl. clear. induction obs as [|a t IH]; simpl; auto. }
  rewrite Hempty. simpl d_obs.
  pose proof (rows_grid_event hp obs HS) as Hrows.
  destruct (grid_main obs (last_event_number obs) (last_event_number_ok obs) (rev obs)) with (hp := hp) (d := new_dataset obs) (evs := @nil (list f64))
    as (hp' & d' & E & A1 & _).
  - intros x Hx. apply in_rev; auto.
  - apply NoDup_rev_values. apply HS.
  - apply drel_new.
  - exact HS.
  - intros row Hrow. rewrite Hrows in Hrow. apply in_map_iff in Hrow. destruct Hrow as (k & <- & Hk).
    apply in_seq in Hk. apply Hok. lia.
  - exists hp', d'. split; [exact E|]. rewrite Hrows in A1. exact A1.
Qed.

(** Each combination of local bins is visited exactly once. *)
Fixpoint enc (sizes cell : list nat) : nat :=
  match sizes, cell with b :: bs, c :: cs => c + b * enc bs cs | _, _ => 0 end.

Lemma enc_lt : forall sizes cell, Forall2 lt cell sizes -> enc sizes cell < product sizes.
Proof.
  intros sizes cell H. induction H as [|c b cs bs Hlt _ IH]; simpl; [lia|].
  apply Nat.lt_le_trans with (b * S (enc bs cs)); [lia|]. apply Nat.mul_le_mono_l. lia.
Qed.

Lemma product_firstn_pos : forall sizes cell j, Forall2 lt cell sizes -> product (firstn j sizes) <> 0.
Proof.
  intros sizes cell j H; revert j. induction H as [|c b cs bs Hlt _ IH]; intros [|j]; simpl; try lia.
  specialize (IH j). intros E. apply Nat.eq_mul_0 in E. lia.
Qed.

Lemma enc_digit : forall sizes cell, Forall2 lt cell sizes -> forall j b, nth_error sizes j = Some b ->
  nth_error cell j = Some ((enc sizes cell / product (firstn j sizes)) mod b).
Proof.
  intros sizes cell H. induction H as [|c b cs bs Hlt Hrest IH]; intros j b' Hj.
  - destruct j; discriminate.
  - destruct j as [|j]; cbn [firstn product fold_right enc nth_error] in *.
    + injection Hj as <-. rewrite Nat.div_1_r. rewrite (Nat.mul_comm b), Nat.mod_add by lia. rewrite Nat.mod_small by lia. reflexivity.
    + rewrite (IH j b' Hj). rewrite <- Nat.div_div.
      * rewrite (Nat.mul_comm b), Nat.div_add by lia. rewrite (Nat.div_small c b) by lia. reflexivity.
      * lia.
      * eapply product_firstn_pos; eauto.
Qed.

Lemma digits_enc : forall sizes cell k, Forall2 lt cell sizes -> k < product sizes ->
  (forall j b, nth_error sizes j = Some b -> nth_error cell j = Some ((k / product (firstn j sizes)) mod b)) ->
  k = enc sizes cell.
Proof.
  intros sizes cell k H; revert k. induction H as [|c b cs bs Hlt Hrest IH]; intros k Hk Hd; cbn [product fold_right enc] in *; [lia|].
  assert (H0 : c = k mod b).
  { specialize (Hd 0 b eq_refl). cbn [firstn product fold_right nth_error] in Hd. rewrite Nat.div_1_r in Hd. congruence. }
  assert (H1 : k / b = enc bs cs).
  { apply IH.
    - apply Nat.div_lt_upper_bound; [lia|exact Hk].
    - intros j b' Hj. specialize (Hd (S j) b' Hj). cbn [firstn product fold_right nth_error] in Hd. rewrite Hd.
      rewrite Nat.div_div; [reflexivity|lia|]. apply (product_firstn_pos bs cs); auto. }
  rewrite <- H1, H0. rewrite (Nat.div_mod k b) at 1 by lia. lia.
Qed.

Lemma grid_cell_unique : forall (sizes : list nat) (cell : list nat),
  Forall2 lt cell sizes ->
  exists! k, k < product sizes /\
    forall j b, nth_error sizes j = Some b -> nth_error cell j = Some ((k / product (firstn j sizes)) mod b).
Proof.
  intros sizes cell H. exists (enc sizes cell). split.
  - split; [apply enc_lt; auto|]. apply enc_digit; auto.
  - intros k [Hk Hd]. symmetry. apply digits_enc; auto.
Qed.

(** Counting from zero is exact up to 2^53. *)
Lemma count_from_zero : forall k, (Z.of_nat k <= 2^53)%Z -> count_from (f_of_Z 0) k = f_of_Z (Z.of_nat k).
Proof.
  intros k; induction k as [|k IH]; intros Hk; [reflexivity|].
  change (count_from (f_of_Z 0) (S k)) with (fadd (count_from (f_of_Z 0) k) fone).
  rewrite IH by lia. unfold fone. rewrite fadd_Z by lia. f_equal. lia.
Qed.
