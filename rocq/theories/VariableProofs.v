(** Proofs for handles: the pointer model refines the specification of named quantities. *)
From Coq Require Import List ZArith String Bool Reals Lia Arith.
From Verif Require Import F64 F64Lemmas ListAux VariableModel VariableSpec.
Import ListNotations.

Lemma replace_nth_upd : forall {A} (l : list A) i x, replace_nth l i x = upd l i x.
Proof.
  intros A l; induction l as [|a t IH]; intros [|i] x; simpl; auto.
  unfold replace_nth in *. simpl. f_equal. apply IH.
Qed.

Definition kind_matches (h : handle) (q : quantity) : Prop :=
  match h_ext h, q_kind q with
  | XObservable _ e, KObservable e' => e = e'
  | XVariable _ _ _ _ _, KVariable => True
  | _, _ => False end.

Definition represents (hp : heap) (h : handle) (q : quantity) : Prop :=
  h_name h = q_name q /\ kind_matches h q /\
  (forall f p, ptr_of h f = Some p -> p < List.length hp) /\
  (forall f, get_field hp h f = q_val q f).

Definition rel (st : vstate) (s : sstate) : Prop :=
  exists c : list handle,
    List.length c = List.length (s_quantities s) /\
    List.length (snd st) = List.length (s_denotes s) /\
    (forall i q, nth_error (s_denotes s) i = Some q ->
       exists h, nth_error c q = Some h /\ nth_error (snd st) i = Some h) /\
    (forall q h Q, nth_error c q = Some h -> nth_error (s_quantities s) q = Some Q -> represents (fst st) h Q) /\
    (forall q1 h1 f1 q2 h2 f2 p, nth_error c q1 = Some h1 -> nth_error c q2 = Some h2 ->
       ptr_of h1 f1 = Some p -> ptr_of h2 f2 = Some p -> q1 = q2 /\ f1 = f2).

Lemma rel_init : rel vinit sinit.
Proof.
  exists []. simpl. repeat split; auto; intros.
  - destruct i; discriminate.
  - destruct q; discriminate.
  - destruct q; discriminate.
  - destruct q; discriminate.
  - destruct q; discriminate.
  - destruct q1; discriminate.
  - destruct q1; discriminate.
Qed.

Lemma nth_error_snoc : forall {A} (l : list A) x i y,
  nth_error (l ++ [x]) i = Some y ->
  (nth_error l i = Some y /\ i < List.length l) \/ (i = List.length l /\ y = x).
Proof.
  intros A l x i y H.
  destruct (lt_dec i (List.length l)) as [Hl|Hl].
  - rewrite nth_error_app1 in H by assumption. auto.
  - rewrite nth_error_app2 in H by lia.
    destruct (i - List.length l) as [|k] eqn:E; simpl in H.
    + right. split; [lia|congruence].
    + destruct k; discriminate.
Qed.

Lemma represents_extend : forall hp ext_ h q, represents hp h q -> represents (hp ++ ext_) h q.
Proof.
  intros hp e h q (H1 & H2 & H3 & H4). repeat split; auto.
  - intros f p Hp. rewrite app_length. specialize (H3 f p Hp). lia.
  - intros f. rewrite <- H4. unfold get_field.
    destruct (ptr_of h f) as [p|] eqn:E; auto.
    apply nth_error_app1. eauto.
Qed.

(** Adding a new quantity with fresh cells. *)
Lemma rel_new : forall hp hs s cells h Q,
  rel (hp, hs) s ->
  represents (hp ++ cells) h Q ->
  (forall f p, ptr_of h f = Some p -> List.length hp <= p) ->
  (forall f g p, ptr_of h f = Some p -> ptr_of h g = Some p -> f = g) ->
  rel (hp ++ cells, hs ++ [h]) (s_new s Q).
Proof.
  intros hp hs s cells h Q (c & Hc & Hl & Hd & Hr & Hi) Hrep Hfresh Hinj.
  simpl in *.
  exists (c ++ [h]). simpl. rewrite !app_length. simpl.
  split; [lia|]. split; [lia|]. split; [|split].
  - intros i q Hq. apply nth_error_snoc in Hq. destruct Hq as [[Hq Hlt]|[-> ->]].
    + destruct (Hd i q Hq) as (h' & Hc' & Hh'). exists h'. split.
      * rewrite nth_error_app1; auto. apply nth_error_Some_lt in Hc'; auto.
      * rewrite nth_error_app1; auto. apply nth_error_Some_lt in Hh'; auto.
    + exists h. split.
      * rewrite nth_error_app2 by lia. rewrite <- Hc, Nat.sub_diag. reflexivity.
      * rewrite nth_error_app2 by lia. rewrite <- Hl, Nat.sub_diag. reflexivity.
  - intros q h' Q' H1 H2.
    apply nth_error_snoc in H1. apply nth_error_snoc in H2.
    destruct H1 as [[H1 L1]|[E1 ->]]; destruct H2 as [[H2 L2]|[E2 ->]]; try lia.
    + apply represents_extend. eapply Hr; eauto.
    + exact Hrep.
  - intros q1 h1 f1 q2 h2 f2 p H1 H2 P1 P2.
    apply nth_error_snoc in H1. apply nth_error_snoc in H2.
    assert (Hold : forall q h' f p, nth_error c q = Some h' -> ptr_of h' f = Some p -> p < List.length hp).
    { intros q h' f p' Hq Hp.
      destruct (nth_error (s_quantities s) q) as [Q'|] eqn:EQ.
      - destruct (Hr q h' Q' Hq EQ) as (_ & _ & H3 & _). eauto.
      - apply nth_error_None in EQ. apply nth_error_Some_lt in Hq. lia. }
    destruct H1 as [[H1 L1]|[-> ->]]; destruct H2 as [[H2 L2]|[-> ->]].
    + eapply Hi; eauto.
    + specialize (Hold _ _ _ _ H1 P1). specialize (Hfresh _ _ P2). lia.
    + specialize (Hold _ _ _ _ H2 P2). specialize (Hfresh _ _ P1). lia.
    + split; auto. eapply Hinj; eauto.
Qed.

Ltac nth_fresh :=
  unfold get_field; simpl;
  repeat match goal with
  | |- context [nth_error (?hp ++ ?cells) (List.length ?hp + ?k)] =>
      rewrite (nth_error_app2 hp cells) by lia; rewrite (Nat.add_comm (List.length hp) k), Nat.add_sub; simpl
  | |- context [nth_error (?hp ++ ?cells) (List.length ?hp)] =>
      rewrite (nth_error_app2 hp cells) by lia; rewrite Nat.sub_diag; simpl
  end.

Lemma new_obs_ok : forall hp hs s n lo up ev, rel (hp, hs) s ->
  rel (hp ++ [CF fzero; CF lo; CF up; CI (-1); CN 100],
       hs ++ [mkHandle n (List.length hp) (List.length hp + 1) (List.length hp + 2) (List.length hp + 3)
                       (XObservable (List.length hp + 4) ev)])
      (s_new s (obs_quantity n ev lo up)).
Proof.
  intros hp hs s n lo up ev H. apply rel_new; auto.
  - split; [reflexivity|]. split; [reflexivity|]. split.
    + intros f p Hp. rewrite app_length; simpl. destruct f; simpl in Hp; inversion Hp; lia.
    + intros f. destruct f; nth_fresh; reflexivity.
  - intros f p Hp. destruct f; simpl in Hp; inversion Hp; lia.
  - intros f g p Hf Hg. destruct f; simpl in Hf; inversion Hf; destruct g; simpl in Hg; inversion Hg; try reflexivity; lia.
Qed.

Lemma new_var_ok : forall hp hs s n v lo up e fx, rel (hp, hs) s ->
  rel (fst (new_variable_cells hp n v lo up e fx), hs ++ [snd (new_variable_cells hp n v lo up e fx)])
      (s_new s (var_quantity n v e lo up fx)).
Proof.
  intros hp hs s n v lo up e fx H. simpl. apply rel_new; auto.
  - split; [reflexivity|]. split; [exact I|]. split.
    + intros f p Hp. rewrite app_length; simpl. destruct f; simpl in Hp; inversion Hp; lia.
    + intros f. destruct f; nth_fresh; reflexivity.
  - intros f p Hp. destruct f; simpl in Hp; inversion Hp; lia.
  - intros f g p Hf Hg. destruct f; simpl in Hf; inversion Hf; destruct g; simpl in Hg; inversion Hg; try reflexivity; lia.
Qed.

(** Looking up a handle on both sides. *)
Lemma rel_lookup : forall hp hs s i, rel (hp, hs) s ->
  match nth_error hs i with
  | Some h => exists q Q, nth_error (s_denotes s) i = Some q /\ nth_error (s_quantities s) q = Some Q /\
                s_quantity s i = Some Q /\ represents hp h Q
  | None => nth_error (s_denotes s) i = None /\ s_quantity s i = None
  end.
Proof.
  intros hp hs s i (c & Hc & Hl & Hd & Hr & Hi). simpl in *.
  unfold s_quantity.
  destruct (nth_error (s_denotes s) i) as [q|] eqn:E.
  - destruct (Hd i q E) as (h & Hh & Hi'). rewrite Hi'.
    destruct (nth_error (s_quantities s) q) as [Q|] eqn:EQ.
    + exists q, Q. repeat split; auto; eapply Hr; eauto.
    + apply nth_error_None in EQ. apply nth_error_Some_lt in Hh. lia.
  - apply nth_error_None in E.
    destruct (nth_error hs i) eqn:E2.
    + apply nth_error_Some_lt in E2. lia.
    + auto.
Qed.

Lemma rel_eqb : forall hp hs s a b ha hb i j, rel (hp, hs) s ->
  nth_error hs a = Some ha -> nth_error hs b = Some hb ->
  nth_error (s_denotes s) a = Some i -> nth_error (s_denotes s) b = Some j ->
  handle_eqb ha hb = Nat.eqb i j /\ (i = j -> ha = hb).
Proof.
  intros hp hs s a b ha hb i j (c & Hc & Hl & Hd & Hr & Hi) Ha Hb Da Db. simpl in *.
  destruct (Hd a i Da) as (h1 & H1 & H1'). destruct (Hd b j Db) as (h2 & H2 & H2').
  rewrite Ha in H1'; injection H1' as <-. rewrite Hb in H2'; injection H2' as <-.
  split.
  - unfold handle_eqb. destruct (Nat.eqb_spec (h_value ha) (h_value hb)) as [E|E]; symmetry.
    + apply Nat.eqb_eq. destruct (Hi i ha FValue j hb FValue (h_value ha) H1 H2 eq_refl) as [E' _]; auto.
      simpl. congruence.
    + apply Nat.eqb_neq. intros ->. rewrite H1 in H2. inversion H2; subst; auto.
  - intros ->. congruence.
Qed.

Lemma rel_set : forall hp hs s a h i Q f v p,
  rel (hp, hs) s -> nth_error hs a = Some h -> nth_error (s_denotes s) a = Some i ->
  nth_error (s_quantities s) i = Some Q -> ptr_of h f = Some p ->
  rel (upd hp p v, hs) {| s_quantities := replace_nth (s_quantities s) i (q_set Q f v); s_denotes := s_denotes s |}.
Proof.
  intros hp hs s a h i Q f v p (c & Hc & Hl & Hd & Hr & Hi) Ha Da HQ Hp. simpl in *.
  destruct (Hd a i Da) as (h0 & Hci & Hh0). rewrite Ha in Hh0; injection Hh0 as <-.
  rewrite replace_nth_upd.
  exists c. simpl. rewrite upd_length.
  split; [auto|]. split; [auto|]. split; [auto|]. split; [|exact Hi].
  intros q h' Q' H1 H2.
  destruct (Nat.eq_dec i q) as [<-|Hne].
  - rewrite Hci in H1; injection H1 as <-.
    rewrite nth_error_upd_same in H2 by (eapply nth_error_Some_lt; eauto). injection H2 as <-.
    destruct (Hr i h Q Hci HQ) as (R1 & R2 & R3 & R4).
    split; [exact R1|]. split; [exact R2|]. split.
    + intros g p' Hp'. rewrite upd_length. eauto.
    + intros g. simpl. unfold get_field.
      destruct (field_eqb g f) eqn:Efg.
      * assert (g = f) by (destruct g, f; simpl in Efg; try discriminate; reflexivity). subst g.
        rewrite Hp. apply nth_error_upd_same. eauto.
      * rewrite <- R4. unfold get_field. destruct (ptr_of h g) as [p'|] eqn:Eg; auto.
        apply nth_error_upd_other. intros ->.
        destruct (Hi i h f i h g p' Hci Hci Hp Eg) as [_ ->].
        destruct g; discriminate.
  - rewrite nth_error_upd_other in H2 by assumption.
    destruct (Hr q h' Q' H1 H2) as (R1 & R2 & R3 & R4).
    split; [exact R1|]. split; [exact R2|]. split.
    + intros g p' Hp'. rewrite upd_length. eauto.
    + intros g. rewrite <- R4. unfold get_field. destruct (ptr_of h' g) as [p'|] eqn:Eg; auto.
      apply nth_error_upd_other. intros ->.
      destruct (Hi i h f q h' g p' Hci H1 Hp Eg) as [E _]. contradiction.
Qed.

Lemma kind_same : forall h1 q1 h2 q2, kind_matches h1 q1 -> kind_matches h2 q2 ->
  same_kind h1 h2 = kinds_agree (q_kind q1) (q_kind q2).
Proof.
  intros h1 q1 h2 q2. unfold kind_matches, same_kind.
  destruct (h_ext h1), (q_kind q1); try contradiction; destruct (h_ext h2), (q_kind q2); try contradiction; reflexivity.
Qed.

Lemma eqall_same : forall hp hs s a b ha hb i j, rel (hp, hs) s ->
  nth_error hs a = Some ha -> nth_error hs b = Some hb ->
  nth_error (s_denotes s) a = Some i -> nth_error (s_denotes s) b = Some j ->
  (exists e1 b1 c1 f1 i1, h_ext ha = XVariable e1 b1 c1 f1 i1) ->
  (exists e1 b1 c1 f1 i1, h_ext hb = XVariable e1 b1 c1 f1 i1) ->
  isEqualNameValLimitsErrBlindFixed ha hb = Nat.eqb i j.
Proof.
  intros hp hs s a b ha hb i j HR Ha Hb Da Db Va Vb.
  destruct (rel_eqb _ _ _ _ _ _ _ _ _ HR Ha Hb Da Db) as [E1 E2].
  destruct (Nat.eqb_spec i j) as [->|Hne].
  - specialize (E2 eq_refl). subst hb.
    unfold isEqualNameValLimitsErrBlindFixed, isEqualNameValLimits.
    destruct Va as (e1&b1&c1&f1&i1&->). rewrite String.eqb_refl, !Nat.eqb_refl. reflexivity.
  - unfold handle_eqb in E1. unfold isEqualNameValLimitsErrBlindFixed, isEqualNameValLimits.
    rewrite E1. rewrite andb_false_r. reflexivity.
Qed.

Lemma rel_copy : forall hp hs s a h q, rel (hp, hs) s ->
  nth_error hs a = Some h -> nth_error (s_denotes s) a = Some q ->
  rel (hp, hs ++ [h]) {| s_quantities := s_quantities s; s_denotes := s_denotes s ++ [q] |}.
Proof.
  intros hp hs s a h q (c & Hc & Hl & Hd & Hr & Hi) Ea Ed. exists c. simpl in *. rewrite !app_length. simpl.
  split; [auto|]. split; [lia|]. split; [|split; auto].
  intros i q' Hq. apply nth_error_snoc in Hq. destruct Hq as [[Hq Hlt]|[-> ->]].
  - destruct (Hd i q' Hq) as (h' & Hc' & Hh'). exists h'. split; auto.
    rewrite nth_error_app1; auto. lia.
  - destruct (Hd a q Ed) as (h' & Hc' & Hh'). rewrite Ea in Hh'. injection Hh' as <-.
    exists h. split; auto.
    rewrite nth_error_app2 by lia. rewrite <- Hl, Nat.sub_diag. reflexivity.
Qed.

Lemma rel_assign : forall hp hs s a b hb q, rel (hp, hs) s ->
  a < List.length hs ->
  nth_error hs b = Some hb -> nth_error (s_denotes s) b = Some q ->
  rel (hp, upd hs a hb) {| s_quantities := s_quantities s; s_denotes := replace_nth (s_denotes s) a q |}.
Proof.
  intros hp hs s a b hb q (c & Hc & Hl & Hd & Hr & Hi) La Eb Ed. exists c. simpl in *.
  rewrite replace_nth_upd, !upd_length.
  split; [auto|]. split; [lia|]. split; [|split; auto].
  intros i q' Hq. destruct (Nat.eq_dec a i) as [->|Hne].
  - rewrite nth_error_upd_same in Hq by lia. injection Hq as <-.
    destruct (Hd b q Ed) as (h' & Hc' & Hh'). rewrite Eb in Hh'. injection Hh' as <-.
    exists hb. split; auto. apply nth_error_upd_same. lia.
  - rewrite nth_error_upd_other in Hq by assumption.
    destruct (Hd i q' Hq) as (h' & Hc' & Hh'). exists h'. split; auto.
    rewrite nth_error_upd_other by assumption. auto.
Qed.

Lemma rel_step : forall st s o, rel st s ->
  rel (fst (vstep st o)) (fst (sstep s o)) /\ snd (vstep st o) = snd (sstep s o).
Proof.
  intros [hp hs] s o H.
  destruct o as [n lo up|n lo up|n v|n v e|n v dn up|n v e dn up fx|a|a b|a f v|a f|a b|a b|a|a]; cbn [vstep sstep].
  - split; [|reflexivity]. apply (new_obs_ok hp hs s n lo up false H).
  - split; [|reflexivity]. apply (new_obs_ok hp hs s n lo up true H).
  - split; [|reflexivity]. apply (new_var_ok hp hs s n v _ _ f_0_002 true H).
  - split; [|reflexivity]. apply (new_var_ok hp hs s n v _ _ e true H).
  - split; [|reflexivity]. apply (new_var_ok hp hs s n v dn up _ false H).
  - split; [|reflexivity]. apply (new_var_ok hp hs s n v dn up e fx H).
  - (* Copy *)
    pose proof (rel_lookup hp hs s a H) as L.
    destruct (nth_error hs a) as [h|] eqn:Ea.
    + destruct L as (q & Q & Ed & HQ & _ & _). rewrite Ed. split; [|reflexivity]. simpl.
      eapply rel_copy; eauto.
    + destruct L as [-> _]. split; auto.
  - (* Assign *)
    pose proof (rel_lookup hp hs s a H) as La. pose proof (rel_lookup hp hs s b H) as Lb.
    destruct (nth_error hs a) as [ha|] eqn:Ea.
    2:{ destruct La as [_ ->]. split; auto. }
    destruct La as (qa & Qa & Eda & HQa & -> & Ra).
    destruct (nth_error hs b) as [hb|] eqn:Eb.
    2:{ destruct Lb as [_ ->]. split; auto. }
    destruct Lb as (qb & Qb & Edb & HQb & -> & Rb). rewrite Edb.
    destruct Ra as (_ & Ka & _ & _). destruct Rb as (_ & Kb & _ & _).
    rewrite (kind_same _ _ _ _ Ka Kb).
    destruct (kinds_agree (q_kind Qa) (q_kind Qb)); simpl; split; auto.
    eapply rel_assign; eauto. eapply nth_error_Some_lt; eauto.
  - (* Set *)
    pose proof (rel_lookup hp hs s a H) as La.
    destruct (nth_error hs a) as [ha|] eqn:Ea.
    2:{ destruct La as [-> _]. split; auto. }
    destruct La as (qa & Qa & Eda & HQa & -> & Ra). rewrite Eda.
    pose proof Ra as (_ & _ & R3 & R4). specialize (R4 f). unfold get_field in R4.
    unfold set_field.
    destruct (ptr_of ha f) as [p|] eqn:Ep.
    + rewrite R4. destruct (q_val Qa f) as [old|] eqn:Eq.
      * destruct (same_cell_type old v); simpl; split; auto.
        eapply rel_set; eauto.
      * split; auto.
    + rewrite <- R4. split; auto.
  - (* Get *)
    pose proof (rel_lookup hp hs s a H) as La.
    destruct (nth_error hs a) as [ha|] eqn:Ea.
    2:{ destruct La as [_ ->]. split; auto. }
    destruct La as (qa & Qa & Eda & HQa & -> & Ra).
    destruct Ra as (_ & _ & R3 & R4). rewrite (R4 f). destruct (q_val Qa f); split; auto.
  - (* Equal *)
    pose proof (rel_lookup hp hs s a H) as La. pose proof (rel_lookup hp hs s b H) as Lb.
    destruct (nth_error hs a) as [ha|] eqn:Ea.
    2:{ destruct La as [-> _]. split; auto. }
    destruct La as (qa & Qa & Eda & HQa & _ & Ra). rewrite Eda.
    destruct (nth_error hs b) as [hb|] eqn:Eb.
    2:{ destruct Lb as [-> _]. split; auto. }
    destruct Lb as (qb & Qb & Edb & HQb & _ & Rb). rewrite Edb. simpl. split; auto.
    destruct (rel_eqb _ _ _ _ _ _ _ _ _ H Ea Eb Eda Edb) as [-> _]. reflexivity.
  - (* EqualAll *)
    pose proof (rel_lookup hp hs s a H) as La. pose proof (rel_lookup hp hs s b H) as Lb.
    destruct (nth_error hs a) as [ha|] eqn:Ea.
    2:{ destruct La as [-> _]. split; auto. }
    destruct La as (qa & Qa & Eda & HQa & -> & Ra). rewrite Eda.
    destruct (nth_error hs b) as [hb|] eqn:Eb.
    2:{ destruct Lb as [-> _]. split; auto. }
    destruct Lb as (qb & Qb & Edb & HQb & -> & Rb). rewrite Edb.
    pose proof Ra as (_ & Ka & _ & _). pose proof Rb as (_ & Kb & _ & _).
    unfold kind_matches in Ka, Kb.
    destruct (h_ext ha) as [|e1 b1 c1 f1 i1] eqn:Xa; destruct (q_kind Qa); try contradiction; simpl; split; auto;
    destruct (h_ext hb) as [|e2 b2 c2 f2 i2] eqn:Xb; destruct (q_kind Qb); try contradiction; simpl; auto.
    rewrite (eqall_same _ _ _ _ _ _ _ _ _ H Ea Eb Eda Edb); eauto 10.
  - (* InRange *)
    pose proof (rel_lookup hp hs s a H) as La.
    destruct (nth_error hs a) as [ha|] eqn:Ea.
    2:{ destruct La as [_ ->]. split; auto. }
    destruct La as (qa & Qa & Eda & HQa & -> & Ra).
    destruct Ra as (_ & _ & R3 & R4). split; auto.
    simpl. unfold handle_in_range, get_f, fval. rewrite !R4. reflexivity.
  - (* IsEventNumber *)
    pose proof (rel_lookup hp hs s a H) as La.
    destruct (nth_error hs a) as [ha|] eqn:Ea.
    2:{ destruct La as [_ ->]. split; auto. }
    destruct La as (qa & Qa & Eda & HQa & -> & Ra).
    destruct Ra as (_ & Ka & _ & _). unfold kind_matches in Ka.
    destruct (h_ext ha); destruct (q_kind Qa); try contradiction; subst; simpl; split; auto.
Qed.

Lemma rel_run : forall ops st s, rel st s ->
  rel (fst (vrun st ops)) (fst (srun s ops)) /\ snd (vrun st ops) = snd (srun s ops).
Proof.
  intros ops; induction ops as [|o t IH]; intros st s H; simpl; auto.
  destruct (rel_step st s o H) as [H1 H2].
  destruct (vstep st o) as [st1 out1]. destruct (sstep s o) as [s1 out2]. simpl in *. subst out2.
  destruct (IH st1 s1 H1) as [H3 H4].
  destruct (vrun st1 t) as [st2 outs1]. destruct (srun s1 t) as [s2 outs2]. simpl in *. subst. auto.
Qed.

Lemma handles_refine_quantities : forall ops, snd (vrun vinit ops) = snd (srun sinit ops).
Proof. intros ops. apply rel_run. apply rel_init. Qed.

(** API-level corollaries on reachable states. *)
Lemma in_range_acceptable : forall lo up v, in_range lo up v = true <-> acceptable lo up v.
Proof.
  intros lo up v. unfold in_range, acceptable.
  rewrite orb_true_iff, andb_true_iff, !fle_spec, feq_spec. unfold xeq. tauto.
Qed.

Lemma alias_read : forall ops a b f v hp hs,
  fst (vrun vinit ops) = (hp, hs) ->
  snd (vstep (hp, hs) (Equal a b)) = OVal (CB true) ->
  snd (vstep (hp, hs) (Set_ a f v)) = ODone ->
  snd (vstep (fst (vstep (hp, hs) (Set_ a f v))) (Get b f)) = OVal v.
Proof.
  intros ops a b f v hp hs E HE HS.
  assert (HR : exists s, rel (hp, hs) s).
  { exists (fst (srun sinit ops)). rewrite <- E. apply rel_run, rel_init. }
  destruct HR as [s HR].
  cbn [vstep] in *.
  destruct (nth_error hs a) as [ha|] eqn:Ea; [|discriminate].
  destruct (nth_error hs b) as [hb|] eqn:Eb; [|discriminate].
  pose proof (rel_lookup hp hs s a HR) as La. pose proof (rel_lookup hp hs s b HR) as Lb. rewrite Ea in La. rewrite Eb in Lb.
  destruct La as (qa & Qa & Eda & HQa & _ & Ra). destruct Lb as (qb & Qb & Edb & HQb & _ & Rb).
  destruct (rel_eqb _ _ _ _ _ _ _ _ _ HR Ea Eb Eda Edb) as [E1 E2].
  simpl in HE. injection HE as HE. rewrite E1 in HE. apply Nat.eqb_eq in HE. specialize (E2 HE). subst hb.
  unfold set_field in *.
  destruct (ptr_of ha f) as [p|] eqn:Ep; [|discriminate].
  destruct (nth_error hp p) as [old|] eqn:Eold; [|discriminate].
  destruct (same_cell_type old v); [|discriminate].
  cbn [fst vstep]. rewrite Eb. unfold get_field. rewrite Ep, nth_error_upd_same; auto.
  eapply nth_error_Some_lt; eauto.
Qed.

Lemma frame_read : forall ops a b f g v hp hs,
  fst (vrun vinit ops) = (hp, hs) ->
  (snd (vstep (hp, hs) (Equal a b)) = OVal (CB false) \/ f <> g) ->
  snd (vstep (hp, hs) (Set_ a f v)) = ODone ->
  snd (vstep (fst (vstep (hp, hs) (Set_ a f v))) (Get b g)) = snd (vstep (hp, hs) (Get b g)).
Proof.
  intros ops a b f g v hp hs E HE HS.
  assert (HR : exists s, rel (hp, hs) s).
  { exists (fst (srun sinit ops)). rewrite <- E. apply rel_run, rel_init. }
  destruct HR as [s HR].
  cbn [vstep] in *.
  destruct (nth_error hs a) as [ha|] eqn:Ea; [|discriminate].
  unfold set_field in *.
  destruct (ptr_of ha f) as [p|] eqn:Ep; [|discriminate].
  destruct (nth_error hp p) as [old|] eqn:Eold; [|discriminate].
  destruct (same_cell_type old v); [|discriminate].
  cbn [fst vstep].
  destruct (nth_error hs b) as [hb|] eqn:Eb; [|reflexivity].
  pose proof (rel_lookup hp hs s a HR) as La. pose proof (rel_lookup hp hs s b HR) as Lb. rewrite Ea in La. rewrite Eb in Lb.
  destruct La as (qa & Qa & Eda & HQa & _ & Ra). destruct Lb as (qb & Qb & Edb & HQb & _ & Rb).
  destruct (rel_eqb _ _ _ _ _ _ _ _ _ HR Ea Eb Eda Edb) as [E1 E2].
  assert (Hsame : get_field (upd hp p v) hb g = get_field hp hb g).
  { unfold get_field. destruct (ptr_of hb g) as [p'|] eqn:Ep'; auto.
    apply nth_error_upd_other. intros <-.
    destruct HR as (c & Hc & Hl & Hd & Hr & Hi). simpl in *.
    destruct (Hd a qa Eda) as (h1 & Hc1 & Hh1). destruct (Hd b qb Edb) as (h2 & Hc2 & Hh2).
    rewrite Ea in Hh1; injection Hh1 as <-. rewrite Eb in Hh2; injection Hh2 as <-.
    destruct (Hi _ _ _ _ _ _ _ Hc1 Hc2 Ep Ep') as [Hq Hf].
    destruct HE as [HE|HE]; [|contradiction].
    injection HE as HE. rewrite E1 in HE. apply Nat.eqb_neq in HE. contradiction. }
  rewrite Hsame. destruct (get_field hp hb g); reflexivity.
Qed.
