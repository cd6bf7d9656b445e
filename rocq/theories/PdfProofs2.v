(** C17: columns of observables. *)
From Coq Require Import List ZArith String Bool Lia.
From Verif Require Import F64 F64Lemmas ListAux VariableModel LeafFormulas DeviceModel PdfModel PdfSpec FlatProofs EvalProofs HostProofs PdfProofs.
Import ListNotations.
Local Open Scope nat_scope.
Local Notation len := List.length.

(** ** A step either keeps the lists of all objects or adds one object *)
Definition lists (p : pdf) := (p_obs p, p_comps p).
Definition keeps_lists (st st' : gstate) (ns ns' : list snode) : Prop :=
  map lists (g_pdfs st') = map lists (g_pdfs st) /\ map kids_of ns' = map kids_of ns /\ map node_obs ns' = map node_obs ns.
Definition adds_one (st st' : gstate) (ns ns' : list snode) : Prop :=
  exists n p, ns' = ns ++ [n] /\ map lists (g_pdfs st') = map lists (g_pdfs st ++ [p]) /\ p_comps p = kids_of n /\
    p_obs p = gather (g_pdfs st) (registerObservables [] (node_obs n)) (kids_of n) /\
    (forall h, In h (node_obs n) -> In h (g_hs st)) /\ g_hs st' = g_hs st /\ g_heap st' = g_heap st.

Lemma construct_lists : forall st p b, map lists (g_pdfs (construct st p b)) = map lists (g_pdfs st ++ [p]).
Proof.
  intros st p b. unfold construct. destruct b; cbn.
  - pose proof (init_map lists (fun _ _ _ _ _ _ => eq_refl) (fun _ _ => eq_refl) (fun _ _ => eq_refl) (g_heap st) (g_pdfs st ++ [p]) (g_arr st) (len (g_pdfs st))) as H.
    destruct (initialize (g_heap st) (g_pdfs st ++ [p]) (g_arr st) (len (g_pdfs st))) as [ps' A']. exact H.
  - reflexivity.
Qed.
Lemma hget_in : forall hs is, forallb (is_obs hs) is = true -> forall h, In h (map (hget hs) is) -> In h hs.
Proof.
  intros hs is H h Hh. apply in_map_iff in Hh. destruct Hh as (i & <- & Hi). apply forallb_forall with (x := i) in H; [|exact Hi].
  unfold is_obs in H. unfold hget. destruct (nth_error hs i) as [h|] eqn:E; [|discriminate]. rewrite (nth_error_nth _ _ _ E). eapply nth_error_In; eauto.
Qed.
Lemma step_cases : forall st ns o, ginv st ns ->
  keeps_lists st (fst (gstep st o)) ns (note st o (snd (gstep st o)) ns) \/ adds_one st (fst (gstep st o)) ns (note st o (snd (gstep st o)) ns).
Proof.
  intros st ns o HI. assert (KID : keeps_lists st st ns ns) by (repeat split).
  assert (ADD : forall p b n, p_comps p = kids_of n -> p_obs p = gather (g_pdfs st) (registerObservables [] (node_obs n)) (kids_of n) ->
            (forall h, In h (node_obs n) -> In h (g_hs st)) -> adds_one st (construct st p b) ns (ns ++ [n])).
  { intros p b n H1 H2 H3. exists n, p. split; [reflexivity|]. split; [apply construct_lists|]. split; [exact H1|]. split; [exact H2|]. split; [exact H3|].
    split; [apply construct_hs|apply construct_heap]. }
  destruct o; cbn [gstep].
  - left. destruct (vstep (g_heap st, g_hs st) o) as [[hp' hs'] out]. cbn [fst snd note]. exact KID.
  - destruct (forallb (is_obs (g_hs st)) (leaf_obs l) && forallb (is_var (g_hs st)) (leaf_pars l)) eqn:E; [|left; exact KID].
    apply andb_prop in E. destruct E as [E1 E2]. destruct (leaf_check l) eqn:EC; try (left; exact KID). cbn [fst snd note]. right. apply ADD; try reflexivity.
    cbn [node_obs]. rewrite leaf_map_obs. now apply hget_in.
  - destruct (forallb (is_var (g_hs st)) ws && exists_all (g_pdfs st) comps); [|left; exact KID].
    destruct (Nat.eqb (len ws) (len comps) || Nat.eqb (len ws + 1) (len comps)); [|left; exact KID].
    destruct comps as [|c0 cs] eqn:Ecs; [left; exact KID|]. rewrite <- Ecs in *. right. apply ADD; try reflexivity. intros h [].
  - destruct (is_var (g_hs st) frac && exists_all (g_pdfs st) [p1; p2]); [|left; exact KID]. right. apply ADD; try reflexivity. intros h [].
  - destruct (exists_all (g_pdfs st) comps); [|left; exact KID]. right. apply ADD; try reflexivity. intros h [].
  - destruct (forallb (is_obs (g_hs st)) ws && exists_all (g_pdfs st) comps) eqn:E; [|left; exact KID]. apply andb_prop in E. destruct E as [E0 E].
    destruct (Nat.eqb (len ws) (len comps) || Nat.eqb (len ws + 1) (len comps)); [|left; exact KID].
    destruct comps as [|c0 cs] eqn:Ecs; [left; exact KID|]. rewrite <- Ecs in *. right. apply ADD; try reflexivity. cbn [node_obs]. now apply hget_in.
  - destruct (exists_all (g_pdfs st) (m :: ts)); [|left; exact KID]. right. apply ADD; try reflexivity. intros h [].
  - destruct (exists_all (g_pdfs st) [core; shell]); [|left; exact KID]. right. apply ADD; try reflexivity. intros h [].
  - left. destruct (nth_error (g_pdfs st) id) as [p|] eqn:E; [|exact KID]. destruct (p_kind p); try exact KID. cbn [fst snd note].
    split; [eapply map_upd_same; [exact E|reflexivity]|]. destruct (nth_error ns id) as [[[]| | | | |]|] eqn:N; try (split; reflexivity).
    split; eapply map_upd_same; try exact N; reflexivity.
  - left. destruct (Nat.ltb id (len (g_pdfs st))); exact KID.
  - left. destruct (Nat.ltb id (len (g_pdfs st))); [|exact KID].
    pose proof (si_map lists (fun _ _ _ _ _ _ => eq_refl) (fun _ _ => eq_refl) (fun _ _ => eq_refl) (g_heap st) (g_pdfs st) (g_arr st) id) as X.
    destruct (setIndices (g_heap st) (g_pdfs st) (g_arr st) id) as [ps' A']. split; [exact X|]. split; reflexivity.
  - left. destruct (Nat.ltb id (len (g_pdfs st))); [|exact KID].
    pose proof (sfc_map lists (fun _ _ _ _ _ _ => eq_refl) (fun _ _ => eq_refl) (fun _ _ => eq_refl) (S id) (g_heap st) (g_pdfs st) (g_arr st) id fc) as X.
    destruct (setFitControl (S id) (g_heap st) (g_pdfs st) (g_arr st) id fc) as [ps' A']. split; [exact X|]. split; reflexivity.
  - left. destruct (Nat.ltb id (len (g_pdfs st))); [|exact KID]. destruct (updateParameters (S id) (g_heap st) (g_pdfs st) (a_par (g_arr st)) id) as [par ok].
    destruct ok; exact KID.
  - left. destruct (Nat.ltb id (len (g_pdfs st)) && is_var (g_hs st) v); exact KID.
  - left. destruct (nth_error (g_pdfs st) id) as [p|] eqn:E; [|exact KID]. destruct (Nat.ltb (p_ni p + 1) (len (a_nor (g_arr st)))); [|exact KID].
    split; [eapply map_upd_same; [exact E|reflexivity]|]. split; reflexivity.
  - left. destruct (Nat.ltb id (len (g_pdfs st))); [|exact KID]. split; [apply map_set_pdf; reflexivity|]. split; reflexivity.
  - left. destruct (Nat.ltb id (len (g_pdfs st))); [|exact KID]. split; [apply map_set_pdf; reflexivity|]. split; reflexivity.
  - left. destruct (Nat.ltb id (len (g_pdfs st))); [|exact KID]. split; [apply map_set_pdf; reflexivity|]. split; reflexivity.
  - left. destruct (Nat.ltb id (len (g_pdfs st))); exact KID.
  - left. destruct (Nat.ltb id (len (g_pdfs st))); exact KID.
Qed.

(** ** Cells keep their type *)
Definition same_types (hp hp' : heap) : Prop :=
  forall i c, nth_error hp i = Some c -> exists c', nth_error hp' i = Some c' /\ same_cell_type c c' = true.
Lemma same_cell_type_refl : forall c, same_cell_type c c = true.
Proof. now intros []. Qed.
Lemma same_cell_type_trans : forall a b c, same_cell_type a b = true -> same_cell_type b c = true -> same_cell_type a c = true.
Proof. now intros [] [] []. Qed.
Lemma same_types_refl : forall hp, same_types hp hp.
Proof. intros hp i c H. exists c. split; [exact H|apply same_cell_type_refl]. Qed.
Lemma same_types_trans : forall a b c, same_types a b -> same_types b c -> same_types a c.
Proof.
  intros a b c H1 H2 i x E. destruct (H1 i x E) as (y & E1 & T1). destruct (H2 i y E1) as (z & E2 & T2). exists z. split; [exact E2|].
  eapply same_cell_type_trans; eauto.
Qed.
Lemma same_types_app : forall hp ext, same_types hp (hp ++ ext).
Proof.
  intros hp ext i c E. exists c. split; [|apply same_cell_type_refl]. rewrite nth_error_app1; [exact E|]. eapply nth_error_Some_lt; eauto.
Qed.
Lemma set_field_types : forall hp h f v hp', set_field hp h f v = Some hp' -> same_types hp hp'.
Proof.
  intros hp h f v hp' E. unfold set_field in E. destruct (ptr_of h f) as [p|]; [|discriminate]. destruct (nth_error hp p) as [old|] eqn:Eo; [|discriminate].
  destruct (same_cell_type old v) eqn:Et; [|discriminate]. injection E as <-. intros i c Ei. destruct (Nat.eq_dec i p) as [->|Hi].
  - exists v. split; [apply nth_error_upd_same; eapply nth_error_Some_lt; eauto|]. congruence.
  - exists c. split; [now rewrite nth_error_upd_other by congruence|apply same_cell_type_refl].
Qed.
Lemma set_f_types : forall hp h f v, same_types hp (set_f hp h f v).
Proof. intros. unfold set_f. destruct (set_field hp h f (CF v)) as [hp'|] eqn:E; [eapply set_field_types; eauto|apply same_types_refl]. Qed.
Lemma set_i_types : forall hp h v, same_types hp (set_i hp h v).
Proof. intros. unfold set_i. destruct (set_field hp h FIndex (CI v)) as [hp'|] eqn:E; [eapply set_field_types; eauto|apply same_types_refl]. Qed.
Lemma vstep_types : forall hp hs o, same_types hp (fst (fst (vstep (hp, hs) o))).
Proof.
  intros hp hs o. destruct o; cbn [vstep]; try (apply same_types_app);
    repeat (match goal with |- context [match ?x with _ => _ end] => destruct x eqn:? end); cbn [fst snd]; try apply same_types_refl.
  eapply set_field_types; eauto.
Qed.
Lemma updateVariable_types : forall f hp ps id nm v, same_types hp (updateVariable f hp ps id nm v).
Proof.
  induction f as [|f IH]; intros hp ps id nm v; [apply same_types_refl|]. cbn [updateVariable]. destruct (nth_error ps id) as [p|]; [|apply same_types_refl].
  assert (G : forall xs h, same_types h (fold_left (fun h x => if String.eqb (h_name x) nm then set_f h x FValue v else h) xs h)).
  { induction xs as [|x xs IHx]; intro h; [apply same_types_refl|]. cbn [fold_left]. eapply same_types_trans; [|apply IHx].
    destruct (String.eqb (h_name x) nm); [apply set_f_types|apply same_types_refl]. }
  eapply same_types_trans; [apply (G (p_pars p))|]. generalize (fold_left (fun h x => if String.eqb (h_name x) nm then set_f h x FValue v else h) (p_pars p) hp).
  induction (p_comps p) as [|c cs IHc]; intro h; [apply same_types_refl|]. cbn [fold_left]. eapply same_types_trans; [|apply IHc]. apply IH.
Qed.
Lemma number_types : forall obs hp n, same_types hp (number_from hp n obs).
Proof.
  induction obs as [|h obs IH]; intros hp n; [apply same_types_refl|]. cbn [number_from]. eapply same_types_trans; [apply set_i_types|apply IH].
Qed.
Lemma gstep_types : forall st o, same_types (g_heap st) (g_heap (fst (gstep st o))).
Proof.
  intros st o. destruct o; cbn [gstep];
    try (match goal with |- context [vstep ?a ?b] => pose proof (vstep_types (g_heap st) (g_hs st) b) as X; destruct (vstep a b) as [[? ?] ?]; exact X end);
    repeat (match goal with |- context [if ?x then _ else _] => destruct x eqn:? | |- context [match ?x with _ => _ end] => destruct x eqn:? end);
    cbn [fst g_heap]; rewrite ?construct_heap; try apply same_types_refl.
  - unfold setupObservables. destruct (nth_error (g_pdfs st) id); [apply number_types|apply same_types_refl].
  - apply updateVariable_types.
Qed.

(** ** Where observables come from, and that their column cell exists *)
Definition tidx (hp : heap) (h : handle) : Prop := exists z, nth_error hp (h_index h) = Some (CI z).
Lemma tidx_types : forall hp hp' h, same_types hp hp' -> tidx hp h -> tidx hp' h.
Proof. intros hp hp' h H [z E]. destruct (H _ _ E) as (c & E' & T). destruct c; try discriminate. now exists x. Qed.
Lemma vstep_tidx : forall hp hs o, Forall (tidx hp) hs -> Forall (tidx (fst (fst (vstep (hp, hs) o)))) (snd (fst (vstep (hp, hs) o))).
Proof.
  intros hp hs o H. pose proof (vstep_types hp hs o) as T.
  assert (H' : Forall (tidx (fst (fst (vstep (hp, hs) o)))) hs) by (eapply Forall_impl; [|exact H]; intros h; now apply tidx_types).
  assert (S3 : forall (l : heap) a b c d m, nth_error (l ++ a :: b :: c :: d :: m) (len l + 3) = Some d).
  { intros. rewrite nth_error_app2 by lia. replace (len l + 3 - len l) with 3 by lia. reflexivity. }
  assert (N : forall i h, nth_error hs i = Some h -> In h hs) by (intros; eapply nth_error_In; eauto).
  destruct o; cbn [vstep] in *;
    try (cbn [add_handle fst snd] in *; apply Forall_app; split; [exact H'|]; constructor; [|constructor]; exists (-1)%Z; apply S3);
    repeat (match goal with |- context [match ?x with _ => _ end] => destruct x eqn:? end);
    cbn [fst snd] in *; try exact H'.
  - apply Forall_app. split; [exact H'|]. constructor; [|constructor]. eapply Forall_forall in H'; eauto.
  - apply Forall_forall. intros x Hx. apply In_nth_error in Hx. destruct Hx as [i Hi]. destruct (Nat.eq_dec i dst) as [->|Hd].
    + rewrite nth_error_upd_same in Hi by (eapply nth_error_Some_lt; eauto). injection Hi as <-. eapply Forall_forall in H'; eauto.
    + rewrite nth_error_upd_other in Hi by congruence. eapply Forall_forall in H'; eauto.
Qed.
Definition origin (ns : list snode) (ps : pdfs) : Prop := forall i p n h, nth_error ps i = Some p -> nth_error ns i = Some n ->
  In h (p_obs p) -> In h (node_obs n) \/ exists k, In k (kids_of n) /\ In h (obs_of ps k).
Definition covered (ns : list snode) (ps : pdfs) : Prop := forall i p n h, nth_error ps i = Some p -> nth_error ns i = Some n ->
  In h (node_obs n) -> find_in (p_obs p) h = true.
Definition tinv (st : gstate) (ns : list snode) : Prop :=
  Forall (tidx (g_heap st)) (g_hs st) /\ (forall i p, nth_error (g_pdfs st) i = Some p -> Forall (tidx (g_heap st)) (p_obs p)) /\
  origin ns (g_pdfs st) /\ covered ns (g_pdfs st).

Lemma lists_obs_of : forall ps ps' k, map lists ps' = map lists ps -> obs_of ps' k = obs_of ps k.
Proof.
  intros ps ps' k H. unfold obs_of. assert (X : nth_error (map lists ps') k = nth_error (map lists ps) k) by now rewrite H.
  rewrite !nth_error_map in X. destruct (nth_error ps' k), (nth_error ps k); cbn in X; try discriminate; [|reflexivity]. unfold lists in X. congruence.
Qed.
Lemma lists_nth : forall ps ps' k p, map lists ps' = map lists ps -> nth_error ps' k = Some p -> exists q, nth_error ps k = Some q /\ p_obs p = p_obs q.
Proof.
  intros ps ps' k p H E. apply (map_nth_error lists) in E. rewrite H in E. apply nth_error_map_iff in E. destruct E as (q & E & X). exists q. split; [exact E|].
  unfold lists in X. congruence.
Qed.
Lemma hs_step : forall st o, (forall o', o <> GVar o') -> g_hs (fst (gstep st o)) = g_hs st.
Proof.
  intros st o H. destruct o; cbn [gstep]; try (exfalso; eapply H; reflexivity);
    repeat (match goal with |- context [if ?x then _ else _] => destruct x eqn:? | |- context [match ?x with _ => _ end] => destruct x eqn:? end);
    cbn [fst g_hs]; rewrite ?construct_hs; reflexivity.
Qed.
Lemma merge_in : forall sub acc h, In h (merge_new acc sub) -> In h acc \/ In h sub.
Proof.
  induction sub as [|s sub IHs]; intros a h Ha; [now left|]. cbn [merge_new fold_left] in Ha. apply IHs in Ha.
  destruct Ha as [Ha|Ha]; [|right; now right]. destruct (find_in a s); [now left|]. apply in_app_or in Ha.
  destruct Ha as [Ha|[<-|[]]]; [now left|right; now left].
Qed.
Lemma gather_in : forall ps ks own h, closed ps -> In h (gather ps own ks) -> In h own \/ exists k, In k ks /\ In h (obs_of ps k).
Proof.
  intros ps ks. induction ks as [|k ks IH]; intros own h HC H; [now left|]. cbn [gather fold_left] in H. apply IH in H; [|exact HC].
  destruct H as [H|(k' & Hk & H)].
  - apply merge_in in H. destruct H as [H|H]; [now left|]. right. exists k. split; [now left|]. now rewrite <- getObservables_obs_of.
  - right. exists k'. split; [now right|exact H].
Qed.

Lemma tinv_step : forall st ns o, ginv st ns -> tinv st ns -> tinv (fst (gstep st o)) (note st o (snd (gstep st o)) ns).
Proof.
  intros st ns o HI (T1 & T2 & T3 & T4). pose proof (gstep_types st o) as TY. pose proof HI as (_ & HM & HC).
  assert (HS : Forall (tidx (g_heap (fst (gstep st o)))) (g_hs (fst (gstep st o)))).
  { assert (D : (exists o', o = GVar o') \/ (forall o', o <> GVar o')) by (destruct o; try (right; intros; discriminate); left; eauto).
    destruct D as [[o' ->]|D].
    - cbn [gstep]. pose proof (vstep_tidx (g_heap st) (g_hs st) o' T1) as X. destruct (vstep (g_heap st, g_hs st) o') as [[hp' hs'] out]. exact X.
    - rewrite (hs_step st o D). eapply Forall_impl; [|exact T1]. intros h. now apply tidx_types. }
  split; [exact HS|].
  destruct (step_cases st ns o HI) as [(K1 & K2 & K3)|(n & p & EN & EL & EC & EO & EH & EHS & EHP)].
  - split; [|split].
    + intros i q Eq. destruct (lists_nth _ _ _ _ K1 Eq) as (q' & Eq' & ->). eapply Forall_impl; [|exact (T2 i q' Eq')]. intros h. now apply tidx_types.
    + intros i q n h Eq En Hh. destruct (lists_nth _ _ _ _ K1 Eq) as (q' & Eq' & E). rewrite E in Hh.
      apply (map_nth_error kids_of) in En as En1. apply (map_nth_error node_obs) in En as En2. rewrite K2 in En1. rewrite K3 in En2.
      apply nth_error_map_iff in En1. destruct En1 as (m & Em & Hm). rewrite nth_error_map, Em in En2. cbn in En2. injection En2 as En2.
      destruct (T3 i q' m h Eq' Em Hh) as [X|(k & Hk & X)]; [left; congruence|]. right. exists k. split; [congruence|]. now rewrite (lists_obs_of _ _ _ K1).
    + intros i q n h Eq En Hh. destruct (lists_nth _ _ _ _ K1 Eq) as (q' & Eq' & E). rewrite E.
      apply (map_nth_error node_obs) in En as En2. rewrite K3 in En2. apply nth_error_map_iff in En2. destruct En2 as (m & Em & Hm).
      apply (T4 i q' m h Eq' Em). congruence.
  - assert (TO : forall k, Forall (tidx (g_heap st)) (obs_of (g_pdfs st) k)).
    { intro k. unfold obs_of. destruct (nth_error (g_pdfs st) k) as [q|] eqn:Eq; [now apply (T2 k)|constructor]. }
    assert (TN : Forall (tidx (g_heap st)) (registerObservables [] (node_obs n))).
    { apply register_Forall; [constructor|]. apply Forall_forall. intros h Hh. eapply Forall_forall in T1; [exact T1|]. now apply EH. }
    assert (ML : len ns = len (g_pdfs st)) by apply HM.
    assert (OLD : forall k, k < len (g_pdfs st) -> obs_of (g_pdfs (fst (gstep st o))) k = obs_of (g_pdfs st) k).
    { intros k Hk. rewrite (lists_obs_of _ _ _ EL). unfold obs_of. now rewrite nth_error_app1. }
    rewrite EN. split; [|split].
    + intros i q Eq. destruct (lists_nth _ _ _ _ EL Eq) as (q' & Eq' & ->). rewrite EHP. destruct (Nat.lt_ge_cases i (len (g_pdfs st))) as [Hi|Hi].
      * rewrite nth_error_app1 in Eq' by exact Hi. now apply (T2 i).
      * rewrite nth_error_app2 in Eq' by exact Hi. destruct (i - len (g_pdfs st)) as [|j] eqn:Ej; [|destruct j; discriminate]. cbn in Eq'. injection Eq' as <-.
        rewrite EO. apply Forall_forall. intros h Hh. apply gather_in in Hh; [|exact HC]. destruct Hh as [Hh|(k & _ & Hh)].
        -- eapply Forall_forall in TN; eauto.
        -- specialize (TO k). eapply Forall_forall in TO; eauto.
    + intros i q m h Eq Em Hh. destruct (lists_nth _ _ _ _ EL Eq) as (q' & Eq' & E). rewrite E in Hh. destruct (Nat.lt_ge_cases i (len (g_pdfs st))) as [Hi|Hi].
      * rewrite nth_error_app1 in Eq' by exact Hi. rewrite nth_error_app1 in Em by lia.
        destruct (T3 i q' m h Eq' Em Hh) as [X|(k & Hk & X)]; [now left|]. right. exists k. split; [exact Hk|]. rewrite OLD; [exact X|].
        pose proof (match_kids _ _ HM i m Em) as HK. eapply Forall_forall in HK; eauto. lia.
      * rewrite nth_error_app2 in Eq' by exact Hi. destruct (i - len (g_pdfs st)) as [|j] eqn:Ej; [|destruct j; discriminate]. cbn in Eq'. injection Eq' as <-.
        rewrite nth_error_app2 in Em by lia. replace (i - len ns) with 0 in Em by lia. cbn in Em. injection Em as <-.
        rewrite EO in Hh. apply gather_in in Hh; [|exact HC]. destruct Hh as [Hh|(k & Hk & Hh)].
        -- left. rewrite <- merge_new_register in Hh. apply merge_in in Hh. destruct Hh as [[]|Hh]. exact Hh.
        -- right. exists k. split; [exact Hk|]. rewrite OLD; [exact Hh|]. unfold obs_of in Hh.
           destruct (nth_error (g_pdfs st) k) eqn:Ek; [eapply nth_error_Some_lt; eauto|destruct Hh].
    + intros i q m h Eq Em Hh. destruct (lists_nth _ _ _ _ EL Eq) as (q' & Eq' & E). rewrite E. destruct (Nat.lt_ge_cases i (len (g_pdfs st))) as [Hi|Hi].
      * rewrite nth_error_app1 in Eq' by exact Hi. rewrite nth_error_app1 in Em by lia. exact (T4 i q' m h Eq' Em Hh).
      * rewrite nth_error_app2 in Eq' by exact Hi. destruct (i - len (g_pdfs st)) as [|j] eqn:Ej; [|destruct j; discriminate]. cbn in Eq'. injection Eq' as <-.
        rewrite nth_error_app2 in Em by lia. replace (i - len ns) with 0 in Em by lia. cbn in Em. injection Em as <-. rewrite EO.
        assert (G : forall ks own, find_in own h = true -> find_in (gather (g_pdfs st) own ks) h = true).
        { induction ks as [|k ks IH]; intros own Ho; [exact Ho|]. cbn [gather fold_left]. apply IH. now apply merge_keeps. }
        apply G. pose proof (register_new (node_obs n) []) as RN. eapply Forall_forall in RN; eauto.
Qed.
Lemma history_tinv : forall ops st ns, ginv st ns -> tinv st ns -> tinv (fst (history st ns ops)) (snd (history st ns ops)).
Proof.
  induction ops as [|o ops IH]; intros st ns H T; [exact T|]. cbn [history]. pose proof (ginv_step st ns o H) as X. pose proof (tinv_step st ns o H T) as Y.
  destruct (gstep st o) as [st' out]. now apply IH.
Qed.
Lemma after_tinv : forall ops st ns, after ops = (st, ns) -> tinv st ns.
Proof.
  intros ops st ns E. pose proof (history_tinv ops ginit []) as H. unfold after in E. rewrite E in H. apply H.
  - split; [constructor|]. split; [split; [reflexivity|]|]; intros i n N; destruct i; discriminate.
  - split; [constructor|]. split; [intros i p X; destruct i; discriminate|]. split; intros i p n h X; destruct i; discriminate.
Qed.

(** ** Numbering *)
Lemma get_i_set : forall hp h z, tidx hp h -> get_i (set_i hp h z) h = z.
Proof.
  intros hp h z [z0 E]. unfold get_i, set_i, set_field, get_field. cbn [ptr_of]. rewrite E. cbn [same_cell_type].
  rewrite nth_error_upd_same; [reflexivity|]. eapply nth_error_Some_lt; eauto.
Qed.
Lemma get_i_other : forall hp h g z, h_index g <> h_index h -> get_i (set_i hp h z) g = get_i hp g.
Proof.
  intros hp h g z H. unfold get_i, set_i, set_field, get_field. cbn [ptr_of]. destruct (nth_error hp (h_index h)) as [[]|]; cbn [same_cell_type]; try reflexivity.
  now rewrite nth_error_upd_other by congruence.
Qed.
Lemma get_f_set_i : forall hp h g f z, get_f (set_i hp h z) g f = get_f hp g f.
Proof.
  intros hp h g f z. unfold get_f, set_i, set_field, get_field. cbn [ptr_of]. destruct (nth_error hp (h_index h)) as [c|] eqn:E; [|reflexivity].
  destruct c; cbn [same_cell_type]; try reflexivity. destruct (ptr_of g f) as [p|]; [|reflexivity]. destruct (Nat.eq_dec p (h_index h)) as [->|Hp].
  - rewrite nth_error_upd_same by (eapply nth_error_Some_lt; eauto). now rewrite E.
  - now rewrite nth_error_upd_other by congruence.
Qed.
Lemma number_get_f : forall obs hp n g f, get_f (number_from hp n obs) g f = get_f hp g f.
Proof. induction obs as [|h obs IH]; intros hp n g f; [reflexivity|]. cbn [number_from]. rewrite IH. apply get_f_set_i. Qed.
Lemma number_other : forall obs hp n g, wfh g -> Forall wfh obs -> ~ In (h_value g) (map h_value obs) -> get_i (number_from hp n obs) g = get_i hp g.
Proof.
  induction obs as [|h obs IH]; intros hp n g Wg W H; [reflexivity|]. inversion W; subst. cbn [number_from]. rewrite IH; [|assumption..|].
  - apply get_i_other. rewrite Wg, H2. intro X. apply H. left. lia.
  - intro X. apply H. now right.
Qed.
Lemma number_get_i : forall obs hp n, distinct obs -> Forall wfh obs -> Forall (tidx hp) obs ->
  forall i h, nth_error obs i = Some h -> get_i (number_from hp n obs) h = (n + Z.of_nat i)%Z.
Proof.
  induction obs as [|o obs IH]; intros hp n D W T i h E; [destruct i; discriminate|]. inversion D; subst. inversion W; subst. inversion T; subst.
  cbn [number_from]. destruct i as [|i]; cbn in E.
  - injection E as ->. rewrite number_other by assumption. rewrite get_i_set by assumption. lia.
  - rewrite (IH (set_i hp o n) (n + 1)%Z) with (i := i); try assumption; [lia|]. eapply Forall_impl; [|exact H6]. intros x. apply tidx_types. apply set_i_types.
Qed.

Lemma origin_tree : forall ns ps, match_all ns ps -> origin ns ps -> forall f id h p, nth_error ps id = Some p -> id < f -> In h (p_obs p) ->
  exists i n, In i (subtree f ns id) /\ nth_error ns i = Some n /\ In h (node_obs n).
Proof.
  intros ns ps HM HO. induction f as [|f IH]; intros id h p Ep Hf Hh; [lia|].
  assert (Hn : exists n, nth_error ns id = Some n).
  { destruct HM as [ML _]. destruct (nth_error ns id) eqn:N; [eauto|]. apply nth_error_None in N. apply nth_error_Some_lt in Ep. lia. }
  destruct Hn as [n N]. cbn [subtree]. rewrite N. destruct (HO id p n h Ep N Hh) as [X|(k & Hk & X)].
  - exists id, n. split; [now left|]. now split.
  - pose proof (match_kids _ _ HM id n N) as HK. eapply Forall_forall in HK; [|exact Hk]. unfold obs_of in X. destruct (nth_error ps k) as [q|] eqn:Eq; [|destruct X].
    destruct (IH k h q Eq ltac:(lia) X) as (i & m & Hi & Em & Hm). exists i, m. split; [|now split]. right. apply in_flat_map. exists k. now split.
Qed.
Lemma covered_tree : forall ns ps, match_all ns ps -> closed ps -> covered ns ps -> forall f id p i n h, nth_error ps id = Some p ->
  In i (subtree f ns id) -> nth_error ns i = Some n -> In h (node_obs n) -> find_in (p_obs p) h = true.
Proof.
  intros ns ps HM HC HV. induction f as [|f IH]; intros id p i n h Ep Hi En Hh; [destruct Hi|]. cbn [subtree] in Hi.
  destruct (nth_error ns id) as [m|] eqn:N; [|destruct Hi]. destruct Hi as [<-|Hi].
  - assert (m = n) by congruence. subst m. exact (HV id p n h Ep N Hh).
  - apply in_flat_map in Hi. destruct Hi as (k & Hk & Hi). pose proof HM as [_ M]. destruct (M id m N) as (HK & p' & Ep' & Hc & _).
    assert (p' = p) by congruence. subst p'. destruct (HC id p Ep) as (_ & _ & _ & CV). rewrite Hc in CV. eapply Forall_forall in CV; [|exact Hk].
    unfold obs_of in CV. assert (Kex : exists nk, nth_error ns k = Some nk).
    { destruct f; [destruct Hi|]. cbn [subtree] in Hi. destruct (nth_error ns k); [eauto|destruct Hi]. }
    destruct Kex as [nk Nk]. destruct (M k nk Nk) as (_ & q & Eq & _). rewrite Eq in CV. specialize (IH k q i n h Eq Hi En Hh).
    apply find_in_spec in IH. apply in_map_iff in IH. destruct IH as (g & Eg & Hg). eapply Forall_forall in CV; [|exact Hg].
    apply find_in_spec in CV. apply find_in_spec. now rewrite <- Eg.
Qed.
Lemma node_obs_wfh : forall ns ps i n h, match_all ns ps -> nth_error ns i = Some n -> In h (node_obs n) -> wfh h.
Proof.
  intros ns ps i n h [_ M] N H. destruct (M i n N) as (_ & p & _ & _ & X). destruct n; cbn in H; try destruct H.
  - destruct X as (_ & _ & _ & _ & W). eapply Forall_forall in W; eauto.
  - destruct X as (_ & _ & _ & _ & _ & W). eapply Forall_forall in W; eauto.
Qed.

Lemma columns_ok : forall ops k st ns st', after ops = (st, ns) -> k < len ns -> st' = fst (gstep st (GSetupObservables k)) ->
  exists l, gstep st' (GGetObservables k) = (st', GHandles l) /\ distinct l /\
    (forall i h, nth_error l i = Some h -> get_i (g_heap st') h = Z.of_nat i) /\
    (forall h, In h l -> exists i n, In i (tree_ids ns k) /\ nth_error ns i = Some n /\ In h (node_obs n)) /\
    (forall i n h, In i (tree_ids ns k) -> nth_error ns i = Some n -> In h (node_obs n) ->
       exists j g, nth_error l j = Some g /\ handle_eqb g h = true /\ get_i (g_heap st') h = Z.of_nat j) /\
    (forall h, In h (g_hs st) -> (forall g, In g l -> handle_eqb g h = false) -> get_i (g_heap st') h = get_i (g_heap st) h) /\
    (forall h f, get_f (g_heap st') h f = get_f (g_heap st) h f).
Proof.
  intros ops k st ns st' E Hk ->. pose proof (after_inv _ _ _ E) as (HW & HM & HC). pose proof (after_tinv _ _ _ E) as (T1 & T2 & T3 & T4).
  assert (ML : len ns = len (g_pdfs st)) by apply HM. cbn [gstep].
  assert (EL : Nat.ltb k (len (g_pdfs st)) = true) by (apply Nat.ltb_lt; lia). rewrite EL. cbn [fst g_pdfs g_heap g_hs]. rewrite EL.
  destruct (nth_error (g_pdfs st) k) as [p|] eqn:Ep; [|apply nth_error_None in Ep; lia].
  exists (p_obs p). unfold setupObservables. rewrite Ep. destruct (HC k p Ep) as (D & W & _ & _).
  split. { rewrite getObservables_obs_of by exact HC. unfold obs_of. now rewrite Ep. }
  split; [exact D|]. pose proof (number_get_i (p_obs p) (g_heap st) 0 D W (T2 k p Ep)) as NI.
  split. { intros i h Hi. rewrite (NI i h Hi). lia. }
  split. { intros h Hh. eapply origin_tree; eauto. }
  split.
  { intros i n h Hi En Hh. pose proof (covered_tree ns (g_pdfs st) HM HC T4 (S k) k p i n h Ep Hi En Hh) as F. unfold find_in in F. apply existsb_exists in F.
    destruct F as (g & Hg & Eg). apply In_nth_error in Hg. destruct Hg as [j Hj]. exists j, g. split; [exact Hj|]. split; [exact Eg|].
    rewrite <- (Z.add_0_l (Z.of_nat j)). rewrite <- (NI j g Hj).
    unfold handle_eqb in Eg. apply Nat.eqb_eq in Eg. pose proof (node_obs_wfh _ _ _ _ _ HM En Hh) as Wh.
    assert (Wg : wfh g) by (eapply Forall_forall in W; [exact W|eapply nth_error_In; eauto]). unfold get_i, get_field. cbn [ptr_of].
    rewrite Wh, Wg, Eg. reflexivity. }
  split.
  - intros h Hh HN. apply number_other; [eapply Forall_forall in HW; eauto|exact W|]. intro X. apply in_map_iff in X. destruct X as (g & Eg & Hg).
    specialize (HN g Hg). unfold handle_eqb in HN. apply Nat.eqb_neq in HN. congruence.
  - intros h f. apply number_get_f.
Qed.
