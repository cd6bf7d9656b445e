(** Which cells belong to which quantity, and what the minimiser layer does to them. *)
From Coq Require Import List ZArith String Bool Lia.
From Verif Require Import F64 F64Lemmas ListAux VariableModel LeafFormulas DeviceModel PdfModel PdfSpec FlatProofs EvalProofs HostProofs PdfProofs PdfProofs2 PdfProofs3
  NormModel FitModel.
Import ListNotations.
Local Open Scope nat_scope.
Local Notation len := List.length.

(** ** Layout of handles *)
Definition offset_of (f : field) : nat :=
  match f with FValue => 0 | FLower => 1 | FUpper => 2 | FIndex => 3 | FNumBins => 4 | FError => 4 | FBlind => 5 | FChanged => 6 | FFixed => 7
  | FFitterIndex => 8 end.
Definition hsize (h : handle) : nat := match h_ext h with XObservable _ _ => 5 | XVariable _ _ _ _ _ => 9 end.
Definition laid (h : handle) : Prop := forall f p, ptr_of h f = Some p -> p = h_value h + offset_of f.
Definition right_type (f : field) (c : cell) : bool :=
  match f, c with
  | FIndex, CI _ | FFitterIndex, CI _ | FChanged, CB _ | FFixed, CB _ | FNumBins, CN _ => true
  | FValue, CF _ | FLower, CF _ | FUpper, CF _ | FError, CF _ | FBlind, CF _ => true
  | _, _ => false end.
Definition typed (hp : heap) (h : handle) : Prop := forall f p, ptr_of h f = Some p -> exists c, nth_error hp p = Some c /\ right_type f c = true.
Definition apart (a b : handle) : Prop := h_value a + hsize a <= h_value b \/ h_value b + hsize b <= h_value a.
Definition isvar (h : handle) : bool := match h_ext h with XVariable _ _ _ _ _ => true | _ => false end.
Definition hinv (hp : heap) (hs : list handle) (ns : list snode) : Prop :=
  exists made, (forall a b, In a made -> In b made -> a = b \/ apart a b) /\
    Forall (fun h => laid h /\ typed hp h /\ h_value h + hsize h <= len hp) made /\ incl hs made /\ (forall n h, In n ns -> In h (node_pars n) -> In h made /\ isvar h = true).

Lemma right_type_same : forall f a b, same_cell_type a b = true -> right_type f a = true -> right_type f b = true.
Proof. intros f a b H R. destruct f, a, b; cbn in *; congruence. Qed.
Lemma typed_types : forall hp hp' h, same_types hp hp' -> typed hp h -> typed hp' h.
Proof. intros hp hp' h H T f p E. destruct (T f p E) as (c & Ec & R). destruct (H _ _ Ec) as (c' & Ec' & S). exists c'. split; [exact Ec'|]. eapply right_type_same; eauto. Qed.
Lemma same_types_len : forall hp hp', same_types hp hp' -> len hp <= len hp'.
Proof.
  intros hp hp' H. destruct (Nat.le_gt_cases (len hp) (len hp')) as [L|L]; [exact L|]. exfalso.
  destruct (nth_error hp (len hp')) as [c|] eqn:E; [|apply nth_error_None in E; lia]. destruct (H _ _ E) as (c' & E' & _). apply nth_error_Some_lt in E'. lia.
Qed.
Lemma offset_size : forall h f p, ptr_of h f = Some p -> offset_of f < hsize h.
Proof. intros h f p E. unfold hsize. destruct f; cbn in *; destruct (h_ext h); try discriminate; lia. Qed.
Lemma offset_inj : forall h f g p q, ptr_of h f = Some p -> ptr_of h g = Some q -> offset_of f = offset_of g -> f = g.
Proof. intros h f g p q Ef Eg E. destruct f, g; cbn in *; try discriminate; try reflexivity; destruct (h_ext h); discriminate. Qed.

Lemma hinv_keep : forall hp hp' hs hs' ns ns', hinv hp hs ns -> same_types hp hp' -> incl hs' hs ->
  (forall n h, In n ns' -> In h (node_pars n) -> (In h hs /\ isvar h = true) \/ exists m, In m ns /\ In h (node_pars m)) -> hinv hp' hs' ns'.
Proof.
  intros hp hp' hs hs' ns ns' (made & A & B & C & D) T I N. exists made. split; [exact A|]. split; [|split].
  - eapply Forall_impl; [|exact B]. intros h (L & Ty & S). split; [exact L|]. split; [eapply typed_types; eauto|]. pose proof (same_types_len _ _ T). lia.
  - intros h Hh. apply C, I, Hh.
  - intros n h Hn Hh. destruct (N n h Hn Hh) as [[X Y]|(m & Hm & X)]; [split; [now apply C|exact Y]|]. now apply (D m h Hm).
Qed.
Lemma hinv_add : forall hp hs ns cells h, hinv hp hs ns -> laid h -> h_value h = len hp -> hsize h = len cells -> typed (hp ++ cells) h -> hinv (hp ++ cells) (hs ++ [h]) ns.
Proof.
  intros hp hs ns cells h (made & A & B & C & D) L V S T. exists (made ++ [h]).
  assert (AP : forall a, In a made -> apart a h).
  { intros a Ha. left. rewrite V. eapply Forall_forall in B; [|exact Ha]. apply B. }
  split; [|split; [|split]].
  - intros a b Ha Hb. apply in_app_iff in Ha. apply in_app_iff in Hb. destruct Ha as [Ha|[<-|[]]], Hb as [Hb|[<-|[]]].
    + now apply A. + right. now apply AP. + right. destruct (AP b Hb); [now right|now left]. + now left.
  - apply Forall_app. split.
    + eapply Forall_impl; [|exact B]. intros a (La & Ta & Sa). split; [exact La|]. rewrite app_length. split; [|lia]. eapply typed_types; [apply same_types_app|exact Ta].
    + constructor; [|constructor]. split; [exact L|]. split; [exact T|]. rewrite app_length. lia.
  - intros a Ha. apply in_app_iff in Ha. apply in_app_iff. destruct Ha as [Ha|Ha]; [left; now apply C|now right].
  - intros n a Hn Ha. destruct (D n a Hn Ha) as [X Y]. split; [|exact Y]. apply in_app_iff. now left.
Qed.
Lemma nth_new : forall (hp : heap) cells i, nth_error (hp ++ cells) (len hp + i) = nth_error cells i.
Proof. intros. rewrite nth_error_app2 by lia. f_equal. lia. Qed.
Lemma vstep_hinv : forall hp hs ns o, hinv hp hs ns -> hinv (fst (fst (vstep (hp, hs) o))) (snd (fst (vstep (hp, hs) o))) ns.
Proof.
  intros hp hs ns o H.
  assert (K : forall hs', incl hs' hs -> hinv hp hs' ns).
  { intros hs' I. apply (hinv_keep hp hp hs hs' ns ns H (same_types_refl hp) I). intros n h Hn Hh. right. exists n. now split. }
  assert (N0 : forall cells i c, nth_error cells i = Some c -> nth_error (hp ++ cells) (len hp + i) = Some c) by (intros; now rewrite nth_new).
  assert (OBS : forall n lo up ev, hinv (hp ++ [CF fzero; CF lo; CF up; CI (-1); CN 100])
    (hs ++ [mkHandle n (len hp) (len hp + 1) (len hp + 2) (len hp + 3) (XObservable (len hp + 4) ev)]) ns).
  { intros n lo up ev. apply hinv_add; [exact H| |reflexivity|reflexivity|].
    - intros f p E. destruct f; cbn in *; try discriminate; injection E as <-; lia.
    - intros f p E. destruct f; cbn in E; try discriminate; injection E as <-;
        first [eexists; split; [apply N0; reflexivity|reflexivity] | rewrite <- (Nat.add_0_r (len hp)); eexists; split; [apply N0; reflexivity|reflexivity]]. }
  assert (VAR : forall n v lo up err fx, hinv (hp ++ [CF v; CF lo; CF up; CI (-1); CF err; CF fzero; CB true; CB fx; CI (-1)])
    (hs ++ [mkHandle n (len hp) (len hp + 1) (len hp + 2) (len hp + 3) (XVariable (len hp + 4) (len hp + 5) (len hp + 6) (len hp + 7) (len hp + 8))]) ns).
  { intros n v lo up err fx. apply hinv_add; [exact H| |reflexivity|reflexivity|].
    - intros f p E. destruct f; cbn in *; try discriminate; injection E as <-; lia.
    - intros f p E. destruct f; cbn in E; try discriminate; injection E as <-;
        first [eexists; split; [apply N0; reflexivity|reflexivity] | rewrite <- (Nat.add_0_r (len hp)); eexists; split; [apply N0; reflexivity|reflexivity]]. }
  destruct o as [n lo up|n lo up|n v|n v e|n v dn up|n v e dn up fx|a|a b|a f v|a f|a b|a b|a|a]; cbn [vstep];
    try apply OBS; try apply VAR;
    repeat (match goal with |- context [match ?x with _ => _ end] => destruct x eqn:? end); cbn [fst snd]; try exact H.
  - apply K. intros x Hx. apply in_app_iff in Hx. destruct Hx as [Hx|[<-|[]]]; [exact Hx|eapply nth_error_In; eauto].
  - apply K. intros x Hx. apply In_nth_error in Hx. destruct Hx as [i Hi]. destruct (Nat.eq_dec i a) as [->|Hd].
    + rewrite nth_error_upd_same in Hi by (eapply nth_error_Some_lt; eauto). injection Hi as <-. eapply nth_error_In; eauto.
    + rewrite nth_error_upd_other in Hi by congruence. eapply nth_error_In; eauto.
  - apply (hinv_keep hp _ hs hs ns ns H); [eapply set_field_types; eauto|apply incl_refl|]. intros n x Hn Hx. right. exists n. now split.
Qed.

Lemma hget_var_in : forall hs is h, forallb (is_var hs) is = true -> In h (map (hget hs) is) -> In h hs /\ isvar h = true.
Proof.
  intros hs is h F H. apply in_map_iff in H. destruct H as (i & <- & Hi). rewrite forallb_forall in F. specialize (F i Hi). unfold is_var in F. unfold hget.
  destruct (nth_error hs i) as [x|] eqn:E; [|discriminate]. apply nth_error_nth with (d := no_handle) in E as E'. rewrite E'. split; [eapply nth_error_In; eauto|]. unfold isvar. now destruct (h_ext x).
Qed.
Lemma note_pars : forall st o ns n h, In n (note st o (snd (gstep st o)) ns) -> In h (node_pars n) ->
  (In h (g_hs st) /\ isvar h = true) \/ exists m, In m ns /\ In h (node_pars m).
Proof.
  intros st o ns n h Hn Hh. assert (OLD : In n ns -> (In h (g_hs st) /\ isvar h = true) \/ exists m, In m ns /\ In h (node_pars m)) by (intro X; right; exists n; now split).
  destruct (snd (gstep st o)) eqn:EO; cbn [note] in Hn; try (now apply OLD). destruct o; try (now apply OLD); cbn [gstep] in EO.
  - apply in_app_iff in Hn. destruct Hn as [Hn|[<-|[]]]; [now apply OLD|]. left. cbn [node_pars] in Hh. rewrite leaf_map_pars in Hh.
    destruct (forallb (is_obs (g_hs st)) (leaf_obs l)); cbn [andb] in EO; [|discriminate].
    destruct (forallb (is_var (g_hs st)) (leaf_pars l)) eqn:F; [|discriminate]. eapply hget_var_in; eauto.
  - apply in_app_iff in Hn. destruct Hn as [Hn|[<-|[]]]; [now apply OLD|]. left. cbn [node_pars] in Hh.
    destruct (forallb (is_var (g_hs st)) ws) eqn:F; [|discriminate]. eapply hget_var_in; eauto.
  - apply in_app_iff in Hn. destruct Hn as [Hn|[<-|[]]]; [now apply OLD|]. left. cbn [node_pars] in Hh.
    destruct (is_var (g_hs st) frac) eqn:F; [|discriminate]. apply (hget_var_in (g_hs st) [frac]); [cbn; now rewrite F|exact Hh].
  - apply in_app_iff in Hn. destruct Hn as [Hn|[<-|[]]]; [now apply OLD|]. destruct Hh.
  - apply in_app_iff in Hn. destruct Hn as [Hn|[<-|[]]]; [now apply OLD|]. destruct Hh.
  - apply in_app_iff in Hn. destruct Hn as [Hn|[<-|[]]]; [now apply OLD|]. destruct Hh.
  - apply in_app_iff in Hn. destruct Hn as [Hn|[<-|[]]]; [now apply OLD|]. destruct Hh.
  - destruct (nth_error ns id) as [[l hp0|? ?|?|? ?|? ?|? ?]|] eqn:E; try (now apply OLD). destruct l; try (now apply OLD).
    apply In_nth_error in Hn. destruct Hn as [i Hi]. destruct (Nat.eq_dec i id) as [->|Hd].
    + rewrite nth_error_upd_same in Hi by (eapply nth_error_Some_lt; eauto). injection Hi as <-. right. eexists. split; [eapply nth_error_In; exact E|exact Hh].
    + rewrite nth_error_upd_other in Hi by congruence. apply OLD. eapply nth_error_In; eauto.
Qed.
Lemma hinv_step : forall st ns o, hinv (g_heap st) (g_hs st) ns ->
  hinv (g_heap (fst (gstep st o))) (g_hs (fst (gstep st o))) (note st o (snd (gstep st o)) ns).
Proof.
  intros st ns o H. assert (D : (exists o', o = GVar o') \/ (forall o', o <> GVar o')) by (destruct o; try (right; intros; discriminate); left; eauto).
  destruct D as [[o' ->]|D].
  - pose proof (vstep_hinv _ _ _ o' H) as X. cbn [gstep]. destruct (vstep (g_heap st, g_hs st) o') as [[hp' hs'] out]. cbn [fst snd g_heap g_hs note] in *. exact X.
  - apply (hinv_keep (g_heap st) _ (g_hs st) _ ns _ H (gstep_types st o)); [rewrite (hs_step st o D); apply incl_refl|]. intros n h. apply note_pars.
Qed.
Lemma history_hinv : forall ops st ns, hinv (g_heap st) (g_hs st) ns ->
  hinv (g_heap (fst (history st ns ops))) (g_hs (fst (history st ns ops))) (snd (history st ns ops)).
Proof.
  induction ops as [|o ops IH]; intros st ns H; [exact H|]. cbn [history]. pose proof (hinv_step st ns o H) as X. destruct (gstep st o) as [st' out]. now apply IH.
Qed.
Lemma after_hinv : forall ops st ns, after ops = (st, ns) -> hinv (g_heap st) (g_hs st) ns.
Proof.
  intros ops st ns E. pose proof (history_hinv ops ginit []) as H. unfold after in E. rewrite E in H. apply H. exists []. split; [intros a b []|]. split; [constructor|].
  split; [intros a []|intros n h []].
Qed.

(** ** Reading back what was written *)
Definition good (made : list handle) (hp : heap) : Prop :=
  (forall a b, In a made -> In b made -> a = b \/ apart a b) /\ Forall (fun h => laid h /\ typed hp h) made.
Lemma cell_inj : forall made hp a b f g p, good made hp -> In a made -> In b made -> ptr_of a f = Some p -> ptr_of b g = Some p -> a = b /\ f = g.
Proof.
  intros made hp a b f g p [A B] Ha Hb Ef Eg. pose proof (proj1 (Forall_forall _ _) B a Ha) as [La _]. pose proof (proj1 (Forall_forall _ _) B b Hb) as [Lb _].
  pose proof (La _ _ Ef). pose proof (Lb _ _ Eg). pose proof (offset_size _ _ _ Ef). pose proof (offset_size _ _ _ Eg).
  destruct (A a b Ha Hb) as [->|[P|P]]; [|lia|lia]. split; [reflexivity|]. eapply offset_inj; eauto. lia.
Qed.
Lemma good_types : forall made hp hp', good made hp -> same_types hp hp' -> good made hp'.
Proof. intros made hp hp' [A B] T. split; [exact A|]. eapply Forall_impl; [|exact B]. intros h [L Ty]. split; [exact L|eapply typed_types; eauto]. Qed.
Lemma set_ok : forall made hp a f c p, good made hp -> In a made -> ptr_of a f = Some p -> right_type f c = true -> set_field hp a f c = Some (upd hp p c).
Proof.
  intros made hp a f c p [_ B] Ha Ef R. pose proof (proj1 (Forall_forall _ _) B a Ha) as [_ T]. destruct (T _ _ Ef) as (c0 & E0 & R0). unfold set_field. rewrite Ef, E0.
  replace (same_cell_type c0 c) with true; [reflexivity|]. destruct f, c0, c; cbn in *; congruence.
Qed.
Lemma get_set_same : forall hp a f c hp', set_field hp a f c = Some hp' -> get_field hp' a f = Some c.
Proof.
  intros hp a f c hp' E. unfold set_field in E. unfold get_field. destruct (ptr_of a f) as [p|]; [|discriminate]. destruct (nth_error hp p) as [old|] eqn:Eo; [|discriminate].
  destruct (same_cell_type old c); [|discriminate]. injection E as <-. apply nth_error_upd_same. eapply nth_error_Some_lt; eauto.
Qed.
Lemma get_set_other : forall made hp a b f g c hp', good made hp -> In a made -> In b made -> (a <> b \/ f <> g) -> set_field hp a f c = Some hp' ->
  get_field hp' b g = get_field hp b g.
Proof.
  intros made hp a b f g c hp' G Ha Hb N E. unfold set_field in E. destruct (ptr_of a f) as [p|] eqn:Ef; [|discriminate].
  destruct (nth_error hp p) as [old|]; [|discriminate]. destruct (same_cell_type old c); [|discriminate]. injection E as <-. unfold get_field.
  destruct (ptr_of b g) as [q|] eqn:Eg; [|reflexivity]. apply nth_error_upd_other. intros ->. destruct (cell_inj _ _ _ _ _ _ _ G Ha Hb Ef Eg). tauto.
Qed.
Lemma var_ptr : forall h f, isvar h = true -> f <> FNumBins -> exists p, ptr_of h f = Some p.
Proof. intros h f V N. unfold isvar in V. destruct f; cbn; try (destruct (h_ext h); try discriminate); eauto; congruence. Qed.

(** Writing one member of one variable. *)
Lemma write_var : forall made hp h f c, good made hp -> In h made -> isvar h = true -> right_type f c = true -> f <> FNumBins ->
  exists hp', set_field hp h f c = Some hp' /\ good made hp' /\ same_types hp hp' /\ get_field hp' h f = Some c /\
    forall b g, In b made -> (b <> h \/ g <> f) -> get_field hp' b g = get_field hp b g.
Proof.
  intros made hp h f c G Hh V R N. destruct (var_ptr h f V N) as [p Ep]. pose proof (set_ok _ _ _ _ _ _ G Hh Ep R) as E. eexists. split; [exact E|].
  pose proof (set_field_types _ _ _ _ _ E) as T. split; [eapply good_types; eauto|]. split; [exact T|]. split; [eapply get_set_same; eauto|].
  intros b g Hb D. eapply (get_set_other made hp h b f g); eauto. destruct D as [D|D]; [left; congruence|right; congruence].
Qed.

(** ** updateVariable *)
Fixpoint all_pars (fuel : nat) (ps : pdfs) (id : nat) : list handle :=
  match fuel, nth_error ps id with
  | S n, Some p => p_pars p ++ flat_map (all_pars n ps) (p_comps p)
  | _, _ => []
  end.
Definition upd_name (nm : string) (v : f64) (h : heap) (x : handle) : heap := if String.eqb (h_name x) nm then set_f h x FValue v else h.
Lemma updateVariable_fold : forall f hp ps id nm v, updateVariable f hp ps id nm v = fold_left (upd_name nm v) (all_pars f ps id) hp.
Proof.
  induction f as [|f IH]; intros hp ps id nm v; [reflexivity|]. cbn [updateVariable all_pars]. destruct (nth_error ps id) as [p|]; [|reflexivity].
  rewrite fold_left_app. fold (upd_name nm v). generalize (fold_left (upd_name nm v) (p_pars p) hp) as h0.
  induction (p_comps p) as [|c cs IHc]; intro h0; [reflexivity|]. cbn [fold_left flat_map]. rewrite fold_left_app, IHc, IH. reflexivity.
Qed.
Lemma set_f_twice : forall hp h f v, set_f (set_f hp h f v) h f v = set_f hp h f v.
Proof.
  intros hp h f v. unfold set_f, set_field. destruct (ptr_of h f) as [p|]; [|reflexivity]. destruct (nth_error hp p) as [old|] eqn:E; [|now rewrite E].
  destruct (same_cell_type old (CF v)) eqn:S; [|now rewrite E, S]. rewrite nth_error_upd_same by (eapply nth_error_Some_lt; eauto).
  cbn [same_cell_type]. apply nth_error_ext. intro i. destruct (Nat.eq_dec i p) as [->|Hi].
  - rewrite !nth_error_upd_same; try reflexivity; rewrite ?upd_length; eapply nth_error_Some_lt; eauto.
  - rewrite !nth_error_upd_other by congruence. reflexivity.
Qed.
Lemma fold_name : forall L nm v hp h, In h L -> h_name h = nm -> (forall x, In x L -> h_name x = nm -> x = h) -> fold_left (upd_name nm v) L hp = set_f hp h FValue v.
Proof.
  intros L nm v hp h Hh Nm U.
  assert (G : forall L hp, (forall x, In x L -> h_name x = nm -> x = h) -> fold_left (upd_name nm v) L (set_f hp h FValue v) = set_f hp h FValue v).
  { clear. induction L as [|x L IH]; intros hp U; [reflexivity|]. cbn [fold_left]. unfold upd_name at 2. destruct (String.eqb (h_name x) nm) eqn:E.
    - apply String.eqb_eq in E. rewrite (U x (or_introl eq_refl) E), set_f_twice. apply IH. intros y Hy. apply U. now right.
    - apply IH. intros y Hy. apply U. now right. }
  revert hp. induction L as [|x L IH]; intros hp; [destruct Hh|]. cbn [fold_left]. unfold upd_name at 2. destruct (String.eqb (h_name x) nm) eqn:E.
  - apply String.eqb_eq in E. rewrite (U x (or_introl eq_refl) E). apply G. intros y Hy. apply U. now right.
  - destruct Hh as [->|Hh]; [rewrite Nm, String.eqb_refl in E; discriminate|]. apply IH; [exact Hh|]. intros y Hy. apply U. now right.
Qed.

(** ** The update loop *)
Lemma get_f_eq : forall hp hp' h f, get_field hp' h f = get_field hp h f -> get_f hp' h f = get_f hp h f.
Proof. intros. unfold get_f. now rewrite H. Qed.
Lemma set_changed_ok : forall made hp h b, good made hp -> In h made -> isvar h = true ->
  good made (set_changed hp h b) /\ get_field (set_changed hp h b) h FChanged = Some (CB b) /\
  forall x g, In x made -> (x <> h \/ g <> FChanged) -> get_field (set_changed hp h b) x g = get_field hp x g.
Proof.
  intros made hp h b G Hh V. destruct (write_var made hp h FChanged (CB b) G Hh V eq_refl) as (hp' & E & G' & _ & S & O); [discriminate|].
  unfold set_changed. rewrite E. now split.
Qed.
Lemma set_f_ok : forall made hp h f v, good made hp -> In h made -> isvar h = true -> (f = FValue \/ f = FError) ->
  good made (set_f hp h f v) /\ get_field (set_f hp h f v) h f = Some (CF v) /\
  forall x g, In x made -> (x <> h \/ g <> f) -> get_field (set_f hp h f v) x g = get_field hp x g.
Proof.
  intros made hp h f v G Hh V F. destruct (write_var made hp h f (CF v) G Hh V) as (hp' & E & G' & _ & S & O); [destruct F as [-> | ->]; reflexivity|destruct F as [-> | ->]; discriminate|].
  unfold set_f. rewrite E. now split.
Qed.
Lemma get_f_some : forall hp h f v, get_field hp h f = Some (CF v) -> get_f hp h f = v.
Proof. intros. unfold get_f. now rewrite H. Qed.

Definition after_call (force : bool) (hp : heap) (val : handle -> f64) (h : handle) (f : field) : option cell :=
  match f with
  | FValue => Some (CF (fsub (val h) (get_f hp h FBlind)))
  | FChanged => Some (CB (if force then true else negb (feq (get_f hp h FValue) (val h))))
  | _ => get_field hp h f
  end.
Lemma update_loop_ok : forall made first force ps k vs val vars hp, good made hp -> NoDup vars ->
  (forall h, In h vars -> In h made /\ isvar h = true) ->
  (forall h, In h vars -> forall hp w, updateVariable (S k) hp ps k (h_name h) w = set_f hp h FValue w) ->
  (forall h, In h vars -> at_ vs (get_fitter_index hp h) = Some (val h)) ->
  exists hp', update_loop first force ps k vs hp vars = NOk hp' /\ good made hp' /\
    (forall h f, In h vars -> get_field hp' h f = after_call force hp val h f) /\
    (forall b f, In b made -> ~ In b vars -> get_field hp' b f = get_field hp b f).
Proof.
  intros made first force ps k vs val. induction vars as [|h vars IH]; intros hp G ND IN UV AT.
  - exists hp. split; [reflexivity|]. split; [exact G|]. split; [intros h f []|reflexivity].
  - inversion ND as [|? ? NI ND']; subst. cbn [update_loop]. rewrite (AT h (or_introl eq_refl)).
    set (ch := if force then true else negb (feq (get_f hp h FValue) (val h))). destruct (IN h (or_introl eq_refl)) as [Hh V].
    destruct (set_changed_ok made hp h ch G Hh V) as (G1 & S1 & O1). set (hp1 := set_changed hp h ch) in *.
    set (hp2 := if first then set_f hp1 h FValue (val h) else hp1).
    assert (W : (if first then get_f hp2 h FValue else val h) = val h /\ good made hp2 /\ get_field hp2 h FChanged = Some (CB ch) /\
                forall x g, In x made -> (x <> h \/ (g <> FChanged /\ g <> FValue)) -> get_field hp2 x g = get_field hp x g).
    { unfold hp2. destruct first.
      - destruct (set_f_ok made hp1 h FValue (val h) G1 Hh V (or_introl eq_refl)) as (G2 & S2 & O2). split; [now apply get_f_some|]. split; [exact G2|].
        split; [rewrite O2; [exact S1|exact Hh|right; discriminate]|]. intros x g Hx D. rewrite O2; [apply O1; [exact Hx|tauto]|exact Hx|tauto].
      - split; [reflexivity|]. split; [exact G1|]. split; [exact S1|]. intros x g Hx D. apply O1; [exact Hx|tauto]. }
    destruct W as (W & G2 & S2 & O2). rewrite W. rewrite (UV h (or_introl eq_refl)).
    assert (BL : get_f hp2 h FBlind = get_f hp h FBlind) by (apply get_f_eq, O2; [exact Hh|right; split; discriminate]). rewrite BL.
    destruct (set_f_ok made hp2 h FValue (fsub (val h) (get_f hp h FBlind)) G2 Hh V (or_introl eq_refl)) as (G3 & S3 & O3).
    set (hp3 := set_f hp2 h FValue (fsub (val h) (get_f hp h FBlind))) in *.
    assert (OV : forall x g, In x made -> x <> h -> get_field hp3 x g = get_field hp x g).
    { intros x g Hx Nx. rewrite O3 by tauto. apply O2; tauto. }
    destruct (IH hp3 G3 ND') as (hp' & E & G' & SV & SO).
    { intros x Hx. apply IN. now right. } { intros x Hx. apply UV. now right. }
    { intros x Hx. unfold get_fitter_index. rewrite OV; [apply (AT x); now right|apply IN; now right|]. intros ->. contradiction. }
    exists hp'. split; [exact E|]. split; [exact G'|]. split.
    + intros x f [<-|Hx].
      * rewrite (SO h f Hh NI). destruct f; cbn [after_call]; try (rewrite O3 by (auto; right; discriminate); apply O2; [exact Hh|right; split; discriminate]).
        -- exact S3. -- rewrite O3 by (auto; right; discriminate). exact S2.
      * rewrite (SV x f Hx). assert (Nx : x <> h) by (intros ->; contradiction). destruct (IN x (or_intror Hx)) as [Mx _].
        destruct f; cbn [after_call]; try (apply OV; assumption); unfold get_f; rewrite !OV by assumption; reflexivity.
    + intros b f Hb Nb. rewrite SO; [|exact Hb|intro; apply Nb; now right]. apply OV; [exact Hb|]. intros ->. apply Nb. now left.
Qed.
