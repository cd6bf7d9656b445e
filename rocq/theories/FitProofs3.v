(** Sequences of cost function calls. *)
From Coq Require Import List ZArith String Bool Lia.
From Verif Require Import F64 F64Lemmas ListAux VariableModel LeafFormulas DeviceModel PdfModel PdfSpec FlatProofs EvalProofs HostProofs PdfProofs PdfProofs2 PdfProofs3
  NormModel FitModel FitSpec FitProofs FitProofs2.
Import ListNotations.
Local Open Scope nat_scope.
Local Notation len := List.length.

Lemma at_nat : forall vs i, at_ vs (Z.of_nat i) = nth_error vs i.
Proof. intros. unfold at_. destruct (Z.of_nat i <? 0)%Z eqn:E; [apply Z.ltb_lt in E; lia|]. now rewrite Nat2Z.id. Qed.

(** ** Quiet steps *)
Definition keeps_ci (hp hp' : heap) : Prop := forall p z, nth_error hp p = Some (CI z) -> nth_error hp' p = Some (CI z).
Lemma set_CF_ci : forall hp h f v hp', set_field hp h f (CF v) = Some hp' -> keeps_ci hp hp'.
Proof.
  intros hp h f v hp' E p z Ep. unfold set_field in E. destruct (ptr_of h f) as [q|]; [|discriminate]. destruct (nth_error hp q) as [old|] eqn:Eo; [|discriminate].
  destruct old; cbn in E; try discriminate. injection E as <-. destruct (Nat.eq_dec p q) as [->|Hp]; [congruence|]. now rewrite nth_error_upd_other by congruence.
Qed.
Lemma set_f_ci : forall hp h f v, keeps_ci hp (set_f hp h f v).
Proof. intros. unfold set_f. destruct (set_field hp h f (CF v)) eqn:E; [eapply set_CF_ci; eauto|intros p z X; exact X]. Qed.
Lemma updateVariable_ci : forall f hp ps id nm v, keeps_ci hp (updateVariable f hp ps id nm v).
Proof.
  intros. rewrite updateVariable_fold. revert hp. induction (all_pars f ps id) as [|x L IH]; intro hp; [intros p z X; exact X|]. cbn [fold_left]. intros p z X.
  apply IH. unfold upd_name. destruct (String.eqb (h_name x) nm); [now apply set_f_ci|exact X].
Qed.
Lemma quiet_ci : forall ns k st o, quiet ns k o -> keeps_ci (g_heap st) (g_heap (fst (gstep st o))).
Proof.
  intros ns k st o Q p z X. destruct o; cbn [quiet] in Q; try contradiction; cbn [gstep].
  - destruct o; try contradiction; try (destruct v; try contradiction); cbn [vstep];
      try match goal with |- context [nth_error (g_hs st) ?a] => destruct (nth_error (g_hs st) a) as [hd|]; [|exact X] end.
    + destruct (set_field (g_heap st) hd f (CF x)) as [hp'|] eqn:E; [|exact X]. exact (set_CF_ci _ _ _ _ _ E _ _ X).
    + destruct (get_field (g_heap st) hd f); exact X.
    + destruct (nth_error (g_hs st) b); exact X.
    + destruct (nth_error (g_hs st) b) as [hb|]; [|exact X]. destruct (h_ext hd), (h_ext hb); exact X.
    + exact X.
    + destruct (h_ext hd); exact X.
  - destruct (Nat.ltb id (len (g_pdfs st))); [|exact X]. destruct (updateParameters (S id) (g_heap st) (g_pdfs st) (a_par (g_arr st)) id). exact X.
  - destruct (Nat.ltb id (len (g_pdfs st)) && is_var (g_hs st) v); [now apply updateVariable_ci|exact X].
  - destruct (nth_error (g_pdfs st) id) as [q|]; [|exact X]. destruct (Nat.ltb (p_ni q + 1) (len (a_nor (g_arr st)))); exact X.
  - destruct (Nat.ltb id (len (g_pdfs st))); exact X.
  - destruct (Nat.ltb id (len (g_pdfs st))); exact X.
  - destruct (Nat.ltb id (len (g_pdfs st))); exact X.
  - destruct (Nat.ltb id (len (g_pdfs st))); exact X.
  - destruct (Nat.ltb id (len (g_pdfs st))); exact X.
Qed.
Lemma quiet_lens : forall ns k st o, quiet ns k o -> map lens (g_pdfs (fst (gstep st o))) = map lens (g_pdfs st).
Proof.
  intros ns k st o Q. destruct o; cbn [quiet] in Q; try contradiction; cbn [gstep].
  - destruct (vstep (g_heap st, g_hs st) o) as [[? ?] ?]. reflexivity.
  - destruct (Nat.ltb id (len (g_pdfs st))); [|reflexivity]. destruct (updateParameters (S id) (g_heap st) (g_pdfs st) (a_par (g_arr st)) id). reflexivity.
  - destruct (Nat.ltb id (len (g_pdfs st)) && is_var (g_hs st) v); reflexivity.
  - destruct (nth_error (g_pdfs st) id) as [p|] eqn:Ep; [|reflexivity]. destruct (Nat.ltb (p_ni p + 1) (len (a_nor (g_arr st)))); [|reflexivity].
    eapply map_upd_same; [exact Ep|reflexivity].
  - destruct (Nat.ltb id (len (g_pdfs st))); [|reflexivity]. apply map_set_pdf. reflexivity.
  - destruct (Nat.ltb id (len (g_pdfs st))); [|reflexivity]. apply map_set_pdf. reflexivity.
  - destruct (Nat.ltb id (len (g_pdfs st))); [|reflexivity]. apply map_set_pdf. reflexivity.
  - destruct (Nat.ltb id (len (g_pdfs st))); reflexivity.
  - destruct (Nat.ltb id (len (g_pdfs st))); reflexivity.
Qed.
Lemma quiet_finv : forall made q ns k st o, quiet ns k o -> finv made q st -> finv made q (fst (gstep st o)).
Proof.
  intros made q ns k st o Q (G & S & I). split; [eapply good_types; [exact G|apply gstep_types]|]. split; [eapply static_lens; [symmetry; eapply quiet_lens; eauto|exact S]|].
  intros i h Eh. specialize (I i h Eh). unfold get_fitter_index, get_field in *. destruct (ptr_of h FFitterIndex) as [p|] eqn:Ep; [|exact I].
  assert (V : isvar h = true) by (apply S; eapply nth_error_In; eauto). assert (M : In h made) by (apply S; eapply nth_error_In; eauto).
  destruct G as [_ B]. pose proof (proj1 (Forall_forall _ _) B h M) as [_ T]. destruct (T _ _ Ep) as (c & Ec & R). destruct c; try discriminate. rewrite Ec in I. subst x.
  now rewrite (quiet_ci ns k st o Q _ _ Ec).
Qed.

(** ** One call *)
Lemma refresh_same : forall st k st', refresh st k = NOk st' ->
  g_heap st' = g_heap st /\ g_hs st' = g_hs st /\ g_pdfs st' = g_pdfs st /\ a_fun (g_arr st') = a_fun (g_arr st) /\ a_con (g_arr st') = a_con (g_arr st) /\
  a_obs (g_arr st') = a_obs (g_arr st) /\ a_nor (g_arr st') = a_nor (g_arr st).
Proof.
  intros st k st' E. unfold refresh in E. cbn [gstep] in E. destruct (Nat.ltb k (len (g_pdfs st))); [|discriminate].
  destruct (updateParameters (S k) (g_heap st) (g_pdfs st) (a_par (g_arr st)) k) as [par ok]. destruct ok; [|discriminate]. injection E as <-. repeat split.
Qed.
Lemma call_ok : forall made first force q st vs st', finv made q st -> len vs = len (q_vars q) -> from_minuit first st q vs force = NOk st' ->
  finv made q st' /\ g_pdfs st' = g_pdfs st /\ g_hs st' = g_hs st /\
  (forall i h f, nth_error (q_vars q) i = Some h -> get_field (g_heap st') h f = after_call force (g_heap st) (fun _ => nth i vs fzero) h f) /\
  (forall b f, In b made -> ~ In b (q_vars q) -> get_field (g_heap st') b f = get_field (g_heap st) b f).
Proof.
  intros made first force q st vs st' (G & S & I) L E. unfold from_minuit in E.
  set (val := fun h => nth (Z.to_nat (get_fitter_index (g_heap st) h)) vs fzero).
  destruct S as (S1 & S2 & S3).
  destruct (update_loop_ok made first force (g_pdfs st) (q_pdf q) vs val (q_vars q) (g_heap st) G S1 S2 S3) as (hp' & EL & G' & SV & SO).
  { intros h Hh. apply In_nth_error in Hh. destruct Hh as [i Ei]. unfold val. rewrite (I i h Ei), at_nat, Nat2Z.id. apply nth_error_nth'. apply nth_error_Some_lt in Ei. lia. }
  rewrite EL in E. cbn [nbind] in E. destruct (refresh_same _ _ _ E) as (R1 & R2 & R3 & _). cbn [g_heap g_hs g_pdfs] in R1, R2, R3.
  assert (SV' : forall i h f, nth_error (q_vars q) i = Some h -> get_field (g_heap st') h f = after_call force (g_heap st) (fun _ => nth i vs fzero) h f).
  { intros i h f Ei. rewrite R1, SV by (eapply nth_error_In; eauto). unfold after_call, val. rewrite (I i h Ei), Nat2Z.id. reflexivity. }
  split; [|split; [exact R3|split; [exact R2|split; [exact SV'|]]]].
  - split; [now rewrite R1|]. split; [rewrite R3; split; [exact S1|]; split; [exact S2|exact S3]|].
    intros i h Ei. unfold get_fitter_index. rewrite (SV' i h FFitterIndex Ei). cbn [after_call]. now apply I.
  - intros b f Hb Nb. rewrite R1. now apply SO.
Qed.

(** ** The current values as a vector *)
Lemma fill_length : forall hp vars vs vs', fill_vector hp vs vars = NOk vs' -> len vs' = len vs.
Proof.
  intros hp. induction vars as [|h vars IH]; intros vs vs' E; [now injection E as <-|]. cbn [fill_vector] in E. destruct (_ && _)%bool; [|discriminate].
  apply IH in E. now rewrite upd_length in E.
Qed.
Lemma fill_ok : forall hp vars vs j, (forall i h, nth_error vars i = Some h -> get_fitter_index hp h = Z.of_nat (j + i)) -> j + len vars <= len vs ->
  exists vs', fill_vector hp vs vars = NOk vs' /\ (forall i, i < j -> nth i vs' fzero = nth i vs fzero) /\
    (forall i h, nth_error vars i = Some h -> nth (j + i) vs' fzero = get_f hp h FValue).
Proof.
  intros hp. induction vars as [|h vars IH]; intros vs j I L.
  - exists vs. split; [reflexivity|]. split; [reflexivity|]. intros [|i] x X; discriminate.
  - cbn [List.length] in L. cbn [fill_vector]. rewrite (I 0 h eq_refl), Nat.add_0_r.
    replace ((0 <=? Z.of_nat j)%Z && (Z.of_nat j <? Z.of_nat (len vs))%Z) with true
      by (symmetry; apply andb_true_iff; split; [apply Z.leb_le|apply Z.ltb_lt]; lia).
    rewrite Nat2Z.id. destruct (IH (upd vs j (get_f hp h FValue)) (j + 1)) as (vs' & E & A & B).
    + intros i x Ex. rewrite (I (S i) x Ex). f_equal. lia.
    + rewrite upd_length. lia.
    + exists vs'. split; [exact E|].
      assert (NU : forall i, i <> j -> nth i (upd vs j (get_f hp h FValue)) fzero = nth i vs fzero).
      { intros i Hi. destruct (nth_error vs i) as [x|] eqn:Ex.
        - rewrite (nth_error_nth vs i fzero Ex). apply nth_error_nth. rewrite nth_error_upd_other by congruence. exact Ex.
        - apply nth_error_None in Ex. rewrite !nth_overflow; [reflexivity|exact Ex|now rewrite upd_length]. }
      split.
      * intros i Hi. rewrite A by lia. apply NU. lia.
      * intros [|i] x Ex; cbn [nth_error] in Ex.
        -- injection Ex as <-. rewrite Nat.add_0_r, A by lia. apply nth_error_nth. apply nth_error_upd_same. lia.
        -- replace (j + S i) with (j + 1 + i) by lia. now apply B.
Qed.
Lemma max_index_ok : forall hp vars j m, (forall i h, nth_error vars i = Some h -> get_fitter_index hp h = Z.of_nat (j + i)) -> (m = Z.of_nat j - 1)%Z ->
  fold_left (fun m h => Z.max m (get_fitter_index hp h)) vars m = (Z.of_nat (j + len vars) - 1)%Z.
Proof.
  intros hp. induction vars as [|h vars IH]; intros j m I Hm; cbn [fold_left List.length]; [lia|]. rewrite (I 0 h eq_refl).
  rewrite (IH (S j)); [lia| |lia]. intros i x Ex. rewrite (I (S i) x Ex). f_equal. lia.
Qed.
Lemma make_vector_ok : forall hp vars, (forall i h, nth_error vars i = Some h -> get_fitter_index hp h = Z.of_nat i) -> vars <> [] ->
  make_minuit_vector hp vars = NOk (map (fun h => get_f hp h FValue) vars).
Proof.
  intros hp vars I N. unfold make_minuit_vector. destruct vars as [|h0 vars0]; [contradiction|]. set (vars := h0 :: vars0) in *.
  assert (M : max_index hp vars = (Z.of_nat (len vars) - 1)%Z) by (apply (max_index_ok hp vars 0); [exact I|reflexivity]). rewrite M.
  replace (Z.to_nat (Z.of_nat (len vars) - 1 + 1)) with (len vars) by lia.
  destruct (fill_ok hp vars (repeat fzero (len vars)) 0 I) as (vs' & E & _ & B); [rewrite repeat_length; lia|]. rewrite E. f_equal. apply nth_error_ext. intro i.
  assert (L : len vs' = len vars) by (apply fill_length in E; now rewrite repeat_length in E).
  rewrite nth_error_map. destruct (nth_error vars i) as [h|] eqn:Eh; cbn [option_map].
  - rewrite <- (B i h Eh). cbn [Nat.add]. apply nth_error_nth'. apply nth_error_Some_lt in Eh. lia.
  - apply nth_error_None. apply nth_error_None in Eh. lia.
Qed.

(** ** Writing results *)
Lemma write_back_ok : forall made vals errs vars hp hp', good made hp -> NoDup vars -> (forall h, In h vars -> In h made /\ isvar h = true) ->
  write_back hp vals errs vars = NOk hp' ->
  good made hp' /\
  (forall h, In h vars -> option_map CF (at_ vals (get_fitter_index hp h)) = get_field hp' h FValue /\ option_map CF (at_ errs (get_fitter_index hp h)) = get_field hp' h FError) /\
  (forall b f, In b made -> ~ In b vars \/ (f <> FValue /\ f <> FError) -> get_field hp' b f = get_field hp b f).
Proof.
  intros made vals errs. induction vars as [|h vars IH]; intros hp hp' G ND IN E.
  - injection E as <-. split; [exact G|]. split; [intros h []|reflexivity].
  - inversion ND as [|? ? NI ND']; subst. cbn [write_back] in E. destruct (at_ vals (get_fitter_index hp h)) as [v|] eqn:Ev; [|discriminate].
    destruct (at_ errs (get_fitter_index hp h)) as [e|] eqn:Ee; [|discriminate]. destruct (IN h (or_introl eq_refl)) as [Hh V].
    destruct (set_f_ok made hp h FValue v G Hh V (or_introl eq_refl)) as (G1 & S1 & O1).
    destruct (set_f_ok made (set_f hp h FValue v) h FError e G1 Hh V (or_intror eq_refl)) as (G2 & S2 & O2).
    set (hp2 := set_f (set_f hp h FValue v) h FError e) in *.
    assert (O : forall b f, In b made -> b <> h \/ (f <> FValue /\ f <> FError) -> get_field hp2 b f = get_field hp b f).
    { intros b f Hb D. rewrite O2 by tauto. apply O1; tauto. }
    destruct (IH hp2 hp' G2 ND' (fun x Hx => IN x (or_intror Hx)) E) as (G' & SV & SO). split; [exact G'|]. split.
    + intros x [<-|Hx].
      * rewrite Ev, Ee. cbn [option_map]. rewrite !SO by (auto; left; exact NI). split; symmetry; [|exact S2]. rewrite O2 by (auto; right; discriminate). exact S1.
      * destruct (SV x Hx) as [A B]. assert (Nx : x <> h) by (intros ->; contradiction). destruct (IN x (or_intror Hx)) as [Mx _].
        unfold get_fitter_index in *. rewrite O in A, B by tauto. now split.
    + intros b f Hb D. rewrite SO; [|exact Hb|destruct D as [D|D]; [left; intro; apply D; now right|now right]]. apply O; [exact Hb|].
      destruct D as [D|D]; [left; intros ->; apply D; now left|now right].
Qed.
Lemma handle_eq_dec : forall a b : handle, {a = b} + {a <> b}.
Proof. intros. repeat decide equality. Qed.
Lemma all_changed_ok : forall made vars hp, good made hp -> (forall h, In h vars -> In h made /\ isvar h = true) ->
  good made (set_all_changed hp vars) /\ (forall b f, In b made -> ~ In b vars \/ f <> FChanged -> get_field (set_all_changed hp vars) b f = get_field hp b f) /\
  (forall h, In h vars -> get_field (set_all_changed hp vars) h FChanged = Some (CB true)).
Proof.
  intros made vars. unfold set_all_changed.
  induction vars as [|h vars IH] using rev_ind; intros hp G IN.
  - split; [exact G|]. split; [reflexivity|intros h []].
  - rewrite fold_left_app. cbn [fold_left]. destruct (IH hp G) as (G1 & O1 & S1). { intros x Hx. apply IN. apply in_app_iff. now left. }
    assert (IL : In h (vars ++ [h])) by (apply in_app_iff; right; now left). destruct (IN h IL) as [Hh V].
    destruct (set_changed_ok made _ h true G1 Hh V) as (G2 & S2 & O2). split; [exact G2|]. split.
    + intros b f Hb D. rewrite O2; [apply O1; [exact Hb|]|exact Hb|].
      * destruct D as [D|D]; [left; intro; apply D; apply in_app_iff; now left|now right].
      * destruct D as [D|D]; [left; intros ->; now apply D|now right].
    + intros x Hx. destruct (handle_eq_dec x h) as [->|Hd]; [exact S2|]. rewrite O2; [|apply IN; exact Hx|now left].
      apply S1. apply in_app_iff in Hx. destruct Hx as [Hx|[->|[]]]; [exact Hx|congruence].
Qed.

(** ** Programs *)
Lemma fstep_finv : forall made q ns k st o st', finv made q st -> fquiet ns k (len (q_vars q)) o -> fstep q st o = NOk st' ->
  finv made q st' /\ map lens (g_pdfs st') = map lens (g_pdfs st).
Proof.
  intros made q ns k st o st' F Q E. pose proof F as (G & (S1 & S2 & S3) & I). destruct o as [o| |v|v| |vals errs]; cbn [fstep fquiet] in *.
  - injection E as <-. split; [eapply quiet_finv; eauto|eapply quiet_lens; eauto].
  - injection E as <-. cbn [with_heap g_pdfs]. split; [|reflexivity]. destruct (all_changed_ok made (q_vars q) (g_heap st) G S2) as (G' & O & _).
    split; [exact G'|]. split; [split; [exact S1|]; now split|]. intros i h Ei. unfold get_fitter_index. cbn [with_heap g_heap].
    rewrite O; [now apply I|apply S2; eapply nth_error_In; eauto|right; discriminate].
  - destruct (call_ok made false false q st v st' F Q E) as (F' & EP & _). split; [exact F'|]. now rewrite EP.
  - destruct (call_ok made true false q st v st' F Q E) as (F' & EP & _). split; [exact F'|]. now rewrite EP.
  - destruct (make_minuit_vector (g_heap st) (q_vars q)) as [v| | |] eqn:EV; try discriminate. cbn [nbind] in E.
    assert (L : len v = len (q_vars q)).
    { destruct (q_vars q) as [|h0 t] eqn:EQ; [discriminate|]. rewrite <- EQ in *. rewrite make_vector_ok in EV; [|exact I|rewrite EQ; discriminate].
      injection EV as <-. apply map_length. }
    destruct (call_ok made false true q st v st' F L E) as (F' & EP & _). split; [exact F'|]. now rewrite EP.
  - destruct (write_back (g_heap st) vals errs (q_vars q)) as [hp'| | |] eqn:EW; try discriminate. cbn [nbind] in E. injection E as <-. cbn [with_heap g_pdfs].
    split; [|reflexivity]. destruct (write_back_ok made vals errs (q_vars q) (g_heap st) hp' G S1 S2 EW) as (G' & _ & O). split; [exact G'|].
    split; [split; [exact S1|]; now split|]. intros i h Ei. unfold get_fitter_index. cbn [with_heap g_heap].
    rewrite O; [now apply I|apply S2; eapply nth_error_In; eauto|right; split; discriminate].
Qed.
Lemma frun_finv : forall made q ns k os st st', finv made q st -> Forall (fquiet ns k (len (q_vars q))) os -> frun q st os = NOk st' ->
  finv made q st' /\ map lens (g_pdfs st') = map lens (g_pdfs st).
Proof.
  intros made q ns k. induction os as [|o os IH]; intros st st' F Q E; [injection E as <-; now split|]. cbn [frun] in E. inversion Q; subst.
  destruct (fstep q st o) as [st1| | |] eqn:E1; try discriminate. cbn [nbind] in E. destruct (fstep_finv made q ns k st o st1 F H1 E1) as [F1 L1].
  destruct (IH st1 st' F1 H2 E) as [F' L']. split; [exact F'|congruence].
Qed.
