(** Layout of the buffer for binned data; attaching data; evaluation on the buffer. *)
From Coq Require Import List ZArith Bool Lia.
From Verif Require Import F64 F64Lemmas ListAux VariableModel DataSetModel BinModel LeafFormulas DeviceModel PdfModel PdfSpec
  FlatProofs EvalProofs HostProofs PdfProofs PdfProofs2 PdfProofs3 NormModel NormSpec NormProofs NormProofs2 RunModel RunSpec RunProofs RunProofs2.
Import ListNotations.
Local Open Scope nat_scope.
Local Notation len := List.length.

Lemma nfold_ext : forall {S A} (f g : S -> A -> nres S) l s, (forall s a, In a l -> f s a = g s a) -> nfold f l s = nfold g l s.
Proof. intros S A f g. induction l as [|a l IH]; intros s H; [reflexivity|]. cbn [nfold]. rewrite H by now left. destruct (g s a); cbn [nbind]; [|reflexivity..]. apply IH. intros s' b Hb. apply H. now right. Qed.
Lemma nbind_assoc : forall {A B C} (x : nres A) (f : A -> nres B) (g : B -> nres C), nbind (nbind x f) g = nbind x (fun a => nbind (f a) g).
Proof. intros A B C [] f g; reflexivity. Qed.

Definition bin_get (hp : heap) (d : binned) (i : nat) (v : handle) : nres f64 :=
  j <~ of_res (indexOfVariable (BinModel.b_obs d) v) ;; of_bres (getBinCenter hp d j (Z.of_nat i)).
Definition bin_second (hp : heap) (errs : bool) (d : binned) (i : nat) : nres f64 := if errs then of_bres (getBinError d i) else NOk (getBinVolume hp d).
Definition bin_step (hp : heap) (obs : list handle) (errs : bool) (d : binned) (st : list (option f64) * f64) (i : nat) : nres (list (option f64) * f64) :=
  let dims := 2 + len obs in
  b1 <~ nfold (put_one hp (bin_get hp d i) (i * dims)) obs (fst st) ;;
  content <~ of_bres (getBinContent d i) ;;
  b2 <~ store b1 (Z.of_nat (i * dims + len obs)) content ;;
  second <~ bin_second hp errs d i ;;
  b3 <~ store b2 (Z.of_nat (i * dims + len obs + 1)) second ;;
  NOk (b3, fadd (snd st) content).
Lemma fill_binned_steps : forall hp obs errs d, fill_binned hp obs errs d = nfold (bin_step hp obs errs d) (seq 0 (bin_count d)) (repeat None (bin_count d * (2 + len obs)), fzero).
Proof.
  intros. unfold fill_binned. apply nfold_ext. intros st i _. unfold bin_step. f_equal. apply nfold_ext. intros b v _. unfold put_one, bin_get. now rewrite nbind_assoc.
Qed.
Lemma bin_env_get : forall hp d i h x, bin_env hp d i h = Some x <-> bin_get hp d i h = NOk x.
Proof.
  intros. unfold bin_env, bin_get. destruct (indexOfVariable (BinModel.b_obs d) h) as [jj|]; cbn; [|split; discriminate]. destruct (getBinCenter hp d jj (Z.of_nat i)); cbn; split; intro H; try discriminate; [injection H as ->|apply ok_inj in H; subst]; reflexivity.
Qed.
Lemma bin_row_second : forall hp errs d i c s, bin_row hp errs d i = Some (c, s) -> of_bres (getBinContent d i) = NOk c /\ bin_second hp errs d i = NOk s.
Proof.
  intros hp errs d i c s. unfold bin_row, bin_second. destruct (getBinContent d i); try discriminate. destruct errs; [destruct (getBinError d i); try discriminate|]; intro H; injection H as <- <-; now split.
Qed.

Lemma binned_rows : forall hp obs errs d, positioned hp obs -> forall cnt a b ev, len b = (a + cnt) * (2 + len obs) ->
  (forall i h, a <= i < a + cnt -> In h obs -> exists x, bin_env hp d i h = Some x) ->
  (forall i, a <= i < a + cnt -> exists r, bin_row hp errs d i = Some r) ->
  exists b' ev', nfold (bin_step hp obs errs d) (seq a cnt) (b, ev) = NOk (b', ev') /\ len b' = len b /\
    (forall i j h x, a <= i < a + cnt -> nth_error obs j = Some h -> bin_env hp d i h = Some x -> nth_error b' (i * (2 + len obs) + j) = Some (Some x)) /\
    (forall i c s, a <= i < a + cnt -> bin_row hp errs d i = Some (c, s) -> nth_error b' (i * (2 + len obs) + len obs) = Some (Some c) /\ nth_error b' (i * (2 + len obs) + len obs + 1) = Some (Some s)) /\
    (forall q, q < a * (2 + len obs) -> nth_error b' q = nth_error b q) /\
    (forall cs, omap (fun i => option_map fst (bin_row hp errs d i)) (seq a cnt) = Some cs -> ev' = fold_left fadd cs ev).
Proof.
  intros hp obs errs d P. induction cnt as [|cnt IH]; intros a b ev LB HG HR; cbn [seq nfold].
  - exists b, ev. split; [reflexivity|]. split; [reflexivity|]. split; [intros; lia|]. split; [intros; lia|]. split; [reflexivity|]. cbn. intros cs E. now injection E as <-.
  - set (D := 2 + len obs) in *. pose proof (mul_le a (a + S cnt) D ltac:(lia)) as ML.
    destruct (row_fill hp (bin_get hp d a) (a * D) obs 0 b) as (b1 & E1 & L1 & V1 & O1).
    + intros j h Hj. exact (P j h Hj).
    + unfold D in *. lia.
    + intros h Hh. destruct (HG a h ltac:(lia) Hh) as [x X]. exists x. now apply bin_env_get.
    + destruct (HR a ltac:(lia)) as [[c s] Er]. destruct (bin_row_second _ _ _ _ _ _ Er) as [Ec Es].
      set (b2 := upd b1 (a * D + len obs) (Some c)). set (b3 := upd b2 (a * D + len obs + 1) (Some s)).
      assert (L2 : len b2 = len b) by (unfold b2; rewrite upd_length; exact L1). assert (L3 : len b3 = len b) by (unfold b3; rewrite upd_length; exact L2).
      assert (ST : bin_step hp obs errs d (b, ev) a = NOk (b3, fadd ev c)).
      { unfold bin_step. cbn [fst snd]. fold D. rewrite E1. cbn [nbind]. rewrite Ec. cbn [nbind].
        rewrite (store_ok b1 _ c (a * D + len obs) eq_refl) by (unfold D in *; lia). cbn [nbind]. rewrite Es. cbn [nbind]. fold b2.
        rewrite (store_ok b2 _ s (a * D + len obs + 1) eq_refl) by (unfold D in *; lia). reflexivity. }
      rewrite ST. cbn [nbind]. destruct (IH (S a) b3 (fadd ev c)) as (b' & ev' & E2 & LB' & V2 & R2 & O2 & EV).
      * rewrite L3, LB. f_equal. lia.
      * intros i h Hi. apply HG. lia.
      * intros i Hi. apply HR. lia.
      * exists b', ev'. split; [exact E2|]. split; [congruence|]. split; [|split; [|split]].
        -- intros i j h x Hi Hj Hx. destruct (Nat.eq_dec i a) as [->|N].
           ++ pose proof (nth_error_Some_lt _ _ _ Hj) as LJ. rewrite O2 by (unfold D; lia). unfold b3, b2. rewrite !nth_error_upd_other by lia.
              rewrite <- (V1 j h x Hj ltac:(now apply bin_env_get)). f_equal. lia.
           ++ eapply V2; eauto. lia.
        -- intros i c' s' Hi Hr. destruct (Nat.eq_dec i a) as [->|N].
           ++ rewrite Er in Hr. injection Hr as <- <-. rewrite !O2 by (unfold D; lia). unfold b3. rewrite nth_error_upd_other by lia. unfold b2 at 1. split.
              ** apply nth_error_upd_same. unfold D in *; lia.
              ** apply nth_error_upd_same. unfold D in *; lia.
           ++ apply R2; [lia|exact Hr].
        -- intros q Hq. rewrite O2 by (unfold D in *; lia). unfold b3, b2. rewrite !nth_error_upd_other by lia. apply O1. lia.
        -- intros cs Ecs. cbn [omap] in Ecs. rewrite Er in Ecs. cbn [option_map fst] in Ecs. destruct (omap _ (seq (S a) cnt)) as [cs'|] eqn:E3; [|discriminate]. cbn in Ecs. injection Ecs as <-. cbn [fold_left]. now apply EV.
Qed.
Lemma binned_ok : forall hp obs errs d, positioned hp obs -> (forall i h, i < bin_count d -> In h obs -> exists x, bin_env hp d i h = Some x) ->
  (forall i, i < bin_count d -> exists r, bin_row hp errs d i = Some r) ->
  exists b ev, fill_binned hp obs errs d = NOk (b, ev) /\ len b = bin_count d * (2 + len obs) /\
    (forall i j h x, i < bin_count d -> nth_error obs j = Some h -> bin_env hp d i h = Some x -> nth_error b (i * (2 + len obs) + j) = Some (Some x)) /\
    (forall i c s, i < bin_count d -> bin_row hp errs d i = Some (c, s) -> nth_error b (i * (2 + len obs) + len obs) = Some (Some c) /\ nth_error b (i * (2 + len obs) + len obs + 1) = Some (Some s)) /\
    (forall cs, omap (fun i => option_map fst (bin_row hp errs d i)) (seq 0 (bin_count d)) = Some cs -> ev = fold_left fadd cs fzero).
Proof.
  intros hp obs errs d P G R. rewrite fill_binned_steps.
  destruct (binned_rows hp obs errs d P (bin_count d) 0 (repeat None (bin_count d * (2 + len obs))) fzero) as (b & ev & E & LB & V & RR & _ & EV).
  - now rewrite repeat_length.
  - intros i h Hi. apply G. lia.
  - intros i Hi. apply R. lia.
  - exists b, ev. split; [exact E|]. split; [now rewrite LB, repeat_length|]. split; [intros i j h x Hi; apply V; lia|]. split; [intros i c s Hi; apply RR; lia|exact EV].
Qed.
Lemma binned_values : forall hp obs errs d b ev, fill_binned hp obs errs d = NOk (b, ev) ->
  (forall i h, i < bin_count d -> In h obs -> exists x, bin_env hp d i h = Some x) /\ (forall i, i < bin_count d -> exists r, bin_row hp errs d i = Some r).
Proof.
  intros hp obs errs d b ev E. rewrite fill_binned_steps in E. split.
  - intros i h Hi Hh. destruct (nfold_steps _ _ _ _ E i ltac:(apply in_seq; lia)) as ([s1 e1] & s2 & E1). unfold bin_step in E1. peel E1 b1 EB. cbn [fst] in EB.
    destruct (row_fail hp (bin_get hp d i) (i * (2 + len obs)) obs s1 b1 EB h Hh) as (x & X). exists x. now apply bin_env_get.
  - intros i Hi. destruct (nfold_steps _ _ _ _ E i ltac:(apply in_seq; lia)) as ([s1 e1] & s2 & E1). unfold bin_step in E1. peel E1 b1 EB. peel E1 c Ec. peel E1 b2 E2. peel E1 s Es.
    unfold bin_row. destruct (getBinContent d i); try discriminate. unfold bin_second in Es. destruct errs; [destruct (getBinError d i); try discriminate|]; eauto.
Qed.

(** ** Attaching *)
Definition columned (hp : heap) (obs : list handle) (ns : list snode) (k : nat) : Prop :=
  positioned hp obs /\ forall h, tree_observable ns k h -> exists j g, nth_error obs j = Some g /\ handle_eqb g h = true /\ get_i hp h = Z.of_nat j.

Lemma obs_of_pdf_eq : forall s k, obs_of_pdf s k = obs_of (g_pdfs (r_g s)) k. Proof. reflexivity. Qed.
Lemma sim_obs : forall ps ps' k, sim ps ps' -> obs_of ps' k = obs_of ps k.
Proof.
  intros ps ps' k H. unfold obs_of. destruct (nth_error ps k) as [p|] eqn:E.
  - destruct (sim_nth _ _ _ _ H E) as (p' & E' & C). rewrite E'. exact (f_equal (fun c => snd (fst (fst c))) C).
  - assert (nth_error ps' k = None) as ->; [|reflexivity]. apply nth_error_None in E. apply nth_error_None. apply (f_equal (@len _)) in H. rewrite !map_length in H. lia.
Qed.
(** The first two calls of setData. *)
Lemma attach_prefix : forall s ns k s1 s2, reach (r_g s) ns -> k < len ns -> gcall (with_buf s None) (GSetupObservables k) = NOk s1 -> gcall s1 (GSetIndices k) = NOk s2 ->
  (exists ops, after (ops ++ [GSetupObservables k; GSetIndices k]) = (r_g s2, ns)) /\ columned (g_heap (r_g s2)) (obs_of_pdf s2 k) ns k /\
  r_sets s2 = r_sets s /\ r_mem s2 = r_mem s.
Proof.
  intros s ns k s1 s2 [ops R] Hk E1 E2. apply gcall_ok in E1. apply gcall_ok in E2. cbn [with_buf r_g] in E1. subst s1. cbn [with_g r_g] in E2. subst s2. cbn [with_g r_g r_sets r_mem with_buf].
  set (g1 := fst (gstep (r_g s) (GSetupObservables k))) in *. set (g2 := fst (gstep g1 (GSetIndices k))) in *.
  assert (A1 : after (ops ++ [GSetupObservables k]) = (g1, ns)).
  { unfold after in *. rewrite history_app, R. cbn [fst snd history]. unfold g1. destruct (gstep (r_g s) (GSetupObservables k)) as [g o]. cbn [fst]. f_equal. exact (silent_so k _ _ _). }
  assert (A2 : after ((ops ++ [GSetupObservables k]) ++ [GSetIndices k]) = (g2, ns)).
  { unfold after in *. rewrite history_app, A1. cbn [fst snd history]. unfold g2. destruct (gstep g1 (GSetIndices k)) as [g o]. cbn [fst]. f_equal. exact (silent_si k _ _ _). }
  split. { exists ops. rewrite <- app_assoc in A2. exact A2. } split; [|split; reflexivity].
  destruct (columns_ok ops k (r_g s) ns g1 R Hk eq_refl) as (l & EL & _ & PO & _ & TR & _).
  destruct (g_after_setIndices _ _ _ _ A2 Hk) as (st0 & B0 & I0 & _ & EH & SM & _). assert (st0 = g1) as -> by (rewrite A1 in B0; exact (eq_sym (f_equal fst B0))).
  assert (OL : obs_of_pdf (with_g (with_g (with_buf s None) g1) g2) k = l).
  { rewrite obs_of_pdf_eq. cbn [with_g r_g]. rewrite (sim_obs _ _ k SM). rewrite <- getObservables_obs_of by apply I0. cbn [gstep] in EL.
    assert (LN : Nat.ltb k (len (g_pdfs g1)) = true) by (apply Nat.ltb_lt; destruct I0 as (_ & [ML _] & _); lia). rewrite LN in EL. now injection EL. }
  rewrite OL, EH. split; [exact PO|]. intros h (i & n & Hi & En & Hh). exact (TR i n h Hi En Hh).
Qed.

(** ** Quiet calls keep positions and lists *)
Lemma quiet_keeps : forall ns k st o, quiet ns k o -> (forall h, get_i (g_heap (fst (gstep st o))) h = get_i (g_heap st) h) /\
  map p_obs (g_pdfs (fst (gstep st o))) = map p_obs (g_pdfs st) /\ map p_fit (g_pdfs (fst (gstep st o))) = map p_fit (g_pdfs st).
Proof.
  intros ns k st o Q. destruct o; cbn [quiet] in Q; try contradiction; cbn [gstep].
  - destruct o; try contradiction; cbn [vstep].
    + destruct v; try contradiction. destruct (nth_error (g_hs st) h) as [hd|]; [|now repeat split]. destruct (set_field (g_heap st) hd f (CF x)) as [hp'|] eqn:E; [|now repeat split].
      split; [|now split]. intro g. exact (get_i_CF _ _ _ _ _ g E).
    + destruct (nth_error (g_hs st) h); [|now repeat split]. destruct (get_field _ _ _); now repeat split.
    + destruct (nth_error (g_hs st) a), (nth_error (g_hs st) b); now repeat split.
    + destruct (nth_error (g_hs st) a) as [x|], (nth_error (g_hs st) b) as [y|]; try (now repeat split). destruct (h_ext x), (h_ext y); now repeat split.
    + destruct (nth_error (g_hs st) h); now repeat split.
    + destruct (nth_error (g_hs st) h) as [hd|]; [|now repeat split]. destruct (h_ext hd); now repeat split.
  - destruct (Nat.ltb id (len (g_pdfs st))); [|now repeat split]. destruct (updateParameters (S id) (g_heap st) (g_pdfs st) (a_par (g_arr st)) id). now repeat split.
  - destruct (Nat.ltb id (len (g_pdfs st)) && is_var (g_hs st) v); [|now repeat split]. split; [|now split]. intro h. cbn [fst g_heap]. apply updateVariable_get_i.
  - destruct (nth_error (g_pdfs st) id) as [p|] eqn:Ep; [|now repeat split]. destruct (Nat.ltb (p_ni p + 1) (len (a_nor (g_arr st)))); [|now repeat split].
    split; [reflexivity|]. split; (eapply map_upd_same; [exact Ep|reflexivity]).
  - destruct (Nat.ltb id (len (g_pdfs st))); [|now repeat split]. split; [reflexivity|]. split; apply map_set_pdf; reflexivity.
  - destruct (Nat.ltb id (len (g_pdfs st))); [|now repeat split]. split; [reflexivity|]. split; apply map_set_pdf; reflexivity.
  - destruct (Nat.ltb id (len (g_pdfs st))); [|now repeat split]. split; [reflexivity|]. split; apply map_set_pdf; reflexivity.
  - destruct (Nat.ltb id (len (g_pdfs st))); now repeat split.
  - destruct (Nat.ltb id (len (g_pdfs st))); now repeat split.
Qed.
Lemma quiet_keeps_all : forall ns k qs st st' ns', Forall (quiet ns k) qs -> history st ns qs = (st', ns') -> ns' = ns /\ (forall h, get_i (g_heap st') h = get_i (g_heap st) h) /\
  map p_obs (g_pdfs st') = map p_obs (g_pdfs st) /\ map p_fit (g_pdfs st') = map p_fit (g_pdfs st).
Proof.
  intros ns k. induction qs as [|q qs IH]; intros st st' ns' Q E; cbn [history] in E; [injection E as <- <-; now repeat split|]. inversion Q; subst.
  destruct (quiet_keeps ns k st q H1) as (K1 & K2 & K3). destruct (gstep st q) as [st1 out] eqn:EG. cbn [fst] in *. rewrite (quiet_note ns k st q out ns H1) in E.
  destruct (IH st1 st' ns' H2 E) as (I0 & I1 & I2 & I3). split; [exact I0|]. split; [intro h; now rewrite I1|]. split; congruence.
Qed.
Lemma map_obs_of : forall ps ps' k, map p_obs ps' = map p_obs ps -> obs_of ps' k = obs_of ps k.
Proof.
  intros ps ps' k H. unfold obs_of. assert (X : option_map p_obs (nth_error ps' k) = option_map p_obs (nth_error ps k)) by (rewrite <- !nth_error_map; now rewrite H).
  destruct (nth_error ps' k), (nth_error ps k); cbn in X; try discriminate; [now injection X|reflexivity].
Qed.
Lemma columned_keep : forall hp hp' obs ns k, (forall h, get_i hp' h = get_i hp h) -> columned hp obs ns k -> columned hp' obs ns k.
Proof.
  intros hp hp' obs ns k H [P T]. split; [intros j h Hj; rewrite H; now apply P|]. intros h Hh. destruct (T h Hh) as (j & g & A & B & C). exists j, g. rewrite H. now repeat split.
Qed.

(** The buffer, read at event [i], is the environment [en]. *)
Lemma row_env : forall hp obs ns k b size i en, columned hp obs ns k -> small (len obs) ->
  (forall j g x, nth_error obs j = Some g -> en g = Some x -> nth_error b (i * size + j) = Some (Some x)) ->
  (forall g, In g obs -> exists x, en g = Some x) -> (forall g h, handle_eqb g h = true -> en g = en h) ->
  forall h, tree_observable ns k h -> event_env hp (skipn (i * size) b) h = en h.
Proof.
  intros hp obs ns k b size i en [P T] SM V D EX h Hh. destruct (T h Hh) as (j & g & Ej & Eg & Ei). unfold event_env. rewrite Ei.
  pose proof (nth_error_Some_lt _ _ _ Ej) as LJ. unfold small in SM.
  replace (Z.leb 0 (Z.of_nat j)) with true by (symmetry; apply Z.leb_le; lia). replace (Z.ltb (Z.of_nat j) (2 ^ 31)) with true by (symmetry; apply Z.ltb_lt; lia). cbn [andb].
  rewrite Nat2Z.id. destruct (D g (nth_error_In _ _ Ej)) as [x X]. rewrite nth_error_skipn, (V j g x Ej X). now rewrite <- (EX g h Eg).
Qed.
Lemma indexOf_eq : forall l g h, handle_eqb g h = true -> indexOfVariable l g = indexOfVariable l h.
Proof. induction l as [|a l IH]; intros g h E; [reflexivity|]. cbn [indexOfVariable]. unfold handle_eqb in *. apply Nat.eqb_eq in E. rewrite E. destruct (Nat.eqb _ _); [reflexivity|]. rewrite (IH g h); [reflexivity|]. now apply Nat.eqb_eq. Qed.
Lemma data_env_eq : forall d i g h, handle_eqb g h = true -> data_env d i g = data_env d i h.
Proof. intros. unfold data_env, getValue. now rewrite (indexOf_eq _ g h). Qed.
Lemma bin_env_eq : forall hp d i g h, handle_eqb g h = true -> bin_env hp d i g = bin_env hp d i h.
Proof. intros. unfold bin_env. now rewrite (indexOf_eq _ g h). Qed.
