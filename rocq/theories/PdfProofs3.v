(** C15: refreshing the flattened parameters. *)
From Coq Require Import List ZArith String Bool Lia.
From Verif Require Import F64 F64Lemmas ListAux VariableModel LeafFormulas DeviceModel PdfModel PdfSpec FlatProofs EvalProofs HostProofs PdfProofs PdfProofs2.
Import ListNotations.
Local Open Scope nat_scope.
Local Notation len := List.length.

(** ** Positions *)
Definition places (p : pdf) := (p_pi p, p_ni p).
Definition place_of (ps : pdfs) (i : nat) := option_map places (nth_error ps i).
Fixpoint psize (n : nat) (ps : pdfs) (id : nat) : nat :=
  match n, nth_error ps id with
  | S n, Some p => 1 + len (p_pars p) + list_sum (map (psize n ps) (p_comps p))
  | _, _ => 0
  end.
Fixpoint nsize (n : nat) (ps : pdfs) (id : nat) : nat :=
  match n, nth_error ps id with
  | S n, Some p => 2 + list_sum (map (nsize n ps) (p_comps p))
  | _, _ => 0
  end.
Section PlacedList.
Variable F : nat -> nat -> nat -> Prop.
Variable sp sn : nat -> nat.
Fixpoint placed_list (pos posn : nat) (ks : list nat) : Prop :=
  match ks with [] => True | k :: ks => F pos posn k /\ placed_list (pos + sp k) (posn + sn k) ks end.
End PlacedList.
Fixpoint placed (n : nat) (ps : pdfs) (pos posn id : nat) : Prop :=
  match n, nth_error ps id with
  | S n, Some p => p_pi p = pos /\ p_ni p = posn /\
                   placed_list (placed n ps) (psize n ps) (nsize n ps) (pos + 1 + len (p_pars p)) (posn + 2) (p_comps p)
  | _, _ => True
  end.

Lemma enc_par_app : forall a b, enc_par (a ++ b) = enc_par a ++ enc_par b.
Proof. intros. apply flat_map_app. Qed.
Lemma enc_nor_app : forall a b, enc_nor (a ++ b) = enc_nor a ++ enc_nor b.
Proof. intros. apply flat_map_app. Qed.
Lemma psize_ok : forall n hp ps id, psize n ps id = len (enc_par (flat n hp ps id)).
Proof.
  induction n as [|n IH]; intros hp ps id; [reflexivity|]. cbn [psize flat]. destruct (nth_error ps id) as [p|]; [|reflexivity].
  change (enc_par (block_of hp p :: ?x)) with (pref (vals hp (p_pars p)) ++ enc_par x). rewrite app_length. unfold pref. cbn [len]. rewrite vals_length.
  f_equal. f_equal. induction (p_comps p) as [|k ks IHk]; [reflexivity|]. cbn [map flat_map]. rewrite enc_par_app, app_length, <- IHk, <- IH. reflexivity.
Qed.
Lemma nsize_ok : forall n hp ps id, nsize n ps id = len (enc_nor (flat n hp ps id)).
Proof.
  induction n as [|n IH]; intros hp ps id; [reflexivity|]. cbn [nsize flat]. destruct (nth_error ps id) as [p|]; [|reflexivity].
  change (enc_nor (block_of hp p :: ?x)) with ([fone; p_norm p] ++ enc_nor x). rewrite app_length. cbn [len].
  f_equal. f_equal. induction (p_comps p) as [|k ks IHk]; [reflexivity|]. cbn [map flat_map]. rewrite enc_nor_app, app_length, <- IHk, <- IH. reflexivity.
Qed.

(** What the sizes and places depend on. *)
Definition lens (p : pdf) := (p_pars p, p_comps p).
Lemma lens_nth : forall ps ps' i p, map lens ps = map lens ps' -> nth_error ps i = Some p ->
  exists p', nth_error ps' i = Some p' /\ p_pars p' = p_pars p /\ p_comps p' = p_comps p.
Proof.
  intros ps ps' i p H E. apply (map_nth_error lens) in E. rewrite H in E. apply nth_error_map_iff in E. destruct E as (q & E & X). exists q.
  unfold lens in X. split; [exact E|]. split; congruence.
Qed.
Lemma lens_none : forall ps ps' i, map lens ps = map lens ps' -> nth_error ps i = None -> nth_error ps' i = None.
Proof. intros ps ps' i H E. apply nth_error_None in E. apply nth_error_None. apply (f_equal (@len _)) in H. rewrite !map_length in H. lia. Qed.
Lemma psize_lens : forall n ps ps' id, map lens ps = map lens ps' -> psize n ps id = psize n ps' id.
Proof.
  induction n as [|n IH]; intros ps ps' id H; [reflexivity|]. cbn [psize]. destruct (nth_error ps id) as [p|] eqn:E.
  - destruct (lens_nth _ _ _ _ H E) as (p' & E' & X1 & X2). rewrite E', X1, X2. f_equal. f_equal. apply map_ext. intro. now apply IH.
  - now rewrite (lens_none _ _ _ H E).
Qed.
Lemma nsize_lens : forall n ps ps' id, map lens ps = map lens ps' -> nsize n ps id = nsize n ps' id.
Proof.
  induction n as [|n IH]; intros ps ps' id H; [reflexivity|]. cbn [nsize]. destruct (nth_error ps id) as [p|] eqn:E.
  - destruct (lens_nth _ _ _ _ H E) as (p' & E' & _ & X2). rewrite E', X2. f_equal. f_equal. apply map_ext. intro. now apply IH.
  - now rewrite (lens_none _ _ _ H E).
Qed.

Section OverTree.
Variable ns : list snode.
(** objects whose component lists are those of the nodes *)
Definition kids_match (ps : pdfs) : Prop := map p_comps ps = map kids_of ns.
Lemma kids_nth : forall ps i p, kids_match ps -> nth_error ps i = Some p -> exists n, nth_error ns i = Some n /\ p_comps p = kids_of n.
Proof.
  intros ps i p H E. apply (map_nth_error p_comps) in E. rewrite H in E. apply nth_error_map_iff in E. destruct E as (n & E & X). exists n. now split.
Qed.
Lemma lens_kids : forall ps ps', map lens ps = map lens ps' -> kids_match ps -> kids_match ps'.
Proof.
  intros ps ps' H K. unfold kids_match in *. rewrite <- K. apply (f_equal (map snd)) in H. rewrite !map_map in H. cbn in H. symmetry. exact H.
Qed.

Lemma placed_ext : forall n ps ps' id pos posn, kids_match ps -> map lens ps = map lens ps' ->
  (forall j, In j (subtree n ns id) -> place_of ps' j = place_of ps j) -> placed n ps pos posn id -> placed n ps' pos posn id.
Proof.
  induction n as [|n IH]; intros ps ps' id pos posn K H HP PL; [exact I|]. cbn [placed] in *. destruct (nth_error ps id) as [p|] eqn:E.
  - destruct (lens_nth _ _ _ _ H E) as (p' & E' & EP & EC). rewrite E', EP, EC. destruct (kids_nth _ _ _ K E) as (nd & En & Hk).
    cbn [subtree] in HP. rewrite En in HP. destruct PL as (P1 & P2 & PL).
    assert (X : place_of ps' id = place_of ps id) by (apply HP; now left). unfold place_of in X. rewrite E, E' in X. cbn in X. unfold places in X.
    split; [congruence|]. split; [congruence|]. rewrite Hk in *.
    assert (HK : forall k j, In k (kids_of nd) -> In j (subtree n ns k) -> place_of ps' j = place_of ps j).
    { intros k j Hk' Hj. apply HP. right. apply in_flat_map. exists k. now split. }
    revert PL. generalize (pos + 1 + len (p_pars p)). generalize (posn + 2). clear HP X EC Hk. induction (kids_of nd) as [|k ks IHk]; intros a b PL; [exact I|].
    cbn [placed_list] in *. destruct PL as [PL1 PL2]. split.
    + apply (IH ps ps' k b a K H); [|exact PL1]. intros j Hj. apply (HK k); [now left|exact Hj].
    + rewrite <- (psize_lens n ps ps' k H), <- (nsize_lens n ps ps' k H). apply IHk; [|exact PL2]. intros k' j Hk' Hj. apply (HK k'); [now right|exact Hj].
  - now rewrite (lens_none _ _ _ H E).
Qed.

Lemma place_upd_other : forall ps id p i, i <> id -> place_of (upd ps id p) i = place_of ps i.
Proof. intros. unfold place_of. now rewrite nth_error_upd_other by congruence. Qed.
Lemma place_set_ranges : forall ps id g i, (forall p, places (g p) = places p) -> place_of (set_pdf ps id g) i = place_of ps i.
Proof.
  intros ps id g i H. unfold set_pdf. destruct (nth_error ps id) as [p|] eqn:E; [|reflexivity]. destruct (Nat.eq_dec i id) as [->|Hi].
  - unfold place_of. rewrite nth_error_upd_same by (eapply nth_error_Some_lt; eauto). rewrite E. cbn. now rewrite H.
  - now apply place_upd_other.
Qed.
Lemma NoDup_app_split : forall {T} (a b : list T), NoDup (a ++ b) -> NoDup a /\ NoDup b /\ forall x, In x a -> ~ In x b.
Proof.
  induction a as [|x a IH]; intros b H; cbn in *.
  - split; [constructor|]. split; [exact H|intros y []].
  - inversion H; subst. destruct (IH b H3) as (A & B & C). split; [constructor; [|exact A]; intro; apply H2; apply in_or_app; now left|].
    split; [exact B|]. intros y [<-|Hy]; [|now apply C]. intro. apply H2. apply in_or_app. now right.
Qed.
Lemma rsi_lens : forall n hp ps A id, map lens (fst (recursiveSetIndices n hp ps A id)) = map lens ps.
Proof. intros. apply rsi_map; reflexivity. Qed.

Lemma rsi_placed : forall n hp ps A id, kids_match ps -> NoDup (subtree n ns id) ->
  placed n (fst (recursiveSetIndices n hp ps A id)) (len (a_par A)) (len (a_nor A)) id /\
  (forall j, ~ In j (subtree n ns id) -> place_of (fst (recursiveSetIndices n hp ps A id)) j = place_of ps j).
Proof.
  induction n as [|n IH]; intros hp ps A id K ND; [split; [exact I|reflexivity]|]. cbn [recursiveSetIndices placed subtree] in *.
  destruct (nth_error ps id) as [p|] eqn:E.
  2:{ cbn [fst]. rewrite E. split; [exact I|reflexivity]. }
  destruct (kids_nth _ _ _ K E) as (nd & En & Hk). rewrite En in *. rewrite Hk. cbv zeta.
  set (p1 := with_indices p (len (a_fun A)) (len (a_par A)) (len (a_con A)) (len (a_obs A)) (len (a_nor A))).
  set (ps1 := upd ps id p1).
  assert (L1 : map lens ps1 = map lens ps) by (eapply map_upd_same; [exact E|reflexivity]).
  assert (K1 : kids_match ps1) by (eapply lens_kids; [symmetry; exact L1|exact K]).
  inversion ND as [|x l NDi NDk]; subst x l.
  (* the loop over the components *)
  assert (LOOP : forall ks s, NoDup (flat_map (subtree n ns) ks) -> kids_match (fst s) ->
     let r := fold_left (fun s c => recursiveSetIndices n hp (fst s) (snd s) c) ks s in
     map lens (fst r) = map lens (fst s) /\
     placed_list (placed n (fst r)) (psize n (fst r)) (nsize n (fst r)) (len (a_par (snd s))) (len (a_nor (snd s))) ks /\
     (forall j, ~ In j (flat_map (subtree n ns) ks) -> place_of (fst r) j = place_of (fst s) j)).
  { induction ks as [|k ks IHk]; intros s NDs Ks; [cbn; split; [reflexivity|split; [exact I|reflexivity]]|].
    cbn [flat_map] in NDs. destruct (NoDup_app_split _ _ NDs) as (N1 & N2 & N3).
    destruct (IH hp (fst s) (snd s) k Ks N1) as (PK & FK). cbn [fold_left].
    set (s1 := recursiveSetIndices n hp (fst s) (snd s) k) in *.
    assert (LS : map lens (fst s1) = map lens (fst s)) by apply rsi_lens.
    assert (Ks1 : kids_match (fst s1)) by (eapply lens_kids; [symmetry; exact LS|exact Ks]).
    destruct (IHk s1 N2 Ks1) as (L2 & P2 & F2). cbv zeta in *. set (r := fold_left _ ks s1) in *.
    assert (AR : snd s1 = extend (snd s) (flat n hp (fst s) k)) by apply rsi_arrays.
    split; [congruence|]. split.
    - cbn [placed_list]. split.
      + eapply placed_ext; [exact Ks1|symmetry; exact L2| |exact PK]. intros j Hj. apply F2. now apply N3.
      + replace (len (a_par (snd s)) + psize n (fst r) k) with (len (a_par (snd s1))).
        2:{ rewrite AR. unfold extend. cbn [a_par]. rewrite app_length, <- psize_ok. f_equal. apply psize_lens. congruence. }
        replace (len (a_nor (snd s)) + nsize n (fst r) k) with (len (a_nor (snd s1))).
        2:{ rewrite AR. unfold extend. cbn [a_nor]. rewrite app_length, <- nsize_ok. f_equal. apply nsize_lens. congruence. }
        exact P2.
    - intros j Hj. cbn [flat_map] in Hj. rewrite F2 by (intro; apply Hj; apply in_or_app; now right). apply FK. intro. apply Hj. apply in_or_app. now left. }
  destruct (LOOP (kids_of nd) (ps1, push_block hp p A) NDk K1) as (L2 & P2 & F2). cbv zeta in *. clear LOOP.
  dfold ps2 A2 EF. cbn [fst snd] in *.
  set (ps3 := set_pdf ps2 id _).
  assert (PL3 : forall i, place_of ps3 i = place_of ps2 i) by (intro; unfold ps3; apply place_set_ranges; reflexivity).
  assert (L3 : map lens ps2 = map lens ps3) by (unfold ps3; symmetry; apply map_set_pdf; reflexivity).
  assert (K2 : kids_match ps2) by (eapply lens_kids; [symmetry; exact L2|exact K1]).
  assert (PID : place_of ps3 id = Some (len (a_par A), len (a_nor A))).
  { rewrite PL3, F2 by exact NDi. unfold place_of, ps1. rewrite nth_error_upd_same by (eapply nth_error_Some_lt; eauto). reflexivity. }
  split.
  - destruct (nth_error ps3 id) as [p3|] eqn:E3; [|exact I]. unfold place_of in PID. rewrite E3 in PID. cbn in PID. unfold places in PID.
    split; [congruence|]. split; [congruence|].
    destruct (lens_nth ps3 ps id p3) as (p0 & E0 & EP & EC); [congruence|exact E3|]. assert (p0 = p) by congruence. subst p0. rewrite <- EP, <- EC, Hk.
    assert (EPB1 : len (a_par (push_block hp p A)) = len (a_par A) + 1 + len (p_pars p)).
    { unfold push_block. cbn [a_par]. rewrite app_length. cbn [len]. rewrite map_length. lia. }
    assert (EPB2 : len (a_nor (push_block hp p A)) = len (a_nor A) + 2).
    { unfold push_block. cbn [a_nor]. rewrite app_length. reflexivity. }
    rewrite EPB1, EPB2 in P2. revert P2. generalize (len (a_par A) + 1 + len (p_pars p)). generalize (len (a_nor A) + 2).
    clear - K2 L3 PL3. induction (kids_of nd) as [|k ks IHk]; intros a b P2; [exact I|]. cbn [placed_list] in *. destruct P2 as [P2 P3]. split.
    + eapply placed_ext; [exact K2|exact L3| |exact P2]. intros. apply PL3.
    + rewrite <- (psize_lens n ps2 ps3 k L3), <- (nsize_lens n ps2 ps3 k L3). now apply IHk.
  - intros j Hj. rewrite PL3. rewrite F2 by (intro; apply Hj; now right). unfold ps1. apply place_upd_other. intro. apply Hj. now left.
Qed.
End OverTree.

(** ** Refreshing *)
Lemma upd_mid : forall {T} (l : list T) a r x, upd (l ++ a :: r) (len l) x = l ++ x :: r.
Proof. induction l as [|b l IH]; intros; cbn; [reflexivity|]. now rewrite IH. Qed.
Lemma write_pars_ok : forall hp vs old l r, len old = len vs -> write_pars hp (l ++ old ++ r) (len l) vs = (l ++ vals hp vs ++ r, true).
Proof.
  induction vs as [|v vs IH]; intros old l r H; destruct old as [|o old]; try discriminate; [reflexivity|]. cbn [write_pars].
  replace (Nat.ltb (len l) (len (l ++ (o :: old) ++ r))) with true by (symmetry; apply Nat.ltb_lt; rewrite app_length; cbn; lia).
  cbn [app]. rewrite upd_mid. change (l ++ get_f hp v FValue :: old ++ r) with (l ++ [get_f hp v FValue] ++ old ++ r). rewrite app_assoc.
  replace (S (len l)) with (len (l ++ [get_f hp v FValue])) by (rewrite app_length; cbn; lia). rewrite IH by (cbn in H; lia).
  cbn [vals map app]. now rewrite <- app_assoc.
Qed.
Lemma updateParameters_ok : forall n hp hp' ps id l r posn, placed n ps (len l) posn id ->
  updateParameters n hp' ps (l ++ enc_par (flat n hp ps id) ++ r) id = (l ++ enc_par (flat n hp' ps id) ++ r, true).
Proof.
  induction n as [|n IH]; intros hp hp' ps id l r posn PL; [reflexivity|]. cbn [updateParameters flat placed] in *.
  destruct (nth_error ps id) as [p|]; [|reflexivity]. destruct PL as (P1 & _ & PL).
  change (enc_par (block_of hp p :: ?x)) with (pref (vals hp (p_pars p)) ++ enc_par x).
  change (enc_par (block_of hp' p :: ?x)) with (pref (vals hp' (p_pars p)) ++ enc_par x).
  assert (W : write_pars hp' (l ++ (pref (vals hp (p_pars p)) ++ enc_par (flat_map (flat n hp ps) (p_comps p))) ++ r) (p_pi p + 1) (p_pars p)
              = ((l ++ pref (vals hp' (p_pars p))) ++ enc_par (flat_map (flat n hp ps) (p_comps p)) ++ r, true)).
  { unfold pref. cbn [app]. rewrite !vals_length.
    replace (l ++ f_of_nat (len (p_pars p)) :: (vals hp (p_pars p) ++ enc_par (flat_map (flat n hp ps) (p_comps p))) ++ r)
      with ((l ++ [f_of_nat (len (p_pars p))]) ++ vals hp (p_pars p) ++ (enc_par (flat_map (flat n hp ps) (p_comps p)) ++ r))
      by (rewrite <- !app_assoc; reflexivity).
    replace (p_pi p + 1) with (len (l ++ [f_of_nat (len (p_pars p))])) by (rewrite app_length; cbn; lia).
    rewrite write_pars_ok by apply vals_length. rewrite <- !app_assoc. reflexivity. }
  rewrite W. clear W.
  replace (len l + 1 + len (p_pars p)) with (len (l ++ pref (vals hp' (p_pars p)))) in PL by (rewrite app_length; unfold pref; cbn [len]; rewrite vals_length; lia).
  replace (l ++ (pref (vals hp' (p_pars p)) ++ enc_par (flat_map (flat n hp' ps) (p_comps p))) ++ r)
    with ((l ++ pref (vals hp' (p_pars p))) ++ enc_par (flat_map (flat n hp' ps) (p_comps p)) ++ r) by (rewrite <- !app_assoc; reflexivity).
  revert PL. generalize (l ++ pref (vals hp' (p_pars p))) as l'. generalize (posn + 2) as a. clear P1.
  induction (p_comps p) as [|k ks IHk]; intros a l' PL; [reflexivity|]. cbn [placed_list] in PL. destruct PL as [PK PL]. cbn [fold_left flat_map snd fst].
  rewrite !enc_par_app. rewrite <- !app_assoc.
  rewrite (IH hp hp' ps k l' (enc_par (flat_map (flat n hp ps) ks) ++ r) a PK). rewrite app_assoc.
  rewrite (IHk (a + nsize n ps k)); [rewrite <- app_assoc; reflexivity|]. rewrite app_length, <- psize_ok. exact PL.
Qed.

(** ** Changing one normalisation *)
Section Norm.
Variable ns : list snode.
Lemma flat_norm_out : forall n hp ps j p x id, kids_match ns ps -> nth_error ps j = Some p -> ~ In j (subtree n ns id) ->
  flat n hp (upd ps j (with_norm p x)) id = flat n hp ps id.
Proof.
  induction n as [|n IH]; intros hp ps j p x id K Ej Hj; [reflexivity|]. cbn [flat]. cbn [subtree] in Hj. destruct (nth_error ps id) as [q|] eqn:Eq.
  - destruct (kids_nth ns _ _ _ K Eq) as (nd & En & Hk). rewrite En in Hj. rewrite nth_error_upd_other by (intro; apply Hj; left; congruence). rewrite Eq. f_equal.
    apply flat_map_ext_in. intros k Hk'. apply IH; [exact K|exact Ej|]. intro X. apply Hj. right. apply in_flat_map. exists k. rewrite <- Hk. now split.
  - assert (X : nth_error (upd ps j (with_norm p x)) id = None) by (apply nth_error_None; rewrite upd_length; now apply nth_error_None). now rewrite X.
Qed.
Lemma set_norm_ok : forall n hp ps id j p x l r pos, kids_match ns ps -> nth_error ps j = Some p -> NoDup (subtree n ns id) -> In j (subtree n ns id) ->
  placed n ps pos (len l) id ->
  upd (l ++ enc_nor (flat n hp ps id) ++ r) (p_ni p + 1) x = l ++ enc_nor (flat n hp (upd ps j (with_norm p x)) id) ++ r.
Proof.
  induction n as [|n IH]; intros hp ps id j p x l r pos K Ej ND Hj PL; [destruct Hj|]. cbn [flat placed subtree] in *.
  destruct (nth_error ns id) as [nd|] eqn:En; [|destruct Hj].
  destruct (nth_error ps id) as [q|] eqn:Eq.
  2:{ exfalso. unfold kids_match in K. apply (f_equal (@len _)) in K. rewrite !map_length in K. apply nth_error_None in Eq. apply nth_error_Some_lt in En. lia. }
  destruct (kids_nth ns _ _ _ K Eq) as (nd' & En' & Hk). assert (nd' = nd) by congruence. subst nd'.
  inversion ND as [|y l0 NDi NDk]; subst y l0. destruct PL as (_ & P2 & PL). rewrite Hk in *.
  change (enc_nor (block_of hp q :: ?y)) with ([fone; p_norm q] ++ enc_nor y).
  destruct (Nat.eq_dec j id) as [->|Hji].
  - assert (q = p) by congruence. subst q. rewrite nth_error_upd_same by (eapply nth_error_Some_lt; eauto).
    change (enc_nor (block_of hp (with_norm p x) :: ?y)) with ([fone; x] ++ enc_nor y).
    replace (p_comps (with_norm p x)) with (kids_of nd) by (symmetry; exact Hk).
    assert (FE : flat_map (flat n hp (upd ps id (with_norm p x))) (kids_of nd) = flat_map (flat n hp ps) (kids_of nd)).
    { apply flat_map_ext_in. intros k Hk'. apply flat_norm_out; [exact K|exact Eq|]. intro X. apply NDi. apply in_flat_map. exists k. now split. }
    rewrite FE, P2. cbn [app]. change (l ++ fone :: p_norm p :: ?y) with (l ++ [fone] ++ p_norm p :: y). rewrite app_assoc.
    replace (len l + 1) with (len (l ++ [fone])) by (rewrite app_length; reflexivity). rewrite upd_mid, <- app_assoc. reflexivity.
  - rewrite nth_error_upd_other by congruence. rewrite Eq. rewrite Hk. destruct Hj as [Hj|Hj]; [congruence|].
    change (enc_nor (block_of hp q :: ?y)) with ([fone; p_norm q] ++ enc_nor y). rewrite <- !app_assoc.
    replace (len l + 2) with (len (l ++ [fone; p_norm q])) in PL by (rewrite app_length; reflexivity).
    rewrite (app_assoc l [fone; p_norm q]), (app_assoc l [fone; p_norm q]). revert PL. generalize (l ++ [fone; p_norm q]) as l'. generalize (pos + 1 + len (p_pars q)) as a.
    clear P2 Hk En NDi ND. induction (kids_of nd) as [|k ks IHk]; intros a l' PL; [destruct Hj|]. cbn [flat_map placed_list] in *. destruct PL as [PK PL].
    destruct (NoDup_app_split _ _ NDk) as (N1 & N2 & N3). rewrite !enc_nor_app, <- !app_assoc. apply in_app_or in Hj. destruct Hj as [Hj|Hj].
    + rewrite (IH hp ps k j p x l' (enc_nor (flat_map (flat n hp ps) ks) ++ r) a K Ej N1 Hj PK). f_equal. f_equal. f_equal. f_equal.
      apply flat_map_ext_in. intros k' Hk'. symmetry. apply flat_norm_out; [exact K|exact Ej|]. intro X. apply (N3 j Hj). apply in_flat_map. exists k'. now split.
    + rewrite (flat_norm_out n hp ps j p x k K Ej) by (intro X; apply (N3 j X); exact Hj). rewrite !(app_assoc l').
      apply (IHk Hj N2 (a + psize n ps k)). rewrite app_length, <- nsize_ok. exact PL.
Qed.
End Norm.

(** ** Programs between two flattenings *)
Lemma get_i_CF : forall hp h f v hp' g, set_field hp h f (CF v) = Some hp' -> get_i hp' g = get_i hp g.
Proof.
  intros hp h f v hp' g E. unfold set_field in E. destruct (ptr_of h f) as [p|]; [|discriminate]. destruct (nth_error hp p) as [old|] eqn:Eo; [|discriminate].
  destruct old; cbn in E; try discriminate. injection E as <-. unfold get_i, get_field. cbn [ptr_of]. destruct (Nat.eq_dec (h_index g) p) as [Hp|Hp].
  - rewrite Hp, nth_error_upd_same by (eapply nth_error_Some_lt; eauto). now rewrite Eo.
  - now rewrite nth_error_upd_other by congruence.
Qed.
Lemma set_f_get_i : forall hp h f v g, get_i (set_f hp h f v) g = get_i hp g.
Proof. intros. unfold set_f. destruct (set_field hp h f (CF v)) eqn:E; [eapply get_i_CF; eauto|reflexivity]. Qed.
Lemma updateVariable_get_i : forall f hp ps id nm v g, get_i (updateVariable f hp ps id nm v) g = get_i hp g.
Proof.
  induction f as [|f IH]; intros hp ps id nm v g; [reflexivity|]. cbn [updateVariable]. destruct (nth_error ps id) as [p|]; [|reflexivity].
  assert (G : forall xs h, get_i (fold_left (fun h x => if String.eqb (h_name x) nm then set_f h x FValue v else h) xs h) g = get_i h g).
  { induction xs as [|x xs IHx]; intro h; [reflexivity|]. cbn [fold_left]. rewrite IHx. destruct (String.eqb (h_name x) nm); [apply set_f_get_i|reflexivity]. }
  rewrite <- (G (p_pars p) hp). generalize (fold_left (fun h x => if String.eqb (h_name x) nm then set_f h x FValue v else h) (p_pars p) hp).
  induction (p_comps p) as [|c cs IHc]; intro h; [reflexivity|]. cbn [fold_left]. rewrite IHc. apply IH.
Qed.

(** The arrays of a tree whose parameters may be out of date. *)
Definition aligned (st : gstate) (ns : list snode) (k : nat) (m : fentry) : Prop :=
  kids_match ns (g_pdfs st) /\ placed (S k) (g_pdfs st) 0 0 k /\
  exists hp0, (forall g, get_i hp0 g = get_i (g_heap st) g) /\ g_arr st = push_fun (extend no_arrays (flat (S k) hp0 (g_pdfs st) k)) m.
Lemma match_kids_match : forall ns ps, match_all ns ps -> kids_match ns ps.
Proof.
  intros ns ps [ML M]. unfold kids_match. apply nth_error_ext. intro i. rewrite !nth_error_map. destruct (nth_error ns i) as [n|] eqn:En.
  - destruct (M i n En) as (_ & p & Ep & Hc & _). rewrite Ep. cbn. now rewrite Hc.
  - assert (X : nth_error ps i = None) by (apply nth_error_None; apply nth_error_None in En; lia). now rewrite X.
Qed.

Lemma enc_obs_idx : forall n hp hp' ps id, (forall g, get_i hp g = get_i hp' g) ->
  enc_obs (flat n hp ps id) = enc_obs (flat n hp' ps id) /\ enc_fun (flat n hp ps id) = enc_fun (flat n hp' ps id) /\
  enc_con (flat n hp ps id) = enc_con (flat n hp' ps id) /\ enc_nor (flat n hp ps id) = enc_nor (flat n hp' ps id).
Proof.
  intros n hp hp' ps id H. revert id. induction n as [|n IH]; intro id; [repeat split|]. cbn [flat]. destruct (nth_error ps id) as [p|]; [|repeat split].
  assert (G : forall ks, enc_obs (flat_map (flat n hp ps) ks) = enc_obs (flat_map (flat n hp' ps) ks) /\
     enc_fun (flat_map (flat n hp ps) ks) = enc_fun (flat_map (flat n hp' ps) ks) /\
     enc_con (flat_map (flat n hp ps) ks) = enc_con (flat_map (flat n hp' ps) ks) /\ enc_nor (flat_map (flat n hp ps) ks) = enc_nor (flat_map (flat n hp' ps) ks)).
  { induction ks as [|k ks (I1 & I2 & I3 & I4)]; [repeat split|]. cbn [flat_map]. destruct (IH k) as (J1 & J2 & J3 & J4).
    unfold enc_obs, enc_fun, enc_con, enc_nor in *. rewrite !flat_map_app, !map_app. rewrite I1, I2, I3, I4, J1, J2, J3, J4. repeat split. }
  destruct (G (p_comps p)) as (G1 & G2 & G3 & G4).
  assert (IX : idxs hp (p_obs p) = idxs hp' (p_obs p)) by (unfold idxs; apply map_ext; intro; now rewrite H).
  unfold enc_obs, enc_fun, enc_con, enc_nor in *. cbn [flat_map map block_of b_obs b_kind b_cons b_norm]. rewrite G1, G2, G3, G4, IX. repeat split.
Qed.

(** Steps that a fit performs between flattenings: read anything, set floating point members of variables, refresh,
    store normalisations of the PDFs of the tree. *)
Lemma quiet_step : forall ns k m st o, NoDup (tree_ids ns k) -> quiet ns k o -> aligned st ns k m -> ginv st ns ->
  aligned (fst (gstep st o)) ns k m /\ note st o (snd (gstep st o)) ns = ns.
Proof.
  intros ns k m st o ND Q AL GI. pose proof AL as (K & PL & hp0 & HI & HA). destruct o; cbn [quiet] in Q; try contradiction.
  - (* GVar *)
    destruct o; try contradiction; cbn [gstep vstep note].
    + destruct v; try contradiction. destruct (nth_error (g_hs st) h) as [hd|]; [|now split]. destruct (set_field (g_heap st) hd f (CF x)) as [hp'|] eqn:E; [|now split].
      cbn [fst snd note]. split; [|reflexivity]. split; [exact K|]. split; [exact PL|]. exists hp0. split; [|exact HA]. intro g. cbn [g_heap].
      rewrite (get_i_CF _ _ _ _ _ g E). apply HI.
    + destruct (nth_error (g_hs st) h) as [hd|]; [|now split]. destruct (get_field (g_heap st) hd f); now split.
    + destruct (nth_error (g_hs st) a), (nth_error (g_hs st) b); now split.
    + destruct (nth_error (g_hs st) a) as [ha|], (nth_error (g_hs st) b) as [hb|]; try now split. destruct (h_ext ha); destruct (h_ext hb); now split.
    + destruct (nth_error (g_hs st) h); now split.
    + destruct (nth_error (g_hs st) h) as [hd|]; [|now split]. destruct (h_ext hd); now split.
  - (* GCopyParams *)
    subst id. cbn [gstep]. destruct (Nat.ltb k (len (g_pdfs st))); [|now split].
    pose proof (updateParameters_ok (S k) hp0 (g_heap st) (g_pdfs st) k [] [] 0 PL) as U. cbn [app] in U. rewrite !app_nil_r in U.
    assert (EP : a_par (g_arr st) = enc_par (flat (S k) hp0 (g_pdfs st) k)) by (rewrite HA; reflexivity). rewrite EP, U. cbn [fst snd note].
    split; [|reflexivity]. split; [exact K|]. split; [exact PL|]. exists (g_heap st). split; [reflexivity|]. cbn [g_arr g_pdfs]. rewrite HA.
    destruct (enc_obs_idx (S k) hp0 (g_heap st) (g_pdfs st) k HI) as (E1 & E2 & E3 & E4). unfold push_fun, extend, no_arrays. cbn [a_fun a_par a_con a_obs a_nor app].
    now rewrite E1, E2, E3, E4.
  - (* GUpdateVariable *)
    cbn [gstep]. destruct (Nat.ltb id (len (g_pdfs st)) && is_var (g_hs st) v); [|now split]. cbn [fst snd note]. split; [|reflexivity].
    split; [exact K|]. split; [exact PL|]. exists hp0. split; [|exact HA]. intro g. cbn [g_heap]. rewrite updateVariable_get_i. apply HI.
  - (* GSetNormalization *)
    cbn [gstep]. destruct (nth_error (g_pdfs st) id) as [p|] eqn:Ep; [|now split]. destruct (Nat.ltb (p_ni p + 1) (len (a_nor (g_arr st)))); [|now split].
    cbn [fst snd note]. split; [|reflexivity].
    assert (L : map lens (g_pdfs st) = map lens (upd (g_pdfs st) id (with_norm p x))) by (symmetry; eapply map_upd_same; [exact Ep|reflexivity]).
    split; [eapply lens_kids; [exact L|exact K]|]. cbn [g_pdfs g_heap g_arr]. split.
    { eapply placed_ext; [exact K|exact L| |exact PL]. intros j _. unfold place_of. destruct (Nat.eq_dec j id) as [->|Hj].
      - rewrite nth_error_upd_same by (eapply nth_error_Some_lt; eauto). now rewrite Ep.
      - now rewrite nth_error_upd_other by congruence. }
    exists hp0. split; [exact HI|]. rewrite HA. unfold push_fun, extend, no_arrays. cbn [a_fun a_par a_con a_obs a_nor app].
    pose proof (set_norm_ok ns (S k) hp0 (g_pdfs st) k id p x [] [] 0 K Ep ND Q PL) as U. cbn [app] in U. rewrite !app_nil_r in U. rewrite U.
    assert (FE : forall n i, map b_kind (flat n hp0 (upd (g_pdfs st) id (with_norm p x)) i) = map b_kind (flat n hp0 (g_pdfs st) i) /\
                 map b_pars (flat n hp0 (upd (g_pdfs st) id (with_norm p x)) i) = map b_pars (flat n hp0 (g_pdfs st) i) /\
                 map b_cons (flat n hp0 (upd (g_pdfs st) id (with_norm p x)) i) = map b_cons (flat n hp0 (g_pdfs st) i) /\
                 map b_obs (flat n hp0 (upd (g_pdfs st) id (with_norm p x)) i) = map b_obs (flat n hp0 (g_pdfs st) i)).
    { induction n as [|n IHn]; intro i; [repeat split|]. cbn [flat].
      assert (X : exists q q', nth_error (g_pdfs st) i = Some q /\ nth_error (upd (g_pdfs st) id (with_norm p x)) i = Some q' /\ shape q' = shape q
                  \/ nth_error (g_pdfs st) i = None /\ nth_error (upd (g_pdfs st) id (with_norm p x)) i = None).
      { destruct (Nat.eq_dec i id) as [->|Hi].
        - exists p, (with_norm p x). left. rewrite nth_error_upd_same by (eapply nth_error_Some_lt; eauto). repeat split. exact Ep.
        - rewrite nth_error_upd_other by congruence. destruct (nth_error (g_pdfs st) i) as [q|]; [exists q, q; left; repeat split|exists p, p; right; now split]. }
      destruct X as (q & q' & [(E1 & E2 & S1)|(E1 & E2)]); rewrite E1, E2; [|repeat split]. unfold shape in S1. injection S1 as S1 S2 S3 S4 S5.
      cbn [map block_of b_kind b_pars b_cons b_obs]. rewrite S1, S2, S3, S4, S5.
      assert (G : forall ks, map b_kind (flat_map (flat n hp0 (upd (g_pdfs st) id (with_norm p x))) ks) = map b_kind (flat_map (flat n hp0 (g_pdfs st)) ks) /\
                 map b_pars (flat_map (flat n hp0 (upd (g_pdfs st) id (with_norm p x))) ks) = map b_pars (flat_map (flat n hp0 (g_pdfs st)) ks) /\
                 map b_cons (flat_map (flat n hp0 (upd (g_pdfs st) id (with_norm p x))) ks) = map b_cons (flat_map (flat n hp0 (g_pdfs st)) ks) /\
                 map b_obs (flat_map (flat n hp0 (upd (g_pdfs st) id (with_norm p x))) ks) = map b_obs (flat_map (flat n hp0 (g_pdfs st)) ks)).
      { induction ks as [|c ks (I1 & I2 & I3 & I4)]; [repeat split|]. cbn [flat_map]. rewrite !map_app. destruct (IHn c) as (J1 & J2 & J3 & J4).
        rewrite I1, I2, I3, I4, J1, J2, J3, J4. repeat split. }
      destruct (G (p_comps q)) as (G1 & G2 & G3 & G4). rewrite G1, G2, G3, G4. repeat split. }
    destruct (FE (S k) k) as (F1 & F2 & F3 & F4).
    assert (C1 : forall (B : list block), enc_fun B = map FPdf (map b_kind B)) by (intro; unfold enc_fun; now rewrite map_map).
    assert (C2 : forall (B : list block), enc_par B = flat_map pref (map b_pars B)).
    { intro B. unfold enc_par. induction B as [|b B IHB]; [reflexivity|]. cbn. now rewrite IHB. }
    assert (C3 : forall (B : list block), enc_con B = flat_map pref (map b_cons B)).
    { intro B. unfold enc_con. induction B as [|b B IHB]; [reflexivity|]. cbn. now rewrite IHB. }
    assert (C4 : forall (B : list block), enc_obs B = flat_map pref (map b_obs B)).
    { intro B. unfold enc_obs. induction B as [|b B IHB]; [reflexivity|]. cbn. now rewrite IHB. }
    rewrite !C1, !C2, !C3, !C4, F1, F2, F3, F4. reflexivity.
  - (* GSetFineness *)
    cbn [gstep]. destruct (Nat.ltb id (len (g_pdfs st))); [|now split]. cbn [fst snd note]. split; [|reflexivity]. cbn [g_pdfs].
    set (ps' := set_pdf (g_pdfs st) id _).
    assert (L : map lens (g_pdfs st) = map lens ps') by (symmetry; apply map_set_pdf; reflexivity).
    assert (S1 : sim (g_pdfs st) ps') by (unfold sim; symmetry; apply map_set_pdf; reflexivity).
    split; [eapply lens_kids; [exact L|exact K]|]. cbn [g_pdfs g_heap g_arr]. split.
    { eapply placed_ext; [exact K|exact L| |exact PL]. intros j _. apply place_set_ranges. reflexivity. }
    exists hp0. split; [exact HI|]. now rewrite <- (flat_sim _ _ _ _ _ S1).
  - cbn [gstep]. destruct (Nat.ltb id (len (g_pdfs st))); [|now split]. cbn [fst snd note]. split; [|reflexivity]. cbn [g_pdfs].
    set (ps' := set_pdf (g_pdfs st) id _).
    assert (L : map lens (g_pdfs st) = map lens ps') by (symmetry; apply map_set_pdf; reflexivity).
    assert (S1 : sim (g_pdfs st) ps') by (unfold sim; symmetry; apply map_set_pdf; reflexivity).
    split; [eapply lens_kids; [exact L|exact K]|]. cbn [g_pdfs g_heap g_arr]. split.
    { eapply placed_ext; [exact K|exact L| |exact PL]. intros j _. apply place_set_ranges. reflexivity. }
    exists hp0. split; [exact HI|]. now rewrite <- (flat_sim _ _ _ _ _ S1).
  - cbn [gstep]. destruct (Nat.ltb id (len (g_pdfs st))); [|now split]. cbn [fst snd note]. split; [|reflexivity]. cbn [g_pdfs].
    set (ps' := set_pdf (g_pdfs st) id _).
    assert (L : map lens (g_pdfs st) = map lens ps') by (symmetry; apply map_set_pdf; reflexivity).
    assert (S1 : sim (g_pdfs st) ps') by (unfold sim; symmetry; apply map_set_pdf; reflexivity).
    split; [eapply lens_kids; [exact L|exact K]|]. cbn [g_pdfs g_heap g_arr]. split.
    { eapply placed_ext; [exact K|exact L| |exact PL]. intros j _. apply place_set_ranges. reflexivity. }
    exists hp0. split; [exact HI|]. now rewrite <- (flat_sim _ _ _ _ _ S1).
  - cbn [gstep]. destruct (Nat.ltb id (len (g_pdfs st))); now split.
  - cbn [gstep]. destruct (Nat.ltb id (len (g_pdfs st))); now split.
Qed.

Lemma fit_step : forall ns k st o, quiet ns k o -> option_map p_fit (nth_error (g_pdfs (fst (gstep st o))) k) = option_map p_fit (nth_error (g_pdfs st) k).
Proof.
  intros ns k st o Q. assert (G : forall ps ps', map p_fit ps' = map p_fit ps -> option_map p_fit (nth_error ps' k) = option_map p_fit (nth_error ps k)).
  { intros ps ps' H. rewrite <- !nth_error_map. now rewrite H. }
  destruct o; cbn [quiet] in Q; try contradiction; cbn [gstep].
  - destruct (vstep (g_heap st, g_hs st) o) as [[? ?] ?]. reflexivity.
  - destruct (Nat.ltb id (len (g_pdfs st))); [|reflexivity]. destruct (updateParameters (S id) (g_heap st) (g_pdfs st) (a_par (g_arr st)) id). reflexivity.
  - destruct (Nat.ltb id (len (g_pdfs st)) && is_var (g_hs st) v); reflexivity.
  - destruct (nth_error (g_pdfs st) id) as [p|] eqn:Ep; [|reflexivity]. destruct (Nat.ltb (p_ni p + 1) (len (a_nor (g_arr st)))); [|reflexivity].
    apply G. eapply map_upd_same; [exact Ep|reflexivity].
  - destruct (Nat.ltb id (len (g_pdfs st))); [|reflexivity]. apply G. apply map_set_pdf. reflexivity.
  - destruct (Nat.ltb id (len (g_pdfs st))); [|reflexivity]. apply G. apply map_set_pdf. reflexivity.
  - destruct (Nat.ltb id (len (g_pdfs st))); [|reflexivity]. apply G. apply map_set_pdf. reflexivity.
  - destruct (Nat.ltb id (len (g_pdfs st))); reflexivity.
  - destruct (Nat.ltb id (len (g_pdfs st))); reflexivity.
Qed.

Lemma quiet_run : forall ns k m qs st, NoDup (tree_ids ns k) -> Forall (quiet ns k) qs -> aligned st ns k m -> ginv st ns ->
  snd (history st ns qs) = ns /\ aligned (fst (history st ns qs)) ns k m /\ ginv (fst (history st ns qs)) ns /\
  option_map p_fit (nth_error (g_pdfs (fst (history st ns qs))) k) = option_map p_fit (nth_error (g_pdfs st) k).
Proof.
  intros ns k m qs. induction qs as [|q qs IH]; intros st ND Q AL GI; [exact (conj eq_refl (conj AL (conj GI eq_refl)))|]. inversion Q; subst. cbn [history].
  destruct (quiet_step ns k m st q ND H1 AL GI) as [AL' NE]. pose proof (ginv_step st ns q GI) as GI'. pose proof (fit_step ns k st q H1) as FS.
  destruct (gstep st q) as [st' out] eqn:EG. cbn [fst snd] in *. rewrite NE in *. destruct (IH st' ND H2 AL' GI') as (I1 & I2 & I3 & I4).
  exact (conj I1 (conj I2 (conj I3 (eq_trans I4 FS)))).
Qed.

Lemma refresh_equals_rebuild : forall ops k qs st ns, after (ops ++ GSetIndices k :: qs) = (st, ns) -> k < len ns ->
  NoDup (tree_ids ns k) -> Forall (quiet ns k) qs ->
  snd (gstep st (GCopyParams k)) = GDone /\ g_arr (fst (gstep st (GCopyParams k))) = g_arr (fst (gstep st (GSetIndices k))).
Proof.
  intros ops k qs st ns E Hk ND Q.
  change (ops ++ GSetIndices k :: qs) with (ops ++ [GSetIndices k] ++ qs) in E. rewrite app_assoc in E. unfold after in E. rewrite history_app in E.
  destruct (history ginit [] (ops ++ [GSetIndices k])) as [st1 ns1] eqn:E1. cbn [fst snd] in E.
  assert (NS : ns1 = ns).
  { (* the nodes only change by quiet steps, which do not change them *)
    revert E. clear - Q. revert st1 ns1. induction qs as [|q qs IH]; intros st1 ns1 E; [now injection E|]. inversion Q; subst. cbn [history] in E.
    destruct (gstep st1 q) as [st2 out] eqn:EG. specialize (IH H2 _ _ E). rewrite <- IH.
    destruct q; cbn [quiet] in H1; try contradiction; try reflexivity; destruct out; reflexivity. }
  subst ns1. destruct (g_after_setIndices ops k st1 ns E1 Hk) as (st0 & _ & I0 & I1 & EH & HS & EA).
  assert (Hp : exists p, nth_error (g_pdfs st0) k = Some p).
  { destruct I0 as (_ & [ML _] & _). destruct (nth_error (g_pdfs st0) k) eqn:N; [eauto|]. apply nth_error_None in N. lia. }
  destruct Hp as [p Ep]. destruct (setIndices_ok (g_heap st0) (g_pdfs st0) (g_arr st0) k p Ep) as (fc & p' & EA2 & Ep' & EF & EFC).
  rewrite <- EA in EA2, Ep'. cbn [fst snd] in EA2, Ep'.
  assert (K0 : kids_match ns (g_pdfs st0)) by (apply match_kids_match; apply I0).
  assert (AL : aligned st1 ns k (FMetric (getMetric fc))).
  { split; [apply match_kids_match; apply I1|]. split.
    - apply (f_equal fst) in EA. cbn [fst] in EA. rewrite EA. unfold setIndices. rewrite Ep.
      assert (FC : forall ps x, kids_match ns ps -> placed (S k) (fst (setIndices_fc (g_heap st0) ps k x)) 0 0 k).
      { intros ps x Kp. unfold setIndices_fc. destruct (rsi_placed ns (S k) (g_heap st0) ps no_arrays k Kp ND) as [RP _].
        destruct (recursiveSetIndices (S k) (g_heap st0) ps no_arrays k) as [ps' A']. exact RP. }
      destruct (p_fit p); [now apply FC|].
      pose proof (sfc_map lens (fun _ _ _ _ _ _ => eq_refl) (fun _ _ => eq_refl) (fun _ _ => eq_refl) (S k) (g_heap st0) (g_pdfs st0) (g_arr st0) k UnbinnedNllFit) as X.
      destruct (setFitControl (S k) (g_heap st0) (g_pdfs st0) (g_arr st0) k UnbinnedNllFit) as [ps1 A1]. apply FC. eapply lens_kids; [symmetry; exact X|exact K0].
    - exists (g_heap st1). split; [reflexivity|]. rewrite EA2, EH. now rewrite (flat_sim _ _ _ _ _ HS). }
  destruct (quiet_run ns k _ qs st1 ND Q AL I1) as (_ & AL2 & GI2 & FIT). rewrite E in *. cbn [fst] in *.
  destruct AL2 as (K2 & PL2 & hp0 & HI2 & HA2).
  assert (ML : len ns = len (g_pdfs st)) by apply GI2. cbn [gstep]. replace (Nat.ltb k (len (g_pdfs st))) with true by (symmetry; apply Nat.ltb_lt; lia).
  pose proof (updateParameters_ok (S k) hp0 (g_heap st) (g_pdfs st) k [] [] 0 PL2) as U. cbn [app] in U. rewrite !app_nil_r in U.
  assert (EP : a_par (g_arr st) = enc_par (flat (S k) hp0 (g_pdfs st) k)) by (rewrite HA2; reflexivity). rewrite EP, U. cbn [fst snd g_arr].
  split; [reflexivity|]. destruct (nth_error (g_pdfs st) k) as [q|] eqn:Eq; [|apply nth_error_None in Eq; lia].
  destruct (setIndices_ok (g_heap st) (g_pdfs st) (g_arr st) k q Eq) as (fc' & q' & EA' & _ & _ & EFC').
  destruct (setIndices (g_heap st) (g_pdfs st) (g_arr st) k) as [psx Ax]. cbn [fst snd g_arr] in *. rewrite EA'.
  rewrite Ep' in FIT. cbn in FIT. injection FIT as FIT. rewrite FIT, EF in EFC'. subst fc'. rewrite HA2.
  destruct (enc_obs_idx (S k) hp0 (g_heap st) (g_pdfs st) k HI2) as (E2 & E3 & E4 & E5). unfold push_fun, extend, no_arrays. cbn [a_fun a_par a_con a_obs a_nor app].
  now rewrite E2, E3, E4, E5.
Qed.
