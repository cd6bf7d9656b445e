(** normalize() on a flattened tree. *)
From Coq Require Import List ZArith String Bool Lia Reals Lra.
From Flocq Require Import BinarySingleNaN Core.
From Verif Require Import F64 F64Lemmas F64Err ListAux VariableModel BinModel LeafFormulas DeviceModel PdfModel PdfSpec
  FlatProofs EvalProofs HostProofs PdfProofs PdfProofs2 PdfProofs3 NormModel NormSpec.
Import ListNotations.
Local Open Scope nat_scope.
Local Notation len := List.length.

(** ** Numbers *)
Lemma fmul_one_l : forall x, fmul fone x = x.
Proof.
  intro x. assert (F1 : is_finite fone = true) by (vm_compute; reflexivity).
  assert (R1 : B2R fone = 1%R) by (unfold fone; apply (f_of_Z_exact 1); lia).
  assert (S1 : Bsign fone = false) by (vm_compute; reflexivity).
  destruct x as [s|s| |s m e B].
  - destruct s; apply fsame_eq; vm_compute; reflexivity.
  - destruct s; apply fsame_eq; vm_compute; reflexivity.
  - apply fsame_eq; vm_compute; reflexivity.
  - set (x := B754_finite s m e B). pose proof (Bmult_correct 53 1024 f64_prec_gt f64_prec_lt mode_NE fone x) as E.
    rewrite R1, Rmult_1_l in E. cbv zeta in E. change (SpecFloat.fexp 53 1024) with (SpecFloat.fexp 53 1024) in E.
    assert (RX : round radix2 (SpecFloat.fexp 53 1024) (round_mode mode_NE) (B2R x) = B2R x) by apply rnd_B2R.
    rewrite RX in E. rewrite Rlt_bool_true in E by apply abs_B2R_lt_emax. destruct E as (E1 & E2 & E3).
    apply B2R_Bsign_inj.
    + unfold fmul. rewrite E2, F1. reflexivity.
    + reflexivity.
    + exact E1.
    + unfold fmul. rewrite E3.
      * rewrite S1. now destruct (Bsign x).
      * destruct (@Bmult 53 1024 f64_prec_gt f64_prec_lt mode_NE fone x); try reflexivity. rewrite F1 in E2. discriminate.
Qed.

Lemma fhalf_R : B2R fhalf = (/ 2)%R.
Proof.
  assert (X : fsame fhalf (B754_finite false 4503599627370496 (-53) (eq_refl : SpecFloat.bounded 53 1024 4503599627370496 (-53) = true)) = true) by (vm_compute; reflexivity).
  apply fsame_eq in X. rewrite X. cbn. unfold F2R. cbn. lra.
Qed.
Lemma half_format : forall z, (0 <= z < 2 ^ 31)%Z -> generic_format radix2 (SpecFloat.fexp 53 1024) (IZR z + / 2).
Proof.
  intros z Hz. change (SpecFloat.fexp 53 1024) with (FLT_exp (-1074) 53). apply generic_format_FLT.
  exists (Float radix2 (2 * z + 1) (-1)); cbn [Fnum Fexp].
  - unfold F2R. cbn [Fnum Fexp bpow Z.pow_pos]. rewrite plus_IZR, mult_IZR. change (IZR (Z.pow_pos radix2 1)) with 2%R. lra.
  - change (Zpower radix2 53) with (2 ^ 53)%Z. lia.
  - lia.
Qed.
Lemma fadd_half : forall z, (0 <= z < 2 ^ 31)%Z -> is_finite (fadd (f_of_Z z) fhalf) = true /\ B2R (fadd (f_of_Z z) fhalf) = (IZR z + / 2)%R.
Proof.
  intros z Hz. destruct (f_of_Z_exact z ltac:(lia)) as [E F].
  destruct (fadd_rnd (f_of_Z z) fhalf F) as [A B].
  - vm_compute; reflexivity.
  - rewrite E, fhalf_R. assert (0 <= IZR z)%R by (apply IZR_le; lia). rewrite Rabs_right by lra.
    assert (IZR z <= IZR (2 ^ 31))%R by (apply IZR_le; lia).
    apply Rle_trans with (IZR (2 ^ 31 + 1)); [rewrite plus_IZR; lra|]. apply Rle_trans with (bpow radix2 32); [|apply bpow_le; lia].
    change (bpow radix2 32) with (IZR (2 ^ 32)). apply IZR_le. lia.
  - split; [exact A|]. rewrite B, E, fhalf_R. apply rnd_format. now apply half_format.
Qed.
Lemma floor_half : forall z, (0 <= z < 2 ^ 31)%Z -> floor_int (fadd (f_of_Z z) fhalf) = Some z.
Proof.
  intros z Hz. destruct (fadd_half z Hz) as [F E]. unfold floor_int. change (f_isfinite ?x) with (is_finite x). rewrite F. cbv zeta.
  assert (X : ffloorZ (fadd (f_of_Z z) fhalf) = z).
  { rewrite ffloorZ_spec, E. apply Zfloor_imp. rewrite plus_IZR. lra. }
  rewrite X. replace ((-2147483648 <=? z)%Z && (z <=? 2147483647)%Z) with true; [reflexivity|].
  symmetry. apply andb_true_intro. split; apply Z.leb_le; lia.
Qed.

(** ** Where a PDF of the tree stands in the arrays *)
Lemma enc_nor_len : forall bs, len (enc_nor bs) = 2 * len bs.
Proof. induction bs as [|b bs IH]; [reflexivity|]. cbn [enc_nor flat_map app len]. fold (enc_nor bs). rewrite IH. lia. Qed.
Lemma adv_par : forall bs c, c_par (adv c bs) = c_par c + len (enc_par bs).
Proof.
  unfold adv. induction bs as [|b bs IH]; intro c; cbn [fold_left]; [cbn; lia|]. rewrite IH. change (enc_par (b :: bs)) with (pref (b_pars b) ++ enc_par bs).
  rewrite app_length. unfold pref. cbn [len]. unfold adv1, incrementIndex5. cbn [c_par]. lia.
Qed.

Section Split.
Variables (ns : list snode) (ps : pdfs) (hp : heap).
Hypothesis MA : match_all ns ps.
Lemma placed_split : forall n id pos posn j p, id < n -> In j (subtree n ns id) -> nth_error ps j = Some p -> placed n ps pos posn id ->
  exists pre post, flat n hp ps id = pre ++ flat (S j) hp ps j ++ post /\ p_pi p = pos + len (enc_par pre) /\ p_ni p = posn + len (enc_nor pre).
Proof.
  induction n as [|n IH]; intros id pos posn j p Hid Hj Ep PL; [lia|]. pose proof (match_kids_match _ _ MA) as K.
  destruct (Nat.eq_dec j id) as [->|Hne].
  { exists [], []. cbn [app]. rewrite app_nil_r. split; [now apply flat_fuel with (ns := ns)|]. cbn [placed] in PL. rewrite Ep in PL. cbn. lia. }
  cbn [placed flat subtree] in *. destruct (nth_error ns id) as [nd|] eqn:En; [|destruct Hj]. destruct Hj as [Hj|Hj]; [congruence|].
  destruct MA as [_ M]. destruct (M id nd En) as (HK & q & Eq & Hc & _). rewrite Eq in *. destruct PL as (_ & _ & PL). rewrite Hc in *.
  assert (G : forall ks a b, (forall x, In x ks -> x < id) -> In j (flat_map (subtree n ns) ks) -> placed_list (placed n ps) (psize n ps) (nsize n ps) a b ks ->
    exists pre post, flat_map (flat n hp ps) ks = pre ++ flat (S j) hp ps j ++ post /\ p_pi p = a + len (enc_par pre) /\ p_ni p = b + len (enc_nor pre)).
  { induction ks as [|k ks IHk]; intros a b Hlt Hin PLk; [destruct Hin|]. cbn [flat_map placed_list] in *. destruct PLk as [P1 P2].
    apply in_app_or in Hin. destruct Hin as [Hin|Hin].
    - destruct (IH k a b j p) as (pre & post & E1 & E2 & E3); try assumption; [specialize (Hlt k (or_introl eq_refl)); lia|].
      exists pre, (post ++ flat_map (flat n hp ps) ks). rewrite E1, <- !app_assoc. auto.
    - destruct (IHk (a + psize n ps k) (b + nsize n ps k)) as (pre & post & E1 & E2 & E3); try assumption; [intros; apply Hlt; now right|].
      exists (flat n hp ps k ++ pre), post. rewrite E1, <- app_assoc, enc_par_app, enc_nor_app, !app_length, <- psize_ok, <- nsize_ok. repeat split; lia. }
  destruct (G (kids_of nd) (pos + 1 + len (p_pars q)) (posn + 2)) as (pre & post & E1 & E2 & E3); try assumption.
  { intros x Hx. eapply Forall_forall in HK; eauto. }
  exists (block_of hp q :: pre), post. rewrite E1. split; [reflexivity|].
  change (enc_par (block_of hp q :: pre)) with (pref (vals hp (p_pars q)) ++ enc_par pre). change (enc_nor (block_of hp q :: pre)) with ([fone; p_norm q] ++ enc_nor pre).
  rewrite !app_length. unfold pref. cbn [len]. rewrite vals_length. split; lia.
Qed.
End Split.

(** ** The state while normalize() runs *)
Definition skel (p : pdf) : pdf := with_norm p fone.
Definition norms_of (ps : pdfs) (i : nat) : f64 := match nth_error ps i with Some p => p_norm p | None => fone end.
Lemma skel_fields : forall p q, skel p = skel q ->
  p_kind p = p_kind q /\ p_pars p = p_pars q /\ p_cons p = p_cons q /\ p_obs p = p_obs q /\ p_comps p = p_comps q /\ p_fit p = p_fit q /\
  p_ranges p = p_ranges q /\ p_bins p = p_bins q /\ p_fi p = p_fi q /\ p_pi p = p_pi q /\ p_ni p = p_ni q /\ p_overlap p = p_overlap q /\ p_common p = p_common q.
Proof. intros p q H. repeat split; match goal with |- ?f p = ?f q => exact (f_equal f H) end. Qed.

Section Run.
Variables (L : libm) (red : list f64 -> f64) (hp : heap) (ns : list snode) (k : nat) (m : fentry) (ps0 : pdfs).
Hypothesis MA : match_all ns ps0.
Hypothesis CL : closed ps0.
Hypothesis KL : k < len ns.
Hypothesis PL : placed (S k) ps0 0 0 k.
Hypothesis ND : NoDup (tree_ids ns k).
Notation tree := (tree_ids ns k).
Hypothesis TIED : forall j p, In j tree -> nth_error ps0 j = Some p -> p_ni p = 2 * p_fi p /\ p_ranges p = normRange hp p.
Hypothesis DENS : forall j p, In j tree -> nth_error ps0 j = Some p -> (exists fc, p_fit p = Some fc /\ metricIsPdf fc = true) /\ p_common p = false.
Definition fo (i : nat) : option handle := hd_error (obs_of ps0 i).
Hypothesis TREE : small (len tree) /\
  Forall (fun i => sizes_ok ps0 i /\ match nth_error ns i with Some n => node_ok hp fo n | None => True end) tree.

Definition inv (s : nstate) : Prop :=
  map skel (fst s) = map skel ps0 /\ snd s = push_fun (extend no_arrays (flat (S k) hp (fst s) k)) m.
Lemma inv_nth : forall s j p, inv s -> nth_error (fst s) j = Some p -> exists p0, nth_error ps0 j = Some p0 /\ skel p = skel p0.
Proof.
  intros s j p [H _] E. apply (map_nth_error skel) in E. rewrite H in E. apply nth_error_map_iff in E. destruct E as (q & E & X). exists q. now split.
Qed.
Lemma inv_nth0 : forall s j p0, inv s -> nth_error ps0 j = Some p0 -> exists p, nth_error (fst s) j = Some p /\ skel p = skel p0.
Proof.
  intros s j p [H _] E. apply (map_nth_error skel) in E. rewrite <- H in E. apply nth_error_map_iff in E. destruct E as (q & E & X). exists q. now split.
Qed.
Lemma inv_lens : forall s, inv s -> map lens (fst s) = map lens ps0.
Proof.
  intros s [H _]. apply (f_equal (map lens)) in H. rewrite !map_map in H. exact H.
Qed.
Lemma inv_match : forall s, inv s -> match_all ns (fst s).
Proof.
  intros s I. destruct MA as [ML M]. split.
  - destruct I as [H _]. apply (f_equal (@len _)) in H. rewrite !map_length in H. lia.
  - intros i n E. destruct (M i n E) as (K & p & Ep & NM). split; [exact K|]. destruct (inv_nth0 s i p I Ep) as (q & Eq & X).
    apply skel_fields in X. exists q. split; [exact Eq|]. eapply node_match_shape; [..|exact NM]; apply X.
Qed.
Lemma inv_placed : forall s, inv s -> placed (S k) (fst s) 0 0 k.
Proof.
  intros s I. eapply placed_ext; [apply match_kids_match; exact MA|symmetry; apply inv_lens; exact I| |exact PL].
  intros j _. unfold place_of. destruct (nth_error (fst s) j) as [p|] eqn:E.
  - destruct (inv_nth s j p I E) as (q & Eq & X). rewrite Eq. apply skel_fields in X. cbn. unfold places. f_equal. f_equal; apply X.
  - assert (X : nth_error ps0 j = None). { apply nth_error_None in E. apply nth_error_None. destruct I as [H _]. apply (f_equal (@len _)) in H. rewrite !map_length in H. lia. }
    now rewrite X.
Qed.
Lemma in_tree_pdf : forall j, In j tree -> exists n p0, nth_error ns j = Some n /\ nth_error ps0 j = Some p0 /\ node_match ns n p0 /\ j <= k.
Proof.
  intros j Hj. destruct (in_tree _ _ _ _ Hj) as [n En]. destruct MA as [_ M]. destruct (M j n En) as (_ & p & Ep & NM). exists n, p. repeat split; try assumption.
  - apply NM. - apply NM.
  - assert (G : forall f id, In j (subtree f ns id) -> j <= id).
    { induction f as [|f IH]; intros id H; [destruct H|]. cbn [subtree] in H. destruct (nth_error ns id) as [nd|] eqn:E; [|destruct H]. destruct H as [->|H]; [lia|].
      apply in_flat_map in H. destruct H as (x & Hx & H). apply IH in H. destruct (M id nd E) as (K & _). eapply Forall_forall in K; eauto. lia. }
    eapply G; exact Hj.
Qed.

(** Position of a PDF of the tree. *)
Lemma at_node : forall s j p, inv s -> In j tree -> nth_error (fst s) j = Some p ->
  exists pre post c, flat (S k) hp (fst s) k = pre ++ flat (S j) hp (fst s) j ++ post /\ c = adv cur0 pre /\
    stand (snd s) c (flat (S j) hp (fst s) j) /\ skip (snd s) cur0 (p_fi p) = DOk c /\ p_pi p = c_par c /\ p_ni p = len (enc_nor pre).
Proof.
  intros s j p I Hj Ep. destruct (placed_split ns (fst s) hp (inv_match s I) (S k) k 0 0 j p) as (pre & post & E1 & E2 & E3); [lia|exact Hj|exact Ep|now apply inv_placed|].
  exists pre, post, (adv cur0 pre). split; [exact E1|]. split; [reflexivity|].
  assert (SR : stand (snd s) cur0 (flat (S k) hp (fst s) k)) by (destruct I as [_ ->]; apply stand_root).
  rewrite E1 in SR. apply stand_app in SR. destruct SR as [S1 S2]. apply stand_app in S2. destruct S2 as [S2 _]. split; [exact S2|]. split.
  - destruct (inv_nth s j p I Ep) as (p0 & Ep0 & X). apply skel_fields in X. destruct (TIED j p0 Hj Ep0) as [T _].
    assert (p_fi p = len pre). { rewrite enc_nor_len in E3. destruct X as (_ & _ & _ & _ & _ & _ & _ & _ & X1 & _ & X2 & _). lia. }
    rewrite H. apply skip_blocks; [exact S1|]. apply Forall_forall. intros b Hb.
    destruct (subtree_in (S k) ns (fst s) k hp (inv_match s I) b) as (i & q & Hi & Eq & ->); [rewrite E1; apply in_or_app; now left|].
    destruct (inv_nth s i q I Eq) as (q0 & Eq0 & Xq). apply skel_fields in Xq.
    destruct TREE as [_ TR]. eapply Forall_forall in TR; [|exact Hi]. destruct TR as [TR _]. unfold sizes_ok in TR. rewrite Eq0 in TR.
    eapply bsmall_in; [reflexivity|]. destruct Xq as (_ & -> & -> & -> & _). exact TR.
  - rewrite adv_par. cbn [c_par cur0]. split; lia.
Qed.

(** Storing a normalisation. *)
Lemma flat_norm_enc : forall ps j p x n i, nth_error ps j = Some p ->
  enc_fun (flat n hp (upd ps j (with_norm p x)) i) = enc_fun (flat n hp ps i) /\ enc_par (flat n hp (upd ps j (with_norm p x)) i) = enc_par (flat n hp ps i) /\
  enc_con (flat n hp (upd ps j (with_norm p x)) i) = enc_con (flat n hp ps i) /\ enc_obs (flat n hp (upd ps j (with_norm p x)) i) = enc_obs (flat n hp ps i).
Proof.
  intros ps j p x n. induction n as [|n IH]; intros i Ep; [repeat split|]. cbn [flat].
  assert (G : forall ks, enc_fun (flat_map (flat n hp (upd ps j (with_norm p x))) ks) = enc_fun (flat_map (flat n hp ps) ks) /\
     enc_par (flat_map (flat n hp (upd ps j (with_norm p x))) ks) = enc_par (flat_map (flat n hp ps) ks) /\
     enc_con (flat_map (flat n hp (upd ps j (with_norm p x))) ks) = enc_con (flat_map (flat n hp ps) ks) /\
     enc_obs (flat_map (flat n hp (upd ps j (with_norm p x))) ks) = enc_obs (flat_map (flat n hp ps) ks)).
  { induction ks as [|c ks (I1 & I2 & I3 & I4)]; [repeat split|]. cbn [flat_map]. destruct (IH c Ep) as (J1 & J2 & J3 & J4).
    unfold enc_fun, enc_par, enc_con, enc_obs in *. rewrite !flat_map_app, !map_app, I1, I2, I3, I4, J1, J2, J3, J4. repeat split. }
  destruct (Nat.eq_dec i j) as [->|Hi].
  - rewrite nth_error_upd_same by (eapply nth_error_Some_lt; eauto). rewrite Ep. cbn [p_comps with_norm]. destruct (G (p_comps p)) as (G1 & G2 & G3 & G4).
    unfold enc_fun, enc_par, enc_con, enc_obs in *. cbn [map flat_map]. rewrite G1, G2, G3, G4. repeat split.
  - rewrite nth_error_upd_other by congruence. destruct (nth_error ps i) as [q|]; [|repeat split]. destruct (G (p_comps q)) as (G1 & G2 & G3 & G4).
    unfold enc_fun, enc_par, enc_con, enc_obs in *. cbn [map flat_map]. rewrite G1, G2, G3, G4. repeat split.
Qed.
Lemma norms_upd : forall ps j p x i, nth_error ps j = Some p -> norms_of (upd ps j (with_norm p x)) i = if Nat.eqb i j then x else norms_of ps i.
Proof.
  intros ps j p x i E. unfold norms_of. destruct (Nat.eqb_spec i j) as [->|Hi].
  - rewrite nth_error_upd_same by (eapply nth_error_Some_lt; eauto). reflexivity.
  - now rewrite nth_error_upd_other by congruence.
Qed.
Lemma put_ok : forall b s j x, inv s -> In j tree ->
  exists s', put_norm b s j x = NOk s' /\ inv s' /\ forall i, norms_of (fst s') i = if Nat.eqb i j then x else norms_of (fst s) i.
Proof.
  intros b s j x I Hj. destruct (in_tree_pdf j Hj) as (n & p0 & En & Ep0 & _ & _). destruct (inv_nth0 s j p0 I Ep0) as (p & Ep & X).
  destruct (at_node s j p I Hj Ep) as (pre & post & c & E1 & _ & _ & _ & _ & E2).
  assert (LT : p_ni p + 1 < len (a_nor (snd s))).
  { destruct I as [_ ->]. unfold push_fun, extend, no_arrays. cbn [a_nor app]. rewrite E1, !enc_nor_app, !app_length, E2.
    assert (2 <= len (enc_nor (flat (S j) hp (fst s) j))); [|lia]. cbn [flat]. rewrite Ep. cbn. lia. }
  unfold put_norm. destruct s as [ps A]. cbn [fst snd] in *. rewrite Ep. replace (Nat.ltb (p_ni p + 1) (len (a_nor A))) with true by (symmetry; now apply Nat.ltb_lt).
  eexists. split; [reflexivity|]. split; [|cbn [fst]; intro; now apply norms_upd]. split; cbn [fst snd].
  - destruct I as [H _]. rewrite <- H. eapply map_upd_same; [exact Ep|reflexivity].
  - pose proof (set_norm_ok ns (S k) hp ps k j p x [] [] 0 (match_kids_match _ _ (inv_match _ I)) Ep ND Hj (inv_placed _ I)) as U. cbn [app] in U. rewrite !app_nil_r in U.
    destruct (flat_norm_enc ps j p x (S k) k Ep) as (F1 & F2 & F3 & F4).
    destruct I as [_ EA]. cbn [snd fst] in EA. rewrite EA. unfold push_fun, extend, no_arrays. cbn [a_fun a_par a_con a_obs a_nor app]. now rewrite U, F1, F2, F3, F4.
Qed.

(** ** The cells *)
Definition nbins (i : nat) (x : handle) : Z := match nth_error ps0 i with Some p => bins_of hp p x | None => 1%Z end.
Definition lap (i : nat) : bool := match nth_error ps0 i with Some p => p_overlap p | None => false end.
Lemma u64_id : forall z, (0 <= z < 2 ^ 64)%Z -> u64 z = z.
Proof. intros z H. unfold u64. now apply Z.mod_small. Qed.
Lemma i32_id : forall z, (0 <= z < 2 ^ 31)%Z -> i32 z = z.
Proof. intros z H. unfold i32. rewrite Z.mod_small by lia. lia. Qed.
Lemma first_ok : forall s, inv s -> forall i p o, nth_error (fst s) i = Some p -> fo i = Some o -> nth_error (p_obs p) 0 = Some o /\ wfh o.
Proof.
  intros s I i p o E F. destruct (inv_nth s i p I E) as (p0 & E0 & X). apply skel_fields in X. destruct X as (_ & _ & _ & XO & _).
  unfold fo, obs_of in F. rewrite E0 in F. rewrite XO. destruct (p_obs p0) as [|a l] eqn:EO; [discriminate|]. injection F as <-. split; [reflexivity|].
  destruct (CL i p0 E0) as (_ & W & _). rewrite EO in W. now inversion W.
Qed.
Lemma below_in : forall j i, In j tree -> In i (subtree (S j) ns j) -> In i tree.
Proof.
  intros j i Hj. assert (G : forall f id, id < f -> In j (subtree f ns id) -> In i (subtree (S j) ns j) -> In i (subtree f ns id)).
  { induction f as [|f IH]; intros id Hf H Hi; [destruct H|]. destruct (Nat.eq_dec j id) as [->|Hne].
    - now rewrite (subtree_fuel ns ps0 MA (S f) id Hf).
    - cbn [subtree] in *. destruct (nth_error ns id) as [nd|] eqn:E; [|destruct H]. destruct H as [H|H]; [congruence|]. right.
      apply in_flat_map in H. destruct H as (x & Hx & H). apply in_flat_map. exists x. split; [exact Hx|]. apply IH; try assumption.
      pose proof (kids_lt ns ps0 MA id nd E x Hx). lia. }
  apply G; [lia|exact Hj].
Qed.
Lemma tree_len_le : forall j, In j tree -> len (subtree (S j) ns j) <= len tree.
Proof.
  intros j Hj. apply NoDup_incl_length; [|intros i Hi; now apply below_in with j].
  assert (G : forall f id, id < f -> In j (subtree f ns id) -> NoDup (subtree f ns id) -> NoDup (subtree (S j) ns j)).
  { induction f as [|f IH]; intros id Hf H N; [destruct H|]. destruct (Nat.eq_dec j id) as [->|Hne].
    - now rewrite <- (subtree_fuel ns ps0 MA (S f) id Hf).
    - cbn [subtree] in H, N. destruct (nth_error ns id) as [nd|] eqn:E; [|destruct H]. destruct H as [H|H]; [congruence|].
      apply in_flat_map in H. destruct H as (x & Hx & H). apply (IH x); [pose proof (kids_lt ns ps0 MA id nd E x Hx); lia|exact H|].
      inversion N as [|a l _ N']. subst a l. clear - Hx N'. induction (kids_of nd) as [|a l IHl]; [destruct Hx|]. cbn [flat_map] in N'.
      apply NoDup_app_split in N'. destruct N' as (N1 & N2 & _). destruct Hx as [->|Hx]; [exact N1|]. now apply IHl. }
  apply (G (S k) k); [lia|exact Hj|exact ND].
Qed.

Lemma grid_value_ok : forall s j p x b v, inv s -> In j tree -> nth_error (fst s) j = Some p -> p_obs p = [x] ->
  (0 <= get_i hp x < 10)%Z -> (0 < nbins j x < 2 ^ 31)%Z -> (Z.of_nat b < nbins j x)%Z ->
  value L hp (norms_of (fst s)) fo (S j) ns (at_point x (centre (get_f hp x FLower) (get_f hp x FUpper) (nbins j x) b)) j = Some v ->
  grid_value L (S (len (fst s))) (snd s) p (Z.of_nat b) = DOk v.
Proof.
  intros s j p x b v I Hj Ep Ox Hi Hn Hb HV. destruct (at_node s j p I Hj Ep) as (pre & post & c & E1 & Ec & ST & SK & _).
  unfold grid_value. rewrite SK. cbn [dbind].
  destruct (inv_nth s j p I Ep) as (p0 & Ep0 & X). apply skel_fields in X. destruct X as (_ & _ & _ & XO & _ & _ & XR & XB & _).
  assert (FB : exists t, flat (S j) hp (fst s) j = block_of hp p :: t) by (cbn [flat]; rewrite Ep; eauto). destruct FB as [t FB].
  assert (ST1 : stand (snd s) c [block_of hp p]) by (rewrite FB in ST; apply stand_cons in ST; apply ST).
  rewrite (rd_obs _ _ _ ST1 0 (f_of_Z (get_i hp x))) by (unfold block_of; cbn [b_obs]; now rewrite Ox). cbn [dbind].
  rewrite to_index_Z by lia. cbn [dbind].
  destruct (TIED j p0 Hj Ep0) as [_ TR]. rewrite XR, TR. unfold normRange. rewrite <- XO, Ox. cbn [map grid_event].
  assert (EN : (if Z.ltb 0 (p_bins p0) then p_bins p0 else get_n hp x FNumBins) = nbins j x) by (unfold nbins; now rewrite Ep0).
  rewrite EN, floor_half by lia. cbn [of_option dbind]. replace (Z.eqb (nbins j x) 0) with false by (symmetry; apply Z.eqb_neq; lia).
  rewrite repeat_length. replace (Nat.ltb (Z.to_nat (get_i hp x)) 10) with true by (symmetry; apply Nat.ltb_lt; lia). cbn [dbind].
  rewrite Z.rem_small by lia. fold (f_of_nat b). fold (centre (get_f hp x FLower) (get_f hp x FUpper) (nbins j x) b).
  assert (Wx : wfh x). { destruct (CL j p0 Ep0) as (_ & W & _). rewrite <- XO, Ox in W. now inversion W. }
  assert (LB : len (flat (S j) hp (fst s) j) = len (subtree (S j) ns j)) by (apply flat_length; now apply inv_match).
  assert (JL : j < len (fst s)) by (eapply nth_error_Some_lt; eauto).
  rewrite (eval_correct L (snd s) hp ns (fst s) (inv_match s I) (norms_of (fst s)) fo) with (f := S j) (id := j) (v := v)
    (en := at_point x (centre (get_f hp x FLower) (get_f hp x FUpper) (nbins j x) b)); [reflexivity|..].
  - intros i q E. unfold norms_of. now rewrite E.
  - now apply first_ok.
  - lia.
  - lia.
  - exact ST.
  - apply Forall_forall. intros bb Hbb. destruct (subtree_in (S j) ns (fst s) j hp (inv_match s I) bb Hbb) as (i & q & Hi' & Eq & ->).
    destruct (inv_nth s i q I Eq) as (q0 & Eq0 & Xq). apply skel_fields in Xq. destruct TREE as [_ TT]. eapply Forall_forall in TT; [|eapply below_in; [exact Hj|exact Hi']].
    destruct TT as [TT _]. unfold sizes_ok in TT. rewrite Eq0 in TT. eapply bsmall_in; [reflexivity|]. destruct Xq as (_ & -> & -> & -> & _). exact TT.
  - destruct TREE as [T1 _]. unfold small in *. pose proof (tree_len_le j Hj). lia.
  - apply Forall_forall. intros i Hi'. destruct TREE as [_ TT]. eapply Forall_forall in TT; [|eapply below_in; [exact Hj|exact Hi']]. apply TT.
  - intros h w Wh Eh. unfold at_point in Eh. destruct (handle_eqb h x) eqn:EH; [|discriminate].
    assert (EW : w = centre (get_f hp x FLower) (get_f hp x FUpper) (nbins j x) b) by congruence. rewrite EW. now apply event_fake.
  - exact HV.
Qed.

Lemma grid_sum_ok : forall s j p x vs, inv s -> In j tree -> nth_error (fst s) j = Some p -> p_obs p = [x] ->
  (0 <= get_i hp x < 10)%Z -> (0 < nbins j x < 2 ^ 31)%Z -> cells L hp ns fo nbins (norms_of (fst s)) j x = Some vs ->
  grid_size hp p = nbins j x /\ reduce_with_bins L red hp s p = NOk (red vs) /\ grid_volume hp p = fsub (get_f hp x FUpper) (get_f hp x FLower).
Proof.
  intros s j p x vs I Hj Ep Ox Hi Hn HV.
  assert (GS : grid_size hp p = nbins j x).
  { unfold grid_size. rewrite Ox. cbn [fold_left]. destruct (inv_nth s j p I Ep) as (p0 & Ep0 & X). apply skel_fields in X.
    assert (EB : bins_of hp p x = nbins j x) by (unfold nbins, bins_of; rewrite Ep0; now destruct X as (_ & _ & _ & _ & _ & _ & _ & -> & _)).
    rewrite EB, Z.mul_1_l, u64_id by lia. apply i32_id. lia. }
  split; [exact GS|]. split.
  - unfold reduce_with_bins. rewrite GS. replace (Z.ltb (nbins j x) 0) with false by (symmetry; apply Z.ltb_ge; lia).
    erewrite dmap_ok; [reflexivity| |exact HV]. cbn beta. intros b v Hb Hv. apply in_seq in Hb. eapply grid_value_ok; try eassumption. lia.
  - unfold grid_volume. rewrite Ox. cbn [fold_left]. apply fmul_one_l.
Qed.

(** ** GooPdf::normalize *)
Lemma par_at : forall s j p, inv s -> In j tree -> nth_error (fst s) j = Some p ->
  nth_error (a_par (snd s)) (p_pi p) = Some (f_of_nat (len (p_pars p))) /\
  forall i h, nth_error (p_pars p) i = Some h -> nth_error (a_par (snd s)) (p_pi p + (i + 1)) = Some (get_f hp h FValue).
Proof.
  intros s j p I Hj Ep. destruct (at_node s j p I Hj Ep) as (pre & post & c & E1 & Ec & ST & _ & EP & _).
  assert (FB : exists t, flat (S j) hp (fst s) j = block_of hp p :: t) by (cbn [flat]; rewrite Ep; eauto). destruct FB as [t FB].
  assert (ST1 : stand (snd s) c [block_of hp p]) by (rewrite FB in ST; apply stand_cons in ST; apply ST).
  rewrite EP. split.
  - destruct ST1 as (_ & P & _). pose proof (part_nth _ _ _ 0 (f_of_nat (len (p_pars p))) P) as X. rewrite Nat.add_0_r in X. apply X.
    change (Some (f_of_nat (len (vals hp (p_pars p)))) = Some (f_of_nat (len (p_pars p)))). now rewrite vals_length.
  - intros i h E. pose proof (rd_par _ _ _ ST1 i (get_f hp h FValue)) as X. unfold getParameter, rd in X.
    replace (c_par c + (i + 1)) with (c_par c + i + 1) by lia. destruct (nth_error (a_par (snd s)) (c_par c + i + 1)) as [w|].
    + assert (Y : DOk w = DOk (get_f hp h FValue)); [apply X|congruence]. unfold block_of. cbn [b_pars]. unfold vals. now apply map_nth_error with (f := fun h => get_f hp h FValue).
    + exfalso. assert (Y : @DUB f64 = DOk (get_f hp h FValue)); [apply X|discriminate]. unfold block_of. cbn [b_pars]. unfold vals. now apply map_nth_error with (f := fun h => get_f hp h FValue).
Qed.
Lemma feq_one : forall n, small n -> feq fone (f_of_nat n) = Nat.eqb 1 n.
Proof.
  intros n H. unfold small in H. destruct (f_of_Z_exact (Z.of_nat n) ltac:(lia)) as [E F]. destruct (f_of_Z_exact 1 ltac:(lia)) as [E1 F1].
  unfold f_of_nat. fold fone in E1, F1. destruct (Nat.eqb_spec 1 n) as [<-|Hn].
  - apply feq_R; [exact F1|exact F1|reflexivity].
  - destruct (feq fone (f_of_Z (Z.of_nat n))) eqn:EQ; [|reflexivity]. apply feq_R in EQ; try assumption. rewrite E, E1 in EQ. apply eq_IZR in EQ. lia.
Qed.

Notation INT := (integrable L hp ns fo (obs_of ps0) nbins).
Notation INTEGRAL := (integral L red hp ns fo (obs_of ps0) nbins).
Notation GRID := (grid_integral L red hp ns fo (obs_of ps0) nbins).
Notation NOINT := (no_integral L red hp ns fo (obs_of ps0) nbins).

Lemma grid_norm_ok : forall s j p (G : Prop), inv s -> In j tree -> nth_error (fst s) j = Some p -> INT j ->
  let r := (let ret := fdiv (fmul fone (grid_volume hp p)) (f_of_Z (u64 (grid_size hp p))) in
      sum <~ reduce_with_bins L red hp s p ;;
      if f_isnan sum then NThrow
      else if fle sum fzero then NThrow
      else let ret := fmul ret sum in
           if feq fzero ret then NThrow
           else s' <~ put_norm true s j (fdiv fone ret) ;; NOk (ret, s')) in
  (r = NThrow /\ NOINT (norms_of (fst s)) j) \/
  exists V s', r = NOk (V, s') /\ inv s' /\ GRID (norms_of (fst s)) j V /\ forall i, norms_of (fst s') i = if Nat.eqb i j then fdiv fone V else norms_of (fst s) i.
Proof.
  intros s j p G I Hj Ep (x & Ox & Hi & Hn & HC) r. destruct (HC (norms_of (fst s))) as [vs Evs].
  destruct (inv_nth s j p I Ep) as (p0 & Ep0 & X). apply skel_fields in X. destruct X as (_ & _ & _ & XO & _).
  assert (Opx : p_obs p = [x]) by (unfold obs_of in Ox; rewrite Ep0 in Ox; congruence).
  destruct (grid_sum_ok s j p x vs I Hj Ep Opx Hi Hn Evs) as (GS & RB & GV).
  subst r. cbv zeta. rewrite RB, GS, GV, fmul_one_l, u64_id by lia. cbn [nbind].
  set (V := fmul (fdiv (fsub (get_f hp x FUpper) (get_f hp x FLower)) (f_of_Z (nbins j x))) (red vs)).
  assert (GI : GRID (norms_of (fst s)) j V) by (exists x, vs; repeat split; assumption).
  destruct (f_isnan (red vs)) eqn:C1; [left; split; [reflexivity|exists x, vs, V; tauto]|].
  destruct (fle (red vs) fzero) eqn:C2; [left; split; [reflexivity|exists x, vs, V; tauto]|].
  destruct (feq fzero V) eqn:C3; [left; split; [reflexivity|exists x, vs, V; tauto]|].
  destruct (put_ok true s j (fdiv fone V) I Hj) as (s' & -> & I' & N). cbn [nbind]. right. exists V, s'. auto.
Qed.

Lemma default_ok : forall s j, inv s -> In j tree -> INT j ->
  (default_normalize L red hp s j = NThrow /\ NOINT (norms_of (fst s)) j) \/
  exists V s', default_normalize L red hp s j = NOk (V, s') /\ inv s' /\ INTEGRAL (norms_of (fst s)) j V /\
    forall i, norms_of (fst s') i = if Nat.eqb i j then fdiv fone V else norms_of (fst s) i.
Proof.
  intros s j I Hj HI. destruct (in_tree_pdf j Hj) as (n & p0 & En & Ep0 & NM & _). destruct (inv_nth0 s j p0 I Ep0) as (p & Ep & X).
  apply skel_fields in X. destruct X as (XK & XP & XC & XO & _ & XF & _).
  unfold default_normalize. rewrite Ep. cbn [of_opt nbind]. destruct (DENS j p0 Hj Ep0) as [(fc & EF & EM) _]. rewrite XF, EF. cbn [of_opt nbind]. rewrite EM. cbn [negb].
  destruct (par_at s j p I Hj Ep) as [PC PV].
  pose proof HI as (x & Ox & Hi & Hn & HC). assert (Opx : p_obs p = [x]) by (unfold obs_of in Ox; rewrite Ep0 in Ox; congruence).
  pose proof (grid_norm_ok s j p True I Hj Ep HI) as GN. cbv zeta in GN.
  assert (NUM : hasAnalyticIntegral p (snd s) = NOk false ->
     (match n with SLeaf l _ => leaf_integral L hp l (get_f hp x FLower) (get_f hp x FUpper) = None | _ => True end) ->
     (default_normalize L red hp s j = NThrow /\ NOINT (norms_of (fst s)) j) \/
     exists V s', default_normalize L red hp s j = NOk (V, s') /\ inv s' /\ INTEGRAL (norms_of (fst s)) j V /\
       forall i, norms_of (fst s') i = if Nat.eqb i j then fdiv fone V else norms_of (fst s) i).
  { intros HA HL. unfold default_normalize. rewrite Ep. cbn [of_opt nbind]. rewrite XF, EF. cbn [of_opt nbind]. rewrite EM. cbn [negb]. rewrite HA. cbn [nbind].
    destruct GN as [GN|(V & s' & GN & I' & GI & N)]; [now left|]. right. exists V, s'. split; [exact GN|]. split; [exact I'|]. split; [|exact N].
    unfold integral. rewrite En, Ox. destruct n; try exact GI. now rewrite HL. }
  assert (ANA : forall V, hasAnalyticIntegral p (snd s) = NOk true -> integrate L hp p (snd s) (get_f hp x FLower) (get_f hp x FUpper) = NOk V ->
     (match n with SLeaf l _ => leaf_integral L hp l (get_f hp x FLower) (get_f hp x FUpper) = Some V | _ => False end) ->
     (default_normalize L red hp s j = NThrow /\ NOINT (norms_of (fst s)) j) \/
     exists V s', default_normalize L red hp s j = NOk (V, s') /\ inv s' /\ INTEGRAL (norms_of (fst s)) j V /\
       forall i, norms_of (fst s') i = if Nat.eqb i j then fdiv fone V else norms_of (fst s) i).
  { intros V HA HV HL. unfold default_normalize. rewrite Ep. cbn [of_opt nbind]. rewrite XF, EF. cbn [of_opt nbind]. rewrite EM. cbn [negb]. rewrite HA. cbn [nbind].
    rewrite Opx. cbn [fold_left nbind]. rewrite HV. cbn [nbind]. rewrite fmul_one_l.
    destruct (put_ok true s j (fdiv fone V) I Hj) as (s' & -> & I' & N). cbn [nbind]. right. exists V, s'. split; [reflexivity|]. split; [exact I'|]. split; [|exact N].
    unfold integral. rewrite En, Ox. destruct n; try contradiction. now rewrite HL. }
  clear GN.
  pose proof TREE as [_ TT]. eapply Forall_forall in TT; [|exact Hj]. rewrite En in TT. destruct TT as [TS TN]. unfold sizes_ok in TS. rewrite Ep0 in TS. destruct TS as (TS & _).
  rewrite XP in PC, PV. destruct NM as [_ NM]. rewrite <- XK, <- XP, <- XC in NM.
  replace (nbind (hasAnalyticIntegral p (snd s)) _) with (default_normalize L red hp s j).
  2:{ unfold default_normalize. rewrite Ep. cbn [of_opt nbind]. rewrite XF, EF. cbn [of_opt nbind]. rewrite EM. reflexivity. }
  destruct n as [l hp0|ws ks|ks|ws ks|mm ts|core shell].
  2-6: apply NUM; [|exact Logic.I]; unfold hasAnalyticIntegral; destruct NM as (K & _); rewrite K; try reflexivity; destruct (Nat.ltb _ _); reflexivity.
  destruct NM as (K & P & C & _). rewrite XP in P.
  assert (EXPF : forall kd, p_kind p = kd -> (kd = KExp \/ kd = KExpOffset \/ kd = KExpPoly \/ kd = KExpPolyOffset) ->
     hasAnalyticIntegral p (snd s) = NOk (Nat.eqb 1 (len (p_pars p0)))).
  { intros kd EK Hk. unfold hasAnalyticIntegral. rewrite EK, PC. cbn [of_opt nbind]. rewrite feq_one by exact TS. destruct Hk as [->|[->|[->| ->]]]; reflexivity. }
  destruct l as [x1 m0 slope upper power| | | | | | | |x1 alpha|x1 alpha off|x1 ws|x1 ws off|x1 mean sigma|x1 mean sigma gamma delta| | | | | | | |x1 x0 up|x1 th tc lc upper|x1 y th tc lc ma upper| | | |];
    cbn [leaf_kind] in K; cbn [leaf_pars] in P;
    try (apply NUM; [unfold hasAnalyticIntegral; rewrite K; try reflexivity; destruct upper; reflexivity|reflexivity]).
  - (* Exp *)
    apply (ANA (exp_integral L (val hp alpha) (get_f hp x FLower) (get_f hp x FUpper))); [rewrite (EXPF KExp K) by auto; now rewrite P| |reflexivity].
    unfold integrate. rewrite K. pose proof (PV 0 alpha ltac:(now rewrite P)) as Y. change (0 + 1) with 1 in Y. rewrite Y. reflexivity.
  - apply NUM; [rewrite (EXPF KExpOffset K) by auto; now rewrite P|reflexivity].
  - destruct ws as [|w [|w2 ws]].
    + apply NUM; [rewrite (EXPF KExpPoly K) by auto; now rewrite P|reflexivity].
    + apply (ANA (exp_integral L (val hp w) (get_f hp x FLower) (get_f hp x FUpper))); [rewrite (EXPF KExpPoly K) by auto; now rewrite P| |reflexivity].
      unfold integrate. rewrite K. pose proof (PV 0 w ltac:(now rewrite P)) as Y. change (0 + 1) with 1 in Y. rewrite Y. reflexivity.
    + apply NUM; [rewrite (EXPF KExpPoly K) by auto; now rewrite P|reflexivity].
  - destruct ws as [|w ws].
    + apply (ANA (exp_integral L (val hp off) (get_f hp x FLower) (get_f hp x FUpper))); [rewrite (EXPF KExpPolyOffset K) by auto; now rewrite P| |reflexivity].
      unfold integrate. rewrite K. pose proof (PV 0 off ltac:(now rewrite P)) as Y. change (0 + 1) with 1 in Y. rewrite Y. reflexivity.
    + apply NUM; [rewrite (EXPF KExpPolyOffset K) by auto; now rewrite P|reflexivity].
  - apply (ANA (gauss_integral L (val hp sigma))); [unfold hasAnalyticIntegral; now rewrite K| |reflexivity].
    unfold integrate. rewrite K. pose proof (PV 1 sigma ltac:(now rewrite P)) as Y. change (1 + 1) with 2 in Y. rewrite Y. reflexivity.
  - apply (ANA fone); [unfold hasAnalyticIntegral; now rewrite K| |reflexivity]. unfold integrate. now rewrite K.
  - apply (ANA (step_integral (val hp x0) up (get_f hp x FLower) (get_f hp x FUpper))); [unfold hasAnalyticIntegral; now rewrite K| |reflexivity].
    unfold integrate. rewrite K, C, XP, P. cbn [leaf_cons hd_error of_opt nbind]. cbn [node_ok] in TN. destruct TN as [_ TN]. rewrite f2int_Z by exact TN. reflexivity.
Qed.

(** ** What the values and integrals depend on *)
Notation VALUE := (value L hp).
Lemma omap_ext_in : forall {T U} (f g : T -> option U) l, (forall a, In a l -> f a = g a) -> omap f l = omap g l.
Proof. intros T U f g l H. induction l as [|a l IH]; [reflexivity|]. cbn [omap]. rewrite H, IH; [reflexivity| |now left]. intros; apply H; now right. Qed.
Lemma value_norms : forall f n1 n2 en id, id < f -> (forall i, In i (subtree f ns id) -> i <> id -> n1 i = n2 i) ->
  VALUE n1 fo f ns en id = VALUE n2 fo f ns en id.
Proof.
  induction f as [|f IH]; intros n1 n2 en id Hf H; [reflexivity|]. cbn [value subtree] in *. destruct (nth_error ns id) as [nd|] eqn:En; [|reflexivity].
  assert (K : forall k, In k (kids_of nd) -> n1 k = n2 k /\ forall en, VALUE n1 fo f ns en k = VALUE n2 fo f ns en k).
  { intros q Hq. pose proof (kids_lt ns ps0 MA id nd En q Hq) as Hlt.
    assert (IN : forall i, In i (subtree f ns q) -> In i (flat_map (subtree f ns) (kids_of nd))) by (intros i Hi; apply in_flat_map; now exists q).
    split.
    - destruct f as [|f']; [lia|]. destruct (nth_error ns q) as [nk|] eqn:Ek.
      + apply H; [|lia]. right. apply IN. cbn [subtree]. rewrite Ek. now left.
      + exfalso. apply nth_error_None in Ek. apply nth_error_Some_lt in En. lia.
    - intro en'. apply IH; [lia|]. intros i Hi Hne. apply H; [right; now apply IN|].
      assert (G : forall g d, In i (subtree g ns d) -> i <= d).
      { induction g as [|g IHg]; intros d X; [destruct X|]. cbn [subtree] in X. destruct (nth_error ns d) as [dn|] eqn:Ed; [|destruct X]. destruct X as [->|X]; [lia|].
        apply in_flat_map in X. destruct X as (y & Hy & X). apply IHg in X. pose proof (kids_lt ns ps0 MA d dn Ed y Hy). lia. }
      apply G in Hi. lia. }
  assert (KK : forall e k, In k (kids_of nd) -> obind (VALUE n1 fo f ns e k) (fun v => Some (v, n1 k)) = obind (VALUE n2 fo f ns e k) (fun v => Some (v, n2 k))).
  { intros e q Hq. destruct (K q Hq) as [K1 K2]. now rewrite K1, K2. }
  destruct nd as [l hp0|ws ks|ks|ws ks|mm ts|core shell]; cbn [kids_of] in *.
  - reflexivity.
  - now rewrite (omap_ext_in _ _ ks (fun k Hk => KK en k Hk)).
  - now rewrite (omap_ext_in _ _ ks (fun k Hk => KK en k Hk)).
  - now rewrite (omap_ext_in _ _ ks (fun k Hk => KK en k Hk)).
  - destruct (K mm (or_introl eq_refl)) as [_ ->]. destruct (VALUE n2 fo f ns en mm) as [mv|]; [|reflexivity]. cbn [obind].
    destruct (floor_int (fadd fhalf mv)) as [t|]; [|reflexivity]. cbn [obind]. destruct (Z.ltb t 0); [reflexivity|].
    destruct (nth_error ts (Z.to_nat t)) as [q|] eqn:Eq; [|reflexivity]. cbn [obind]. rewrite KK; [reflexivity|]. right. eapply nth_error_In; eauto.
  - destruct (K core (or_introl eq_refl)) as [_ ->]. destruct (VALUE n2 fo f ns en core) as [c|]; [|reflexivity]. cbn [obind].
    destruct (fo shell) as [o|]; [|reflexivity]. cbn [obind]. apply K. right. now left.
Qed.
Lemma cells_norms : forall n1 n2 id x, (forall i, In i (subtree (S id) ns id) -> i <> id -> n1 i = n2 i) ->
  cells L hp ns fo nbins n1 id x = cells L hp ns fo nbins n2 id x.
Proof. intros n1 n2 id x H. unfold cells. apply omap_ext_in. intros b _. apply value_norms; [lia|exact H]. Qed.
Lemma integral_norms : forall n1 n2 id V, (forall i, In i (subtree (S id) ns id) -> i <> id -> n1 i = n2 i) -> INTEGRAL n1 id V -> INTEGRAL n2 id V.
Proof.
  intros n1 n2 id V H HI.
  assert (G : GRID n1 id V -> GRID n2 id V) by (intros (x & vs & G1 & G2 & G3); exists x, vs; rewrite <- (cells_norms n1 n2 id x H); repeat split; assumption).
  unfold integral in *. destruct (nth_error ns id) as [[l hp0| | | | | ]|]; try (now apply G). destruct (obs_of ps0 id) as [|x [|y r]]; try (now apply G).
  destruct (leaf_integral L hp l (get_f hp x FLower) (get_f hp x FUpper)); [exact HI|now apply G].
Qed.

Notation UNIT := (unit_integral L red hp ns fo (obs_of ps0) nbins).
Notation NORMED := (normed L red hp ns fo (obs_of ps0) nbins lap).
Notation PARTS := (integrated ns lap).
Lemma sub_self : forall f id, id < f -> id < len ns -> In id (subtree f ns id).
Proof. intros f id Hf Hl. destruct f; [lia|]. cbn [subtree]. destruct (nth_error ns id) eqn:E; [now left|]. apply nth_error_None in E. lia. Qed.
Lemma kid_len : forall id nd k, nth_error ns id = Some nd -> In k (kids_of nd) -> k < id /\ k < len ns.
Proof. intros id nd k' E Hk. pose proof (kids_lt ns ps0 MA id nd E k' Hk). apply nth_error_Some_lt in E. lia. Qed.
Lemma unit_norms : forall n1 n2 id, id < len ns -> (forall i, In i (subtree (S id) ns id) -> n1 i = n2 i) -> UNIT n1 id -> UNIT n2 id.
Proof.
  intros n1 n2 id Hl H (V & HV & E). exists V. split; [eapply integral_norms; [|exact HV]; intros; now apply H|]. rewrite <- H; [exact E|]. apply sub_self; lia.
Qed.
Lemma normed_norms : forall f n1 n2 id, id < f -> (forall i, In i (subtree f ns id) -> n1 i = n2 i) -> NORMED f n1 id -> NORMED f n2 id.
Proof.
  induction f as [|f IH]; intros n1 n2 id Hf H HN; [exact HN|]. cbn [normed] in *. destruct (nth_error ns id) as [nd|] eqn:En; [|exact HN].
  assert (Hl : id < len ns) by (eapply nth_error_Some_lt; eauto).
  assert (H' : forall i, In i (subtree (S id) ns id) -> n1 i = n2 i) by (intros i Hi; apply H; rewrite (subtree_fuel ns ps0 MA (S f) id Hf); exact Hi).
  assert (Hid : n1 id = n2 id) by (apply H, sub_self; lia).
  cbn [subtree] in H. rewrite En in H.
  assert (K : forall k, In k (kids_of nd) -> NORMED f n1 k -> NORMED f n2 k).
  { intros k' Hk. apply IH; [pose proof (kid_len id nd k' En Hk); lia|]. intros i Hi. apply H. right. apply in_flat_map. now exists k'. }
  assert (KF : forall ks, (forall k, In k ks -> In k (kids_of nd)) -> Forall (NORMED f n1) ks -> Forall (NORMED f n2) ks).
  { intros ks Hs F. apply Forall_forall. intros k' Hk. apply K; [now apply Hs|]. eapply Forall_forall in F; eauto. }
  destruct nd as [l hp0|ws ks|ks|ws ks|mm ts|core shell]; cbn [kids_of] in *.
  - eapply unit_norms; eauto.
  - destruct HN as [N1 N2]. split; [congruence|]. apply KF; auto.
  - destruct (lap id).
    + destruct HN as [N1 N2]. split; [eapply unit_norms; eauto|]. apply Forall_forall. intros i Hi. rewrite <- H by (now right). eapply Forall_forall in N2; eauto.
    + destruct HN as [N1 N2]. split; [congruence|]. apply KF; auto.
  - destruct HN as [N1 N2]. split; [congruence|]. apply KF; auto.
  - destruct HN as [N1 N2]. split; [congruence|]. apply KF; [intros; now right|exact N2].
  - destruct HN as (N1 & N2 & N3). split; [eapply unit_norms; eauto|]. split; apply K; auto; cbn; auto.
Qed.

(** ** recursiveSetNormalization *)
Lemma sub_tree : forall f j i, In j tree -> j < f -> In i (subtree f ns j) -> In i tree.
Proof. intros f j i Hj Hf Hi. rewrite (subtree_fuel ns ps0 MA f j Hf) in Hi. eapply below_in; eauto. Qed.
Lemma kid_tree : forall j nd k', In j tree -> nth_error ns j = Some nd -> In k' (kids_of nd) -> In k' tree.
Proof.
  intros j nd k' Hj En Hk. apply (sub_tree (S j) j k' Hj); [lia|]. cbn [subtree]. rewrite En. right. apply in_flat_map. exists k'. split; [exact Hk|].
  apply sub_self; apply (kid_len j nd k' En Hk).
Qed.
Lemma inv_comps : forall s j p nd, inv s -> nth_error (fst s) j = Some p -> nth_error ns j = Some nd -> p_comps p = kids_of nd.
Proof.
  intros s j p nd I Ep En. destruct (inv_match s I) as [_ M]. destruct (M j nd En) as (_ & q & Eq & NM). assert (q = p) by congruence. subst q. apply NM.
Qed.
Lemma in_dec_nat : forall (i : nat) l, In i l \/ ~ In i l.
Proof. intros i l. destruct (in_dec Nat.eq_dec i l); auto. Qed.
Lemma set_norms_ok : forall f s j x, inv s -> In j tree -> j < f ->
  exists s', set_norms f s j x = NOk s' /\ inv s' /\ (forall i, In i (subtree f ns j) -> norms_of (fst s') i = x) /\
    (forall i, ~ In i (subtree f ns j) -> norms_of (fst s') i = norms_of (fst s) i).
Proof.
  induction f as [|f IH]; intros s j x I Hj Hf; [lia|]. destruct (in_tree_pdf j Hj) as (nd & p0 & En & Ep0 & _ & _).
  destruct (inv_nth0 s j p0 I Ep0) as (p & Ep & _). cbn [set_norms subtree]. rewrite Ep, En. cbn [of_opt nbind].
  destruct (put_ok true s j x I Hj) as (s1 & -> & I1 & N1). cbn [nbind]. rewrite (inv_comps s j p nd I Ep En).
  assert (G : forall ks s1, (forall k', In k' ks -> In k' (kids_of nd)) -> inv s1 ->
    exists s', fold_left (fun acc c => s' <~ acc ;; set_norms f s' c x) ks (NOk s1) = NOk s' /\ inv s' /\
      (forall i, In i (flat_map (subtree f ns) ks) -> norms_of (fst s') i = x) /\
      (forall i, ~ In i (flat_map (subtree f ns) ks) -> norms_of (fst s') i = norms_of (fst s1) i)).
  { induction ks as [|c ks IHk]; intros sA Hks IA; cbn [fold_left flat_map].
    - exists sA. repeat split; try apply IA. intros i [].
    - cbn [nbind]. assert (Hc : In c (kids_of nd)) by (apply Hks; now left). destruct (IH sA c x IA) as (s2 & -> & I2 & AA & BB).
      + eapply kid_tree; eauto.
      + pose proof (kid_len j nd c En Hc). lia.
      + destruct (IHk s2) as (s3 & E3 & I3 & A3 & B3); [intros; apply Hks; now right|exact I2|]. exists s3. split; [exact E3|]. split; [exact I3|]. split.
        * intros i Hi. destruct (in_dec_nat i (flat_map (subtree f ns) ks)) as [Y|Y]; [now apply A3|]. rewrite B3 by exact Y. apply AA.
          apply in_app_or in Hi. tauto.
        * intros i Hi. rewrite B3, BB; [reflexivity| |]; intro Y; apply Hi, in_or_app; tauto. }
  destruct (G (kids_of nd) s1) as (s' & E' & I' & A' & B'); [auto|exact I1|]. exists s'. split; [exact E'|]. split; [exact I'|]. split.
  - intros i Hi. destruct (in_dec_nat i (flat_map (subtree f ns) (kids_of nd))) as [Y|Y]; [now apply A'|]. rewrite B' by exact Y.
    destruct Hi as [<-|Hi]; [|contradiction]. rewrite N1, Nat.eqb_refl. reflexivity.
  - intros i Hi. rewrite B'; [|intro Y; apply Hi; now right]. rewrite N1. destruct (Nat.eqb_spec i j) as [->|_]; [exfalso; apply Hi; now left|reflexivity].
Qed.

(** ** The virtual normalize() *)
Hypothesis NES : no_empty_sum ns k.
Lemma nodup_sub : forall f j, In j tree -> j < f -> NoDup (subtree f ns j).
Proof.
  intros f j Hj Hf. rewrite (subtree_fuel ns ps0 MA f j Hf).
  assert (G : forall g id, id < g -> In j (subtree g ns id) -> NoDup (subtree g ns id) -> NoDup (subtree (S j) ns j)).
  { induction g as [|g IH]; intros id Hg H N; [destruct H|]. destruct (Nat.eq_dec j id) as [->|Hne].
    - now rewrite <- (subtree_fuel ns ps0 MA (S g) id Hg).
    - cbn [subtree] in H, N. destruct (nth_error ns id) as [nd|] eqn:E; [|destruct H]. destruct H as [H|H]; [congruence|].
      apply in_flat_map in H. destruct H as (x & Hx & H). apply (IH x); [pose proof (kids_lt ns ps0 MA id nd E x Hx); lia|exact H|].
      inversion N as [|a l _ N']. subst a l. clear - Hx N'. induction (kids_of nd) as [|a l IHl]; [destruct Hx|]. cbn [flat_map] in N'.
      apply NoDup_app_split in N'. destruct N' as (N1 & N2 & _). destruct Hx as [->|Hx]; [exact N1|]. now apply IHl. }
  apply (G (S k) k); [lia|exact Hj|exact ND].
Qed.

Section Loop.
Variables (n : nat) (N : nstate -> nat -> nres (f64 * nstate)).
Definition step_ok (q : nat) : Prop := forall s, inv s ->
  (N s q = NThrow /\ exists i nm, In i (PARTS n q) /\ NOINT nm i) \/
  exists r s', N s q = NOk (r, s') /\ inv s' /\ (forall i, ~ In i (subtree n ns q) -> norms_of (fst s') i = norms_of (fst s) i) /\ NORMED n (norms_of (fst s')) q.
Definition loop_ok (ks : list nat) (s : nstate) (r : nres (f64 * nstate)) : Prop :=
  (r = NThrow /\ exists i nm, In i (flat_map (PARTS n) ks) /\ NOINT nm i) \/
  exists v s', r = NOk (v, s') /\ inv s' /\ (forall i, ~ In i (flat_map (subtree n ns) ks) -> norms_of (fst s') i = norms_of (fst s) i) /\
    Forall (NORMED n (norms_of (fst s'))) ks.
Lemma loop_step : forall q ks s r K, step_ok q -> (forall x, In x (q :: ks) -> x < n) -> NoDup (flat_map (subtree n ns) (q :: ks)) -> inv s ->
  r = nbind (N s q) K -> (forall v s', inv s' -> loop_ok ks s' (K (v, s'))) -> loop_ok (q :: ks) s r.
Proof.
  intros q ks s r K SQ HL HD I -> HK. destruct (SQ s I) as [(E & i & nm & Hi & HN)|(v & s1 & E & I1 & F1 & N1)]; rewrite E; cbn [nbind].
  - left. split; [reflexivity|]. exists i, nm. split; [cbn [flat_map]; apply in_or_app; now left|exact HN].
  - destruct (HK v s1 I1) as [(E2 & i & nm & Hi & HN)|(w & s2 & E2 & I2 & F2 & N2)].
    + left. split; [exact E2|]. exists i, nm. split; [cbn [flat_map]; apply in_or_app; now right|exact HN].
    + right. exists w, s2. split; [exact E2|]. split; [exact I2|]. cbn [flat_map] in *. apply NoDup_app_split in HD. destruct HD as (_ & _ & HD). split.
      * intros i Hi. rewrite F2, F1; [reflexivity| |]; intro Y; apply Hi, in_or_app; tauto.
      * constructor; [|exact N2]. eapply normed_norms; [apply HL; now left| |exact N1]. intros i Hi. symmetry. apply F2. now apply HD.
Qed.
Lemma norm_all_ok : forall ks s acc, (forall q, In q ks -> step_ok q) -> (forall x, In x ks -> x < n) -> NoDup (flat_map (subtree n ns) ks) -> inv s ->
  loop_ok ks s (norm_all N s ks acc).
Proof.
  induction ks as [|q ks IH]; intros s acc SQ HL HD I.
  - right. exists acc, s. repeat split; try apply I. constructor.
  - cbn [norm_all]. eapply loop_step; [apply SQ; now left|exact HL|exact HD|exact I|reflexivity|]. intros v s' I'. cbn beta iota. apply IH; try exact I'.
    + intros; apply SQ; now right.
    + intros; apply HL; now right.
    + cbn [flat_map] in HD. apply NoDup_app_split in HD. apply HD.
Qed.
Lemma norm_add_ok : forall (ext : bool) ks (ws : list handle) s ret tot, (forall q, In q ks -> step_ok q) -> (forall x, In x ks -> x < n) -> NoDup (flat_map (subtree n ns) ks) -> inv s ->
  ks <> ([] : list nat) -> (if (ext : bool) then len ws = len ks else len ws + 1 = len ks) -> loop_ok ks s (norm_add hp N ext s ws ks ret tot).
Proof.
  intro ext. induction ks as [|q ks IH]; intros ws s ret tot SQ HL HD I HNE HW; [congruence|]. destruct ks as [|q2 ks].
  - cbn [norm_add]. eapply loop_step; [apply SQ; now left|exact HL|exact HD|exact I|reflexivity|]. intros v s' I'. cbn beta iota.
    destruct ext.
    + destruct ws as [|w ws]; [discriminate|]. cbn [hd_error of_opt nbind]. cbv zeta. right. eexists. exists s'. split; [reflexivity|]. repeat split; try apply I'. constructor.
    + right. eexists. exists s'. split; [reflexivity|]. repeat split; try apply I'. constructor.
  - set (ks2 := q2 :: ks) in *. assert (HW2 : exists w wt, ws = w :: wt).
    { destruct ws as [|w wt]; [|eauto]. exfalso. destruct ext; unfold ks2 in HW; cbn [len] in HW; lia. }
    destruct HW2 as (w & wt & ->). change (norm_add hp N ext s (w :: wt) (q :: ks2) ret tot) with
      (nbind (N s q) (fun x => match x with (curr, s') => norm_add hp N ext s' wt ks2 (fadd ret (fmul curr (get_f hp w FValue))) (fadd tot (get_f hp w FValue)) end)).
    eapply loop_step; [apply SQ; now left|exact HL|exact HD|exact I|reflexivity|]. intros v s' I'. cbn beta iota. apply IH; try exact I'.
    + intros; apply SQ; now right.
    + intros; apply HL; now right.
    + cbn [flat_map] in HD. apply NoDup_app_split in HD. apply HD.
    + unfold ks2; discriminate.
    + cbn [len] in HW |- *. destruct ext; lia.
Qed.
End Loop.

Lemma default_leaf : forall s j n, inv s -> In j tree -> j < n -> INT j ->
  (default_normalize L red hp s j = NThrow /\ NOINT (norms_of (fst s)) j) \/
  exists V s', default_normalize L red hp s j = NOk (V, s') /\ inv s' /\ INTEGRAL (norms_of (fst s')) j V /\ UNIT (norms_of (fst s')) j /\
    forall i, i <> j -> norms_of (fst s') i = norms_of (fst s) i.
Proof.
  intros s j n I Hj Hn HI. destruct (default_ok s j I Hj HI) as [D|(V & s' & E & I' & HV & HN)]; [now left|]. right. exists V, s'.
  assert (HV' : INTEGRAL (norms_of (fst s')) j V).
  { eapply integral_norms; [|exact HV]. intros i _ Hne. rewrite HN. replace (Nat.eqb i j) with false by (symmetry; now apply Nat.eqb_neq). reflexivity. }
  split; [exact E|]. split; [exact I'|]. split; [exact HV'|]. split.
  - exists V. split; [exact HV'|]. now rewrite HN, Nat.eqb_refl.
  - intros i Hne. rewrite HN. replace (Nat.eqb i j) with false by (symmetry; now apply Nat.eqb_neq). reflexivity.
Qed.

Lemma normalize_ok : forall n s id, id < n -> In id tree -> inv s -> (forall i, In i (PARTS n id) -> INT i) ->
  (normalize L red hp n s id = NThrow /\ exists i nm, In i (PARTS n id) /\ NOINT nm i) \/
  exists r s', normalize L red hp n s id = NOk (r, s') /\ inv s' /\
    (forall i, ~ In i (subtree n ns id) -> norms_of (fst s') i = norms_of (fst s) i) /\ NORMED n (norms_of (fst s')) id /\
    (In id (PARTS n id) -> INTEGRAL (norms_of (fst s')) id r).
Proof.
  induction n as [|n IH]; intros s id Hn Hid I HP; [lia|].
  destruct (in_tree_pdf id Hid) as (nd & p0 & En & Ep0 & NM & _). destruct (inv_nth0 s id p0 I Ep0) as (p & Ep & X). apply skel_fields in X.
  destruct X as (XK & XP & XC & XO & XM & _ & _ & _ & _ & _ & _ & XV & XCN). pose proof (inv_comps s id p nd I Ep En) as HC.
  destruct (DENS id p0 Hid Ep0) as [_ CN0]. assert (CN : p_common p = false) by congruence.
  assert (LAP : p_overlap p = lap id) by (unfold lap; rewrite Ep0; exact XV).
  assert (KID : forall q, In q (kids_of nd) -> In q tree /\ q < n) by (intros q Hq; split; [eapply kid_tree; eauto|pose proof (kid_len id nd q En Hq); lia]).
  assert (HND : NoDup (flat_map (subtree n ns) (kids_of nd)) /\ ~ In id (flat_map (subtree n ns) (kids_of nd))).
  { pose proof (nodup_sub (S n) id Hid Hn) as H. cbn [subtree] in H. rewrite En in H. inversion H. now split. }
  destruct HND as [HND HNI].
  cbn [normalize normed integrated subtree] in *. rewrite Ep, En in *. cbn [of_opt nbind].
  assert (STEP : forall q, In q (kids_of nd) -> (forall i, In i (PARTS n q) -> INT i) -> step_ok n (normalize L red hp n) q).
  { intros q Hq HPq s0 I0. destruct (KID q Hq) as [K1 K2]. destruct (IH s0 q K2 K1 I0 HPq) as [D|(r & s' & E & I' & F & NN & _)]; [now left|]. right. exists r, s'. auto. }
  destruct NM as [_ NM]. rewrite <- XK, <- XP in NM.
  (* a loop followed by storing 1 *)
  assert (FIN : forall ks loop fin b v', (forall q, In q ks -> In q (kids_of nd)) -> loop_ok n ks s loop ->
     (forall v s1, fin v s1 = (s2 <~ put_norm b s1 id fone ;; NOk (v' v, s2))) ->
     (forall i, In i (flat_map (PARTS n) ks) -> i < id) ->
     (nbind loop (fun x => match x with (v, s1) => fin v s1 end) = NThrow /\ exists i nm, In i (flat_map (PARTS n) ks) /\ NOINT nm i) \/
     exists r s', nbind loop (fun x => match x with (v, s1) => fin v s1 end) = NOk (r, s') /\ inv s' /\
       (forall i, ~ In i (id :: flat_map (subtree n ns) (kids_of nd)) -> norms_of (fst s') i = norms_of (fst s) i) /\
       (norms_of (fst s') id = fone /\ Forall (NORMED n (norms_of (fst s'))) ks) /\
       (In id (flat_map (PARTS n) ks) -> INTEGRAL (norms_of (fst s')) id r)).
  { intros ks loop fin b v' HK HLO HFIN HLT. destruct HLO as [(E & i & nm & Hi & HN)|(v & s1 & E & I1 & F1 & N1)]; rewrite E; cbn [nbind].
    - left. split; [reflexivity|]. exists i, nm. now split.
    - rewrite HFIN. destruct (put_ok b s1 id fone I1 Hid) as (s2 & -> & I2 & N2). cbn [nbind]. right. exists (v' v), s2. split; [reflexivity|]. split; [exact I2|]. split; [|split].
      + intros i Hi. rewrite N2. destruct (Nat.eqb_spec i id) as [->|_]; [exfalso; apply Hi; now left|]. apply F1. intro Y. apply Hi. right.
        apply in_flat_map in Y. destruct Y as (q & Hq & Y). apply in_flat_map. exists q. split; [now apply HK|exact Y].
      + split; [now rewrite N2, Nat.eqb_refl|]. apply Forall_forall. intros q Hq. destruct (KID q (HK q Hq)) as [_ K2].
        eapply normed_norms; [exact K2| |eapply Forall_forall in N1; eauto]. intros i Hi. rewrite N2. destruct (Nat.eqb_spec i id) as [->|_]; [|reflexivity].
        exfalso. apply HNI. apply in_flat_map. exists q. split; [now apply HK|exact Hi].
      + intro Y. apply HLT in Y. lia. }
  assert (PLT : forall f q i, In i (PARTS f q) -> i <= q).
  { induction f as [|f IHf]; intros q i Hi; [destruct Hi|]. cbn [integrated] in Hi. destruct (nth_error ns q) as [nq|] eqn:Eq; [|destruct Hi].
    assert (KK : forall ks, (forall y, In y ks -> In y (kids_of nq)) -> In i (flat_map (PARTS f) ks) -> i <= q).
    { intros ks Hks Y. apply in_flat_map in Y. destruct Y as (y & Hy & Y). apply IHf in Y. pose proof (kid_len q nq y Eq (Hks y Hy)). lia. }
    destruct nq as [l hp0|ws ks|ks|ws ks|mm ts|core shell]; cbn [kids_of] in KK.
    - destruct Hi as [->|[]]. lia.
    - apply (KK ks); auto.
    - destruct (lap q); [destruct Hi as [->|[]]; lia|]. apply (KK ks); auto.
    - apply (KK ks); auto.
    - apply (KK ts); [intros; now right|exact Hi].
    - destruct Hi as [->|Hi]; [lia|]. apply (KK [core; shell]); [auto|]. cbn [flat_map]. now rewrite app_nil_r. }
  assert (PLK : forall ks, (forall q, In q ks -> In q (kids_of nd)) -> forall i, In i (flat_map (PARTS n) ks) -> i < id).
  { intros ks Hks i Hi. apply in_flat_map in Hi. destruct Hi as (q & Hq & Hi). apply PLT in Hi. pose proof (kid_len id nd q En (Hks q Hq)). lia. }
  assert (INK : forall ks q i, In q ks -> In i (PARTS n q) -> In i (flat_map (PARTS n) ks)) by (intros ks q i Hq Hi; apply in_flat_map; now exists q).
  rewrite HC. destruct nd as [l hp0|ws ks|ks|ws ks|mm ts|core shell]; cbn [kids_of] in *.
  - (* leaf *)
    destruct NM as (K & _). rewrite K.
    assert (GOAL : (default_normalize L red hp s id = NThrow /\ exists i nm, In i [id] /\ NOINT nm i) \/
      exists r s', default_normalize L red hp s id = NOk (r, s') /\ inv s' /\ (forall i, ~ In i (id :: flat_map (subtree n ns) []) -> norms_of (fst s') i = norms_of (fst s) i) /\
        UNIT (norms_of (fst s')) id /\ (In id [id] -> INTEGRAL (norms_of (fst s')) id r)).
    { destruct (default_leaf s id (S n) I Hid Hn) as [(E & NI)|(V & s' & E & I' & HV & HU & HF)]; [apply HP; now left| |].
      - left. split; [exact E|]. exists id. eexists. split; [now left|exact NI].
      - right. exists V, s'. split; [exact E|]. split; [exact I'|]. split; [|split; [exact HU|intro; exact HV]]. intros i Hi. apply HF. intro Y. apply Hi. now left. }
    destruct l; cbn [leaf_kind]; try exact GOAL; destruct upper; exact GOAL.
  - (* AddPdf *)
    destruct NM as (K & P & _ & HW). rewrite K, P, CN.
    assert (NE : ks <> []) by (intro Y; rewrite Y in En; exact (NES id ws Hid En)).
    assert (LO : forall ext : bool, (if ext then len ws = len ks else len ws + 1 = len ks) -> loop_ok n ks s (norm_add hp (normalize L red hp n) ext s ws ks fzero fzero)).
    { intros ext He. apply norm_add_ok; try assumption; [|intros x Hx; apply (KID x Hx)]. intros q Hq. apply STEP; [exact Hq|]. intros i Hi. apply HP. eapply INK; eauto. }
    destruct (Nat.ltb_spec (len ws) (len ks)) as [Hlt|Hge].
    + apply (FIN ks _ (fun ret s1 => s2 <~ put_norm false s1 id fone ;; NOk (ret, s2)) false (fun v => v)); [auto|apply (LO false); lia|auto|apply PLK; auto].
    + apply (FIN ks _ (fun ret s1 => s2 <~ put_norm false s1 id fone ;; NOk (ret, s2)) false (fun v => v)); [auto|apply (LO true); lia|auto|apply PLK; auto].
  - (* ProdPdf *)
    destruct NM as (K & _). rewrite K, LAP. destruct (lap id) eqn:EL.
    + pose proof (set_norms_ok (S n) s id fone I Hid Hn) as (s1 & E1 & I1 & A1 & B1). rewrite E1. cbn [nbind].
      destruct (default_leaf s1 id (S n) I1 Hid Hn) as [(E & NI)|(V & s' & E & I' & HV & HU & HF)]; [apply HP; now left| |].
      * left. split; [exact E|]. exists id. eexists. split; [now left|exact NI].
      * right. exists V, s'. cbn [subtree] in A1, B1. rewrite En in A1, B1. cbn [kids_of] in A1, B1. split; [exact E|]. split; [exact I'|]. split; [|split].
        -- intros i Hi. rewrite HF by (intro Y; apply Hi; left; congruence). now apply B1.
        -- split; [exact HU|]. apply Forall_forall. intros i Hi. rewrite HF; [apply A1; now right|]. intro Y. subst i. contradiction.
        -- intros _. exact HV.
    + apply (FIN ks _ (fun _ s1 => s2 <~ put_norm true s1 id fone ;; NOk (fone, s2)) true (fun _ => fone)); [auto| |auto|apply PLK; auto].
      apply norm_all_ok; try assumption; [|intros x Hx; apply (KID x Hx)]. intros q Hq. apply STEP; [exact Hq|]. intros i Hi. apply HP. eapply INK; eauto.
  - (* EventWeightedAddPdf *)
    destruct NM as (K & _). rewrite K.
    assert (LO : loop_ok n ks s (norm_all (normalize L red hp n) s ks fzero)).
    { apply norm_all_ok; try assumption; [|intros x Hx; apply (KID x Hx)]. intros q Hq. apply STEP; [exact Hq|]. intros i Hi. apply HP. eapply INK; eauto. }
    destruct (Nat.ltb (len ws) (len ks)); (apply (FIN ks _ (fun _ s1 => s2 <~ put_norm false s1 id fone ;; NOk (fone, s2)) false (fun _ => fone)); [auto|exact LO|auto|apply PLK; auto]).
  - (* MappedPdf *)
    destruct NM as (K & _). rewrite K. cbn [tl].
    apply (FIN ts _ (fun v s1 => s2 <~ put_norm false s1 id fone ;; NOk (v, s2)) false (fun v => v)); [intros; now right| |auto|apply PLK; intros; now right].
    + apply norm_all_ok; [|intros x Hx; apply (KID x); now right| |exact I].
      * intros q Hq. apply STEP; [now right|]. intros i Hi. apply HP. eapply INK; eauto.
      * cbn [flat_map] in HND. apply NoDup_app_split in HND. apply HND.
  - (* CompositePdf *)
    destruct NM as (K & _). rewrite K.
    pose proof (set_norms_ok (S n) s id fone I Hid Hn) as (s1 & E1 & I1 & A1 & B1). rewrite E1. cbn [nbind]. cbn [subtree] in A1, B1. rewrite En in A1, B1. cbn [kids_of] in A1, B1.
    assert (LO : loop_ok n [core; shell] s1 (norm_all (normalize L red hp n) s1 [core; shell] fzero)).
    { apply norm_all_ok; try assumption; [|intros x Hx; apply (KID x Hx)]. intros q Hq. apply STEP; [exact Hq|]. intros i Hi. apply HP. right.
      destruct Hq as [<-|[<-|[]]]; apply in_or_app; auto. }
    destruct LO as [(E & i & nm & Hi & HN)|(v & s2 & E & I2 & F2 & N2)]; rewrite E; cbn [nbind].
    { left. split; [reflexivity|]. exists i, nm. split; [|exact HN]. right. cbn [flat_map] in Hi. now rewrite app_nil_r in Hi. }
    destruct (default_leaf s2 id (S n) I2 Hid Hn) as [(E2 & NI)|(V & s' & E2 & I' & HV & HU & HF)]; [apply HP; now left| |].
    + left. split; [exact E2|]. exists id. eexists. split; [now left|exact NI].
    + right. exists V, s'. split; [exact E2|]. split; [exact I'|]. split; [|split].
      * intros i Hi. rewrite HF by (intro Y; apply Hi; left; congruence). rewrite F2 by (intro Y; apply Hi; now right). now apply B1.
      * assert (NK : forall q, In q [core; shell] -> NORMED n (norms_of (fst s')) q).
        { intros q Hq. destruct (KID q Hq) as [_ K2]. eapply normed_norms; [exact K2| |eapply Forall_forall in N2; eauto]. intros i Hi. symmetry. apply HF. intro Y. subst i.
          apply HNI. apply in_flat_map. exists q. now split. }
        split; [exact HU|]. split; apply NK; cbn; auto.
      * intros _. exact HV.
Qed.
End Run.
