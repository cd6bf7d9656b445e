(** Consequences of [normalize_program]; overlap detection of ProdPdf; AddPdf and MappedPdf at the top of a tree. *)
From Coq Require Import List ZArith String Bool Arith Lia.
From Verif Require Import F64 F64Lemmas ListAux VariableModel BinModel LeafFormulas DeviceModel PdfModel PdfSpec FlatProofs EvalProofs HostProofs PdfProofs PdfProofs2
  PdfProofs3 PdfProofs4 NormModel NormSpec NormProofs NormProofs2 CombineSpec.
Import ListNotations.
Open Scope nat_scope.
Open Scope list_scope.
Local Notation len := List.length.

Lemma add_value_in : forall ws vs, add_value ws vs = add_in f64_arith ws vs.
Proof.
  intros ws vs. unfold add_value, add_in. cbn [f64_arith zero one add sub mul div].
  assert (E : forall ws vs s t, weighted ws vs s t = weighted_in f64_arith ws vs s t).
  { induction ws0 as [|w ws0 IH]; intros vs0 s t; [reflexivity|]. destruct vs0 as [|[v n] vs0]; [reflexivity|]. cbn [weighted weighted_in]. rewrite IH. reflexivity. }
  now rewrite E.
Qed.
Lemma prod_value_in : forall vs, prod_value vs = prod_in f64_arith vs.
Proof. reflexivity. Qed.

Lemma omap_nth : forall {A B} (f : A -> option B) l vs i a, omap f l = Some vs -> nth_error l i = Some a ->
  exists v, f a = Some v /\ nth_error vs i = Some v.
Proof.
  induction l as [|x l IH]; intros vs i a H E; [destruct i; discriminate|]. cbn [omap] in H.
  destruct (f x) as [b|] eqn:Fx; [|discriminate]. destruct (omap f l) as [bs|] eqn:Fl; [|discriminate]. injection H as <-.
  destruct i as [|i]; cbn in E |- *; [injection E as <-; now exists b|]. exact (IH bs i a eq_refl E).
Qed.
Lemma omap_len : forall {A B} (f : A -> option B) l vs, omap f l = Some vs -> len vs = len l.
Proof.
  induction l as [|x l IH]; intros vs H; cbn [omap] in H; [injection H as <-; reflexivity|].
  destruct (f x); [|discriminate]. destruct (omap f l) as [bs|]; [|discriminate]. injection H as <-. cbn. now rewrite (IH bs eq_refl).
Qed.
Lemma omap_build : forall {A B} (f : A -> option B) l vs, len vs = len l ->
  (forall i a v, nth_error l i = Some a -> nth_error vs i = Some v -> f a = Some v) -> omap f l = Some vs.
Proof.
  induction l as [|x l IH]; intros vs H E; destruct vs as [|v vs]; try discriminate; [reflexivity|]. cbn [omap].
  rewrite (E 0 x v eq_refl eq_refl). rewrite (IH vs); [reflexivity|now injection H|]. intros i a w H1 H2. exact (E (S i) a w H1 H2).
Qed.

(** ** C23 *)
Lemma one_dimension : forall ops qs k st ns L red x,
  after (ready ops qs k) = (st, ns) -> k < len ns -> NoDup (tree_ids ns k) -> Forall (quiet ns k) qs ->
  tree_ok st ns k -> ranges_current st ns k -> densities st ns k ->
  (forall i, In i (integrated ns (shares_observables st) (S k) k) -> integrable L (g_heap st) ns (first_obs_of st) (obs_list st) (cell_count st) i) ->
  In k (integrated ns (shares_observables st) (S k) k) -> obs_list st k = [x] ->
  (forall l h0, nth_error ns k = Some (SLeaf l h0) -> forall lo hi, leaf_integral L (g_heap st) l lo hi = None) ->
  normalize L red (g_heap st) (S k) (g_pdfs st, g_arr st) k <> NThrow ->
  exists r ps' A' vs, normalize L red (g_heap st) (S k) (g_pdfs st, g_arr st) k = NOk (r, (ps', A')) /\
    let st' := mkG (g_heap st) (g_hs st) ps' A' in
    len vs = Z.to_nat (cell_count st k x) /\
    (forall b v, nth_error vs b = Some v ->
       value L (g_heap st) (norm_of st') (first_obs_of st) (S k) ns
         (at_point x (centre (get_f (g_heap st) x FLower) (get_f (g_heap st) x FUpper) (cell_count st k x) b)) k = Some v) /\
    r = fmul (fdiv (fsub (get_f (g_heap st) x FUpper) (get_f (g_heap st) x FLower)) (f_of_Z (cell_count st k x))) (red vs) /\
    norm_of st' k = fdiv fone r.
Proof.
  intros ops qs k st ns L red x E Hk ND Q TO RC DE HI IN OB AN NT.
  destruct (normalize_program ops qs k st ns L red E Hk ND Q TO RC DE HI) as [[T _]|(r & ps' & A' & EN & N & R & _)]; [contradiction|].
  cbv zeta in *. specialize (R IN).
  assert (G : forall I, integral L red (g_heap st) ns (first_obs_of st) (obs_list st) (cell_count st) (norm_of (mkG (g_heap st) (g_hs st) ps' A')) k I ->
              grid_integral L red (g_heap st) ns (first_obs_of st) (obs_list st) (cell_count st) (norm_of (mkG (g_heap st) (g_hs st) ps' A')) k I).
  { intros I H. unfold integral in H. destruct (nth_error ns k) as [[l h0| | | | |]|] eqn:En; try exact H. rewrite OB in H. rewrite (AN l h0 eq_refl) in H. exact H. }
  pose proof (G r R) as (x' & vs & OB' & C & EI). rewrite OB in OB'. injection OB' as <-.
  exists r, ps', A', vs. split; [exact EN|]. unfold cells in C. split; [|split; [|split; [exact EI|]]].
  - apply omap_len in C. now rewrite seq_length in C.
  - intros b v Hb. assert (Hlt : b < len (seq 0 (Z.to_nat (cell_count st k x)))) by (rewrite <- (omap_len _ _ _ C); apply nth_error_Some; congruence).
    assert (Eb : nth_error (seq 0 (Z.to_nat (cell_count st k x))) b = Some b).
    { rewrite seq_length in Hlt. rewrite (nth_error_nth' _ 0) by now rewrite seq_length. now rewrite seq_nth by exact Hlt. }
    destruct (omap_nth _ _ _ _ _ C Eb) as (w & Ew & Hw). rewrite Hb in Hw. injection Hw as <-. exact Ew.
  - assert (U : unit_integral L red (g_heap st) ns (first_obs_of st) (obs_list st) (cell_count st) (norm_of (mkG (g_heap st) (g_hs st) ps' A')) k).
    { cbn [normed] in N. destruct (nth_error ns k) as [n|] eqn:En; [|destruct N].
      assert (SM : forall i, In i (kids_of n) -> In k (integrated ns (shares_observables st) k i) -> False).
      { pose proof (after_inv _ _ _ E) as (_ & MA & _). intros i Hi HX.
        assert (IS : forall f j, In k (integrated ns (shares_observables st) f j) -> k <= j).
        { clear - MA. induction f as [|f IH]; intros j H; [destruct H|]. cbn [integrated] in H. destruct (nth_error ns j) as [m|] eqn:Em; [|destruct H].
          pose proof (match_kids _ _ MA j m Em) as KL. rewrite Forall_forall in KL.
          assert (FM : forall ks, (forall q, In q ks -> q < j) -> In k (flat_map (integrated ns (shares_observables st) f) ks) -> k <= j).
          { intros ks K X. apply in_flat_map in X. destruct X as (q & Hq & X). apply IH in X. specialize (K q Hq). lia. }
          destruct m; cbn [kids_of] in KL.
          - destruct H as [<-|[]]. lia.
          - now apply (FM kids).
          - destruct (shares_observables st j); [destruct H as [<-|[]]; lia|]. now apply (FM kids).
          - now apply (FM kids).
          - apply (FM ts); [|exact H]. intros q Hq. apply KL. now right.
          - destruct H as [<-|H]; [lia|]. apply in_app_or in H. destruct H as [H|H]; apply IH in H.
            + specialize (KL core (or_introl eq_refl)). lia.
            + specialize (KL shell (or_intror (or_introl eq_refl))). lia. }
        apply IS in HX. pose proof (match_kids _ _ MA k n En) as KL. rewrite Forall_forall in KL. specialize (KL i Hi). lia. }
      assert (FK : forall ks, (forall i, In i ks -> In i (kids_of n)) -> In k (flat_map (integrated ns (shares_observables st) k) ks) -> False).
      { intros ks K X. apply in_flat_map in X. destruct X as (q & Hq & X). exact (SM q (K q Hq) X). }
      cbn [integrated] in IN. rewrite En in IN. destruct n; cbn [kids_of] in *.
      - exact N.
      - exfalso. apply (FK kids); auto.
      - destruct (shares_observables st k); [apply N|]. exfalso. apply (FK kids); auto.
      - exfalso. apply (FK kids); auto.
      - exfalso. apply (FK ts); [intros i Hi; now right|exact IN].
      - apply N. }
    destruct U as (I & HI' & HN). pose proof (G I HI') as (x' & vs' & OB' & C' & EI'). rewrite OB in OB'. injection OB' as <-.
    unfold cells in C'. rewrite C in C'. assert (vs' = vs) by (now injection C'). subst vs'. rewrite HN, EI', <- EI. reflexivity.
Qed.

(** ** C20 *)
Definition share (st : gstate) (a b : nat) : Prop := exists g h, In g (obs_list st a) /\ In h (obs_list st b) /\ handle_eqb g h = true.
Lemma overlap_check_spec : forall ps comps check, overlap_check ps check comps = true <->
  (exists c t g h, comps = c :: t /\ In g check /\ In h (getObservables ps c) /\ handle_eqb g h = true) \/
  (exists l1 a b l2 g h, comps = l1 ++ a :: b :: l2 /\ In g (getObservables ps a) /\ In h (getObservables ps b) /\ handle_eqb g h = true).
Proof.
  intros ps. induction comps as [|c t IH]; intro check; cbn [overlap_check].
  - split; [discriminate|]. intros [(c & t & g & h & H & _)|(l1 & a & b & l2 & g & h & H & _)]; [discriminate|]. destruct l1; discriminate.
  - destruct (existsb (fun o => find_in check o) (getObservables ps c)) eqn:Ex.
    + split; [intros _|reflexivity]. left. apply existsb_exists in Ex. destruct Ex as (h & Hh & F). unfold find_in in F. apply existsb_exists in F. destruct F as (g & Hg & G).
      exists c, t, g, h. auto.
    + rewrite IH. split.
      * intros [(c' & t' & g & h & -> & H1 & H2 & H3)|(l1 & a & b & l2 & g & h & -> & H)]; right.
        -- exists [], c, c', t', g, h. auto.
        -- exists (c :: l1), a, b, l2, g, h. auto.
      * intros [(c' & t' & g & h & H0 & H1 & H2 & H3)|(l1 & a & b & l2 & g & h & H0 & H1 & H2 & H3)].
        -- injection H0 as <- <-. exfalso. assert (X : existsb (fun o => find_in check o) (getObservables ps c) = true); [|congruence].
           apply existsb_exists. exists h. split; [exact H2|]. unfold find_in. apply existsb_exists. exists g. auto.
        -- destruct l1 as [|c' l1]; cbn in H0; injection H0 as <- ->.
           ++ left. exists b, l2, g, h. auto.
           ++ right. exists l1, a, b, l2, g, h. auto.
Qed.
Lemma construct_overlap : forall st p b, map p_overlap (g_pdfs (construct st p b)) = map p_overlap (g_pdfs st ++ [p]).
Proof.
  intros st p b. unfold construct. destruct b; [|reflexivity].
  pose proof (init_map p_overlap ltac:(reflexivity) ltac:(reflexivity) ltac:(reflexivity) (g_heap st) (g_pdfs st ++ [p]) (g_arr st) (len (g_pdfs st))) as H.
  destruct (initialize _ _ _ _) as [ps' A']. exact H.
Qed.
Lemma overlap_detection : forall ops st ns ks st', after ops = (st, ns) -> gstep st (GProd ks) = (st', GDone) ->
  (shares_observables st' (len ns) = true <->
   (exists l1 a b l2, ks = l1 ++ a :: b :: l2 /\ share st a b) /\ Forall (fun c => separate_norm (g_pdfs st) c = false) ks).
Proof.
  intros ops st ns ks st' E S. pose proof (after_inv _ _ _ E) as (_ & [ML _] & _). cbn [gstep] in S.
  destruct (exists_all (g_pdfs st) ks) eqn:EA; [|discriminate]. apply (f_equal fst) in S. cbn [fst] in S. subst st'.
  assert (SO : shares_observables (construct st (new_pdf KProd [] [f_of_nat (len ks)] (gather (g_pdfs st) [] ks) ks (prod_overlaps (g_pdfs st) ks)) true) (len ns) = prod_overlaps (g_pdfs st) ks).
  { unfold shares_observables. match goal with |- context [construct ?s ?p ?b] => pose proof (construct_overlap s p b) as H; set (C := construct s p b) in * end.
    rewrite map_app in H. cbn [map] in H. assert (X : nth_error (map p_overlap (g_pdfs C)) (len ns) = Some (prod_overlaps (g_pdfs st) ks)).
    { rewrite H, nth_error_app2 by (rewrite map_length; lia). rewrite map_length, ML, Nat.sub_diag. reflexivity. }
    rewrite nth_error_map in X. destruct (nth_error (g_pdfs C) (len ns)); [|discriminate]. cbn in X. injection X as ->. reflexivity. }
  rewrite SO. unfold prod_overlaps. rewrite andb_true_iff, overlap_check_spec. split.
  - intros [[(c & t & g & h & _ & [] & _)|(l1 & a & b & l2 & g & h & -> & H)] N].
    split; [exists l1, a, b, l2; split; [reflexivity|]; exists g, h; exact H|]. apply Forall_forall. intros c Hc. apply negb_true_iff in N.
    destruct (separate_norm (g_pdfs st) c) eqn:SN; [|reflexivity]. assert (X : existsb (separate_norm (g_pdfs st)) (l1 ++ a :: b :: l2) = true) by (apply existsb_exists; exists c; auto). congruence.
  - intros [(l1 & a & b & l2 & -> & g & h & H) F]. split; [right; exists l1, a, b, l2, g, h; auto|]. apply negb_true_iff.
    destruct (existsb (separate_norm (g_pdfs st)) (l1 ++ a :: b :: l2)) eqn:X; [|reflexivity]. apply existsb_exists in X. destruct X as (c & Hc & SN). rewrite Forall_forall in F. rewrite (F c Hc) in SN. discriminate.
Qed.

(** ** Sums, products and maps at the top of a tree *)
Lemma value_fuel : forall L hp norms fo ns, (forall i n, nth_error ns i = Some n -> Forall (fun k => k < i) (kids_of n)) ->
  forall f f' en id, id < f -> id < f' -> value L hp norms fo f ns en id = value L hp norms fo f' ns en id.
Proof.
  intros L hp norms fo ns KL. induction f as [|f IH]; intros f' en id H H'; [lia|]. destruct f' as [|f']; [lia|]. cbn [value].
  destruct (nth_error ns id) as [n|] eqn:En; [|reflexivity]. pose proof (KL id n En) as K. rewrite Forall_forall in K.
  assert (E : forall en' k, In k (kids_of n) -> value L hp norms fo f ns en' k = value L hp norms fo f' ns en' k).
  { intros en' k Hk. specialize (K k Hk). apply IH; lia. }
  assert (EM : forall ks, (forall k, In k ks -> In k (kids_of n)) ->
     omap (fun k => obind (value L hp norms fo f ns en k) (fun v => Some (v, norms k))) ks =
     omap (fun k => obind (value L hp norms fo f' ns en k) (fun v => Some (v, norms k))) ks).
  { induction ks as [|k ks IHk]; intro S; [reflexivity|]. cbn [omap]. rewrite (E en k (S k (or_introl eq_refl))), IHk; [reflexivity|]. intros q Hq. apply S. now right. }
  destruct n; cbn [kids_of] in *.
  - reflexivity.
  - now rewrite EM.
  - now rewrite EM.
  - now rewrite EM.
  - rewrite (E en m (or_introl eq_refl)). destruct (value L hp norms fo f' ns en m) as [mv|]; [|reflexivity]. cbn [obind].
    destruct (floor_int (fadd fhalf mv)) as [t|]; [|reflexivity]. cbn [obind]. destruct (Z.ltb t 0); [reflexivity|].
    destruct (nth_error ts (Z.to_nat t)) as [k|] eqn:Et; [|reflexivity]. cbn [obind]. rewrite (E en k); [reflexivity|]. right. now apply nth_error_In in Et.
  - rewrite (E en core (or_introl eq_refl)). destruct (value L hp norms fo f' ns en core) as [c|]; [|reflexivity]. cbn [obind].
    destruct (fo shell) as [o|]; [|reflexivity]. cbn [obind]. apply E. right. now left.
Qed.
Lemma after_kids : forall ops st ns, after ops = (st, ns) -> forall i n, nth_error ns i = Some n -> Forall (fun k => k < i) (kids_of n).
Proof. intros ops st ns E. pose proof (after_inv _ _ _ E) as (_ & MA & _). exact (match_kids _ _ MA). Qed.
Lemma kid_values : forall L st ns e k ks vs, (forall i n, nth_error ns i = Some n -> Forall (fun k => k < i) (kids_of n)) -> Forall (fun i => i < k) ks ->
  Forall2 (fun i v => pdf_value L st ns e i = Some v) ks vs ->
  omap (fun i => obind (value L (g_heap st) (norm_of st) (first_obs_of st) k ns (event_env (g_heap st) e) i) (fun v => Some (v, norm_of st i))) ks =
  Some (combine vs (map (norm_of st) ks)).
Proof.
  intros L st ns e k ks vs KL F H. induction H as [|i v ks vs E H IH]; [reflexivity|]. inversion F as [|? ? Hi F']. subst. cbn [omap map combine].
  unfold pdf_value in E. rewrite (value_fuel L (g_heap st) (norm_of st) (first_obs_of st) ns KL k (S i)) by lia. rewrite E. cbn [obind]. now rewrite (IH F').
Qed.
Lemma add_at_root : forall ops k st ns L e ws ks vs v fuel, after (ops ++ [GSetIndices k]) = (st, ns) -> nth_error ns k = Some (SAdd ws ks) -> tree_ok st ns k ->
  Forall2 (fun i v => pdf_value L st ns e i = Some v) ks vs ->
  add_in f64_arith (map (fun w => get_f (g_heap st) w FValue) ws) (combine vs (map (norm_of st) ks)) = Some v -> S k <= fuel ->
  exists c, callFunction fuel L (g_arr st) e cur0 = DOk (v, c).
Proof.
  intros ops k st ns L e ws ks vs v fuel E En T F A Hf. pose proof (after_kids _ _ _ E) as KL.
  assert (Hk : k < len ns) by (apply nth_error_Some; congruence).
  destruct (flattened_evaluation ops k st ns L e v fuel E Hk T) as (c & C & _); [|exact Hf|now exists c].
  unfold pdf_value. cbn [value]. rewrite En. pose proof (KL k _ En) as K. cbn [kids_of] in K. rewrite (kid_values L st ns e k ks vs KL K F). cbn [obind].
  rewrite add_value_in. exact A.
Qed.
Lemma prod_at_root : forall ops k st ns L e ks vs fuel, after (ops ++ [GSetIndices k]) = (st, ns) -> nth_error ns k = Some (SProd ks) -> tree_ok st ns k ->
  Forall2 (fun i v => pdf_value L st ns e i = Some v) ks vs -> S k <= fuel ->
  exists c, callFunction fuel L (g_arr st) e cur0 = DOk (prod_in f64_arith (combine vs (map (norm_of st) ks)), c).
Proof.
  intros ops k st ns L e ks vs fuel E En T F Hf. pose proof (after_kids _ _ _ E) as KL.
  assert (Hk : k < len ns) by (apply nth_error_Some; congruence).
  destruct (flattened_evaluation ops k st ns L e (prod_in f64_arith (combine vs (map (norm_of st) ks))) fuel E Hk T) as (c & C & _); [|exact Hf|now exists c].
  unfold pdf_value. cbn [value]. rewrite En. pose proof (KL k _ En) as K. cbn [kids_of] in K. rewrite (kid_values L st ns e k ks vs KL K F). reflexivity.
Qed.
Lemma mapped_at_root : forall ops k st ns L e m ts mv t j v fuel, after (ops ++ [GSetIndices k]) = (st, ns) -> nth_error ns k = Some (SMapped m ts) -> tree_ok st ns k ->
  pdf_value L st ns e m = Some mv -> floor_int (fadd fhalf mv) = Some (Z.of_nat t) -> nth_error ts t = Some j -> pdf_value L st ns e j = Some v -> S k <= fuel ->
  exists c, callFunction fuel L (g_arr st) e cur0 = DOk (fmul v (norm_of st j), c) /\
            nth_error (a_fun (g_arr st)) (c_fun c) = Some (FMetric (metric_of st k)).
Proof.
  intros ops k st ns L e m ts mv t j v fuel E En T Vm Ft Et Vj Hf. pose proof (after_kids _ _ _ E) as KL.
  assert (Hk : k < len ns) by (apply nth_error_Some; congruence). pose proof (KL k _ En) as K. cbn [kids_of] in K. rewrite Forall_forall in K.
  destruct (flattened_evaluation ops k st ns L e (fmul v (norm_of st j)) fuel E Hk T) as (c & C & M & _); [|exact Hf|now exists c].
  unfold pdf_value in *. cbn [value]. rewrite En.
  rewrite (value_fuel L (g_heap st) (norm_of st) (first_obs_of st) ns KL k (S m)) by (specialize (K m (or_introl eq_refl)); lia). rewrite Vm. cbn [obind]. rewrite Ft. cbn [obind].
  destruct (Z.ltb_spec (Z.of_nat t) 0); [lia|]. rewrite Nat2Z.id, Et. cbn [obind].
  rewrite (value_fuel L (g_heap st) (norm_of st) (first_obs_of st) ns KL k (S j)) by (specialize (K j (or_intror (nth_error_In _ _ Et))); lia). rewrite Vj. reflexivity.
Qed.
