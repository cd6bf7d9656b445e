(** Property theorems for data attached to PDFs and for the likelihood (C19, C22, C25-C29, C57). *)
From Coq Require Import List ZArith String Bool Arith Lia Reals.
From Verif Require Import F64 F64Lemmas F64Err ListAux VariableModel DataSetModel BinModel LeafFormulas DeviceModel PdfModel PdfSpec PdfProofs PdfProps
  Reduce NormModel NormSpec NormProofs NormProofs2 NormProofs3 NormProps RunModel RunSpec RunProofs RunProofs2 RunProofs3 RunProofs4 RunProofs5 RunProofs6.
From Flocq Require Import BinarySingleNaN.
Import ListNotations.
Open Scope string_scope.
Open Scope nat_scope.
Open Scope list_scope.
Local Notation len := List.length.

(** ** Concrete sessions *)
Definition sess_st (ops : list rop) : rstate := match session lib1 seq_red ops with NOk (s, _) => s | _ => rinit end.
Definition sess_ns (ops : list rop) : list snode := match session lib1 seq_red ops with NOk (_, ns) => ns | _ => [] end.
Lemma sess_eq : forall ops, is_nok (session lib1 seq_red ops) = true -> session lib1 seq_red ops = NOk (sess_st ops, sess_ns ops).
Proof. intros ops H. unfold sess_st, sess_ns. destruct (session lib1 seq_red ops) as [[s ns]| | |]; try discriminate. reflexivity. Qed.
Definition value_is (x : nres (f64 * rstate)) (v : f64) : bool := match x with NOk (r, _) => fsame r v | _ => false end.
Lemma value_is_ok : forall x v, value_is x v = true -> exists s', x = NOk (v, s').
Proof. intros x v H. destruct x as [[r s']| | |]; try discriminate. apply fsame_eq in H. subst. now exists s'. Qed.
Lemma nub_ok : forall {A} (x : nres A), is_nub x = true -> x = NUB.
Proof. intros A [] H; try discriminate. reflexivity. Qed.

(** x in [0,10], a Breit-Wigner in x, and three events. *)
Definition bw_ops : list rop :=
  [RG (GVar (NewObservable "x" (num 0) (num 10))); RG (GVar (NewVariable4 "m" (num 4) (num 0) (num 9))); RG (GVar (NewVariable4 "s" (num 2) (num 1) (num 3)));
   RG (GLeaf (LBW 0 1 2))].
Definition x0 : handle := hget (g_hs (r_g (sess_st bw_ops))) 0.
Definition three : dataset := mkDS [x0] [[num 1; num 4; num 9]] 3.
Definition one_event : dataset := mkDS [x0] [[num 2]] 1.
Definition with_three : list rop := bw_ops ++ [RSet 0 (DUn three)].
Definition bw_mid : list rop := [RG (GVar (Set_ 1 FValue (CF (num 3)))); RG (GGetParameters 0)].

(** ** C25 *)
(** For every session, PDF and unbinned data set, setData either throws because the data set lacks a value of an observable
    of the PDF, or the buffer has exactly events * observables entries, the value of observable j in event i is at
    i * observables + j, and j is the position the evaluation looks up. *)
Theorem C25_unbinned_layout : forall L red ops s ns k ref d, session L red ops = NOk (s, ns) -> k < len ns ->
  (set_data s k ref (Some (DUn d)) = NThrow /\ exists i h, i < d_num d /\ In h (obs_of_pdf s k) /\ forall x, getValue d h i <> Ok x) \/
  exists s', set_data s k ref (Some (DUn d)) = NOk s' /\ obs_of_pdf s' k = obs_of_pdf s k /\ len (buffer s') = d_num d * len (obs_of_pdf s k) /\
    m_entries (r_mem s' k) = d_num d /\
    (forall i j h, i < d_num d -> nth_error (obs_of_pdf s k) j = Some h ->
       exists x, getValue d h i = Ok x /\ nth_error (buffer s') (i * len (obs_of_pdf s k) + j) = Some (Some x)) /\
    (forall h, tree_observable ns k h -> exists j g, nth_error (obs_of_pdf s k) j = Some g /\ handle_eqb g h = true /\ get_i (g_heap (r_g s')) h = Z.of_nat j).
Proof. intros L red ops s ns k ref d E. exact (setData_unbinned s ns k ref d (session_reach L red ops s ns E)). Qed.
Print Assumptions C25_unbinned_layout.
Example C25_example : session lib1 seq_red with_three = NOk (sess_st with_three, sess_ns with_three) /\ 0 < len (sess_ns with_three) /\
  obs_of_pdf (sess_st with_three) 0 = [x0] /\ is_nok (set_data (sess_st with_three) 0 (Some 0) (Some (DUn three))) = true.
Proof. split; [apply sess_eq; vm_compute; reflexivity|]. split; [apply Nat.ltb_lt; vm_compute; reflexivity|]. split; vm_compute; reflexivity. Qed.

(** ** C26 *)
(** The same for binned data: centres, then content, then volume or error; a PDF without a binned fit control gets
    BinnedNllFit.  The number the fit uses for the total, [r_total], is the number of bins (see C57). *)
Theorem C26_binned_layout : forall L red ops s ns k ref d, session L red ops = NOk (s, ns) -> k < len ns ->
  let fc := binned_control (fit_of s k) in let hp1 := g_heap (fst (gstep (r_g s) (GSetupObservables k))) in
  (forall i h, i < bin_count d -> In h (obs_of_pdf s k) -> exists x, bin_env hp1 d i h = Some x) ->
  (forall i, i < bin_count d -> exists r, bin_row hp1 (binErrors fc) d i = Some r) ->
  exists s', set_data s k ref (Some (DBin d)) = NOk s' /\ obs_of_pdf s' k = obs_of_pdf s k /\ fit_of s' k = Some fc /\
    len (buffer s') = bin_count d * (len (obs_of_pdf s k) + 2) /\ m_entries (r_mem s' k) = bin_count d /\ r_total s' = bin_count d /\
    (forall i j h x, i < bin_count d -> nth_error (obs_of_pdf s k) j = Some h -> bin_env hp1 d i h = Some x ->
       nth_error (buffer s') (i * (len (obs_of_pdf s k) + 2) + j) = Some (Some x)) /\
    (forall i c w, i < bin_count d -> bin_row hp1 (binErrors fc) d i = Some (c, w) ->
       nth_error (buffer s') (i * (len (obs_of_pdf s k) + 2) + len (obs_of_pdf s k)) = Some (Some c) /\
       nth_error (buffer s') (i * (len (obs_of_pdf s k) + 2) + len (obs_of_pdf s k) + 1) = Some (Some w)) /\
    (forall h, tree_observable ns k h -> exists j g, nth_error (obs_of_pdf s k) j = Some g /\ handle_eqb g h = true /\ get_i (g_heap (r_g s')) h = Z.of_nat j).
Proof. intros L red ops s ns k ref d E. exact (setData_binned s ns k ref d (session_reach L red ops s ns E)). Qed.
Print Assumptions C26_binned_layout.
Definition hist : binned := mkBinned [x0] [2%Z] [num 3; num 5] [] 8.
Definition with_hist : list rop := bw_ops ++ [RSet 0 (DBin hist)].
Definition bins_okb (hp : heap) (obs : list handle) (errs : bool) (d : binned) : bool :=
  forallb (fun i => forallb (fun h => match bin_env hp d i h with Some _ => true | None => false end) obs && match bin_row hp errs d i with Some _ => true | None => false end) (seq 0 (bin_count d)).
Lemma bins_okb_ok : forall hp obs errs d, bins_okb hp obs errs d = true ->
  (forall i h, i < bin_count d -> In h obs -> exists x, bin_env hp d i h = Some x) /\ (forall i, i < bin_count d -> exists r, bin_row hp errs d i = Some r).
Proof.
  intros hp obs errs d H. unfold bins_okb in H. rewrite forallb_forall in H. split.
  - intros i h Hi Hh. specialize (H i ltac:(apply in_seq; lia)). apply andb_true_iff in H. destruct H as [H _]. rewrite forallb_forall in H. specialize (H h Hh). destruct (bin_env hp d i h); [eauto|discriminate].
  - intros i Hi. specialize (H i ltac:(apply in_seq; lia)). apply andb_true_iff in H. destruct H as [_ H]. destruct (bin_row hp errs d i); [eauto|discriminate].
Qed.
Example C26_example : session lib1 seq_red with_hist = NOk (sess_st with_hist, sess_ns with_hist) /\ 0 < len (sess_ns with_hist) /\ bin_count hist = 2 /\
  let fc := binned_control (fit_of (sess_st with_hist) 0) in let hp1 := g_heap (fst (gstep (r_g (sess_st with_hist)) (GSetupObservables 0))) in
  (forall i h, i < bin_count hist -> In h (obs_of_pdf (sess_st with_hist) 0) -> exists x, bin_env hp1 hist i h = Some x) /\
  (forall i, i < bin_count hist -> exists r, bin_row hp1 (binErrors fc) hist i = Some r).
Proof.
  split; [apply sess_eq; vm_compute; reflexivity|]. split; [apply Nat.ltb_lt; vm_compute; reflexivity|]. split; [vm_compute; reflexivity|]. cbv zeta. apply bins_okb_ok. vm_compute. reflexivity.
Qed.

(** ** C22 *)
(** Data set i is attached to PDF k after any program, anything of [rquiet] follows (changing parameters, other evaluations
    of the likelihood, building data sets), the parameters are refreshed, and the likelihood is evaluated.  Unless a
    component cannot be normalised, the value is the reduction, in the order of the back end, of one term for each event:
    -log(density * factor) with the density of exactly that event and the factors of a normalised tree, or 0 where that is
    not positive; an exception when the factor or the sum is not usable.  Missing from C22: PDFs that are normalised over
    two or more observables (C23), ConvolutionPdf and the amplitude models. *)
Theorem C22_unbinned_nll_partial : forall L red pre s0 ns i d k mid s ns', session L red pre = NOk (s0, ns) ->
  nth_error (r_sets s0) i = Some (DUn d) -> k < len ns -> Forall (rquiet ns k) mid ->
  rrun L red s0 ns (RSetData k (Some i) :: mid ++ [RG (GCopyParams k)]) = NOk (s, ns') ->
  evaluable L (r_g s) ns k -> fit_of s k = Some UnbinnedNllFit -> expected (g_heap (r_g s)) ns k = None ->
  (forall norms, exists vs, event_values L (r_g s) ns norms k d = Some vs) ->
  (calculateNLL L red s k = NThrow /\ unnormalisable L red (r_g s) ns k) \/
  exists s' vs, let norm := norm_of (r_g s') k in let sum := red (event_terms L norm vs) in
    normalised L red (r_g s) ns k (norm_of (r_g s')) /\ event_values L (r_g s) ns (norm_of (r_g s')) k d = Some vs /\
    calculateNLL L red s k = if fle norm fzero || feq fzero sum then NThrow else NOk (sum, s').
Proof.
  intros L red pre s0 ns i d k mid s ns' E HD Hk Q RR EV FC EX DEF. pose proof (unbinned_nll L red s0 ns i d k mid s ns' (session_reach L red pre s0 ns E) HD Hk Q RR EV FC DEF) as X.
  unfold with_extended in X. rewrite EX in X. exact X.
Qed.
Print Assumptions C22_unbinned_nll_partial.
(** Whatever the order of the parallel reduction, the sum is that of the terms up to the rounding of its additions. *)
Theorem C22_any_schedule : forall L red norm vs n, reduces n (event_terms L norm vs) (red (event_terms L norm vs)) -> is_finite (red (event_terms L norm vs)) = true ->
  (Rabs (B2R (red (event_terms L norm vs)) - Rsum (reals (event_terms L norm vs))) <= ((1 + uro) ^ n - 1) * Rsum (map Rabs (reals (event_terms L norm vs))))%R.
Proof. intros L red norm vs n H F. exact (proj2 (reduces_error n _ _ H F)). Qed.
Print Assumptions C22_any_schedule.
Definition bw_all : list rop := with_three ++ RSetData 0 (Some 0) :: bw_mid ++ [RG (GCopyParams 0)].
Lemma rrun_split : forall L red a b s ns, session L red a = NOk (s, ns) -> session L red (a ++ b) = rrun L red s ns b.
Proof. intros L red a b s ns H. unfold session in *. now rewrite rrun_app, H. Qed.
Lemma bw_leaf : exists m w h0, nth_error (sess_ns bw_all) 0 = Some (SLeaf (LBW x0 m w) h0).
Proof.
  assert (X : match nth_error (sess_ns bw_all) 0 with Some (SLeaf (LBW x _ _) _) => Nat.eqb (h_value x) (h_value x0) && String.eqb (h_name x) (h_name x0) | _ => false end = true) by (vm_compute; reflexivity).
  destruct (nth_error (sess_ns bw_all) 0) as [[[] h0| | | | |]|] eqn:EN; try discriminate X. clear X.
  match goal with H : _ = Some (SLeaf (LBW ?a ?b ?c) ?d) |- _ => exists b, c, d; cut (a = x0); [intros <-; reflexivity|]; pose (z := a) end.
  assert (Y : option_map node_obs (nth_error (sess_ns bw_all) 0) = Some [x0]) by (vm_compute; reflexivity). rewrite EN in Y. cbn [option_map node_obs leaf_obs] in Y. exact (f_equal (fun o => match o with Some (h :: _) => h | _ => z end) Y).
Qed.
Lemma evaluable_ok : forall st ns k, nodupb (tree_ids ns k) = true -> tree_okb st ns k = true -> ranges_currentb st ns k = true -> densitiesb st ns k = true ->
  (forall i, In i (integrated ns (shares_observables st) (S k) k) -> integrable lib1 (g_heap st) ns (first_obs_of st) (obs_list st) (cell_count st) i) -> evaluable lib1 st ns k.
Proof. intros st ns k A B C D E. split; [now apply nodupb_ok|]. split; [now apply tree_okb_ok|]. split; [now apply ranges_currentb_ok|]. split; [now apply densitiesb_ok|exact E]. Qed.
Lemma bw_evaluable : forall st x, nth_error (sess_ns bw_all) 0 = Some x -> st = r_g (sess_st bw_all) -> evaluable lib1 st (sess_ns bw_all) 0.
Proof.
  intros st x _ ->. apply evaluable_ok; [vm_compute; reflexivity|vm_compute; reflexivity|vm_compute; reflexivity|vm_compute; reflexivity|]. intros i Hi. assert (X : integrated (sess_ns bw_all) (shares_observables (r_g (sess_st bw_all))) 1 0 = [0]) by (vm_compute; reflexivity). rewrite X in Hi.
  destruct Hi as [<-|[]]. destruct bw_leaf as (m & w & h0 & HN). eapply integrable_leaf; [exact HN| |vm_compute; reflexivity|vm_compute; reflexivity|vm_compute; reflexivity].
  intros en c Hc. change (en x0 = Some c) in Hc. unfold leaf_value; cbn [leaf_value_in]. rewrite Hc. cbn [obind]. eexists. reflexivity.
Qed.
Lemma built : forall pre d, is_nok (session lib1 seq_red pre) = true -> len (r_sets (sess_st pre)) = 0 -> nth_error (r_sets (sess_st (pre ++ [RSet 0 d]))) 0 = Some d.
Proof.
  intros pre d H E. pose proof (sess_eq pre H) as S1. unfold sess_st at 1. rewrite (rrun_split lib1 seq_red pre [RSet 0 d] _ _ S1). cbn [rrun rstep]. unfold put_set. rewrite E. cbn [Nat.ltb Nat.leb Nat.eqb nbind].
  destruct (r_sets (sess_st pre)); [reflexivity|discriminate].
Qed.
Example C22_example : session lib1 seq_red with_three = NOk (sess_st with_three, sess_ns with_three) /\ nth_error (r_sets (sess_st with_three)) 0 = Some (DUn three) /\
  0 < len (sess_ns with_three) /\ Forall (rquiet (sess_ns with_three) 0) bw_mid /\
  rrun lib1 seq_red (sess_st with_three) (sess_ns with_three) (RSetData 0 (Some 0) :: bw_mid ++ [RG (GCopyParams 0)]) = NOk (sess_st bw_all, sess_ns bw_all) /\
  evaluable lib1 (r_g (sess_st bw_all)) (sess_ns bw_all) 0 /\ fit_of (sess_st bw_all) 0 = Some UnbinnedNllFit /\ expected (g_heap (r_g (sess_st bw_all))) (sess_ns bw_all) 0 = None /\
  (forall norms, exists vs, event_values lib1 (r_g (sess_st bw_all)) (sess_ns bw_all) norms 0 three = Some vs) /\
  is_nok (calculateNLL lib1 seq_red (sess_st bw_all) 0) = true.
Proof.
  assert (S1 : session lib1 seq_red with_three = NOk (sess_st with_three, sess_ns with_three)) by (apply sess_eq; vm_compute; reflexivity).
  split; [exact S1|]. split; [apply built; vm_compute; reflexivity|].
  split; [apply Nat.ltb_lt; vm_compute; reflexivity|]. split; [repeat (constructor; [exact I|]); constructor|]. split.
  { rewrite <- (rrun_split lib1 seq_red _ (RSetData 0 (Some 0) :: bw_mid ++ [RG (GCopyParams 0)]) _ _ S1). apply sess_eq. vm_compute. reflexivity. }
  destruct bw_leaf as (m & w & h0 & HN). split; [exact (bw_evaluable _ _ HN eq_refl)|]. split; [vm_compute; reflexivity|]. split; [unfold expected; rewrite HN; reflexivity|]. split; [|vm_compute; reflexivity].
  intro norms. unfold event_values. apply omap_total. intros i Hi. cbn [value]. rewrite HN. unfold leaf_value; cbn [leaf_value_in].
  assert (X : forallb (fun i => match data_env three i x0 with Some _ => true | None => false end) (seq 0 (d_num three)) = true) by (vm_compute; reflexivity). rewrite forallb_forall in X. specialize (X i Hi).
  destruct (data_env three i x0); [|discriminate]. cbn [obind]. eexists. reflexivity.
Qed.

(** ** C19 *)
(** With as many weights as components E - n log E is added, E the sum of the current values of the weights and n the
    number of events; otherwise nothing. *)
Theorem C19_extended_partial : forall L red pre s0 ns i d k mid s ns' ws ks, session L red pre = NOk (s0, ns) ->
  nth_error (r_sets s0) i = Some (DUn d) -> nth_error ns k = Some (SAdd ws ks) -> Forall (rquiet ns k) mid ->
  rrun L red s0 ns (RSetData k (Some i) :: mid ++ [RG (GCopyParams k)]) = NOk (s, ns') ->
  evaluable L (r_g s) ns k -> fit_of s k = Some UnbinnedNllFit ->
  (forall norms, exists vs, event_values L (r_g s) ns norms k d = Some vs) ->
  let E := fold_left (fun a w => fadd a (get_f (g_heap (r_g s)) w FValue)) ws fzero in
  (calculateNLL L red s k = NThrow /\ unnormalisable L red (r_g s) ns k) \/
  exists s' vs, let norm := norm_of (r_g s') k in let sum := red (event_terms L norm vs) in
    normalised L red (r_g s) ns k (norm_of (r_g s')) /\ event_values L (r_g s) ns (norm_of (r_g s')) k d = Some vs /\
    calculateNLL L red s k = if fle norm fzero || feq fzero sum then NThrow
                             else NOk (if Nat.eqb (len ws) (len ks) then fadd sum (fsub E (fmul (f_of_nat (d_num d)) (m_log L E))) else sum, s').
Proof.
  intros L red pre s0 ns i d k mid s ns' ws ks E0 HD En Q RR EV FC DEF E. assert (Hk : k < len ns) by (apply nth_error_Some; congruence).
  pose proof (unbinned_nll L red s0 ns i d k mid s ns' (session_reach L red pre s0 ns E0) HD Hk Q RR EV FC DEF) as X.
  unfold with_extended, expected in X. rewrite En in X. fold E in X. destruct (Nat.eqb (len ws) (len ks)); exact X.
Qed.
Print Assumptions C19_extended_partial.
(** A sum of two Breit-Wigners with two weights. *)
Definition ext_ops : list rop :=
  [RG (GVar (NewObservable "x" (num 0) (num 10))); RG (GVar (NewVariable4 "m" (num 4) (num 0) (num 9))); RG (GVar (NewVariable4 "s" (num 2) (num 1) (num 3)));
   RG (GVar (NewVariable4 "m2" (num 7) (num 0) (num 9))); RG (GVar (NewVariable4 "n1" (num 5) (num 0) (num 9))); RG (GVar (NewVariable4 "n2" (num 6) (num 0) (num 9)));
   RG (GLeaf (LBW 0 1 2)); RG (GLeaf (LBW 0 3 2)); RG (GAdd [4; 5] [0; 1]); RSet 0 (DUn three)].
Definition ext_all : list rop := ext_ops ++ RSetData 2 (Some 0) :: bw_mid ++ [RG (GCopyParams 2)].
Definition is_bw (o : option snode) : bool := match o with Some (SLeaf (LBW _ _ _) _) => true | _ => false end.
Lemma bw_at : forall ns k x, is_bw (nth_error ns k) = true -> option_map node_obs (nth_error ns k) = Some [x] -> exists m w h0, nth_error ns k = Some (SLeaf (LBW x m w) h0).
Proof. intros ns k x A B. destruct (nth_error ns k) as [[[] h0| | | | |]|]; try discriminate A. cbn in B. injection B as ->. eauto. Qed.
Lemma ext_leaf : forall k, In k [0; 1] -> exists m w h0, nth_error (sess_ns ext_ops) k = Some (SLeaf (LBW x0 m w) h0).
Proof. intros k [<-|[<-|[]]]; apply bw_at; vm_compute; reflexivity. Qed.
Lemma two_weights : forall n, match n with Some (SAdd [_; _] [0; 1]) => true | _ => false end = true -> exists a b, n = Some (SAdd [a; b] [0; 1]).
Proof.
  intros n H. destruct n as [[l hp0|ws ks|ks|ws ks|mm ts|aa bb]|]; try discriminate H. destruct ws as [|a [|b [|]]]; try discriminate H. destruct ks as [|[|] [|[|[|]] [|]]]; try discriminate H. now exists a, b.
Qed.
Example C19_example : exists a b, let s := sess_st ext_all in let ns := sess_ns ext_ops in
  session lib1 seq_red ext_ops = NOk (sess_st ext_ops, ns) /\ nth_error ns 2 = Some (SAdd [a; b] [0; 1]) /\ Forall (rquiet ns 2) bw_mid /\
  nth_error (r_sets (sess_st ext_ops)) 0 = Some (DUn three) /\
  rrun lib1 seq_red (sess_st ext_ops) ns (RSetData 2 (Some 0) :: bw_mid ++ [RG (GCopyParams 2)]) = NOk (s, sess_ns ext_all) /\
  evaluable lib1 (r_g s) ns 2 /\ fit_of s 2 = Some UnbinnedNllFit /\
  (forall norms, exists vs, event_values lib1 (r_g s) ns norms 2 three = Some vs) /\ is_nok (calculateNLL lib1 seq_red s 2) = true.
Proof.
  destruct (two_weights (nth_error (sess_ns ext_ops) 2)) as (a & b & HN); [vm_compute; reflexivity|]. exists a, b. cbv zeta.
  assert (S1 : session lib1 seq_red ext_ops = NOk (sess_st ext_ops, sess_ns ext_ops)) by (apply sess_eq; vm_compute; reflexivity).
  split; [exact S1|]. split; [exact HN|]. split; [repeat (constructor; [exact I|]); constructor|]. split; [apply (built (removelast ext_ops)); vm_compute; reflexivity|].
  split. { rewrite <- (rrun_split lib1 seq_red _ (RSetData 2 (Some 0) :: bw_mid ++ [RG (GCopyParams 2)]) _ _ S1). apply sess_eq. vm_compute. reflexivity. }
  split.
  { apply evaluable_ok; [vm_compute; reflexivity|vm_compute; reflexivity|vm_compute; reflexivity|vm_compute; reflexivity|]. intros i Hi.
    assert (X : integrated (sess_ns ext_ops) (shares_observables (r_g (sess_st ext_all))) 3 2 = [0; 1]) by (vm_compute; reflexivity). rewrite X in Hi.
    destruct (ext_leaf i Hi) as (m & w & h0 & HL). destruct Hi as [<-|[<-|[]]]; (eapply integrable_leaf; [exact HL| |vm_compute; reflexivity|vm_compute; reflexivity|vm_compute; reflexivity];
      intros en c Hc; change (en x0 = Some c) in Hc; unfold leaf_value; cbn [leaf_value_in]; rewrite Hc; cbn [obind]; eexists; reflexivity). }
  split; [vm_compute; reflexivity|]. split; [|vm_compute; reflexivity].
  intro norms. unfold event_values. apply omap_total. intros i Hi.
  destruct (ext_leaf 0 ltac:(now left)) as (m1 & w1 & h1 & HL1). destruct (ext_leaf 1 ltac:(right; now left)) as (m2 & w2 & h2 & HL2).
  assert (X : forallb (fun i => match data_env three i x0 with Some _ => true | None => false end) (seq 0 (d_num three)) = true) by (vm_compute; reflexivity). rewrite forallb_forall in X. specialize (X i Hi).
  generalize (g_heap (r_g (sess_st ext_all))) (first_obs_of (r_g (sess_st ext_all))). intros hp fo. cbn [value]. rewrite HN. cbn [omap]. rewrite HL1, HL2. unfold leaf_value; cbn [leaf_value_in].
  destruct (data_env three i x0) as [e|]; [|discriminate]. cbn [obind map add_value]. eexists. reflexivity.
Qed.

(** ** C57 *)
(** Binned fits with the fit control chosen before the data are attached: one term for each bin (RunSpec.bin_term), with
    the density at the centre of the bin - but with the number of bins where the number of events is meant. *)
Theorem C57_binned_fit_partial : forall L red pre s0 ns k d fc ref s1 mid s ns', session L red pre = NOk (s0, ns) -> k < len ns ->
  fit_of s0 k = Some fc -> (fc = BinnedNllFit \/ fc = BinnedChisqFit) -> set_data s0 k ref (Some (DBin d)) = NOk s1 ->
  Forall (rquiet ns k) mid -> rrun L red s1 ns (mid ++ [RG (GCopyParams k)]) = NOk (s, ns') -> evaluable L (r_g s) ns k ->
  (forall norms, exists vs, bin_values L (r_g s) ns norms k (g_heap (r_g s1)) d = Some vs) ->
  (calculateNLL L red s k = NThrow /\ unnormalisable L red (r_g s) ns k) \/
  exists s' vs rows, let norm := norm_of (r_g s') k in let sum := red (bin_terms L fc (f_of_nat (bin_count d)) norm vs rows) in
    normalised L red (r_g s) ns k (norm_of (r_g s')) /\ bin_values L (r_g s) ns (norm_of (r_g s')) k (g_heap (r_g s1)) d = Some vs /\
    bin_rows (g_heap (r_g s1)) false d = Some rows /\
    calculateNLL L red s k = if fle norm fzero || feq fzero sum then NThrow
                             else NOk (with_extended L (g_heap (r_g s)) ns k (fold_left fadd (map fst rows) fzero) sum, s').
Proof. intros L red pre s0 ns k d fc ref s1 mid s ns' E. exact (binned_fit L red s0 ns k d fc ref s1 mid s ns' (session_reach L red pre s0 ns E)). Qed.
Print Assumptions C57_binned_fit_partial.

Definition chi_ops : list rop := bw_ops ++ [RG (GSetFitControl 0 BinnedChisqFit); RSet 0 (DBin hist)].
Definition chi_set : list rop := chi_ops ++ [RSetData 0 (Some 0)].
Definition chi_all : list rop := chi_set ++ [RG (GCopyParams 0)].
(** The chi-square of the bins with [n] for the number of events. *)
Definition chisq_with (s : rstate) (ns : list snode) (k : nat) (hp1 : heap) (d : binned) (s' : rstate) (n : list (f64 * f64) -> f64) : option f64 :=
  match bin_values lib1 (r_g s) ns (norm_of (r_g s')) k hp1 d, bin_rows hp1 false d with
  | Some vs, Some rows => Some (seq_red (bin_terms lib1 BinnedChisqFit (n rows) (norm_of (r_g s') k) vs rows)) | _, _ => None end.
Definition contents (rows : list (f64 * f64)) : f64 := fold_left fadd (map fst rows) fzero.
Lemma attach_one : forall a b k d s ns s1 ns1, session lib1 seq_red a = NOk (s, ns) -> b = a ++ [RSetData k (Some 0)] -> session lib1 seq_red b = NOk (s1, ns1) ->
  nth_error (r_sets s) 0 = Some d -> Nat.ltb k (len (g_pdfs (r_g s))) = true -> set_data s k (Some 0) (Some d) = NOk s1 /\ session lib1 seq_red b = NOk (s1, ns).
Proof.
  intros a b k d s ns s1 ns1 S1 -> S3 Y Z. rewrite (rrun_split lib1 seq_red _ [RSetData k (Some 0)] _ _ S1) in *. cbn [rrun rstep] in *. rewrite Y, Z in *.
  destruct (set_data s k (Some 0) (Some d)) as [r| | |]; cbn [nbind rnote] in *; try discriminate. apply ok_inj in S3. pose proof (f_equal fst S3) as H1. cbn [fst] in H1. now subst.
Qed.
Lemma chi_attached : session lib1 seq_red chi_ops = NOk (sess_st chi_ops, sess_ns chi_ops) /\
  set_data (sess_st chi_ops) 0 (Some 0) (Some (DBin hist)) = NOk (sess_st chi_set) /\ session lib1 seq_red chi_set = NOk (sess_st chi_set, sess_ns chi_ops) /\
  rrun lib1 seq_red (sess_st chi_set) (sess_ns chi_ops) [RG (GCopyParams 0)] = NOk (sess_st chi_all, sess_ns chi_all).
Proof.
  assert (S1 : session lib1 seq_red chi_ops = NOk (sess_st chi_ops, sess_ns chi_ops)) by (apply sess_eq; vm_compute; reflexivity). split; [exact S1|].
  assert (W : set_data (sess_st chi_ops) 0 (Some 0) (Some (DBin hist)) = NOk (sess_st chi_set) /\ session lib1 seq_red chi_set = NOk (sess_st chi_set, sess_ns chi_ops)).
  { assert (S3 : session lib1 seq_red chi_set = NOk (sess_st chi_set, sess_ns chi_set)) by (apply sess_eq; vm_compute; reflexivity).
    apply (attach_one chi_ops chi_set 0 (DBin hist) _ _ _ (sess_ns chi_set)); [exact S1|reflexivity|exact S3| |vm_compute; reflexivity].
    apply (built (bw_ops ++ [RG (GSetFitControl 0 BinnedChisqFit)])); vm_compute; reflexivity. }
  destruct W as [W S2]. split; [exact W|]. split; [exact S2|]. rewrite <- (rrun_split lib1 seq_red _ [RG (GCopyParams 0)] _ _ S2). apply sess_eq. vm_compute. reflexivity.
Qed.
(** A histogram of 2 bins with 3 and 5 events: with the number of events the chi-square would differ. *)
Theorem C57_scale_refuted : exists pre s0 ns k d s1 s ns' v s' x, session lib1 seq_red pre = NOk (s0, ns) /\ fit_of s0 k = Some BinnedChisqFit /\
  set_data s0 k (Some 0) (Some (DBin d)) = NOk s1 /\ rrun lib1 seq_red s1 ns [RG (GCopyParams k)] = NOk (s, ns') /\
  calculateNLL lib1 seq_red s k = NOk (v, s') /\ chisq_with s ns k (g_heap (r_g s1)) d s' contents = Some x /\ v <> x.
Proof.
  assert (X : match calculateNLL lib1 seq_red (sess_st chi_all) 0 with
              | NOk (v, s') => match chisq_with (sess_st chi_all) (sess_ns chi_ops) 0 (g_heap (r_g (sess_st chi_set))) hist s' contents with Some x => negb (fsame v x) | None => false end
              | _ => false end = true) by (vm_compute; reflexivity).
  destruct (calculateNLL lib1 seq_red (sess_st chi_all) 0) as [[v s']| | |] eqn:EC; try discriminate X.
  destruct (chisq_with (sess_st chi_all) (sess_ns chi_ops) 0 (g_heap (r_g (sess_st chi_set))) hist s' contents) as [x|] eqn:EX; [|discriminate X].
  destruct chi_attached as (S1 & W & _ & S3).
  exists chi_ops, (sess_st chi_ops), (sess_ns chi_ops), 0, hist, (sess_st chi_set), (sess_st chi_all), (sess_ns chi_all), v, s', x. split; [exact S1|].
  split; [vm_compute; reflexivity|]. split; [exact W|]. split; [exact S3|]. split; [exact EC|]. split; [exact EX|]. intros ->. rewrite fsame_refl in X. discriminate X.
Qed.
Print Assumptions C57_scale_refuted.
Definition bins_in (hp : heap) (d : binned) : bool := forallb (fun i => match bin_env hp d i x0 with Some _ => true | None => false end) (seq 0 (bin_count d)).
Example C57_example : let ns := sess_ns chi_ops in let s1 := sess_st chi_set in let s := sess_st chi_all in
  session lib1 seq_red chi_ops = NOk (sess_st chi_ops, ns) /\ 0 < len ns /\ fit_of (sess_st chi_ops) 0 = Some BinnedChisqFit /\
  set_data (sess_st chi_ops) 0 (Some 0) (Some (DBin hist)) = NOk s1 /\ rrun lib1 seq_red s1 ns ([] ++ [RG (GCopyParams 0)]) = NOk (s, sess_ns chi_all) /\
  evaluable lib1 (r_g s) ns 0 /\ (forall norms, exists vs, bin_values lib1 (r_g s) ns norms 0 (g_heap (r_g s1)) hist = Some vs) /\
  is_nok (calculateNLL lib1 seq_red s 0) = true.
Proof.
  cbv zeta. destruct chi_attached as (S1 & W & _ & S3). split; [exact S1|]. split; [apply Nat.ltb_lt; vm_compute; reflexivity|]. split; [vm_compute; reflexivity|].
  split; [exact W|]. split; [exact S3|].
  assert (BL : exists m w h0, nth_error (sess_ns chi_ops) 0 = Some (SLeaf (LBW x0 m w) h0)) by (apply bw_at; vm_compute; reflexivity). destruct BL as (m & w & h0 & HL).
  split.
  { apply evaluable_ok; [vm_compute; reflexivity|vm_compute; reflexivity|vm_compute; reflexivity|vm_compute; reflexivity|]. intros i Hi.
    assert (X : integrated (sess_ns chi_ops) (shares_observables (r_g (sess_st chi_all))) 1 0 = [0]) by (vm_compute; reflexivity). rewrite X in Hi. destruct Hi as [<-|[]].
    eapply integrable_leaf; [exact HL| |vm_compute; reflexivity|vm_compute; reflexivity|vm_compute; reflexivity].
    intros en c Hc. change (en x0 = Some c) in Hc. unfold leaf_value; cbn [leaf_value_in]. rewrite Hc. cbn [obind]. eexists. reflexivity. }
  split; [|vm_compute; reflexivity]. intro norms. unfold bin_values. apply omap_total. intros i Hi. cbn [value]. rewrite HL. unfold leaf_value; cbn [leaf_value_in].
  assert (X : bins_in (g_heap (r_g (sess_st chi_set))) hist = true) by (vm_compute; reflexivity). unfold bins_in in X. rewrite forallb_forall in X. specialize (X i Hi).
  destruct (bin_env (g_heap (r_g (sess_st chi_set))) hist i x0); [|discriminate]. cbn [obind]. eexists. reflexivity.
Qed.

(** ** C27 *)
(** In the situations of C22 and C57 no read is out of bounds: calculateNLL returns or throws. *)
Theorem C27_unbinned_in_bounds_partial : forall L red pre s0 ns i d k mid s ns', session L red pre = NOk (s0, ns) ->
  nth_error (r_sets s0) i = Some (DUn d) -> k < len ns -> Forall (rquiet ns k) mid ->
  rrun L red s0 ns (RSetData k (Some i) :: mid ++ [RG (GCopyParams k)]) = NOk (s, ns') ->
  evaluable L (r_g s) ns k -> fit_of s k = Some UnbinnedNllFit ->
  (forall norms, exists vs, event_values L (r_g s) ns norms k d = Some vs) ->
  calculateNLL L red s k = NThrow \/ exists r, calculateNLL L red s k = NOk r.
Proof.
  intros L red pre s0 ns i d k mid s ns' E HD Hk Q RR EV FC DEF. destruct (unbinned_nll L red s0 ns i d k mid s ns' (session_reach L red pre s0 ns E) HD Hk Q RR EV FC DEF) as [[H _]|(s' & vs & _ & _ & H)]; [now left|].
  rewrite H. destruct (_ || _); [now left|right; eauto].
Qed.
Print Assumptions C27_unbinned_in_bounds_partial.
Theorem C27_binned_in_bounds_partial : forall L red pre s0 ns k d fc ref s1 mid s ns', session L red pre = NOk (s0, ns) -> k < len ns ->
  fit_of s0 k = Some fc -> (fc = BinnedNllFit \/ fc = BinnedChisqFit) -> set_data s0 k ref (Some (DBin d)) = NOk s1 ->
  Forall (rquiet ns k) mid -> rrun L red s1 ns (mid ++ [RG (GCopyParams k)]) = NOk (s, ns') -> evaluable L (r_g s) ns k ->
  (forall norms, exists vs, bin_values L (r_g s) ns norms k (g_heap (r_g s1)) d = Some vs) ->
  calculateNLL L red s k = NThrow \/ exists r, calculateNLL L red s k = NOk r.
Proof.
  intros L red pre s0 ns k d fc ref s1 mid s ns' E Hk HF FF ES Q RR EV DEF. destruct (binned_fit L red s0 ns k d fc ref s1 mid s ns' (session_reach L red pre s0 ns E) Hk HF FF ES Q RR EV DEF) as [[H _]|(s' & vs & rows & _ & _ & _ & H)]; [now left|].
  rewrite H. destruct (_ || _); [now left|right; eauto].
Qed.
Print Assumptions C27_binned_in_bounds_partial.

(** After any program: each program below runs without error until its last call, whose reads leave the buffer. *)
Definition bad_read (ops : list rop) (o : rop) : Prop := (exists r, session lib1 seq_red ops = NOk r) /\ session lib1 seq_red (ops ++ [o]) = NUB.
Lemma bad_read_ok : forall ops o, is_nok (session lib1 seq_red ops) = true -> is_nub (session lib1 seq_red (ops ++ [o])) = true -> bad_read ops o.
Proof. intros ops o A B. split; [eexists; now apply sess_eq|now apply nub_ok]. Qed.
(** Data removed with setData(nullptr): numEntries still counts the old events. *)
Theorem C27_null_data_refuted : exists ops, In (RSetData 0 None) ops /\ bad_read ops (RNll 0).
Proof.
  exists (with_three ++ [RSetData 0 (Some 0); RSetData 0 None]). split; [apply in_or_app; right; right; now left|apply bad_read_ok; vm_compute; reflexivity].
Qed.
Print Assumptions C27_null_data_refuted.
(** Binned data followed by unbinned data: the stride is still that of a binned fit. *)
Theorem C27_binned_then_unbinned_refuted : exists pre, bad_read (pre ++ [RSet 0 (DBin hist); RSet 1 (DUn three); RSetData 0 (Some 0); RSetData 0 (Some 1)]) (RNll 0).
Proof. exists bw_ops. apply bad_read_ok; vm_compute; reflexivity. Qed.
Print Assumptions C27_binned_then_unbinned_refuted.
(** Another PDF given fewer events. *)
Theorem C27_other_pdf_refuted : exists pre, bad_read (pre ++ [RSet 0 (DUn three); RSet 1 (DUn one_event); RSetData 0 (Some 0); RSetData 1 (Some 1); RG (GSetIndices 0)]) (RNll 0).
Proof. exists (bw_ops ++ [RG (GLeaf (LBW 0 1 2))]). apply bad_read_ok; vm_compute; reflexivity. Qed.
Print Assumptions C27_other_pdf_refuted.

(** ** C29 *)
(** A second data set of as many events, attached to another PDF, replaces the data of the first one. *)
Definition other_three : dataset := mkDS [x0] [[num 2; num 3; num 5]] 3.
Definition two_pdfs : list rop :=
  bw_ops ++ [RG (GLeaf (LBW 0 1 2)); RSet 0 (DUn three); RSet 1 (DUn other_three); RSetData 0 (Some 0)].
Definition after2 : list rop := two_pdfs ++ [RSetData 1 (Some 1); RG (GSetIndices 0)].
Definition differ (x y : nres (f64 * rstate)) : bool := match x, y with NOk (v, _), NOk (v2, _) => negb (fsame v v2) | _, _ => false end.
Lemma differ_ok : forall x y, differ x y = true -> exists v v2 s' s2', x = NOk (v, s') /\ y = NOk (v2, s2') /\ v <> v2.
Proof. intros [[v s']| | |] [[v2 s2']| | |] H; try discriminate H. exists v, v2, s', s2'. split; [reflexivity|]. split; [reflexivity|]. intros ->. cbn in H. rewrite fsame_refl in H. discriminate H. Qed.
Theorem C29_other_data_refuted : exists ops s ns s2 ns2 v v2 s' s2', session lib1 seq_red ops = NOk (s, ns) /\ m_data (r_mem s 0) = Some 0 /\
  rrun lib1 seq_red s ns [RSetData 1 (Some 1); RG (GSetIndices 0)] = NOk (s2, ns2) /\ m_data (r_mem s2 0) = Some 0 /\ fit_of s2 0 = fit_of s 0 /\
  calculateNLL lib1 seq_red s 0 = NOk (v, s') /\ calculateNLL lib1 seq_red s2 0 = NOk (v2, s2') /\ v <> v2.
Proof.
  assert (X : differ (calculateNLL lib1 seq_red (sess_st two_pdfs) 0) (calculateNLL lib1 seq_red (sess_st after2) 0) = true) by (vm_compute; reflexivity).
  destruct (differ_ok _ _ X) as (v & v2 & s' & s2' & E1 & E2 & NE).
  assert (S1 : session lib1 seq_red two_pdfs = NOk (sess_st two_pdfs, sess_ns two_pdfs)) by (apply sess_eq; vm_compute; reflexivity).
  exists two_pdfs, (sess_st two_pdfs), (sess_ns two_pdfs), (sess_st after2), (sess_ns after2), v, v2, s', s2'. split; [exact S1|]. split; [vm_compute; reflexivity|].
  split. { rewrite <- (rrun_split lib1 seq_red _ _ _ _ S1). apply sess_eq. vm_compute. reflexivity. }
  split; [vm_compute; reflexivity|]. split; [vm_compute; reflexivity|]. split; [exact E1|]. split; [exact E2|exact NE].
Qed.
Print Assumptions C29_other_data_refuted.
(** Attaching the data again repairs it, whatever was attached to other PDFs before: see C22, whose [pre] is any program. *)
Theorem C29_reattached_partial : forall L red pre j i2 s0 ns i d k mid s ns', session L red (pre ++ [RSetData j i2]) = NOk (s0, ns) ->
  nth_error (r_sets s0) i = Some (DUn d) -> k < len ns -> j <> k -> Forall (rquiet ns k) mid ->
  rrun L red s0 ns (RSetData k (Some i) :: mid ++ [RG (GCopyParams k)]) = NOk (s, ns') ->
  evaluable L (r_g s) ns k -> fit_of s k = Some UnbinnedNllFit -> expected (g_heap (r_g s)) ns k = None ->
  (forall norms, exists vs, event_values L (r_g s) ns norms k d = Some vs) ->
  (calculateNLL L red s k = NThrow /\ unnormalisable L red (r_g s) ns k) \/
  exists s' vs, let norm := norm_of (r_g s') k in let sum := red (event_terms L norm vs) in
    normalised L red (r_g s) ns k (norm_of (r_g s')) /\ event_values L (r_g s) ns (norm_of (r_g s')) k d = Some vs /\
    calculateNLL L red s k = if fle norm fzero || feq fzero sum then NThrow else NOk (sum, s').
Proof. intros L red pre j i2 s0 ns i d k mid s ns' E HD Hk _. exact (C22_unbinned_nll_partial L red (pre ++ [RSetData j i2]) s0 ns i d k mid s ns' E HD Hk). Qed.
Print Assumptions C29_reattached_partial.

(** ** C28 *)
(** calculateNLL changes neither Variables, data, buffers nor - apart from the normalisation factors - PDFs. *)
Theorem C28_nll_keeps_partial : forall L red ops s ns k r s', session L red ops = NOk (s, ns) -> calculateNLL L red s k = NOk (r, s') ->
  g_heap (r_g s') = g_heap (r_g s) /\ g_hs (r_g s') = g_hs (r_g s) /\ map skel (g_pdfs (r_g s')) = map skel (g_pdfs (r_g s)) /\
  r_sets s' = r_sets s /\ r_mem s' = r_mem s /\ r_buf s' = r_buf s /\ r_total s' = r_total s.
Proof. intros L red ops s ns k r s' E. exact (nll_keeps L red s ns k r s' (session_reach L red ops s ns E)). Qed.
Print Assumptions C28_nll_keeps_partial.
(** getCompProbsAtDataPoints keeps the Variables, the data and the fit control. *)
Theorem C28_comp_probs_keeps_partial : forall L red ops s ns k r s', session L red ops = NOk (s, ns) -> k < len ns -> run_comp_probs L red s k = NOk (r, s') ->
  g_heap (r_g s') = g_heap (r_g s) /\ g_hs (r_g s') = g_hs (r_g s) /\ r_sets s' = r_sets s /\ r_mem s' = r_mem s /\ r_buf s' = r_buf s /\ r_total s' = r_total s /\
  fit_of s' k = fit_of s k.
Proof.
  intros L red ops s ns k r s' E Hk H. destruct (comp_probs_keeps L red s ns k r s' (session_reach L red ops s ns E) Hk H) as [(A & B & C & D & F & G) I]. now repeat split.
Qed.
Print Assumptions C28_comp_probs_keeps_partial.
(** getValue(EvalFunc) leaves the fit control changed: the next calculateNLL sums densities. *)
Definition one_pdf : list rop := with_three ++ [RSetData 0 (Some 0)].
Theorem C28_getValue_refuted : exists ops s ns x s1 v v1 s' s1', session lib1 seq_red ops = NOk (s, ns) /\
  run_getValue lib1 seq_red s 0 EvalFit = NOk (x, s1) /\ fit_of s1 0 <> fit_of s 0 /\
  calculateNLL lib1 seq_red s 0 = NOk (v, s') /\ calculateNLL lib1 seq_red s1 0 = NOk (v1, s1') /\ v <> v1.
Proof.
  pose (h := fun s : rstate => match run_getValue lib1 seq_red s 0 EvalFit with NOk (_, s1) => differ (calculateNLL lib1 seq_red s 0) (calculateNLL lib1 seq_red s1 0) && match fit_of s 0, fit_of s1 0 with Some UnbinnedNllFit, Some EvalFit => true | _, _ => false end | _ => false end).
  assert (G : forall s, h s = true -> exists x s1 v v1 s' s1', run_getValue lib1 seq_red s 0 EvalFit = NOk (x, s1) /\ fit_of s1 0 <> fit_of s 0 /\
    calculateNLL lib1 seq_red s 0 = NOk (v, s') /\ calculateNLL lib1 seq_red s1 0 = NOk (v1, s1') /\ v <> v1).
  { intros s H. unfold h in H. destruct (run_getValue lib1 seq_red s 0 EvalFit) as [[x s1]| | |]; try discriminate H. apply andb_true_iff in H. destruct H as [H F].
    destruct (differ_ok _ _ H) as (v & v1 & s' & s1' & E1 & E2 & NE). exists x, s1, v, v1, s', s1'. split; [reflexivity|]. split; [|now repeat split].
    destruct (fit_of s 0) as [[]|], (fit_of s1 0) as [[]|]; try discriminate F. discriminate. }
  assert (X : h (sess_st one_pdf) = true) by (vm_compute; reflexivity). destruct (G _ X) as (x & s1 & v & v1 & s' & s1' & W).
  exists one_pdf, (sess_st one_pdf), (sess_ns one_pdf), x, s1, v, v1, s', s1'. split; [apply sess_eq; vm_compute; reflexivity|exact W].
Qed.
Print Assumptions C28_getValue_refuted.
(** evaluateAtPoints leaves the observable at the last point it evaluated. *)
Theorem C28_evaluateAtPoints_refuted : exists ops s ns x s1 h, session lib1 seq_red ops = NOk (s, ns) /\ nth_error (g_hs (r_g s)) 0 = Some h /\
  run_points lib1 seq_red s 0 0 = NOk (x, s1) /\ get_f (g_heap (r_g s1)) h FValue <> get_f (g_heap (r_g s)) h FValue /\ fit_of s1 0 <> fit_of s 0.
Proof.
  pose (c := fun s : rstate => match nth_error (g_hs (r_g s)) 0, run_points lib1 seq_red s 0 0 with
     | Some h, NOk (_, s1) => negb (fsame (get_f (g_heap (r_g s1)) h FValue) (get_f (g_heap (r_g s)) h FValue)) && match fit_of s 0, fit_of s1 0 with Some UnbinnedNllFit, Some EvalFit => true | _, _ => false end
     | _, _ => false end).
  assert (G : forall s, c s = true -> exists x s1 h, nth_error (g_hs (r_g s)) 0 = Some h /\ run_points lib1 seq_red s 0 0 = NOk (x, s1) /\
    get_f (g_heap (r_g s1)) h FValue <> get_f (g_heap (r_g s)) h FValue /\ fit_of s1 0 <> fit_of s 0).
  { intros s H. unfold c in H. destruct (nth_error (g_hs (r_g s)) 0) as [h|]; [|discriminate H]. destruct (run_points lib1 seq_red s 0 0) as [[x s1]| | |]; try discriminate H. apply andb_true_iff in H. destruct H as [H F].
    exists x, s1, h. split; [reflexivity|]. split; [reflexivity|]. split; [intro E; rewrite E, fsame_refl in H; discriminate H|].
    destruct (fit_of s 0) as [[]|], (fit_of s1 0) as [[]|]; try discriminate F. discriminate. }
  assert (X : c (sess_st one_pdf) = true) by (vm_compute; reflexivity). destruct (G _ X) as (x & s1 & h & W).
  exists one_pdf, (sess_st one_pdf), (sess_ns one_pdf), x, s1, h. split; [apply sess_eq; vm_compute; reflexivity|exact W].
Qed.
Print Assumptions C28_evaluateAtPoints_refuted.
Example C28_example : session lib1 seq_red one_pdf = NOk (sess_st one_pdf, sess_ns one_pdf) /\ 0 < len (sess_ns one_pdf) /\
  is_nok (calculateNLL lib1 seq_red (sess_st one_pdf) 0) = true /\ is_nok (run_comp_probs lib1 seq_red (sess_st one_pdf) 0) = true.
Proof. split; [apply sess_eq; vm_compute; reflexivity|]. split; [apply Nat.ltb_lt; vm_compute; reflexivity|]. split; vm_compute; reflexivity. Qed.
