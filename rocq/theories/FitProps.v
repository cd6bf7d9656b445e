(** C32-C35: what the minimiser layer does to the parameters. *)
From Coq Require Import List ZArith String Bool Lia.
From Flocq Require Import IEEE754.BinarySingleNaN.
From Verif Require Import F64 F64Lemmas ListAux VariableModel LeafFormulas DeviceModel PdfModel PdfSpec FlatProofs EvalProofs HostProofs PdfProofs PdfProofs2 PdfProofs3 PdfProps
  NormModel NormProps FitModel FitSpec FitProofs FitProofs2 FitProofs3 FitProofs4.
Import ListNotations.
Local Open Scope nat_scope.
Local Open Scope string_scope.
Local Open Scope list_scope.
Local Notation len := List.length.

Lemma fsub_zero : forall x, fsub x fzero = x.
Proof. intros [[|]|[|]| |[|] m e Hb]; reflexivity. Qed.

(** ** Reading the fields *)
Lemma changed_some : forall st h b, get_field (g_heap st) h FChanged = Some (CB b) -> changed_of st h = b.
Proof. intros. unfold changed_of. now rewrite H. Qed.

(** ** C32 *)

(** After the tree of PDF k was flattened and a parameter object made for it, whatever calls, results and assignments
    came before: a call with vector v (of Minuit2's FCN or of Minuit1) goes through; parameter number i of
    getParameters() has the value v[i] - its blinding offset; there are no other parameters anywhere in the tree; the
    flattened parameter array is the one a new flattening would produce and the other arrays are as before; no other
    Variable or Observable, and no other member of the parameters than value and changed flag, is touched.
    Partial: no PDF object may occur twice in the tree (see C15_shared_component_refuted) and no second parameter object
    may renumber the variables (see C32_two_fits_refuted); Params throws for two parameters of one name, Minuit1 does not
    (see C32_minuit1_names_refuted). *)
Theorem C32_parameters_partial : forall ops qs k st ns st1 q fs st2 minuit1 v,
  after (ops ++ GSetIndices k :: qs) = (st, ns) -> k < len ns -> NoDup (tree_ids ns k) -> Forall (quiet ns k) qs ->
  params_new st k = NOk (st1, q) ->
  let pars := getParameters (g_pdfs st) k in
  Forall (fquiet ns k (len pars)) fs -> frun q st1 fs = NOk st2 -> len v = len pars ->
  exists st3, fstep q st2 (call minuit1 v) = NOk st3 /\
    (forall i h, nth_error pars i = Some h -> value_of st3 h = fsub (nth i v fzero) (blind_of st2 h)) /\
    (forall i n h, In i (tree_ids ns k) -> nth_error ns i = Some n -> In h (node_pars n) -> In h pars) /\
    a_par (g_arr st3) = a_par (g_arr (fst (gstep st3 (GSetIndices k)))) /\
    a_fun (g_arr st3) = a_fun (g_arr st2) /\ a_con (g_arr st3) = a_con (g_arr st2) /\
    a_obs (g_arr st3) = a_obs (g_arr st2) /\ a_nor (g_arr st3) = a_nor (g_arr st2) /\
    (forall h f, In h (g_hs st) -> ~ In h pars -> get_field (g_heap st3) h f = get_field (g_heap st2) h f) /\
    (forall h f, In h pars -> f <> FValue -> f <> FChanged -> get_field (g_heap st3) h f = get_field (g_heap st2) h f).
Proof.
  intros ops qs k st ns st1 q fs st2 minuit1 v E Hk ND Q P pars QF R L.
  destruct (params_new_ok _ k st ns st1 q E Hk P) as (made & F1 & G0 & IH & QP & QV & NN & QU & EP & EHS & EA & OF & TREE).
  assert (AP1 : apar ns st1 k). { pose proof (flattened_apar ops k qs st ns E Hk ND Q) as AP. unfold apar in *. rewrite EP, EA. exact AP. }
  unfold pars in *; clear pars. subst k. rewrite <- QV in *.
  destruct (frun_finv made q ns (q_pdf q) fs st1 st2 F1 QF R) as [F2 _]. pose proof (frun_apar ns q fs st1 st2 AP1 QF R) as AP2.
  destruct (call_goes_through made ns minuit1 false q st2 v F2 AP2 L) as (st3 & E3 & A1 & A2 & A3 & A4 & A5).
  destruct (call_ok made minuit1 false q st2 v st3 F2 L E3) as (F3 & P3 & H3 & SV & SO).
  exists st3. split; [unfold call; destruct minuit1; exact E3|]. split.
  { intros i h Ei. unfold value_of. apply get_f_some. rewrite (SV i h FValue Ei). reflexivity. }
  split; [intros i n h Hi En Hh; apply (TREE i n h Hi En Hh)|]. split; [exact A1|]. split; [exact A2|]. split; [exact A3|]. split; [exact A4|]. split; [exact A5|].
  split; [intros h f Hh Nh; apply SO; [now apply IH|exact Nh]|].
  intros h f Hh N1 N2. apply In_nth_error in Hh. destruct Hh as [i Ei]. rewrite (SV i h f Ei). destruct f; try reflexivity; contradiction.
Qed.
Print Assumptions C32_parameters_partial.

(** The states of an example fit. *)
Definition pst (r : nres (gstate * params)) : gstate := match r with NOk (s, _) => s | _ => ginit end.
Definition pq (r : nres (gstate * params)) : params := match r with NOk (_, q) => q | _ => mkParams 0 [] [] end.
Definition rst (r : nres gstate) : gstate := match r with NOk s => s | _ => ginit end.
Lemma pst_ok : forall r, is_nok r = true -> r = NOk (pst r, pq r).
Proof. intros [[s q]| | |] H; try discriminate. reflexivity. Qed.
Lemma rst_ok : forall r, is_nok r = true -> r = NOk (rst r).
Proof. intros [s| | |] H; try discriminate. reflexivity. Qed.
Lemma differ : forall x y, fsame x y = false -> x <> y.
Proof. intros x y H ->. now rewrite fsame_refl in H. Qed.

Definition fit_ops := ex_ops ++ GSetIndices 6 :: [GVar (Set_ 2 FBlind (CF (num 3)))].
Local Notation fit_new := (params_new (st_of fit_ops) 6) (only parsing).
Definition fit_v := [fhalf; num 4; num 1; num 2].
Definition fit_fs := [FNewFcn; FCall fit_v; FCurrent; FOther (GVar (Set_ 3 FValue (CF (num 2)))); FResult fit_v fit_v; FEval1 fit_v].
Example C32_example :
  after fit_ops = (st_of fit_ops, ns_of fit_ops) /\ 6 < len (ns_of fit_ops) /\ NoDup (tree_ids (ns_of fit_ops) 6) /\
  Forall (quiet (ns_of fit_ops) 6) [GVar (Set_ 2 FBlind (CF (num 3)))] /\
  params_new (st_of fit_ops) 6 = NOk (pst fit_new, pq fit_new) /\ len (getParameters (g_pdfs (st_of fit_ops)) 6) = 4 /\
  Forall (fquiet (ns_of fit_ops) 6 4) fit_fs /\ is_nok (frun (pq fit_new) (pst fit_new) fit_fs) = true /\
  map h_name (getParameters (g_pdfs (st_of fit_ops)) 6) = ["frac"; "mean"; "sigma"; "alpha"].
Proof.
  split; [apply after_eq|]. split; [apply Nat.ltb_lt; vm_compute; reflexivity|]. split; [apply nodupb_ok; vm_compute; reflexivity|].
  split; [apply Forall_cons; [exact I|apply Forall_nil]|]. split; [apply pst_ok; vm_compute; reflexivity|]. split; [vm_compute; reflexivity|].
  split; [repeat (apply Forall_cons; [cbn [fquiet quiet]; auto|]); apply Forall_nil|]. split; vm_compute; reflexivity.
Qed.

(** Two parameter objects over PDFs that share a Variable: the second renumbers it, and a call of the first with a vector
    of the right size gives the Variable the wrong entry. *)
Definition two_ops' : list gop :=
  [GVar (NewObservable "x" (num 0) (num 10)); GVar (NewVariable4 "m" (num 5) (num 0) (num 10)); GVar (NewVariable4 "s" (num 2) (num 1) (num 3));
   GVar (NewVariable4 "t" (num 2) (num 1) (num 3)); GLeaf (LGaussian 0 1 2); GLeaf (LGaussian 0 2 3); GSetIndices 0].
Theorem C32_two_fits_refuted : exists ops k k' st ns st1 q st2 q' v st3 i h,
  after ops = (st, ns) /\ k < len ns /\ k' < len ns /\ params_new st k = NOk (st1, q) /\ params_new st1 k' = NOk (st2, q') /\
  len v = len (getParameters (g_pdfs st) k) /\ fstep q st2 (FCall v) = NOk st3 /\ nth_error (getParameters (g_pdfs st) k) i = Some h /\
  value_of st3 h <> fsub (nth i v fzero) (blind_of st2 h).
Proof.
  set (r := params_new (st_of two_ops') 0). set (r' := params_new (pst r) 1). set (v := [num 7; num 2]). set (f := fstep (pq r) (pst r') (FCall v)).
  exists two_ops', 0, 1, (st_of two_ops'), (ns_of two_ops'), (pst r), (pq r), (pst r'), (pq r'), v, (rst f), 1, (nth 1 (getParameters (g_pdfs (st_of two_ops')) 0) no_handle).
  split; [apply after_eq|]. split; [apply Nat.ltb_lt; vm_compute; reflexivity|]. split; [apply Nat.ltb_lt; vm_compute; reflexivity|].
  split; [apply pst_ok; vm_compute; reflexivity|]. split; [apply pst_ok; vm_compute; reflexivity|]. split; [vm_compute; reflexivity|].
  split; [apply rst_ok; vm_compute; reflexivity|]. split; [apply nth_error_nth'; apply Nat.ltb_lt; vm_compute; reflexivity|]. apply differ. vm_compute. reflexivity.
Qed.
Print Assumptions C32_two_fits_refuted.

(** Minuit1 accepts two Variables of one name (Params of Minuit2 throws); a call gives both the entry of the last. *)
Definition same_name_ops : list gop :=
  [GVar (NewObservable "x" (num 0) (num 10)); GVar (NewVariable4 "p" (num 5) (num 0) (num 10)); GVar (NewVariable4 "p" (num 2) (num 1) (num 3));
   GLeaf (LGaussian 0 1 2); GSetIndices 0].
(** The loop of Minuit1::Minuit1, FitManagerMinuit1.cpp:17-37: counts up, without looking at the names. *)
Fixpoint number_vars (hp : heap) (n : Z) (vars : list handle) : heap :=
  match vars with [] => hp | h :: t => number_vars (set_fitter_index hp h n) (n + 1)%Z t end.
Theorem C32_minuit1_names_refuted : exists ops k st ns v st3 i h,
  after ops = (st, ns) /\ k < len ns /\ params_new st k = NThrow /\
  let pars := getParameters (g_pdfs st) k in
  len v = len pars /\ fstep (mkParams k pars []) (with_heap st (number_vars (g_heap st) 0 pars)) (FEval1 v) = NOk st3 /\ nth_error pars i = Some h /\
  value_of st3 h <> fsub (nth i v fzero) (blind_of st h).
Proof.
  set (st := st_of same_name_ops). set (v := [num 7; num 2]). set (pars := getParameters (g_pdfs st) 0).
  set (f := fstep (mkParams 0 pars []) (with_heap st (number_vars (g_heap st) 0 pars)) (FEval1 v)).
  exists same_name_ops, 0, st, (ns_of same_name_ops), v, (rst f), 0, (nth 0 pars no_handle).
  split; [apply after_eq|]. split; [apply Nat.ltb_lt; vm_compute; reflexivity|].
  split. { assert (X : match params_new st 0 with NThrow => true | _ => false end = true) by (vm_compute; reflexivity). destruct (params_new st 0); try discriminate X; reflexivity. }
  cbn zeta. fold pars. split; [vm_compute; reflexivity|].
  split; [apply rst_ok; vm_compute; reflexivity|]. split; [apply nth_error_nth'; apply Nat.ltb_lt; vm_compute; reflexivity|]. apply differ. vm_compute. reflexivity.
Qed.
Print Assumptions C32_minuit1_names_refuted.

(** ** C33 *)

(** Two calls one after the other: for a parameter without blinding, changed() after the second is true exactly when the
    value of the second call is not == the value of the first.  Partial: nothing between the two calls changes the values,
    and the blinding offset is +0 (the default). *)
Theorem C33_changed_partial : forall ops k st ns st1 q fs st2 m v st3 m' w st4 h,
  after ops = (st, ns) -> k < len ns -> params_new st k = NOk (st1, q) ->
  let pars := getParameters (g_pdfs st) k in
  Forall (fquiet ns k (len pars)) fs -> frun q st1 fs = NOk st2 -> len v = len pars -> len w = len pars ->
  fstep q st2 (call m v) = NOk st3 -> fstep q st3 (call m' w) = NOk st4 ->
  In h pars -> blind_of st2 h = fzero ->
  changed_of st4 h = negb (feq (value_of st3 h) (value_of st4 h)).
Proof.
  intros ops k st ns st1 q fs st2 m v st3 m' w st4 h E Hk P pars QF R Lv Lw C1 C2 Hh B0.
  destruct (params_new_ok _ k st ns st1 q E Hk P) as (made & F1 & G0 & IH & QP & QV & NN & QU & EP & EHS & EA & OF & TREE).
  unfold pars in *; clear pars. subst k. rewrite <- QV in *.
  destruct (frun_finv made q ns (q_pdf q) fs st1 st2 F1 QF R) as [F2 _].
  assert (C1' : from_minuit m st2 q v false = NOk st3) by (unfold call in C1; destruct m; exact C1).
  assert (C2' : from_minuit m' st3 q w false = NOk st4) by (unfold call in C2; destruct m'; exact C2).
  destruct (call_ok made m false q st2 v st3 F2 Lv C1') as (F3 & _ & _ & SV3 & _). destruct (call_ok made m' false q st3 w st4 F3 Lw C2') as (F4 & _ & _ & SV4 & _).
  apply In_nth_error in Hh. destruct Hh as [i Ei].
  pose proof (SV3 i h FBlind Ei) as B3. cbn [after_call] in B3. apply get_f_eq in B3. unfold blind_of in B0. rewrite B0 in B3.
  pose proof (SV4 i h FValue Ei) as V4. cbn [after_call] in V4. rewrite B3, fsub_zero in V4. apply get_f_some in V4.
  pose proof (SV4 i h FChanged Ei) as CH. cbn [after_call] in CH. apply changed_some in CH. rewrite CH. unfold value_of. now rewrite V4.
Qed.
Print Assumptions C33_changed_partial.
Definition c33_fs := [FNewFcn; FResult fit_v fit_v].
Definition c33_w := [fhalf; num 4; num 2; num 2].
Local Notation c33_2 := (rst (frun (pq fit_new) (pst fit_new) c33_fs)) (only parsing).
Local Notation c33_3 := (rst (fstep (pq fit_new) c33_2 (call false fit_v))) (only parsing).
Local Notation c33_4 := (rst (fstep (pq fit_new) c33_3 (call true c33_w))) (only parsing).
Local Notation c33_h := (nth 2 (getParameters (g_pdfs (st_of fit_ops)) 6) no_handle) (only parsing).
Example C33_example :
  Forall (fquiet (ns_of fit_ops) 6 4) c33_fs /\ frun (pq fit_new) (pst fit_new) c33_fs = NOk c33_2 /\
  fstep (pq fit_new) c33_2 (call false fit_v) = NOk c33_3 /\ fstep (pq fit_new) c33_3 (call true c33_w) = NOk c33_4 /\
  In c33_h (getParameters (g_pdfs (st_of fit_ops)) 6) /\ blind_of c33_2 c33_h = fzero /\ changed_of c33_4 c33_h = true.
Proof.
  split; [repeat (apply Forall_cons; [exact I|]); apply Forall_nil|]. split; [apply rst_ok; vm_compute; reflexivity|].
  split; [apply rst_ok; vm_compute; reflexivity|]. split; [apply rst_ok; vm_compute; reflexivity|]. split; [apply nth_In; apply Nat.ltb_lt; vm_compute; reflexivity|]. split; [apply fsame_eq; vm_compute; reflexivity|].
  vm_compute. reflexivity.
Qed.

(** With a blinding offset the flag compares the un-blinded old value with the blinded new one: the same vector twice is
    reported as a change, and - worse - a change can go unreported. *)
Definition blind_ops : list gop :=
  [GVar (NewObservable "x" (num 0) (num 10)); GVar (NewVariable4 "m" (num 5) (num 0) (num 10)); GVar (NewVariable4 "s" (num 2) (num 1) (num 3));
   GLeaf (LGaussian 0 1 2); GSetIndices 0; GVar (Set_ 1 FBlind (CF (num 1)))].
Local Notation blind_new := (params_new (st_of blind_ops) 0) (only parsing).
Local Notation blind_h := (nth 0 (getParameters (g_pdfs (st_of blind_ops)) 0) no_handle) (only parsing).
Theorem C33_blind_refuted : exists ops k st ns st1 q v st2 h,
  after ops = (st, ns) /\ k < len ns /\ params_new st k = NOk (st1, q) /\ In h (getParameters (g_pdfs st) k) /\
  fstep q st1 (FCall v) = NOk st2 /\
  (exists st3, fstep q st2 (FCall v) = NOk st3 /\ value_of st3 h = value_of st2 h /\ changed_of st3 h = true) /\
  (exists w st3, fstep q st2 (FCall w) = NOk st3 /\ value_of st3 h <> value_of st2 h /\ changed_of st3 h = false).
Proof.
  set (v := [num 5; num 2]). set (w := [num 4; num 2]). set (s2 := fstep (pq blind_new) (pst blind_new) (FCall v)).
  exists blind_ops, 0, (st_of blind_ops), (ns_of blind_ops), (pst blind_new), (pq blind_new), v, (rst s2), blind_h.
  split; [apply after_eq|]. split; [apply Nat.ltb_lt; vm_compute; reflexivity|]. split; [apply pst_ok; vm_compute; reflexivity|].
  split; [apply nth_In; apply Nat.ltb_lt; vm_compute; reflexivity|]. split; [apply rst_ok; vm_compute; reflexivity|]. split.
  - exists (rst (fstep (pq blind_new) (rst s2) (FCall v))). split; [apply rst_ok; vm_compute; reflexivity|]. split; [apply fsame_eq; vm_compute; reflexivity|vm_compute; reflexivity].
  - exists w, (rst (fstep (pq blind_new) (rst s2) (FCall w))). split; [apply rst_ok; vm_compute; reflexivity|]. split; [apply differ; vm_compute; reflexivity|vm_compute; reflexivity].
Qed.
Print Assumptions C33_blind_refuted.

(** Without blinding: the program assigns a value between two calls; the second call with that value reports no change
    although the previous evaluation used another value. *)
Definition plain_ops : list gop :=
  [GVar (NewObservable "x" (num 0) (num 10)); GVar (NewVariable4 "m" (num 5) (num 0) (num 10)); GVar (NewVariable4 "s" (num 2) (num 1) (num 3));
   GLeaf (LGaussian 0 1 2); GSetIndices 0].
Local Notation plain_new := (params_new (st_of plain_ops) 0) (only parsing).
Local Notation plain_h := (nth 0 (getParameters (g_pdfs (st_of plain_ops)) 0) no_handle) (only parsing).
Theorem C33_assignment_refuted : exists ops k st ns st1 q v st2 a x w st3 h,
  after ops = (st, ns) /\ k < len ns /\ params_new st k = NOk (st1, q) /\ In h (getParameters (g_pdfs st) k) /\ blind_of st1 h = fzero /\
  fstep q st1 (FCall v) = NOk st2 /\ frun q st2 [FOther (GVar (Set_ a FValue (CF x))); FCall w] = NOk st3 /\
  value_of st3 h <> value_of st2 h /\ changed_of st3 h = false.
Proof.
  set (v := [num 5; num 2]). set (w := [num 4; num 2]). set (s2 := fstep (pq plain_new) (pst plain_new) (FCall v)).
  exists plain_ops, 0, (st_of plain_ops), (ns_of plain_ops), (pst plain_new), (pq plain_new), v, (rst s2), 1, (num 4), w.
  exists (rst (frun (pq plain_new) (rst s2) [FOther (GVar (Set_ 1 FValue (CF (num 4)))); FCall w])), plain_h.
  split; [apply after_eq|]. split; [apply Nat.ltb_lt; vm_compute; reflexivity|]. split; [apply pst_ok; vm_compute; reflexivity|].
  split; [apply nth_In; apply Nat.ltb_lt; vm_compute; reflexivity|]. split; [apply fsame_eq; vm_compute; reflexivity|]. split; [apply rst_ok; vm_compute; reflexivity|].
  split; [apply rst_ok; vm_compute; reflexivity|]. split; [apply differ; vm_compute; reflexivity|vm_compute; reflexivity].
Qed.
Print Assumptions C33_assignment_refuted.

(** ** C34 *)

(** Evaluating the cost function at the current point: goes through, leaves the value of every parameter without blinding
    offset (+0, the default) as it is and everything else except the changed flags (which become true); the flattened
    parameters are those values.  Partial: blinding offset +0 for the values; at least one parameter. *)
Theorem C34_current_point_partial : forall ops qs k st ns st1 q fs st2,
  after (ops ++ GSetIndices k :: qs) = (st, ns) -> k < len ns -> NoDup (tree_ids ns k) -> Forall (quiet ns k) qs ->
  params_new st k = NOk (st1, q) ->
  let pars := getParameters (g_pdfs st) k in
  Forall (fquiet ns k (len pars)) fs -> frun q st1 fs = NOk st2 -> pars <> [] ->
  exists st3, fstep q st2 FCurrent = NOk st3 /\
    (forall h, In h pars -> value_of st3 h = fsub (value_of st2 h) (blind_of st2 h)) /\
    (forall h, In h pars -> blind_of st2 h = fzero -> value_of st3 h = value_of st2 h) /\
    (forall h, In h pars -> changed_of st3 h = true) /\
    (forall h f, In h (g_hs st) -> ~ In h pars -> get_field (g_heap st3) h f = get_field (g_heap st2) h f) /\
    (forall h f, In h pars -> f <> FValue -> f <> FChanged -> get_field (g_heap st3) h f = get_field (g_heap st2) h f) /\
    a_par (g_arr st3) = a_par (g_arr (fst (gstep st3 (GSetIndices k)))).
Proof.
  intros ops qs k st ns st1 q fs st2 E Hk ND Q P pars QF R NE.
  destruct (params_new_ok _ k st ns st1 q E Hk P) as (made & F1 & G0 & IH & QP & QV & NN & QU & EP & EHS & EA & OF & TREE).
  assert (AP1 : apar ns st1 k). { pose proof (flattened_apar ops k qs st ns E Hk ND Q) as AP. unfold apar in *. rewrite EP, EA. exact AP. }
  unfold pars in *; clear pars. subst k. rewrite <- QV in *.
  destruct (frun_finv made q ns (q_pdf q) fs st1 st2 F1 QF R) as [F2 _]. pose proof (frun_apar ns q fs st1 st2 AP1 QF R) as AP2.
  assert (MV : make_minuit_vector (g_heap st2) (q_vars q) = NOk (map (fun h => get_f (g_heap st2) h FValue) (q_vars q))) by (apply make_vector_ok; [apply F2|exact NE]).
  set (v := map (fun h => get_f (g_heap st2) h FValue) (q_vars q)) in *. assert (L : len v = len (q_vars q)) by apply map_length.
  destruct (call_goes_through made ns false true q st2 v F2 AP2 L) as (st3 & E3 & A1 & A2 & A3 & A4 & A5).
  destruct (call_ok made false true q st2 v st3 F2 L E3) as (F3 & P3 & H3 & SV & SO).
  assert (VV : forall h, In h (q_vars q) -> value_of st3 h = fsub (value_of st2 h) (blind_of st2 h)).
  { intros h Hh. apply In_nth_error in Hh. destruct Hh as [i Ei]. unfold value_of at 1. apply get_f_some. rewrite (SV i h FValue Ei). cbn [after_call]. do 3 f_equal.
    apply nth_error_nth. unfold v. now rewrite nth_error_map, Ei. }
  exists st3. cbn [fstep]. rewrite MV. cbn [nbind]. split; [exact E3|]. split; [exact VV|].
  split; [intros h Hh B0; rewrite (VV h Hh), B0; apply fsub_zero|].
  split. { intros h Hh. apply In_nth_error in Hh. destruct Hh as [i Ei]. apply changed_some. now rewrite (SV i h FChanged Ei). }
  split; [intros h f Hh Nh; apply SO; [now apply IH|exact Nh]|]. split; [|exact A1].
  intros h f Hh N1 N2. apply In_nth_error in Hh. destruct Hh as [i Ei]. rewrite (SV i h f Ei). destruct f; try reflexivity; contradiction.
Qed.
Print Assumptions C34_current_point_partial.
Example C34_example : (* the other hypotheses: C32_example *)
  getParameters (g_pdfs (st_of fit_ops)) 6 <> [] /\ is_nok (fstep (pq fit_new) (rst (frun (pq fit_new) (pst fit_new) fit_fs)) FCurrent) = true.
Proof.
  split; [|vm_compute; reflexivity]. intro H. assert (X : len (getParameters (g_pdfs (st_of fit_ops)) 6) = 4) by (vm_compute; reflexivity). rewrite H in X. discriminate.
Qed.

(** With a blinding offset every evaluation at "the current point" moves the point. *)
Theorem C34_blind_refuted : exists ops k st ns st1 q st2 st3 h,
  after ops = (st, ns) /\ k < len ns /\ params_new st k = NOk (st1, q) /\ In h (getParameters (g_pdfs st) k) /\
  fstep q st1 FCurrent = NOk st2 /\ fstep q st2 FCurrent = NOk st3 /\ value_of st2 h <> value_of st1 h /\ value_of st3 h <> value_of st2 h.
Proof.
  set (s2 := fstep (pq blind_new) (pst blind_new) FCurrent). set (s3 := fstep (pq blind_new) (rst s2) FCurrent).
  exists blind_ops, 0, (st_of blind_ops), (ns_of blind_ops), (pst blind_new), (pq blind_new), (rst s2), (rst s3), blind_h.
  split; [apply after_eq|]. split; [apply Nat.ltb_lt; vm_compute; reflexivity|]. split; [apply pst_ok; vm_compute; reflexivity|].
  split; [apply nth_In; apply Nat.ltb_lt; vm_compute; reflexivity|]. split; [apply rst_ok; vm_compute; reflexivity|]. split; [apply rst_ok; vm_compute; reflexivity|].
  split; apply differ; vm_compute; reflexivity.
Qed.
Print Assumptions C34_blind_refuted.

(** A PDF without parameters: the maximum of an empty range is read. *)
Definition nopar_ops : list gop := [GVar (NewObservable "x" (num 0) (num 10)); GLeaf (LBinTransform [(0, num 0, num 5, 2%Z)]); GSetIndices 0].
Theorem C34_no_parameters_refuted : exists ops k st ns st1 q,
  after ops = (st, ns) /\ k < len ns /\ params_new st k = NOk (st1, q) /\ fstep q st1 FCurrent = NUB.
Proof.
  set (r := params_new (st_of nopar_ops) 0). exists nopar_ops, 0, (st_of nopar_ops), (ns_of nopar_ops), (pst r), (pq r).
  split; [apply after_eq|]. split; [apply Nat.ltb_lt; vm_compute; reflexivity|]. split; [apply pst_ok; vm_compute; reflexivity|].
  assert (X : is_nub (fstep (pq r) (pst r) FCurrent) = true) by (vm_compute; reflexivity). destruct (fstep (pq r) (pst r) FCurrent); try discriminate X. reflexivity.
Qed.
Print Assumptions C34_no_parameters_refuted.

(** ** C35 *)

(** What the minimiser is told: parameter i of getParameters() is entry i, a constant exactly when it is fixed, otherwise
    with limits exactly when the limits are not ==, with its value, error and limits; and when the fit ends, parameter i
    has value i and error i of what the minimiser reports, everything else unchanged.
    Partial: see C35_free_variable_refuted and C35_arrays_stale_refuted. *)
Theorem C35_results_partial : forall ops k st ns st1 q fs st2 vals errs st3,
  after ops = (st, ns) -> k < len ns -> params_new st k = NOk (st1, q) ->
  let pars := getParameters (g_pdfs st) k in
  Forall (fquiet ns k (len pars)) fs -> frun q st1 fs = NOk st2 -> fstep q st2 (FResult vals errs) = NOk st3 ->
  (forall i h, nth_error pars i = Some h ->
     nth_error (q_user q) i = Some
       (if fixed_of st h then UConst (h_name h) (value_of st h)
        else if feq (lower_of st h) (upper_of st h) then UFree (h_name h) (value_of st h) (error_of st h)
        else ULimited (h_name h) (value_of st h) (error_of st h) (lower_of st h) (upper_of st h))) /\
  (forall i h, nth_error pars i = Some h -> nth_error vals i = Some (value_of st3 h) /\ nth_error errs i = Some (error_of st3 h)) /\
  (forall h f, In h (g_hs st) \/ In h pars -> ~ In h pars \/ (f <> FValue /\ f <> FError) -> get_field (g_heap st3) h f = get_field (g_heap st2) h f).
Proof.
  intros ops k st ns st1 q fs st2 vals errs st3 E Hk P pars QF R RES.
  destruct (params_new_ok _ k st ns st1 q E Hk P) as (made & F1 & G0 & IH & QP & QV & NN & QU & EP & EHS & EA & OF & TREE).
  unfold pars in *; clear pars. subst k. rewrite <- QV in *.
  destruct (frun_finv made q ns (q_pdf q) fs st1 st2 F1 QF R) as [F2 _]. pose proof F2 as (G2 & (S1 & S2 & S3) & I2).
  cbn [fstep] in RES. destruct (write_back (g_heap st2) vals errs (q_vars q)) as [hp'| | |] eqn:EW; try discriminate. cbn [nbind] in RES. injection RES as <-.
  destruct (write_back_ok made vals errs (q_vars q) (g_heap st2) hp' G2 S1 S2 EW) as (G' & SV & O). split; [|split].
  - intros i h Ei. rewrite QU, nth_error_map, Ei. reflexivity.
  - intros i h Ei. destruct (SV h (nth_error_In _ _ Ei)) as [A B]. rewrite (I2 i h Ei), at_nat in A, B. unfold value_of, error_of, with_heap. cbn [g_heap].
    unfold get_f. rewrite <- A, <- B. destruct (nth_error vals i) as [x|] eqn:EV, (nth_error errs i) as [y|] eqn:EE; cbn [option_map]; try (now split);
      exfalso; cbn [option_map] in A, B; destruct (S2 h (nth_error_In _ _ Ei)) as [Mh V]; destruct G' as [_ TT]; pose proof (proj1 (Forall_forall _ _) TT h Mh) as [_ T].
    + destruct (var_ptr h FError V) as [p Ep]; [discriminate|]. destruct (T FError p Ep) as (c & Ec & _). unfold get_field in B. rewrite Ep, Ec in B. discriminate.
    + destruct (T FValue _ eq_refl) as (c & Ec & _). unfold get_field in A. cbn [ptr_of] in A. rewrite Ec in A. discriminate.
    + destruct (T FValue _ eq_refl) as (c & Ec & _). unfold get_field in A. cbn [ptr_of] in A. rewrite Ec in A. discriminate.
  - intros h f Hh D. cbn [with_heap g_heap]. apply O; [|exact D]. destruct Hh as [Hh|Hh]; [now apply IH|now apply S2].
Qed.
Print Assumptions C35_results_partial.
Definition c35_errs := [num 1; num 1; fhalf; num 2].
Example C35_example : (* the other hypotheses: C32_example *)
  is_nok (fstep (pq fit_new) (rst (frun (pq fit_new) (pst fit_new) fit_fs)) (FResult fit_v c35_errs)) = true.
Proof. vm_compute. reflexivity. Qed.

(** A Variable made as documented for "a free variable without limits" is passed to the minimiser as a constant. *)
Definition free_ops : list gop :=
  [GVar (NewObservable "x" (num 0) (num 10)); GVar (NewVariable3 "m" (num 5) (num 1)); GVar (NewVariable4 "s" (num 2) (num 1) (num 3)); GLeaf (LGaussian 0 1 2)].
Theorem C35_free_variable_refuted : exists n v e ops st ns st1 q,
  after (GVar (NewObservable "x" (num 0) (num 10)) :: GVar (NewVariable3 n v e) :: ops) = (st, ns) /\ params_new st 0 = NOk (st1, q) /\
  nth_error (q_user q) 0 = Some (UConst n v) /\ (forall o, In o ops -> forall x, o <> GVar (Set_ 1 FFixed x)).
Proof.
  set (r := params_new (st_of free_ops) 0).
  exists "m", (num 5), (num 1), [GVar (NewVariable4 "s" (num 2) (num 1) (num 3)); GLeaf (LGaussian 0 1 2)], (st_of free_ops), (ns_of free_ops), (pst r), (pq r).
  split; [apply (after_eq free_ops)|]. split; [apply pst_ok; vm_compute; reflexivity|]. split.
  - assert (X : match nth_error (q_user (pq r)) 0 with Some (UConst n v) => String.eqb n "m" && fsame v (num 5) | _ => false end = true) by (vm_compute; reflexivity).
    destruct (nth_error (q_user (pq r)) 0) as [[n v| |]|]; try discriminate X. apply andb_true_iff in X. destruct X as [X1 X2].
    apply String.eqb_eq in X1. apply fsame_eq in X2. now rewrite X1, X2.
  - intros o [<-|[<-|[]]] x; discriminate.
Qed.
Print Assumptions C35_free_variable_refuted.

(** When the fit ends the Variables hold the result, but the flattened array (what the next evaluation uses) still holds
    the last point the minimiser tried. *)
Theorem C35_arrays_stale_refuted : exists ops k st ns st1 q v w e st2,
  after ops = (st, ns) /\ k < len ns /\ NoDup (tree_ids ns k) /\ params_new st k = NOk (st1, q) /\
  frun q st1 [FNewFcn; FCall w; FCall v; FResult w e] = NOk st2 /\
  a_par (g_arr st2) <> a_par (g_arr (fst (gstep st2 (GSetIndices k)))).
Proof.
  set (v := [num 5; num 2]). set (w := [num 4; num 2]). set (e := [num 1; num 1]). set (s2 := frun (pq plain_new) (pst plain_new) [FNewFcn; FCall w; FCall v; FResult w e]).
  exists plain_ops, 0, (st_of plain_ops), (ns_of plain_ops), (pst plain_new), (pq plain_new), v, w, e, (rst s2).
  split; [apply after_eq|]. split; [apply Nat.ltb_lt; vm_compute; reflexivity|]. split; [apply nodupb_ok; vm_compute; reflexivity|].
  split; [apply pst_ok; vm_compute; reflexivity|]. split; [apply rst_ok; vm_compute; reflexivity|]. intro H.
  assert (X : list_same fsame (a_par (g_arr (rst s2))) (a_par (g_arr (fst (gstep (rst s2) (GSetIndices 0))))) = false) by (vm_compute; reflexivity).
  rewrite H, list_same_refl in X. discriminate.
Qed.
Print Assumptions C35_arrays_stale_refuted.
