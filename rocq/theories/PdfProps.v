(** Property theorems for trees of PDFs (C12-C17). *)
From Coq Require Import List ZArith String Bool Arith Lia.
From Verif Require Import F64 F64Lemmas ListAux VariableModel LeafFormulas DeviceModel PdfModel PdfSpec PdfProofs PdfProofs2 PdfProofs3 PdfProofs4.
Import ListNotations.
Open Scope string_scope.
Open Scope nat_scope.
Open Scope list_scope.
Local Notation len := List.length.

(** ** Deciding concrete cases by computation *)
Fixpoint nodupb (l : list nat) : bool := match l with [] => true | a :: t => negb (existsb (Nat.eqb a) t) && nodupb t end.
Lemma nodupb_ok : forall l, nodupb l = true -> NoDup l.
Proof.
  induction l as [|a l IH]; intro H; constructor; cbn in H; apply andb_true_iff in H; destruct H as [H1 H2]; [|now apply IH].
  intro X. apply negb_true_iff in H1. assert (existsb (Nat.eqb a) l = true) by (apply existsb_exists; exists a; split; [exact X|apply Nat.eqb_refl]). congruence.
Qed.
Definition smallb (n : nat) : bool := Z.ltb (Z.of_nat n) (2 ^ 31).
Lemma smallb_ok : forall n, smallb n = true -> small n.
Proof. intros n H. now apply Z.ltb_lt. Qed.
Definition int_okb (z : Z) : bool := Z.leb (- 2 ^ 31) z && Z.ltb z (2 ^ 31).
Lemma int_okb_ok : forall z, int_okb z = true -> int_ok z.
Proof. intros z H. apply andb_true_iff in H. destruct H. split; [now apply Z.leb_le|now apply Z.ltb_lt]. Qed.
Definition leaf_okb (l : leaf handle) : bool :=
  nodupb (map h_value (leaf_obs l)) &&
  match l with
  | LVarBin _ _ => false
  | LBernstein _ cs d => smallb (List.length cs + d)
  | LBinTransform axes => forallb (fun a => int_okb (snd a)) axes
  | LPolynomial _ _ d => smallb d
  | LOffsetPolynomial _ _ _ d => smallb d
  | LMultiPolynomial obses _ offs d => smallb (d + 1) && Nat.eqb (List.length offs) (List.length obses)
  | LStep _ _ up => int_okb up
  | LDalitzVeto _ _ _ _ _ _ vs => forallb (fun v => int_okb (snd v)) vs
  | _ => true
  end.
Lemma leaf_okb_ok : forall l, leaf_okb l = true -> leaf_ok l.
Proof.
  intros l H. unfold leaf_okb in H. apply andb_true_iff in H. destruct H as [H1 H2]. split; [now apply nodupb_ok|].
  destruct l; try exact I; try discriminate; try (now apply smallb_ok); try (now apply int_okb_ok).
  - apply Forall_forall. rewrite forallb_forall in H2. intros a Ha. apply int_okb_ok. now apply H2.
  - apply andb_true_iff in H2. destruct H2. split; [now apply smallb_ok|now apply Nat.eqb_eq].
  - apply Forall_forall. rewrite forallb_forall in H2. intros a Ha. apply int_okb_ok. now apply H2.
Qed.
Definition node_okb (hp : heap) (first_obs : nat -> option handle) (n : snode) : bool :=
  match n with
  | SLeaf l _ => leaf_okb l
  | SEWAdd ws _ => nodupb (map h_value ws)
  | SComposite _ shell => match first_obs shell with Some o => Z.leb 0 (get_i hp o) && Z.ltb (get_i hp o) 10 | None => false end
  | _ => true
  end.
Lemma node_okb_ok : forall hp fo n, node_okb hp fo n = true -> node_ok hp fo n.
Proof.
  intros hp fo n H. destruct n; try exact I; cbn [node_okb node_ok] in *; [now apply leaf_okb_ok|now apply nodupb_ok|].
  destruct (fo shell); [|discriminate]. apply andb_true_iff in H. destruct H. split; [now apply Z.leb_le|now apply Z.ltb_lt].
Qed.
Definition tree_okb (st : gstate) (ns : list snode) (id : nat) : bool :=
  smallb (List.length (tree_ids ns id)) &&
  forallb (fun i => match nth_error (g_pdfs st) i with
                    | Some p => smallb (List.length (p_pars p)) && smallb (List.length (p_cons p)) && smallb (List.length (p_obs p))
                    | None => true end &&
                    match nth_error ns i with Some n => node_okb (g_heap st) (first_obs_of st) n | None => true end) (tree_ids ns id).
Lemma tree_okb_ok : forall st ns id, tree_okb st ns id = true -> tree_ok st ns id.
Proof.
  intros st ns id H. apply andb_true_iff in H. destruct H as [H1 H2]. split; [now apply smallb_ok|]. apply Forall_forall. rewrite forallb_forall in H2.
  intros i Hi. specialize (H2 i Hi). apply andb_true_iff in H2. destruct H2 as [H2 H3]. split.
  - unfold sizes_ok. destruct (nth_error (g_pdfs st) i); [|exact I]. apply andb_true_iff in H2. destruct H2 as [H2 H4]. apply andb_true_iff in H2. destruct H2.
    repeat split; now apply smallb_ok.
  - destruct (nth_error ns i); [|exact I]. now apply node_okb_ok.
Qed.

(** A stand-in for the C mathematics library; the theorems hold for any. *)
Definition lib1 : libm :=
  {| m_exp := fun x => fadd fone x; m_log := fun x => fsub x fone; m_pow := fun x y => fmul x y; m_sin := fun x => x; m_cos := fun x => x;
     m_sinh := fun x => x; m_erfc := fun x => x; m_atan2 := fun x y => x; m_faddeeva_re := fun x y => x |}.

Definition num (z : Z) : f64 := f_of_Z z.
(** Observables x and y; a mixture of two products that share the variable "mean", selected by the bin of x against a
    second use of the first product. *)
Definition ex_ops : list gop :=
  [GVar (NewObservable "x" (num 0) (num 10)); GVar (NewObservable "y" (num 0) (num 4));
   GVar (NewVariable4 "mean" (num 5) (num 0) (num 10)); GVar (NewVariable4 "sigma" (num 2) (num 1) (num 3));
   GVar (NewVariable4 "alpha" (num (-1)) (num (-5)) (num 5)); GVar (NewVariable4 "frac" (f_of_ZE 1 (-2)) (num 0) (num 1));
   GLeaf (LGaussian 0 2 3);            (* 0 *)
   GLeaf (LExp 1 4);                   (* 1 *)
   GProd [0; 1];                       (* 2 *)
   GLeaf (LGaussian 0 2 5);            (* 3 *)
   GLeaf (LExp 1 3);                   (* 4 *)
   GProd [3; 4];                       (* 5 *)
   GAdd2 5 2 5;                        (* 6 *)
   GLeaf (LBinTransform [(0, num 0, num 5, 2%Z)]);  (* 7 *)
   GMapped 7 [6; 2];                   (* 8 *)
   GSetupObservables 8].
Definition ex_event : event := [Some (num 3); Some (num 2)].
Definition st_of (ops : list gop) := fst (after ops).
Definition ns_of (ops : list gop) := snd (after ops).
Lemma after_eq : forall ops, after ops = (st_of ops, ns_of ops).
Proof. intro ops. unfold st_of, ns_of. now destruct (after ops). Qed.
Definition ex_all := ex_ops ++ [GSetIndices 8].

(** ** C12 *)

(** After setIndices() of PDF k, evaluating the flattened arrays from their beginning gives the value of the expression the
    constructor calls describe: every node at every depth reads its own parameters, constants, observables and
    normalisation.  Quantified over all programs, all trees (with any sharing of Variables, Observables and components),
    all events and any mathematics library. *)
Theorem C12_flattened_evaluation_partial : forall ops k st ns L e v fuel,
  after (ops ++ [GSetIndices k]) = (st, ns) -> k < len ns -> tree_ok st ns k ->
  pdf_value L st ns e k = Some v -> S k <= fuel ->
  exists c, callFunction fuel L (g_arr st) e cur0 = DOk (v, c).
Proof.
  intros ops k st ns L e v fuel H1 H2 H3 H4 H5. destruct (flattened_evaluation ops k st ns L e v fuel H1 H2 H3 H4 H5) as (c & H & _). now exists c.
Qed.
Print Assumptions C12_flattened_evaluation_partial.

Example C12_example :
  after (ex_ops ++ [GSetIndices 8]) = (st_of ex_all, ns_of ex_all) /\ 8 < len (ns_of ex_all) /\
  tree_ok (st_of ex_all) (ns_of ex_all) 8 /\
  tree_ids (ns_of ex_all) 8 = [8; 7; 6; 2; 0; 1; 5; 3; 4; 2; 0; 1] /\
  exists v, pdf_value lib1 (st_of ex_all) (ns_of ex_all) ex_event 8 = Some v /\ f_isfinite v = true.
Proof.
  split; [apply after_eq|]. split; [apply Nat.ltb_lt; vm_compute; reflexivity|]. split; [apply tree_okb_ok; vm_compute; reflexivity|].
  split; [vm_compute; reflexivity|].
  assert (X : match pdf_value lib1 (st_of ex_all) (ns_of ex_all) ex_event 8 with Some v => f_isfinite v | None => false end = true) by (vm_compute; reflexivity).
  destruct (pdf_value lib1 (st_of ex_all) (ns_of ex_all) ex_event 8) as [v|]; [|discriminate]. exists v. now split.
Qed.

(** What the device computes, as a boolean comparison with an expected value. *)
Definition gives (fuel : nat) (A : arrays) (e : event) (v : option f64) : bool :=
  match v, callFunction fuel lib1 A e cur0 with Some v, DOk (r, _) => fsame r v | _, _ => false end.
Lemma gives_ok : forall fuel A e v c, callFunction fuel lib1 A e cur0 = DOk (v, c) -> gives fuel A e (Some v) = true.
Proof.
  intros fuel A e v c H. unfold gives. rewrite H. destruct v as [s|s| |s m x p]; cbn; try reflexivity; try (now destruct s).
  rewrite Pos.eqb_refl, Z.eqb_refl. now destruct s.
Qed.

(** False for a tree with a VariableBinTransform1DPdf: its device function does not move the cursor, and the product of it
    with an ExpPdf evaluates the bin number twice and never the exponential. *)
Definition vb_ops : list gop :=
  [GVar (NewObservable "x" (num 0) (num 10)); GVar (NewVariable2 "a" (num 4)); GLeaf (LVarBin 0 [num 1; num 2]); GLeaf (LExp 0 1);
   GProd [0; 1]; GSetupObservables 2].

(** PDF k of the program is well defined at the event, and the device (with enough recursion depth) does not return it. *)
Definition misevaluated (ops : list gop) (k : nat) (e : event) : bool :=
  let r := after (ops ++ [GSetIndices k]) in
  Nat.ltb k (len (snd r)) &&
  match pdf_value lib1 (fst r) (snd r) e k with
  | Some v => negb (gives (S k) (g_arr (fst r)) e (Some v)) | None => false end.
Lemma misevaluated_ok : forall ops k e, misevaluated ops k e = true -> exists st ns v,
  after (ops ++ [GSetIndices k]) = (st, ns) /\ k < len ns /\ pdf_value lib1 st ns e k = Some v /\
  forall c, callFunction (S k) lib1 (g_arr st) e cur0 <> DOk (v, c).
Proof.
  intros ops k e H. unfold misevaluated in H. destruct (after (ops ++ [GSetIndices k])) as [st ns]. cbn [fst snd] in H.
  apply andb_true_iff in H. destruct H as [H1 H2]. destruct (pdf_value lib1 st ns e k) as [v|] eqn:E; [|discriminate].
  exists st, ns, v. split; [reflexivity|]. split; [now apply Nat.ltb_lt|]. split; [exact E|]. intros c X. apply gives_ok in X. rewrite X in H2. discriminate.
Qed.

Theorem C12_variable_bin_refuted : exists ops k st ns L e v,
  after (ops ++ [GSetIndices k]) = (st, ns) /\ k < len ns /\ pdf_value L st ns e k = Some v /\
  forall c, callFunction (S k) L (g_arr st) e cur0 <> DOk (v, c).
Proof.
  assert (M : misevaluated vb_ops 2 [Some (num 3)] = true) by (vm_compute; reflexivity).
  destruct (misevaluated_ok _ _ _ M) as (st & ns & v & H). exists vb_ops, 2, st, ns, lib1, [Some (num 3)], v. exact H.
Qed.
Print Assumptions C12_variable_bin_refuted.

(** False for an EventWeightedAddPdf given the same weight observable twice: it is registered once, and the second weight
    is read from the next observable. *)
Definition ew_ops : list gop :=
  [GVar (NewObservable "x" (num 0) (num 10)); GVar (NewObservable "w" (num 0) (num 1)); GVar (NewVariable2 "a" (num 4)); GVar (NewVariable2 "b" (num 1));
   GLeaf (LExp 0 2); GLeaf (LExp 0 3); GEWAdd [1; 1] [0; 1]; GSetupObservables 2].
Theorem C12_weight_twice_refuted : exists ops k st ns L e v,
  after (ops ++ [GSetIndices k]) = (st, ns) /\ k < len ns /\ pdf_value L st ns e k = Some v /\
  forall c, callFunction (S k) L (g_arr st) e cur0 <> DOk (v, c).
Proof.
  assert (M : misevaluated ew_ops 2 [Some fhalf; Some (num 9)] = true) by (vm_compute; reflexivity).
  destruct (misevaluated_ok _ _ _ M) as (st & ns & v & H). exists ew_ops, 2, st, ns, lib1, [Some fhalf; Some (num 9)], v. exact H.
Qed.
Print Assumptions C12_weight_twice_refuted.

(** False for a CompositePdf whose shell depends on an observable beyond column 9: the local event has ten entries. *)
Definition comp_ops : list gop :=
  map (fun n => GVar (NewObservable n (num 0) (num 10))) ["a"; "b"; "c"; "d"; "e"; "f"; "g"; "h"; "i"; "j"; "x"] ++
  [GVar (NewVariable2 "p" (num 4)); GLeaf (LBinTransform (map (fun i => (i, num 0, num 1, 1%Z)) (seq 0 10)));
   GLeaf (LExp 10 11); GComposite 0 1; GSetupObservables 2].
Theorem C12_composite_column_refuted : exists ops k st ns L e v,
  after (ops ++ [GSetIndices k]) = (st, ns) /\ k < len ns /\ pdf_value L st ns e k = Some v /\
  forall c, callFunction (S k) L (g_arr st) e cur0 <> DOk (v, c).
Proof.
  assert (M : misevaluated comp_ops 2 (repeat (Some fhalf) 11) = true) by (vm_compute; reflexivity).
  destruct (misevaluated_ok _ _ _ M) as (st & ns & v & H). exists comp_ops, 2, st, ns, lib1, (repeat (Some fhalf) 11), v. exact H.
Qed.
Print Assumptions C12_composite_column_refuted.

(** ** C13 *)

(** When MetricTaker has evaluated the tree for an event, the function-table entry under the cursor is the metric of the
    fit control of the top-level PDF, and it is applied to the value and the top-level normalisation. *)
Theorem C13_metric_reached_partial : forall ops k st ns L e v fuel,
  after (ops ++ [GSetIndices k]) = (st, ns) -> k < len ns -> tree_ok st ns k ->
  pdf_value L st ns e k = Some v -> S k <= fuel ->
  exists c, callFunction fuel L (g_arr st) e cur0 = DOk (v, c) /\
            nth_error (a_fun (g_arr st)) (c_fun c) = Some (FMetric (metric_of st k)).
Proof.
  intros ops k st ns L e v fuel H1 H2 H3 H4 H5. destruct (flattened_evaluation ops k st ns L e v fuel H1 H2 H3 H4 H5) as (c & H & H' & _). now exists c.
Qed.
Print Assumptions C13_metric_reached_partial.

Theorem C13_metric_applied_partial : forall ops k st ns L total e rest v fuel,
  after (ops ++ [GSetIndices k]) = (st, ns) -> k < len ns -> tree_ok st ns k ->
  pdf_value L st ns e k = Some v -> S k <= fuel ->
  metric_taker fuel L (g_arr st) total e rest = metric_value L (metric_of st k) total v rest (norm_of st k).
Proof. exact metric_applied. Qed.
Print Assumptions C13_metric_applied_partial.

(** setFitControl selects the metric. *)
Theorem C13_fit_control_selects : forall ops k fc st ns, after (ops ++ [GSetFitControl k fc]) = (st, ns) -> k < len ns ->
  metric_of st k = getMetric fc.
Proof. exact fit_control_selects. Qed.
Print Assumptions C13_fit_control_selects.

Definition ex_chi := ex_ops ++ [GSetFitControl 8 BinnedChisqFit].
Example C13_example : exists c, callFunction 9 lib1 (g_arr (st_of ex_all)) ex_event cur0 = c /\
  metric_of (st_of ex_all) 8 = MNLL /\ metric_of (st_of (ex_chi ++ [GSetIndices 8])) 8 = MChisq /\
  tree_ok (st_of (ex_chi ++ [GSetIndices 8])) (ns_of (ex_chi ++ [GSetIndices 8])) 8 /\
  8 < len (ns_of (ex_chi ++ [GSetIndices 8])).
Proof.
  eexists. split; [reflexivity|]. split; [vm_compute; reflexivity|]. split; [vm_compute; reflexivity|].
  split; [apply tree_okb_ok; vm_compute; reflexivity|apply Nat.ltb_lt; vm_compute; reflexivity].
Qed.

(** False with a VariableBinTransform1DPdf in the tree: a PDF function is called as if it were the metric. *)
Theorem C13_variable_bin_refuted : exists ops k st ns L e v c,
  after (ops ++ [GSetIndices k]) = (st, ns) /\ k < len ns /\ pdf_value L st ns e k = Some v /\
  callFunction (S k) L (g_arr st) e cur0 = DOk (v, c) /\
  nth_error (a_fun (g_arr st)) (c_fun c) = Some (FPdf KVarBin).
Proof.
  set (ops := [GVar (NewObservable "x" (num 0) (num 10)); GLeaf (LVarBin 0 [num 1; num 2]); GSetupObservables 0]).
  exists ops, 0. rewrite after_eq. set (st := st_of _). set (ns := ns_of _). exists st, ns, lib1, [Some (num 3)].
  assert (Y : match pdf_value lib1 st ns [Some (num 3)] 0, callFunction 1 lib1 (g_arr st) [Some (num 3)] cur0 with
              | Some v, DOk (r, c) => fsame v r && match nth_error (a_fun (g_arr st)) (c_fun c) with Some (FPdf KVarBin) => true | _ => false end
              | _, _ => false end = true) by (vm_compute; reflexivity).
  destruct (pdf_value lib1 st ns [Some (num 3)] 0) as [v|] eqn:E; [|discriminate].
  destruct (callFunction 1 lib1 (g_arr st) [Some (num 3)] cur0) as [[r c]| |]; try discriminate.
  apply andb_true_iff in Y. destruct Y as [Y1 Y2]. apply fsame_eq in Y1. subst r. exists v, c.
  split; [reflexivity|]. split; [apply Nat.ltb_lt; vm_compute; reflexivity|]. split; [reflexivity|]. split; [reflexivity|].
  destruct (nth_error (a_fun (g_arr st)) (c_fun c)) as [[[]|]|]; try discriminate. reflexivity.
Qed.
Print Assumptions C13_variable_bin_refuted.

(** ** C14 *)

(** Take any flattened arrays A0, append what the constructor of a leaf registers (push_block: function, parameters,
    constants, observables, normalisation), then anything else (Q).  When evaluating the leaf at its place returns, the
    cursor is exactly behind what was registered.  For every class except VariableBinTransform1DPdf, every size of its
    vectors, and distinct observables. *)
Theorem C14_leaf_consumes_what_it_registers_partial : forall L fuel hp hp0 l A0 Q e v c,
  (forall x ls, l <> LVarBin x ls) -> distinct (leaf_obs l) ->
  small (len (leaf_pars l)) -> small (len (leaf_cons hp0 l)) -> small (len (leaf_obs l)) ->
  callFunction fuel L (join (push_block hp (leaf_pdf hp0 l) A0) Q) e (end_of A0) = DOk (v, c) ->
  c = end_of (push_block hp (leaf_pdf hp0 l) A0).
Proof. exact leaf_consumes. Qed.
Print Assumptions C14_leaf_consumes_what_it_registers_partial.

Definition ex_h (i : nat) : handle := hget (g_hs (st_of ex_ops)) i.
Definition ex_poly : leaf handle := LPolynomial (ex_h 1) [ex_h 2; ex_h 3; ex_h 4] 1.
Example C14_example : exists A0 Q v c,
  callFunction 1 lib1 (join (push_block (g_heap (st_of ex_ops)) (leaf_pdf (g_heap (st_of ex_ops)) ex_poly) A0) Q) ex_event (end_of A0) = DOk (v, c) /\
  distinct (leaf_obs ex_poly) /\ small (len (leaf_pars ex_poly)) /\ len (a_par A0) = 22.
Proof.
  exists (g_arr (st_of ex_all)), (g_arr (st_of ex_all)).
  set (R := callFunction _ _ _ _ _). assert (X : match R with DOk _ => true | _ => false end = true) by (vm_compute; reflexivity).
  destruct R as [[v c]| |]; try discriminate. exists v, c. split; [reflexivity|].
  split; [apply nodupb_ok; vm_compute; reflexivity|]. split; [apply smallb_ok; vm_compute; reflexivity|]. vm_compute. reflexivity.
Qed.

(** VariableBinTransform1DPdf does not move the cursor at all. *)
Theorem C14_variable_bin_refuted : forall L fuel hp hp0 x ls A0 Q e v c,
  callFunction fuel L (join (push_block hp (leaf_pdf hp0 (LVarBin x ls)) A0) Q) e (end_of A0) = DOk (v, c) ->
  c = end_of A0 /\ c <> end_of (push_block hp (leaf_pdf hp0 (LVarBin x ls)) A0).
Proof. exact varbin_stays. Qed.
Print Assumptions C14_variable_bin_refuted.
(** ... and it does return. *)
Example C14_variable_bin_example : exists A0 Q v c,
  callFunction 1 lib1 (join (push_block (g_heap (st_of ex_ops)) (leaf_pdf (g_heap (st_of ex_ops)) (LVarBin (ex_h 1) [num 1])) A0) Q) ex_event (end_of A0) = DOk (v, c).
Proof.
  exists (g_arr (st_of ex_all)), (g_arr (st_of ex_all)).
  set (R := callFunction _ _ _ _ _). assert (X : match R with DOk _ => true | _ => false end = true) by (vm_compute; reflexivity).
  destruct R as [[v c]| |]; try discriminate. now exists v, c.
Qed.

(** A CorrGaussianPdf given one observable twice registers it once and moves over two. *)
Theorem C14_same_observable_refuted : exists L hp l A0 Q e v c,
  callFunction 1 L (join (push_block hp (leaf_pdf hp l) A0) Q) e (end_of A0) = DOk (v, c) /\
  c <> end_of (push_block hp (leaf_pdf hp l) A0).
Proof.
  exists lib1, (g_heap (st_of ex_ops)), (LCorrGaussian (ex_h 0) (ex_h 0) (ex_h 2) (ex_h 3) (ex_h 2) (ex_h 3) (ex_h 5)), no_arrays, (g_arr (st_of ex_all)),
    [Some (num 1); Some (num 2); Some (num 3)].
  set (R := callFunction _ _ _ _ _). set (E := end_of _).
  assert (X : match R with DOk (_, c) => negb (Nat.eqb (c_obs c) (c_obs E)) | _ => false end = true) by (vm_compute; reflexivity).
  destruct R as [[v c]| |]; try discriminate. exists v, c. split; [reflexivity|]. intro H. rewrite <- H, Nat.eqb_refl in X. discriminate.
Qed.
Print Assumptions C14_same_observable_refuted.

Definition is_done (o : gout) : bool := match o with GDone => true | _ => false end.
Lemma is_done_ok : forall o, is_done o = true -> o = GDone.
Proof. intros []; intro; try discriminate; reflexivity. Qed.

(** ** C15 *)

(** Flatten the tree of k, then do anything among: reading, assigning values / limits / errors of Variables and
    Observables, refreshing, storing normalisations of PDFs of the tree, changing integration settings.  Refreshing the
    parameters then succeeds and leaves exactly the arrays that flattening again would give.  Variables may be shared in any
    way; a PDF object may occur only once in the tree. *)
Theorem C15_refresh_equals_rebuild_partial : forall ops k qs st ns,
  after (ops ++ GSetIndices k :: qs) = (st, ns) -> k < len ns -> NoDup (tree_ids ns k) -> Forall (quiet ns k) qs ->
  snd (gstep st (GCopyParams k)) = GDone /\
  g_arr (fst (gstep st (GCopyParams k))) = g_arr (fst (gstep st (GSetIndices k))).
Proof. exact refresh_equals_rebuild. Qed.
Print Assumptions C15_refresh_equals_rebuild_partial.

Definition ex_quiet : list gop :=
  [GVar (Set_ 2 FValue (CF (num 7))); GUpdateVariable 6 4 (num 1); GSetNormalization 3 (num 2); GCopyParams 6; GVar (Set_ 5 FValue (CF fhalf))].
Example C15_example : let ops := ex_ops ++ GSetIndices 6 :: ex_quiet in
  6 < len (ns_of ops) /\ NoDup (tree_ids (ns_of ops) 6) /\ Forall (quiet (ns_of ops) 6) ex_quiet /\
  (* the refresh has something to do *)
  list_same fsame (a_par (g_arr (st_of ops))) (a_par (g_arr (fst (gstep (st_of ops) (GCopyParams 6))))) = false.
Proof.
  cbv zeta. split; [apply Nat.ltb_lt; vm_compute; reflexivity|]. split; [apply nodupb_ok; vm_compute; reflexivity|]. split; [|vm_compute; reflexivity].
  assert (E : tree_ids (ns_of (ex_ops ++ GSetIndices 6 :: ex_quiet)) 6 = [6; 2; 0; 1; 5; 3; 4]) by (vm_compute; reflexivity).
  unfold ex_quiet at 2. apply Forall_cons; [exact I|]. apply Forall_cons; [exact I|]. apply Forall_cons; [cbn [quiet]; rewrite E; right; right; right; right; right; left; reflexivity|].
  apply Forall_cons; [reflexivity|]. apply Forall_cons; [exact I|]. apply Forall_nil.
Qed.

(** Used by evaluation: the refreshed arrays evaluate to the value of the expression with the new parameter values. *)
Theorem C15_refreshed_value_partial : forall ops k qs st ns st' L e v fuel,
  after (ops ++ GSetIndices k :: qs) = (st, ns) -> k < len ns -> NoDup (tree_ids ns k) -> Forall (quiet ns k) qs ->
  st' = fst (gstep st (GSetIndices k)) -> tree_ok st' ns k -> pdf_value L st' ns e k = Some v -> S k <= fuel ->
  exists c, callFunction fuel L (g_arr (fst (gstep st (GCopyParams k)))) e cur0 = DOk (v, c).
Proof. exact refreshed_value. Qed.
Print Assumptions C15_refreshed_value_partial.

(** False when a PDF object occurs twice in the tree: only its last copy in the arrays is refreshed. *)
Definition shared_ops : list gop :=
  [GVar (NewObservable "x" (num 0) (num 10)); GVar (NewVariable4 "a" (num 4) (num 0) (num 9)); GVar (NewVariable4 "f" fhalf (num 0) (num 1));
   GLeaf (LExp 0 1); GAdd2 2 0 0; GSetupObservables 1].
Theorem C15_shared_component_refuted : exists ops k x st ns,
  after (ops ++ [GSetIndices k; GVar (Set_ 1 FValue (CF x))]) = (st, ns) /\ k < len ns /\
  snd (gstep st (GCopyParams k)) = GDone /\
  a_par (g_arr (fst (gstep st (GCopyParams k)))) <> a_par (g_arr (fst (gstep st (GSetIndices k)))).
Proof.
  exists shared_ops, 1, (num 5). rewrite after_eq. set (st := st_of _). set (ns := ns_of _). exists st, ns. split; [reflexivity|].
  split; [apply Nat.ltb_lt; vm_compute; reflexivity|].
  split; [apply is_done_ok; vm_compute; reflexivity|].
  intro H. assert (X : list_same fsame (a_par (g_arr (fst (gstep st (GCopyParams 1))))) (a_par (g_arr (fst (gstep st (GSetIndices 1))))) = false) by (vm_compute; reflexivity).
  rewrite H, list_same_refl in X. discriminate.
Qed.
Print Assumptions C15_shared_component_refuted.

(** False when the parameters of another, independent PDF are refreshed in between (it does not own the arrays any more): its
    values are written into the arrays of the PDF flattened last. *)
Definition two_ops : list gop :=
  [GVar (NewObservable "x" (num 0) (num 10)); GVar (NewVariable4 "a" (num 4) (num 0) (num 9)); GVar (NewVariable4 "b" (num 2) (num 0) (num 9));
   GLeaf (LExp 0 1); GLeaf (LExp 0 2); GSetupObservables 0; GSetupObservables 1; GSetIndices 0].
Theorem C15_other_pdf_refuted : exists ops j k st ns,
  after (ops ++ [GSetIndices k]) = (st, ns) /\ k < len ns /\ j < len ns /\ ~ In j (tree_ids ns k) /\ ~ In k (tree_ids ns j) /\
  snd (gstep st (GCopyParams j)) = GDone /\
  a_par (g_arr (fst (gstep st (GCopyParams j)))) <> a_par (g_arr st).
Proof.
  exists two_ops, 0, 1. rewrite after_eq. set (st := st_of _). set (ns := ns_of _). exists st, ns. split; [reflexivity|].
  split; [apply Nat.ltb_lt; vm_compute; reflexivity|]. split; [apply Nat.ltb_lt; vm_compute; reflexivity|].
  assert (T1 : tree_ids ns 1 = [1]) by (vm_compute; reflexivity). assert (T0 : tree_ids ns 0 = [0]) by (vm_compute; reflexivity).
  rewrite T1, T0. split; [intros [H|[]]; discriminate|]. split; [intros [H|[]]; discriminate|].
  split; [apply is_done_ok; vm_compute; reflexivity|].
  intro H. assert (X : list_same fsame (a_par (g_arr (fst (gstep st (GCopyParams 0))))) (a_par (g_arr st)) = false) by (vm_compute; reflexivity).
  rewrite H, list_same_refl in X. discriminate.
Qed.
Print Assumptions C15_other_pdf_refuted.

(** ** C16 *)

(** getParameters(): sound; complete (up to which copy of a Variable handle is listed); the own parameters come first as
    registered, and every parameter that only components use is listed once. *)
Theorem C16_getParameters : forall ops k st ns, after ops = (st, ns) -> k < len ns ->
  exists l, gstep st (GGetParameters k) = (st, GHandles l) /\
    (forall h, In h l -> exists i n, In i (tree_ids ns k) /\ nth_error ns i = Some n /\ In h (node_pars n)) /\
    (forall i n h, In i (tree_ids ns k) -> nth_error ns i = Some n -> In h (node_pars n) -> exists g, In g l /\ handle_eqb g h = true) /\
    (exists n r, nth_error ns k = Some n /\ l = node_pars n ++ r /\ distinct r /\
                 forall h g, In h r -> In g (node_pars n) -> handle_eqb g h = false).
Proof. exact getParameters_ok. Qed.
Print Assumptions C16_getParameters.

Example C16_example : 8 < len (ns_of ex_ops) /\
  match gstep (st_of ex_ops) (GGetParameters 8) with (_, GHandles l) => map h_name l | _ => [] end = ["frac"; "mean"; "sigma"; "alpha"].
Proof. split; [apply Nat.ltb_lt; vm_compute; reflexivity|]. vm_compute. reflexivity. Qed.

(** ** C17 *)

(** After setupObservables(): getObservables() has no observable twice, its i-th observable has column i, every one of them
    is used in the tree, every use of an observable anywhere in the tree has the column of its entry; nothing else changes. *)
Theorem C17_columns : forall ops k st ns st', after ops = (st, ns) -> k < len ns -> st' = fst (gstep st (GSetupObservables k)) ->
  exists l, gstep st' (GGetObservables k) = (st', GHandles l) /\ distinct l /\
    (forall i h, nth_error l i = Some h -> get_i (g_heap st') h = Z.of_nat i) /\
    (forall h, In h l -> exists i n, In i (tree_ids ns k) /\ nth_error ns i = Some n /\ In h (node_obs n)) /\
    (forall i n h, In i (tree_ids ns k) -> nth_error ns i = Some n -> In h (node_obs n) ->
       exists j g, nth_error l j = Some g /\ handle_eqb g h = true /\ get_i (g_heap st') h = Z.of_nat j) /\
    (forall h, In h (g_hs st) -> (forall g, In g l -> handle_eqb g h = false) -> get_i (g_heap st') h = get_i (g_heap st) h) /\
    (forall h f, get_f (g_heap st') h f = get_f (g_heap st) h f).
Proof. exact columns_ok. Qed.
Print Assumptions C17_columns.

Example C17_example : 8 < len (ns_of ex_ops) /\
  map (fun h => (h_name h, get_i (g_heap (st_of ex_ops)) h)) (firstn 2 (g_hs (st_of ex_ops))) = [("x", 0%Z); ("y", 1%Z)].
Proof. split; [apply Nat.ltb_lt; vm_compute; reflexivity|]. vm_compute. reflexivity. Qed.
