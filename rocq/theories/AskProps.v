(** Property theorems for the values of getValue and evaluateAtPoints (C119). *)
From Coq Require Import List ZArith String Bool Arith Lia.
From Verif Require Import F64 F64Lemmas ListAux VariableModel DataSetModel BinModel LeafFormulas DeviceModel PdfModel PdfSpec PdfProofs PdfProps
  Reduce NormModel NormSpec NormProofs NormProps RunModel RunSpec RunProofs RunProofs4 RunProofs6 RunProps AskSpec AskProofs AskProofs2.
Import ListNotations.
Open Scope string_scope.
Open Scope nat_scope.
Open Scope list_scope.
Local Notation len := List.length.

(** C119.  After any program, for a PDF whose observables have the positions its setData gives them and whose tree can be
    evaluated and normalised under the fit control that getValue selects: if getValue returns a number, it is the density at
    the current values of the observables (Eval), times the factor of a tree normalised with the current parameters (Prob),
    or minus the logarithm of that product (NLL).  Missing from C119: PDFs normalised over two or more observables (C23),
    ConvolutionPdf and the amplitude models. *)
Theorem C119_getValue_partial : forall L red pre s ns k fc s1 t x s', session L red pre = NOk (s, ns) -> k < len ns -> numbered s k ->
  gcall s (GSetFitControl k fc) = NOk s1 -> gcall s1 (GSetIndices k) = NOk t -> evaluable L (r_g t) ns k ->
  (forall norms, exists v, value L (g_heap (r_g s)) norms (first_obs_of (r_g s)) (S k) ns (here (g_heap (r_g s))) k = Some v) ->
  run_getValue L red s k fc = NOk (x, s') ->
  exists norms v, normalised L red (r_g t) ns k norms /\ value L (g_heap (r_g s)) norms (first_obs_of (r_g s)) (S k) ns (here (g_heap (r_g s))) k = Some v /\
    x = answer L fc v (norms k).
Proof. intros. eapply get_value; eauto. eapply session_reach; eauto. Qed.
Print Assumptions C119_getValue_partial.

(** A Breit-Wigner with three events attached, asked for all three numbers at x = 3. *)
Definition ask_ops : list rop := bw_all ++ [RG (GVar (Set_ 0 FValue (CF (num 3))))].
Definition the {A} (d : A) (x : nres A) : A := match x with NOk a => a | _ => d end.
Lemma the_ok : forall {A} (d : A) x, is_nok x = true -> x = NOk (the d x).
Proof. intros A d [] H; try discriminate. reflexivity. Qed.
Definition ask1 (fc : fitcontrol) : rstate := the rinit (gcall (sess_st ask_ops) (GSetFitControl 0 fc)).
Definition ask2 (fc : fitcontrol) : rstate := the rinit (gcall (ask1 fc) (GSetIndices 0)).
Lemma ask_leaf : exists m w h0, nth_error (sess_ns ask_ops) 0 = Some (SLeaf (LBW x0 m w) h0).
Proof. apply bw_at; vm_compute; reflexivity. Qed.
Lemma ask_state : forall st, nodupb (tree_ids (sess_ns ask_ops) 0) = true -> tree_okb st (sess_ns ask_ops) 0 = true -> ranges_currentb st (sess_ns ask_ops) 0 = true -> densitiesb st (sess_ns ask_ops) 0 = true ->
  obs_list st 0 = [x0] -> (Z.leb 0 (get_i (g_heap st) x0) && Z.ltb (get_i (g_heap st) x0) 10 = true) -> (Z.ltb 0 (cell_count st 0 x0) && Z.ltb (cell_count st 0 x0) (2 ^ 31) = true) -> evaluable lib1 st (sess_ns ask_ops) 0.
Proof.
  intros st A B C D O P Q. apply evaluable_ok; try assumption. destruct ask_leaf as (m & w & h0 & HN). intros i Hi. cbn [integrated] in Hi. rewrite HN in Hi. destruct Hi as [<-|[]].
  eapply integrable_leaf; [exact HN| |exact O|exact P|exact Q]. intros en c Hc. change (en x0 = Some c) in Hc. unfold leaf_value; cbn [leaf_value_in]. rewrite Hc. cbn [obind]. eexists. reflexivity.
Qed.
Lemma ask_evaluable : forall fc, fc = EvalFit \/ fc = ProbFit \/ fc = UnbinnedNllFit -> evaluable lib1 (r_g (ask2 fc)) (sess_ns ask_ops) 0.
Proof. intros fc [->|[->| ->]]; apply ask_state; vm_compute; reflexivity. Qed.
Lemma numbered_one : forall s k x, obs_of_pdf s k = [x] -> get_i (g_heap (r_g s)) x = 0%Z -> numbered s k.
Proof. intros s k x O P j h H. rewrite O in H. destruct j as [|[|j]]; cbn in H; try discriminate H. injection H as <-. exact P. Qed.
Lemma here_bw : forall ns k x m w h0 hp fo norms, nth_error ns k = Some (SLeaf (LBW x m w) h0) -> exists v, value lib1 hp norms fo (S k) ns (here hp) k = Some v.
Proof. intros ns k x m w h0 hp fo norms HN. cbn [value]. rewrite HN. unfold leaf_value; cbn [leaf_value_in]. unfold here. cbn [obind]. eexists. reflexivity. Qed.
Lemma some_answer : forall A (x : nres (A * rstate)), is_nok x = true -> exists a s', x = NOk (a, s').
Proof. intros A [[a s']| | |] H; try discriminate H. now exists a, s'. Qed.
Example C119_getValue_ex : session lib1 seq_red ask_ops = NOk (sess_st ask_ops, sess_ns ask_ops) /\ 0 < len (sess_ns ask_ops) /\ numbered (sess_st ask_ops) 0 /\
  (forall norms, exists v, value lib1 (g_heap (r_g (sess_st ask_ops))) norms (first_obs_of (r_g (sess_st ask_ops))) 1 (sess_ns ask_ops) (here (g_heap (r_g (sess_st ask_ops)))) 0 = Some v) /\
  forall fc, fc = EvalFit \/ fc = ProbFit \/ fc = UnbinnedNllFit ->
    gcall (sess_st ask_ops) (GSetFitControl 0 fc) = NOk (ask1 fc) /\ gcall (ask1 fc) (GSetIndices 0) = NOk (ask2 fc) /\ evaluable lib1 (r_g (ask2 fc)) (sess_ns ask_ops) 0 /\
    exists x s', run_getValue lib1 seq_red (sess_st ask_ops) 0 fc = NOk (x, s').
Proof.
  split; [apply sess_eq; vm_compute; reflexivity|]. split; [apply Nat.ltb_lt; vm_compute; reflexivity|]. split.
  { apply (numbered_one _ _ x0); vm_compute; reflexivity. }
  split. { intro norms. destruct ask_leaf as (m & w & h0 & HN). exact (here_bw _ _ _ _ _ _ _ _ norms HN). }
  intros fc F. split; [apply the_ok|split; [apply the_ok|]].
  - destruct F as [->|[->| ->]]; vm_compute; reflexivity.
  - destruct F as [->|[->| ->]]; vm_compute; reflexivity.
  - split; [now apply ask_evaluable|]. apply some_answer. destruct F as [->|[->| ->]]; vm_compute; reflexivity.
Qed.

(** The same for evaluateAtPoints(x), x an Observable with n + 1 bins: the i-th number is the density at the centre of bin i, the
    other observables at their current values, times the factor of a tree normalised with the current parameters.  [w] is the
    state in which evaluateAtPoints normalises the tree: x is left at the centre of its last bin. *)
Theorem C119_evaluateAtPoints_partial : forall L red pre s ns k v x n s1 t w xs s', session L red pre = NOk (s, ns) -> k < len ns -> numbered s k ->
  nth_error (g_hs (r_g s)) v = Some x -> is_obs (g_hs (r_g s)) v = true -> get_n (g_heap (r_g s)) x FNumBins = Z.of_nat (S n) ->
  gcall s (GSetFitControl k EvalFit) = NOk s1 -> gcall s1 (GSetIndices k) = NOk t -> evaluable L (r_g t) ns k ->
  gcall t (GVar (Set_ v FValue (CF (bin_centre (g_heap (r_g s)) x n)))) = NOk w -> evaluable L (r_g w) ns k ->
  (forall norms i, i <= n -> exists d, value L (g_heap (r_g s)) norms (first_obs_of (r_g s)) (S k) ns (moved (g_heap (r_g s)) x (bin_centre (g_heap (r_g s)) x i)) k = Some d) ->
  run_points L red s k v = NOk (xs, s') ->
  exists norms ds, normalised L red (r_g w) ns k norms /\
    omap (fun i => value L (g_heap (r_g s)) norms (first_obs_of (r_g s)) (S k) ns (moved (g_heap (r_g s)) x (bin_centre (g_heap (r_g s)) x i)) k) (seq 0 (S n)) = Some ds /\
    xs = map (fun d => fmul d (norms k)) ds.
Proof. intros. eapply points; eauto. eapply session_reach; eauto. Qed.
Print Assumptions C119_evaluateAtPoints_partial.

(** The same Breit-Wigner at the centres of all bins of x. *)
Definition ask_last : nat := Nat.pred (Z.to_nat (get_n (g_heap (r_g (sess_st ask_ops))) x0 FNumBins)).
Definition ask3 : rstate := the rinit (gcall (ask2 EvalFit) (GVar (Set_ 0 FValue (CF (bin_centre (g_heap (r_g (sess_st ask_ops))) x0 ask_last))))).
Lemma moved_bw : forall ns k x m w h0 hp fo norms y c, nth_error ns k = Some (SLeaf (LBW x m w) h0) -> exists v, value lib1 hp norms fo (S k) ns (moved hp y c) k = Some v.
Proof. intros ns k x m w h0 hp fo norms y c HN. cbn [value]. rewrite HN. unfold leaf_value; cbn [leaf_value_in]. unfold moved. destruct (handle_eqb x y); cbn [obind]; eexists; reflexivity. Qed.
Example C119_evaluateAtPoints_ex : session lib1 seq_red ask_ops = NOk (sess_st ask_ops, sess_ns ask_ops) /\ 0 < len (sess_ns ask_ops) /\ numbered (sess_st ask_ops) 0 /\
  nth_error (g_hs (r_g (sess_st ask_ops))) 0 = Some x0 /\ is_obs (g_hs (r_g (sess_st ask_ops))) 0 = true /\ get_n (g_heap (r_g (sess_st ask_ops))) x0 FNumBins = Z.of_nat (S ask_last) /\ 0 < ask_last /\
  gcall (sess_st ask_ops) (GSetFitControl 0 EvalFit) = NOk (ask1 EvalFit) /\ gcall (ask1 EvalFit) (GSetIndices 0) = NOk (ask2 EvalFit) /\ evaluable lib1 (r_g (ask2 EvalFit)) (sess_ns ask_ops) 0 /\
  gcall (ask2 EvalFit) (GVar (Set_ 0 FValue (CF (bin_centre (g_heap (r_g (sess_st ask_ops))) x0 ask_last)))) = NOk ask3 /\ evaluable lib1 (r_g ask3) (sess_ns ask_ops) 0 /\
  (forall norms i, i <= ask_last -> exists d, value lib1 (g_heap (r_g (sess_st ask_ops))) norms (first_obs_of (r_g (sess_st ask_ops))) 1 (sess_ns ask_ops)
     (moved (g_heap (r_g (sess_st ask_ops))) x0 (bin_centre (g_heap (r_g (sess_st ask_ops))) x0 i)) 0 = Some d) /\
  exists xs s', run_points lib1 seq_red (sess_st ask_ops) 0 0 = NOk (xs, s').
Proof.
  split; [apply sess_eq; vm_compute; reflexivity|]. split; [apply Nat.ltb_lt; vm_compute; reflexivity|]. split; [apply (numbered_one _ _ x0); vm_compute; reflexivity|].
  split; [vm_compute; reflexivity|]. split; [vm_compute; reflexivity|]. split; [vm_compute; reflexivity|]. split; [apply Nat.ltb_lt; vm_compute; reflexivity|].
  split; [apply the_ok; vm_compute; reflexivity|]. split; [apply the_ok; vm_compute; reflexivity|]. split; [apply ask_evaluable; now left|].
  split; [apply the_ok; vm_compute; reflexivity|]. split; [apply ask_state; vm_compute; reflexivity|].
  split. { intros norms i _. destruct ask_leaf as (m & w & h0 & HN). exact (moved_bw _ _ _ _ _ _ _ _ norms _ _ HN). }
  apply some_answer. vm_compute. reflexivity.
Qed.

(** False before any data were attached: the observable has no position yet when getValue and evaluateAtPoints normalise the
    PDF, and a PDF without an analytic integral is evaluated with the position -1. *)
Theorem C119_no_data_refuted : exists ops, bad_read ops (RValue 0 ProbFit) /\ bad_read ops (RPoints 0 0) /\ forall k i, ~ In (RSetData k i) ops.
Proof.
  exists bw_ops. split; [apply bad_read_ok; vm_compute; reflexivity|]. split; [apply bad_read_ok; vm_compute; reflexivity|].
  intros k i H. unfold bw_ops in H. cbn [In] in H. repeat (destruct H as [H|H]; [discriminate H|]). exact H.
Qed.
Print Assumptions C119_no_data_refuted.
