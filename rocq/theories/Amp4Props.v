(** C52, C61, C62, C63: the kept amplitudes and the normalisation of four-body amplitude PDFs. *)
From Coq Require Import Reals List Lra Lia Arith Bool.
From Coquelicot Require Import Complex.
From Verif Require Import FormulaSpec AmpModel AmpSpec AmpProofs Amp4Model Amp4Spec Amp4Proofs.
From Verif Require LeafGen.
Import ListNotations.
Open Scope R_scope.

(** ** C52: the kept amplitudes are built from the current lineshapes *)
(** Amp4Body, in every history in which amplitude i changes only together with lineshape i. *)
Theorem C52_cache_partial : forall (P : Type) amps (mc : list P) cs t c,
  amps_ok amps -> (length (line_shapes amps) <= length amps)%nat -> history false amps (cs ++ [(t, c)]) ->
  Forall (matched amps) (map snd (cs ++ [(t, c)])) ->
  exists k r, calls4 false R_ops amps mc (cs ++ [(t, c)]) (kept40 R_ops amps) None = Some (k, Some r) /\
  forall e p i a, nth_error (evts c) e = Some p -> nth_error amps i = Some a -> q_amp k e i = amplitude_at c a p.
Proof.
  intros P amps mc cs t c Ho HL H M. destruct (history_run false amps mc Ho cs t c eq_refl HL H) as (k & r & E & _ & _ & _ & _ & A).
  exists k, r. split; [exact E|]. apply A. exact M.
Qed.
(** Amp4Body_TD, in every history and for every assignment of lineshapes to amplitudes. *)
Theorem C52_TD_cache : forall (P : Type) amps cs t (c : call4 (T := R) (P := P)),
  amps_ok amps -> history true amps (cs ++ [(t, c)]) ->
  exists k, calls4_TD true R_ops amps (cs ++ [(t, c)]) (kept40 R_ops amps) = Some k /\
  forall e p i a, nth_error (evts c) e = Some p -> nth_error amps i = Some a -> q_amp k e i = amplitude_at c a p.
Proof. intros P amps cs t c Ho H. exact (history_TD true amps Ho cs t c H). Qed.

(** *** The remaining cases are wrong *)
(** Two amplitudes: the first uses lineshape 0, the second lineshapes 1 and 0.  Only lineshape 0 changes. *)
Definition ex_amps : list amp4 := [mkAmp4 [0%nat] [] 1 0; mkAmp4 [1%nat; 0%nat] [] 1 0].
Definition ex_call (v : R) (force : bool) (changed : nat -> bool) : call4 (T := R) (P := unit) :=
  mkCall4 (fun k _ => RtoC (if Nat.eqb k 0 then v else 1)) (fun _ _ => 1) [RtoC 1; RtoC 1] (fun _ => 1) [tt] force changed false.
Definition the_table (td : bool) (amps : list amp4) : list nat := match construct td table0 amps with Some t => t | None => [] end.
Lemma the_table_ok : forall td amps, match construct td table0 amps with Some _ => true | None => false end = true -> only_object td amps (the_table td amps).
Proof. intros td amps H. apply constructed. unfold the_table. destruct (construct td table0 amps); [reflexivity|discriminate]. Qed.
Lemma ex_history : forall td v, history td ex_amps [(the_table td ex_amps, ex_call 1 true (fun _ => false)); (the_table td ex_amps, ex_call v false (Nat.eqb 0))].
Proof.
  intros td v.
  assert (T : only_object td ex_amps (the_table td ex_amps)) by (apply the_table_ok; destruct td; vm_compute; reflexivity).
  split.
  - split; [reflexivity|]. cbn [map snd all_announced4]. split; [|exact I]. right. split; [reflexivity|]. split; [reflexivity|].
    intros [|k] H p; [discriminate|reflexivity].
  - constructor; [split; [exact T|reflexivity]|]. constructor; [split; [exact T|reflexivity]|constructor].
Qed.
Lemma ex_ok : amps_ok ex_amps.
Proof. repeat constructor; discriminate. Qed.
Lemma ex_amplitude : forall v f ch, amplitude_at (ex_call v f ch) (mkAmp4 [1%nat; 0%nat] [] 1 0) tt = RtoC v.
Proof.
  intros v f ch. unfold amplitude_at, Ctotal, Cproduct, part. cbn [a_perm a_ls a_sf length Nat.div Nat.divmod fst skipn Nat.mul firstn seq map fold_right INR v_ls ex_call Nat.eqb]. rewrite sqrt_1.
  apply injective_projections; cbn; field.
Qed.
Theorem C52_stale_refuted : exists (amps : list amp4) (cs : list (list nat * call4 (T := R) (P := unit))) t c,
  amps_ok amps /\ (length (line_shapes amps) <= length amps)%nat /\ history false amps (cs ++ [(t, c)]) /\
  exists k r e p i a, calls4 false R_ops amps [] (cs ++ [(t, c)]) (kept40 R_ops amps) None = Some (k, Some r) /\
  nth_error (evts c) e = Some p /\ nth_error amps i = Some a /\ q_amp k e i <> amplitude_at c a p.
Proof.
  exists ex_amps, [(the_table false ex_amps, ex_call 1 true (fun _ => false))], (the_table false ex_amps), (ex_call 2 false (Nat.eqb 0)).
  split; [exact ex_ok|]. split; [cbn; lia|]. split; [apply ex_history|].
  destruct (stale false ex_amps (@nil unit) ex_ok [] (the_table false ex_amps) (ex_call 1 true (fun _ => false)) (the_table false ex_amps) (ex_call 2 false (Nat.eqb 0)) 1%nat 1%nat
     eq_refl ltac:(cbn; lia) (ex_history false 2)) as (k & r & E & A); try reflexivity.
  { repeat constructor. }
  exists k, r, 0%nat, tt, 1%nat, (mkAmp4 [1%nat; 0%nat] [] 1 0). split; [exact E|]. split; [reflexivity|]. split; [reflexivity|].
  rewrite (A 0%nat tt _ eq_refl eq_refl), !ex_amplitude. intro Q. apply (f_equal fst) in Q. cbn in Q. lra.
Qed.
(** More lineshapes than amplitudes: the constructor's redoIntegral array is written beyond its end, at the first call. *)
Theorem C52_overflow_refuted : forall (P : Type) amps (mc : list P) t c, (length amps < length (line_shapes amps))%nat ->
  calls4 false R_ops amps mc [(t, c)] (kept40 R_ops amps) None = None.
Proof.
  intros P amps mc t c H. cbn [calls4]. unfold normalize4, flags, LS. cbn [kept40 q_redo]. rewrite repeat_length.
  replace (Nat.leb _ _) with false by (symmetry; apply Nat.leb_gt; exact H). reflexivity.
Qed.
Example C52_ex_overflow : (length [mkAmp4 [0%nat; 1%nat] [] 1 0] < length (line_shapes [mkAmp4 [0%nat; 1%nat] [] 1 0]))%nat.
Proof. cbn. lia. Qed.
(** The hypotheses can be met: the history above, when both lineshapes are announced; and the history above itself for Amp4Body_TD. *)
Example C52_ex : exists k r, calls4 false R_ops ex_amps (@nil unit) [(the_table false ex_amps, ex_call 1 true (fun _ => false)); (the_table false ex_amps, ex_call 2 false (fun _ => true))] (kept40 R_ops ex_amps) None = Some (k, Some r) /\
  q_amp k 0%nat 1%nat = RtoC 2.
Proof.
  destruct (C52_cache_partial unit ex_amps [] [(the_table false ex_amps, ex_call 1 true (fun _ => false))] (the_table false ex_amps) (ex_call 2 false (fun _ => true)) ex_ok ltac:(cbn; lia)) as (k & r & E & A).
  - assert (T : only_object false ex_amps (the_table false ex_amps)) by (apply the_table_ok; vm_compute; reflexivity).
    split; [split; [reflexivity|]|constructor; [split; [exact T|reflexivity]|]; constructor; [split; [exact T|reflexivity]|constructor]]. cbn [map snd all_announced4 app]. split; [|exact I]. right. split; [reflexivity|]. split; [reflexivity|]. intros k H; discriminate.
  - constructor; [now left|]. constructor; [|constructor]. right. intros i a k _ _ _. destruct (nth_error _ i); [reflexivity|exact I].
  - exists k, r. split; [exact E|]. rewrite (A 0%nat tt 1%nat _ eq_refl eq_refl). apply ex_amplitude.
Qed.
Example C52_ex_TD : exists k, calls4_TD true R_ops ex_amps [(the_table true ex_amps, ex_call 1 true (fun _ => false)); (the_table true ex_amps, ex_call 2 false (Nat.eqb 0))] (kept40 R_ops ex_amps) = Some k /\
  q_amp k 0%nat 1%nat = RtoC 2.
Proof.
  destruct (C52_TD_cache unit ex_amps [(the_table true ex_amps, ex_call 1 true (fun _ => false))] (the_table true ex_amps) (ex_call 2 false (Nat.eqb 0)) ex_ok (ex_history true 2)) as (k & E & A).
  exists k. split; [exact E|]. rewrite (A 0%nat tt 1%nat _ eq_refl eq_refl). apply ex_amplitude.
Qed.

(** ** C61: the normalisation of Amp4Body is the mean over its normalisation events *)
Theorem C61_mean_partial : forall (P : Type) amps (mc : list P) cs t c,
  amps_ok amps -> (length (line_shapes amps) <= length amps)%nat -> history false amps (cs ++ [(t, c)]) ->
  existsb generating (map snd (cs ++ [(t, c)])) = false ->
  exists k, calls4 false R_ops amps mc (cs ++ [(t, c)]) (kept40 R_ops amps) None = Some (k, Some (mean mc (intensity_at amps c))).
Proof.
  intros P amps mc cs t c Ho HL H G. destruct (history_run false amps mc Ho cs t c eq_refl HL H) as (k & r & E & _ & _ & _ & R & _).
  exists k. rewrite G in R. now rewrite <- R.
Qed.
(** ... while the value of the PDF at an event has the efficiency as a factor. *)
Theorem C61_value_partial : forall (P : Type) amps (mc : list P) cs t c,
  amps_ok amps -> (length (line_shapes amps) <= length amps)%nat -> history false amps (cs ++ [(t, c)]) ->
  Forall (matched amps) (map snd (cs ++ [(t, c)])) ->
  exists k r, calls4 false R_ops amps mc (cs ++ [(t, c)]) (kept40 R_ops amps) None = Some (k, Some r) /\
  forall e p, nth_error (evts c) e = Some p -> value4 R_ops c k e p = intensity_at amps c p * eff4 c p.
Proof.
  intros P amps mc cs t c Ho HL H M. destruct (history_run false amps mc Ho cs t c eq_refl HL H) as (k & r & E & _ & _ & _ & _ & A).
  exists k, r. split; [exact E|]. intros e p He. apply (value_is amps); [exact (A M)|exact He|].
  destruct H as (_ & H). apply Forall_app in H. destruct H as (_ & H). inversion H as [|? ? (_ & Hc) _]; subst. exact Hc.
Qed.
Definition ex_call2 (e : R) (gen : bool) (p0 : R) : call4 (T := R) (P := R) :=
  mkCall4 (fun k p => RtoC (if Nat.eqb k 0 then p else 3)) (fun _ _ => 1) [RtoC 1; RtoC 1] (fun _ => e) [p0] true (fun _ => false) gen.
Definition ex_amps2 : list amp4 := [mkAmp4 [0%nat] [] 1 0; mkAmp4 [1%nat] [] 1 0].
Lemma ex_ok2 : amps_ok ex_amps2.
Proof. repeat constructor; discriminate. Qed.
Lemma ex_history2 : forall e gens p0, history false ex_amps2 (map (fun g => (the_table false ex_amps2, ex_call2 e g p0)) gens).
Proof.
  intros e gens p0. assert (T : only_object false ex_amps2 (the_table false ex_amps2)) by (apply the_table_ok; vm_compute; reflexivity). split.
  - split; [destruct gens; exact eq_refl || exact I|]. induction gens as [|g [|g2 gens] IH]; [exact I|exact I|]. cbn [map snd all_announced4]. split; [now left|exact IH].
  - apply Forall_forall. intros x Hx. apply in_map_iff in Hx. destruct Hx as (g & <- & _). split; [exact T|reflexivity].
Qed.
Lemma ex_intensity2 : forall e g p0 p, intensity_at ex_amps2 (ex_call2 e g p0) p = (p + 3) ^ 2.
Proof.
  intros e g p0 p. unfold intensity_at. replace (Ctotal _ _) with (RtoC (p + 3)).
  - rewrite Cmod_R. rewrite <- Rsqr_pow2, <- Rsqr_abs, Rsqr_pow2. reflexivity.
  - unfold Ctotal, ex_amps2. cbn [length seq map fold_right nth coef4 ex_call2]. unfold amplitude_at, Ctotal, Cproduct, part.
    cbn [a_perm a_ls a_sf length Nat.div Nat.divmod fst skipn Nat.mul firstn seq map fold_right INR v_ls Nat.eqb]. rewrite sqrt_1. apply injective_projections; cbn; field.
Qed.
Theorem C61_efficiency_refuted : exists (amps : list amp4) (mc : list R) t c k r,
  amps_ok amps /\ history false amps [(t, c)] /\ calls4 false R_ops amps mc [(t, c)] (kept40 R_ops amps) None = Some (k, Some r) /\
  evts c = mc /\ r <> mean mc (fun p => intensity_at amps c p * eff4 c p).
Proof.
  pose proof (ex_history2 2 [false] 1) as H.
  destruct (C61_mean_partial R ex_amps2 [1] [] (the_table false ex_amps2) (ex_call2 2 false 1) ex_ok2 ltac:(cbn; lia) H eq_refl) as (k & E).
  exists ex_amps2, [1], (the_table false ex_amps2), (ex_call2 2 false 1), k, (mean [1] (intensity_at ex_amps2 (ex_call2 2 false 1))).
  split; [exact ex_ok2|]. split; [exact H|]. split; [exact E|]. split; [reflexivity|]. unfold mean. cbn [map fold_right length INR]. rewrite ex_intensity2. cbn [eff4 ex_call2]. lra.
Qed.
Example C61_ex : exists k, calls4 false R_ops ex_amps2 [1; 2] [(the_table false ex_amps2, ex_call2 1 false 5)] (kept40 R_ops ex_amps2) None = Some (k, Some (41 / 2)).
Proof.
  destruct (C61_mean_partial R ex_amps2 [1; 2] [] (the_table false ex_amps2) (ex_call2 1 false 5) ex_ok2 ltac:(cbn; lia) (ex_history2 1 [false] 5) eq_refl) as (k & E).
  exists k. cbn [app] in E. rewrite E. do 3 f_equal. unfold mean. cbn [map fold_right length INR]. rewrite !ex_intensity2. field.
Qed.
Example C61_ex_value : exists k r, calls4 false R_ops ex_amps2 [1; 2] [(the_table false ex_amps2, ex_call2 10 false 5)] (kept40 R_ops ex_amps2) None = Some (k, Some r) /\
  value4 R_ops (ex_call2 10 false 5) k 0%nat 5 = 640.
Proof.
  destruct (C61_value_partial R ex_amps2 [1; 2] [] (the_table false ex_amps2) (ex_call2 10 false 5) ex_ok2 ltac:(cbn; lia) (ex_history2 10 [false] 5)) as (k & r & E & V); [repeat constructor|].
  exists k, r. split; [exact E|]. rewrite (V 0%nat 5 eq_refl), ex_intensity2. cbn [eff4 ex_call2]. lra.
Qed.

(** ** C62: once toy events have been generated, the normalisation is 1 for the rest of the program *)
Theorem C62_generation_refuted : forall (P : Type) amps (mc : list P) cs t c,
  amps_ok amps -> (length (line_shapes amps) <= length amps)%nat -> history false amps (cs ++ [(t, c)]) ->
  existsb generating (map snd (cs ++ [(t, c)])) = true ->
  exists k, calls4 false R_ops amps mc (cs ++ [(t, c)]) (kept40 R_ops amps) None = Some (k, Some 1).
Proof.
  intros P amps mc cs t c Ho HL H G. destruct (history_run false amps mc Ho cs t c eq_refl HL H) as (k & r & E & _ & _ & _ & R & _).
  exists k. rewrite G in R. now rewrite <- R.
Qed.
Example C62_ex : exists k, calls4 false R_ops ex_amps2 [1; 2] (map (fun g => (the_table false ex_amps2, ex_call2 1 g 5)) [true; false]) (kept40 R_ops ex_amps2) None = Some (k, Some 1) /\
  mean [1; 2] (intensity_at ex_amps2 (ex_call2 1 false 5)) = 41 / 2.
Proof.
  destruct (C62_generation_refuted R ex_amps2 [1; 2] [(the_table false ex_amps2, ex_call2 1 true 5)] (the_table false ex_amps2) (ex_call2 1 false 5) ex_ok2 ltac:(cbn; lia) (ex_history2 1 [true; false] 5) eq_refl) as (k & E).
  exists k. split; [exact E|]. unfold mean. cbn [map fold_right length INR]. rewrite !ex_intensity2. field.
Qed.

(** ** C63: several four-body PDFs in one program *)
(** The table has 500 places: a PDF whose amplitudes need more is written beyond its end. *)
Theorem C63_capacity_refuted : forall td amps, (500 < length amps + length (amp_idx td amps))%nat -> construct td table0 amps = None.
Proof.
  intros td amps H. unfold construct. destruct (write table0 0 (amp_idx_start td amps)) as [t|] eqn:E; [|reflexivity]. cbn [obind].
  destruct (write_read _ _ _ _ E) as (L & _). unfold populate, write. rewrite L. unfold table0. rewrite repeat_length.
  replace (Nat.leb _ _) with false by (symmetry; apply Nat.leb_gt; lia). reflexivity.
Qed.
Example C63_ex_capacity : (500 < length (repeat (mkAmp4 [0%nat] [0%nat] 1 0) 100) + length (amp_idx false (repeat (mkAmp4 [0%nat] [0%nat] 1 0) 100)))%nat.
Proof. apply Nat.ltb_lt. vm_compute. reflexivity. Qed.
(** Two PDFs: the normalisation of the first reads the starts of its amplitudes where the second has put its own. *)
Definition ex_other : list amp4 := [mkAmp4 [0%nat; 1%nat] [] 1 0].
Theorem C63_two_refuted : exists (amps other : list amp4) (mc : list R) t0 t1 t c k r,
  amps_ok amps /\ amps_ok other /\ construct false table0 amps = Some t0 /\ construct false t0 other = Some t1 /\ populate false t1 amps = Some t /\
  force4 c = true /\ generating c = false /\ length (coef4 c) = length amps /\
  calls4 false R_ops amps mc [(t, c)] (kept40 R_ops amps) None = Some (k, Some r) /\ r <> mean mc (intensity_at amps c).
Proof.
  exists ex_amps2, ex_other, [1]. 
  eexists _, _, _, (ex_call2 1 false 5), _, _. split; [exact ex_ok2|]. split; [repeat constructor; discriminate|].
  split; [vm_compute; reflexivity|]. split; [vm_compute; reflexivity|]. split; [vm_compute; reflexivity|].
  split; [reflexivity|]. split; [reflexivity|]. split; [reflexivity|]. split.
  - cbv - [R_ops RtoC mean intensity_at IZR Rplus Rmult Rminus Rdiv Rinv sqrt]. reflexivity.
  - unfold mean. cbn [map fold_right length INR]. rewrite ex_intensity2.
    cbn [R_ops LeafGen.o_div LeafGen.o_add LeafGen.o_zero LeafGen.o_mul LeafGen.o_sub LeafGen.o_one LeafGen.o_sqrt LeafGen.o_ofZ RtoC fst snd].
    rewrite sqrt_1. lra.
Qed.

Print Assumptions C52_cache_partial.
Print Assumptions C52_TD_cache.
Print Assumptions C52_stale_refuted.
Print Assumptions C52_overflow_refuted.
Print Assumptions C61_mean_partial.
Print Assumptions C61_value_partial.
Print Assumptions C61_efficiency_refuted.
Print Assumptions C62_generation_refuted.
Print Assumptions C63_capacity_refuted.
Print Assumptions C63_two_refuted.
