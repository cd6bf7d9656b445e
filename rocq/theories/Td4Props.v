(** C102-C106, and C62 for Amp4Body_TD: time-dependent four-body PDFs. *)
From Coq Require Import Reals List ZArith Lra Lia Bool Arith.
From Coquelicot Require Import Complex.
From Verif Require Import FormulaSpec AmpModel AmpSpec AmpProofs CombineSpec UtilModel Amp4Model Amp4Spec Amp4Proofs ResolModel ResolSpec ResolProofs ResolProofs4 ResolProps Td4Model Td4Spec Td4Proofs Td4Proofs2.
From Verif Require Amp4Props LeafGen.
Import ListNotations.
Open Scope R_scope.

(** *** A program: two amplitudes of the first decay, one of them and a third one of the second *)
Definition a0 : amplitude := mkAmplitude 0 0 1 [0%nat] [0%nat] [100%nat; 101%nat] 1.
Definition a1 : amplitude := mkAmplitude 1 2 3 [1%nat; 0%nat] [1%nat; 0%nat] [102%nat; 103%nat] 2.
Definition a2 : amplitude := mkAmplitude 2 4 5 [0%nat] [1%nat] [104%nat; 105%nat] 1.
Definition exA : list amplitude := [a0; a1].
Definition exB : list amplitude := [a2; a0].
Definition table (A B : list amplitude) : list nat := Amp4Props.the_table true (td_amps A B).
Definition ex_call (ls : R) (var : nat -> R) (data : list (R * R * R)) (force : bool) (changed : nat -> bool) (gen : bool) : call (T := R) (P := R) :=
  mkCall (fun k p => (ls * p, INR k)) (fun k p => p + INR k) var (2 / 5) (1 / 2) (1 / 3) 1 (fun _ => 1) data force changed gen.
Definition ex_calls (g : bool) : list (list nat * call (T := R) (P := R)) :=
  [(table exA exB, ex_call 1 INR [(1, 1 / 2, 1 / 10); (2, 1, 1 / 10)] true (fun _ => false) g);
   (table exA exB, ex_call 3 (fun k => INR k + 1) [(1, 1 / 2, 1 / 10); (2, 1, 1 / 10)] false (fun _ => true) false)].
Lemma ex_ok : td_ok exA exB.
Proof.
  unfold td_ok, exA, exB. repeat split; try (repeat constructor; discriminate).
  - constructor; [|constructor; [easy|constructor]]. intros [H|[]]. discriminate H.
  - constructor; [|constructor; [easy|constructor]]. intros [H|[]]. discriminate H.
Qed.
Lemma ex_history : forall g, td_history exA exB (ex_calls g).
Proof.
  intro g. assert (T : only_object true (td_amps exA exB) (table exA exB)) by (apply Amp4Props.the_table_ok; vm_compute; reflexivity).
  split; [reflexivity|]. split; [|repeat constructor; exact T]. cbn [ex_calls map snd all_told]. split; [|exact I]. right. split; [reflexivity|]. split; [reflexivity|]. intros k H. discriminate H.
Qed.

(** ** C102: the value at an event of the data *)
Theorem C102_value_partial : forall (P : Type) A B res nrm (bs : list (batch (T := R) (P := P))) ns cs t c,
  td_ok A B -> Forall batch_ok bs -> Forall2 counts bs ns -> td_history A B (cs ++ [(t, c)]) ->
  exists k r, calls R_ops A B res nrm bs (cs ++ [(t, c)]) (fresh R_ops A B bs) None = Some (k, r) /\
  forall e p time sigma, nth_error (u_data c) e = Some (p, time, sigma) ->
  value R_ops A B res t c (fst k) e (p, time, sigma) = Some (smear res c (first c A p) (second c B p) time sigma * u_eff c (p, time, sigma)).
Proof.
  intros P A B res nrm bs ns cs t c Ho Hb Hn H. destruct (history_norm A B res nrm bs ns Ho Hb Hn cs t c H) as (k & r & E & _ & V). exists k, (Some r). split; [exact E|exact V].
Qed.
Lemma norm2_Cmod : forall z : C, norm2 z = Cmod z ^ 2.
Proof. intro z. rewrite <- norm_Cmod. unfold norm2, c_norm. cbn [LeafGen.o_add LeafGen.o_mul R_ops]. ring. Qed.
Lemma smear_truth : forall {P} (c : call (T := R) (P := P)) a b time sigma, smear truth c a b time sigma = 2 * norm2 (decay_amplitude a b (u_x c) (u_y c) (time / u_tau c)).
Proof. intros P c a b time sigma. rewrite <- (C67_amplitude (fun _ _ => 0)). unfold smear, truth. rewrite !norm2_Cmod. reflexivity. Qed.
(** With TruthResolution it is the efficiency times the rate at which a mixing meson decays at that time. *)
Corollary C102_rate_partial : forall (P : Type) A B nrm (bs : list (batch (T := R) (P := P))) ns cs t c,
  td_ok A B -> Forall batch_ok bs -> Forall2 counts bs ns -> td_history A B (cs ++ [(t, c)]) ->
  exists k r, calls R_ops A B truth nrm bs (cs ++ [(t, c)]) (fresh R_ops A B bs) None = Some (k, r) /\
  forall e p time sigma, nth_error (u_data c) e = Some (p, time, sigma) ->
  value R_ops A B truth t c (fst k) e (p, time, sigma) =
  Some (2 * norm2 (decay_amplitude (first c A p) (second c B p) (u_x c) (u_y c) (time / u_tau c)) * u_eff c (p, time, sigma)).
Proof.
  intros P A B nrm bs ns cs t c Ho Hb Hn H. destruct (C102_value_partial P A B truth nrm bs ns cs t c Ho Hb Hn H) as (k & r & E & V). exists k, r. split; [exact E|].
  intros e p time sigma He. rewrite (V e p time sigma He), smear_truth. reflexivity.
Qed.
Example C102_ex : td_ok exA exB /\ td_history exA exB (ex_calls false) /\ td_amps exA exB <> [] /\
  Forall2 counts [mkBatch true [1; 2; 3] None; mkBatch (T := R) false [4; 5] (Some [(1, 0, 2); (1 / 2, 0, 3 / 2)])] [3; 3] /\
  Forall batch_ok [mkBatch true [1; 2; 3] None; mkBatch (T := R) false [4; 5] (Some [(1, 0, 2); (1 / 2, 0, 3 / 2)])].
Proof.
  split; [exact ex_ok|]. split; [apply ex_history|]. split; [discriminate|]. split.
  - constructor; [cbn; lra|]. constructor; [|constructor]. exists [2%Z; 1%Z]. split; [|reflexivity]. cbn [b_extra map snd]. constructor; [left; lra|]. constructor; [left; lra|constructor].
  - constructor; [split; [now left|cbn; lra]|]. constructor; [|constructor]. split; [right; eexists; split; reflexivity|]. unfold events, Rsum. cbn [b_extra b_points List.combine map snd fold_right].
    rewrite !Rabs_pos_eq by lra. lra.
Qed.
(** An amplitude that stands twice in the first list counts twice in the second. *)
Theorem C102_twice_refuted : exists A B (c : call (T := R) (P := R)) t k e p time sigma v,
  Forall (fun a => m_perm a <> 0%nat) A /\ Forall (fun a => m_perm a <> 0%nat) B /\ NoDup B /\ td_history A B [(t, c)] /\
  (exists r, calls R_ops A B truth truth_norm [] [(t, c)] (fresh R_ops A B (P := R) []) None = Some (k, r)) /\
  nth_error (u_data c) e = Some (p, time, sigma) /\ value R_ops A B truth t c (fst k) e (p, time, sigma) = Some v /\
  v <> smear truth c (first c A p) (second c B p) time sigma * u_eff c (p, time, sigma).
Proof.
  set (A := [a0; a0]). set (B := [a0]).
  set (c := mkCall (P := R) (fun _ _ => (1, 0)) (fun _ _ => 1) (fun k => if Nat.eqb k 0 then 1 else 0) 1 0 1 1 (fun _ => 1) [(1, ln 2, 0)] true (fun _ => false) false).
  assert (PA : Forall (fun a => m_perm a <> 0%nat) A) by (repeat constructor; discriminate).
  assert (PB : Forall (fun a => m_perm a <> 0%nat) B) by (repeat constructor; discriminate).
  assert (T : only_object true (td_amps A B) (table A B)) by (apply Amp4Props.the_table_ok; vm_compute; reflexivity).
  assert (AO : amps_ok (td_amps A B)) by (repeat constructor; discriminate).
  destruct (step_TD true (td_amps A B) AO (as4 R_ops A B c) (table A B) (as4 R_ops A B c) (kept40 R_ops (td_amps A B)) (only_good _ _ _ T) (or_introl eq_refl) (or_introl eq_refl)) as (kd & E & _ & Am).
  assert (Q : q_nonorm kd = false).
  { unfold normalize4_TD in E. destruct (fill_amp _ _ _ _ _ _ _ _ _); [|discriminate]. cbn [obind] in E. injection E as <-. reflexivity. }
  assert (F1 : forall f, amplitude_at (as4 R_ops A B c) (entry f a0) 1 = RtoC 1).
  { intro f. unfold amplitude_at, Ctotal, Cproduct, part. cbn [entry a_perm a_ls a_sf m_ls m_sf m_perm a0 length Nat.div Nat.divmod fst skipn Nat.mul firstn seq map fold_right INR as4 v_ls v_sf c u_ls u_sf]. rewrite sqrt_1.
    apply injective_projections; cbn; field. }
  pose proof (decays_value A B (table A B) (only_good _ _ _ T) [u_tau c; u_x c; u_y c; u_rate c] (u_var c) (fun a => amplitude_at (as4 R_ops A B c) a 1) eq_refl (fun i => Some (q_amp kd 0 i))) as D.
  specialize (D ltac:(intros i a Hi; cbv beta; apply f_equal; now apply (Am 0%nat 1 i a)) (built A B) [] (AmpModel.c_zero R_ops) (AmpModel.c_zero R_ops) eq_refl).
  assert (V : both R_ops A B c (table A B) (fun i => Some (q_amp kd 0 i)) = Some (RtoC 2, RtoC 2)).
  { unfold both. unfold pars. change (length (td_amps A B)) with (length (built A B)) at 2. cbn [length] in D. unfold doubles in D. cbn [filter length] in D. rewrite D. clear D. cbn [obind nth_error app fst snd u_rate c].
    change (built A B) with [(entry 2 a0, [0%nat; 1%nat; 0%nat; 1%nat]); (entry 2 a0, [0%nat; 1%nat; 0%nat; 1%nat])]. unfold part_A, part_B, two, Csum. cbn [map fst snd a_flag entry nth fold_right]. rewrite !F1.
    f_equal. f_equal; apply injective_projections; cbn; ring. }
  exists A, B, c, (table A B), (kd, []), 0%nat, 1, (ln 2), 0. eexists. split; [exact PA|]. split; [exact PB|]. split; [constructor; [intros []|constructor]|].
  split; [split; [reflexivity|split; [exact I|repeat constructor; exact T]]|].
  split. { eexists. cbn [calls]. unfold normalize. cbn [fresh fst snd map]. rewrite E. cbn [obind]. rewrite Q. cbn [norm_batches omap obind fst snd]. reflexivity. }
  split; [reflexivity|]. cbn [fst]. unfold value. rewrite V. cbn [obind]. destruct (functions (td_amps A B)) as (-> & ->). rewrite smeared_value. split; [reflexivity|]. cbn [fst snd].
  assert (P1 : point_amp c a0 1 = RtoC 1) by exact (F1 0%nat).
  assert (S1 : first c A 1 = RtoC 2). { unfold first, decay, A, Csum. cbn [map fold_right u_rate c]. rewrite P1. unfold coefficient. apply injective_projections; cbn; ring. }
  assert (S2 : second c B 1 = RtoC 1). { unfold second, decay, B, Csum. cbn [map fold_right]. rewrite P1. unfold coefficient. apply injective_projections; cbn; ring. }
  rewrite S1, S2. cbn [u_eff c]. unfold smear, truth. rewrite !truth_is_rate. unfold rate. rewrite <- !norm2_Cmod. unfold norm2, cosh, sinh, Cconj, Cmult, RtoC. cbn [fst snd u_tau u_x u_y c].
  replace (1 * ln 2 / 1) with (ln 2) by field. replace (0 * ln 2 / 1) with 0 by field. replace (ln 2 / 1) with (ln 2) by field.
  rewrite !exp_Ropp, exp_ln, cos_0, sin_0 by lra. cbn [LeafGen.o_mul R_ops]. lra.
Qed.

(** ** C103: the normalisation is the mean rate of the normalisation events *)
Definition mean_of (l : list R) : R := Rsum l / INR (length l).
Lemma Rsum_app : forall l1 l2, Rsum (l1 ++ l2) = Rsum l1 + Rsum l2.
Proof. induction l1 as [|x l IH]; intros l2; unfold Rsum in *; cbn [app fold_right]; [ring|]. rewrite IH. ring. Qed.
Lemma truth_linear : forall {P} (f1 f2 f3 f4 : P -> R) tau x y l,
  truth_norm (Rsum (map f1 l)) (Rsum (map f2 l)) (Rsum (map f3 l)) (Rsum (map f4 l)) tau x y = Rsum (map (fun p => truth_norm (f1 p) (f2 p) (f3 p) (f4 p) tau x y) l).
Proof.
  intros P f1 f2 f3 f4 tau x y l. induction l as [|p l IH]; unfold Rsum in *; cbn [map fold_right]; unfold truth_norm in *; rewrite truth_norm_value in *; [unfold Rdiv; ring|]. rewrite <- IH, truth_norm_value. ring.
Qed.
Lemma rate_int : forall {P} (c : call (T := R) (P := P)) a b, 0 < u_tau c -> -1 < u_y c < 1 ->
  over_decay_time (fun time => 2 * norm2 (decay_amplitude a b (u_x c) (u_y c) (time / u_tau c)))
    (truth_norm (Cmod a ^ 2) (Cmod b ^ 2) (fst (Cmult a (Cconj b))) (snd (Cmult a (Cconj b))) (u_tau c) (u_x c) (u_y c)).
Proof.
  intros P c a b Ht Hy. pose proof (C53_integral (fun _ _ => 0) (Cmod a ^ 2) (Cmod b ^ 2) (fst (Cmult a (Cconj b))) (snd (Cmult a (Cconj b))) (u_tau c) (u_x c) (u_y c) Ht Hy) as I.
  unfold over_decay_time in *. refine (gen_ext _ _ _ _ _ _ _ eq_refl I). intro time. rewrite <- (smear_truth c a b time 0). reflexivity.
Qed.
Theorem C103_mean_partial : forall (P : Type) A B (bs : list (batch (T := R) (P := P))) cs t c (I : P -> R),
  td_ok A B -> Forall unweighted bs -> td_history A B (cs ++ [(t, c)]) -> never_generated (cs ++ [(t, c)]) -> 0 < u_tau c -> -1 < u_y c < 1 ->
  (forall p, over_decay_time (fun time => 2 * norm2 (decay_amplitude (first c A p) (second c B p) (u_x c) (u_y c) (time / u_tau c))) (I p)) ->
  exists k, calls R_ops A B truth truth_norm bs (cs ++ [(t, c)]) (fresh R_ops A B bs) None = Some (k, Some (mean_of (map I (all_points bs)))).
Proof.
  intros P A B bs cs t c I Ho U H Ng Ht Hy HI.
  assert (Hb : Forall batch_ok bs).
  { revert U. apply Forall_impl. intros b Ub. split; [now left|]. unfold events. unfold unweighted in Ub. rewrite Ub. cbn. lra. }
  assert (Hn : Forall2 counts bs (map (fun b => INR (length (b_points b))) bs)).
  { clear - U. induction U as [|b l Ub _ IH]; cbn [map]; constructor; [|exact IH]. unfold counts. unfold unweighted in Ub. now rewrite Ub. }
  destruct (history_norm A B truth truth_norm bs _ Ho Hb Hn cs t c H) as (k & r & E & V & _). exists k. rewrite E, V. f_equal. f_equal. f_equal.
  assert (G : existsb (fun tc => u_generating (snd tc)) (cs ++ [(t, c)]) = false).
  { apply not_true_is_false. intro X. apply existsb_exists in X. destruct X as (tc & In1 & X). unfold never_generated in Ng. rewrite Forall_forall in Ng. specialize (Ng tc In1). cbn in Ng, X. congruence. }
  rewrite G. unfold norm_of, mean_of. f_equal.
  - clear - U HI Ht Hy. unfold all_points. induction U as [|b l Ub _ IH]; [reflexivity|]. cbn [map flat_map]. rewrite map_app, Rsum_app, <- IH. unfold Rsum at 1. cbn [fold_right]. fold (Rsum (map (batch_integral truth truth_norm A B c) l)). f_equal.
    unfold batch_integral. unfold unweighted in Ub. rewrite Ub. cbv zeta. rewrite truth_linear. f_equal. apply map_ext. intro p.
    exact (unique_decay _ _ _ (rate_int c (first c A p) (second c B p) Ht Hy) (HI p)).
  - clear. rewrite map_length. unfold all_points. induction bs as [|b l IH]; [reflexivity|]. cbn [map flat_map]. rewrite app_length, plus_INR, <- IH. reflexivity.
Qed.
Example C103_ex : exists k r, calls R_ops exA exB truth truth_norm [mkBatch true [1; 2] None; mkBatch false [3] None] (ex_calls false) (fresh R_ops exA exB [mkBatch true [1; 2] None; mkBatch false [3] None]) None = Some (k, Some r).
Proof.
  set (c := snd (nth 1 (ex_calls false) (table exA exB, ex_call 1 INR [] true (fun _ => false) false))).
  destruct (C103_mean_partial R exA exB [mkBatch true [1; 2] None; mkBatch false [3] None] [nth 0 (ex_calls false) (table exA exB, ex_call 1 INR [] true (fun _ => false) false)] (table exA exB) c
    (fun p => truth_norm (Cmod (first c exA p) ^ 2) (Cmod (second c exB p) ^ 2) (fst (Cmult (first c exA p) (Cconj (second c exB p)))) (snd (Cmult (first c exA p) (Cconj (second c exB p)))) (u_tau c) (u_x c) (u_y c))
    ex_ok ltac:(repeat constructor) (ex_history false) ltac:(repeat constructor) ltac:(cbn; lra) ltac:(cbn; lra)) as (k & E).
  - intro p. apply rate_int; cbn; lra.
  - exists k. eexists. exact E.
Qed.

(** *** One amplitude of value [a] in the first decay and one of value [b] in the second, at every point *)
Definition one_each (a b eff : R) (gen : bool) : call (T := R) (P := R) :=
  mkCall (fun _ _ => (1, 0)) (fun _ _ => 1) (fun k => if Nat.eqb k 0 then a else if Nat.eqb k 4 then b else 0) 1 1 0 1 (fun _ => eff) [] true (fun _ => false) gen.
Lemma one_amp : forall a b eff gen m p, m_ls m = [0%nat] -> length (m_sf m) = 1%nat -> m_perm m = 1%nat -> point_amp (one_each a b eff gen) m p = RtoC 1.
Proof.
  intros a b eff gen m p E1 E2 E3. unfold point_amp, Ctotal, Cproduct, part. rewrite E1, E3, E2. destruct (m_sf m) as [|s [|]]; try discriminate.
  cbn [length Nat.div Nat.divmod fst skipn Nat.mul firstn seq map fold_right INR one_each u_ls u_sf]. rewrite sqrt_1. apply injective_projections; cbn; field.
Qed.
Lemma one_first : forall a b eff gen p, first (one_each a b eff gen) [a0] p = RtoC a.
Proof. intros. unfold first, decay, Csum. cbn [map fold_right u_rate one_each]. rewrite one_amp by reflexivity. unfold coefficient. apply injective_projections; cbn; ring. Qed.
Lemma one_second : forall a b eff gen p, second (one_each a b eff gen) [a2] p = RtoC b.
Proof. intros. unfold second, decay, Csum. cbn [map fold_right]. rewrite one_amp by reflexivity. unfold coefficient. apply injective_projections; cbn; ring. Qed.
Lemma one_ok : td_ok [a0] [a2].
Proof. unfold td_ok. repeat split; repeat constructor; try discriminate; easy. Qed.
Lemma one_table : only_object true (td_amps [a0] [a2]) (table [a0] [a2]).
Proof. apply Amp4Props.the_table_ok. vm_compute. reflexivity. Qed.
Lemma one_history : forall a b eff gen, td_history [a0] [a2] [(table [a0] [a2], one_each a b eff gen)].
Proof. intros. split; [reflexivity|]. split; [exact I|]. constructor; [exact one_table|constructor]. Qed.
Lemma one_smear : forall a b eff gen time sigma, smear truth (one_each a b eff gen) (RtoC a) (RtoC b) time sigma = exp (- time) * (a ^ 2 + b ^ 2 + (a ^ 2 - b ^ 2) * cos time).
Proof.
  intros. unfold smear, truth. rewrite truth_is_rate. unfold rate. rewrite <- !norm2_Cmod. unfold norm2, cosh, sinh, Cconj, Cmult, RtoC. cbn [fst snd u_tau u_x u_y one_each].
  replace (0 * time / 1) with 0 by field. replace (1 * time / 1) with time by field. replace (time / 1) with time by field. rewrite Ropp_0, exp_0. field.
Qed.

(** The efficiency, which the value contains, is not in the normalisation. *)
Theorem C103_efficiency_refuted : exists A B (bs : list (batch (T := R) (P := R))) t c k r p J,
  td_ok A B /\ td_history A B [(t, c)] /\ never_generated [(t, c)] /\ bs = [mkBatch false [p] None] /\
  calls R_ops A B truth truth_norm bs [(t, c)] (fresh R_ops A B bs) None = Some (k, Some r) /\
  over_decay_time (fun time => smear truth c (first c A p) (second c B p) time 0 * u_eff c (p, time, 0)) J /\ r <> J.
Proof.
  set (c := one_each 1 0 (/ 2) false).
  destruct (C103_mean_partial R [a0] [a2] [mkBatch false [1] None] [] (table [a0] [a2]) c (fun p => truth_norm (Cmod (first c [a0] p) ^ 2) (Cmod (second c [a2] p) ^ 2) (fst (Cmult (first c [a0] p) (Cconj (second c [a2] p)))) (snd (Cmult (first c [a0] p) (Cconj (second c [a2] p)))) (u_tau c) (u_x c) (u_y c)) one_ok ltac:(repeat constructor) (one_history _ _ _ _) ltac:(repeat constructor) ltac:(cbn; lra) ltac:(cbn; lra)) as (k & E).
  - intro p. apply rate_int; cbn; lra.
  - exists [a0], [a2], [mkBatch false [1] None], (table [a0] [a2]), c, k. eexists. exists 1.
    exists (/ 2 * truth_norm (Cmod (first c [a0] 1) ^ 2) (Cmod (second c [a2] 1) ^ 2) (fst (Cmult (first c [a0] 1) (Cconj (second c [a2] 1)))) (snd (Cmult (first c [a0] 1) (Cconj (second c [a2] 1)))) (u_tau c) (u_x c) (u_y c)).
    split; [exact one_ok|]. split; [apply one_history|]. split; [repeat constructor|]. split; [reflexivity|]. split; [exact E|]. split.
    + pose proof (rate_int c (first c [a0] 1) (second c [a2] 1) ltac:(cbn; lra) ltac:(cbn; lra)) as I. unfold over_decay_time in *.
      refine (gen_ext _ _ _ _ _ _ _ eq_refl (gen_scal _ _ _ (/ 2) _ I)). intro time. rewrite <- (smear_truth c _ _ time 0). cbn [u_eff c one_each]. ring.
    + cbn [all_points flat_map b_points app map]. unfold mean_of, Rsum. cbn [fold_right length INR]. unfold c. rewrite one_first, one_second. unfold truth_norm. rewrite truth_norm_value, <- !norm2_Cmod.
      unfold norm2, Cconj, Cmult, RtoC. cbn [fst snd u_tau u_x u_y one_each]. lra.
Qed.

(** ** C104: weighted normalisation events *)
Definition whole (w : R) : Prop := exists z, w = IZR z.
Definition all_events {P : Type} (bs : list (batch (T := R) (P := P))) : list (P * (R * R * R)) := flat_map events bs.
Definition weight {P : Type} (e : P * (R * R * R)) : R := snd (snd e).
Definition rate_of {P : Type} res (A B : list amplitude) (c : call (T := R) (P := P)) (e : P * (R * R * R)) : R :=
  smear res c (first c A (fst e)) (second c B (fst e)) (fst (fst (snd e))) (snd (fst (snd e))).
Definition weighted_mean {P : Type} res (A B : list amplitude) (c : call (T := R) (P := P)) (l : list (P * (R * R * R))) : R :=
  Rsum (map (fun e => weight e * rate_of res A B c e) l) / Rsum (map weight l).
Theorem C104_integer_partial : forall (P : Type) A B res nrm (bs : list (batch (T := R) (P := P))) cs t c,
  td_ok A B -> Forall weighted bs -> Forall batch_ok bs -> (forall e, In e (all_events bs) -> whole (weight e)) ->
  td_history A B (cs ++ [(t, c)]) -> never_generated (cs ++ [(t, c)]) ->
  exists k, calls R_ops A B res nrm bs (cs ++ [(t, c)]) (fresh R_ops A B bs) None = Some (k, Some (weighted_mean res A B c (all_events bs))).
Proof.
  intros P A B res nrm bs cs t c Ho W Hb Wh H Ng.
  assert (Hn : Forall2 counts bs (map (fun b => Rsum (map weight (events b))) bs)).
  { clear - W Wh. unfold all_events in Wh. induction W as [|b l (ex & E & L) _ IH]; cbn [map]; constructor.
    - unfold counts. rewrite E. assert (We : forall w, In w (map snd ex) -> whole w).
      { intros w Hw. rewrite <- (combine_snd (b_points b) ex L), map_map in Hw. apply in_map_iff in Hw. destruct Hw as (x & <- & Hx). apply (Wh x). cbn [flat_map]. apply in_or_app. left. unfold events. now rewrite E. }
      unfold events. rewrite E. replace (map weight (List.combine (b_points b) ex)) with (map snd ex) by (rewrite <- (combine_snd (b_points b) ex L) at 1; rewrite map_map; reflexivity).
      clear - We. induction (map snd ex) as [|w ws IH]; [exists []; split; [constructor|reflexivity]|].
      destruct IH as (zs & F & S0); [intros; apply We; now right|]. destruct (We w (or_introl eq_refl)) as (z & Ez).
      exists (z :: zs). split.
      + constructor; [|exact F]. unfold whole_part. rewrite Ez. destruct (Rle_dec 0 (IZR z)); [left; lra|right; lra].
      + cbn [fold_right]. rewrite plus_IZR, <- S0, Ez. reflexivity.
    - apply IH. intros e He. apply Wh. cbn [flat_map]. apply in_or_app. now right. }
  destruct (history_norm A B res nrm bs _ Ho Hb Hn cs t c H) as (k & r & E & V & _). exists k. rewrite E, V. f_equal. f_equal. f_equal.
  assert (G : existsb (fun tc => u_generating (snd tc)) (cs ++ [(t, c)]) = false).
  { apply not_true_is_false. intro X. apply existsb_exists in X. destruct X as (tc & In1 & X). unfold never_generated in Ng. rewrite Forall_forall in Ng. specialize (Ng tc In1). cbn in Ng, X. congruence. }
  rewrite G. unfold norm_of, weighted_mean, all_events. f_equal.
  - clear - W. induction W as [|b l (ex & E & L) _ IH]; [reflexivity|]. cbn [map flat_map]. rewrite map_app, Rsum_app, <- IH. unfold Rsum at 1. cbn [fold_right]. fold (Rsum (map (batch_integral res nrm A B c) l)). f_equal.
    unfold batch_integral. rewrite E. f_equal. apply map_ext. intros (p & ((ti & si) & w)). unfold rate_of, weight. cbn [fst snd]. ring.
  - clear. induction bs as [|b l IH]; [reflexivity|]. cbn [map flat_map]. rewrite map_app, Rsum_app, <- IH. reflexivity.
Qed.
Example C104_ex : Forall weighted [mkBatch (T := R) (P := R) true [4; 5] (Some [(1, 0, 2); (1 / 2, 0, -3)])] /\
  Forall batch_ok [mkBatch (T := R) (P := R) true [4; 5] (Some [(1, 0, 2); (1 / 2, 0, -3)])] /\
  forall e, In e (all_events [mkBatch (T := R) (P := R) true [4; 5] (Some [(1, 0, 2); (1 / 2, 0, -3)])]) -> whole (weight e).
Proof.
  assert (W : weighted (mkBatch (T := R) (P := R) true [4; 5] (Some [(1, 0, 2); (1 / 2, 0, -3)]))) by (eexists; split; reflexivity).
  split; [constructor; [exact W|constructor]|]. split.
  - constructor; [|constructor]. split; [now right|]. unfold events, Rsum. cbn [b_extra b_points List.combine map snd fold_right]. rewrite Rabs_pos_eq, Rabs_left by lra. lra.
  - cbn. intros e [<-|[<-|[]]]; [now exists 2%Z|now exists (-3)%Z].
Qed.
(** One event of weight 3/2: the normalisation is 3/2 times the rate at that event. *)
Theorem C104_fraction_refuted : exists A B (bs : list (batch (T := R) (P := R))) t c k r,
  td_ok A B /\ Forall weighted bs /\ Forall batch_ok bs /\ td_history A B [(t, c)] /\ never_generated [(t, c)] /\
  (forall e, In e (all_events bs) -> 0 < weight e) /\
  calls R_ops A B truth truth_norm bs [(t, c)] (fresh R_ops A B bs) None = Some (k, Some r) /\
  0 < weighted_mean truth A B c (all_events bs) /\ r = 3 / 2 * weighted_mean truth A B c (all_events bs).
Proof.
  set (c := one_each 1 0 1 false). set (b := mkBatch (T := R) true [1] (Some [(0, 0, 3 / 2)])).
  assert (W : weighted b) by (eexists; split; reflexivity).
  assert (Hb : batch_ok b). { split; [now right|]. unfold events, Rsum. cbn [b b_extra b_points List.combine map snd fold_right]. rewrite Rabs_pos_eq by lra. lra. }
  assert (Hn : Forall2 counts [b] [1]). { constructor; [|constructor]. exists [1%Z]. split; [|reflexivity]. cbn [map snd]. constructor; [left; lra|constructor]. }
  destruct (history_norm [a0] [a2] truth truth_norm [b] [1] one_ok ltac:(constructor; [exact Hb|constructor]) Hn [] (table [a0] [a2]) c (one_history _ _ _ _)) as (k & r & E & V & _).
  assert (M : weighted_mean truth [a0] [a2] c (all_events [b]) = 2).
  { unfold weighted_mean, all_events, events, Rsum, rate_of, weight. cbn [b b_extra b_points flat_map app List.combine map fold_right fst snd]. unfold c. rewrite one_first, one_second, one_smear, Ropp_0, exp_0, cos_0. field. }
  exists [a0], [a2], [b], (table [a0] [a2]), c, k, r.
  split; [exact one_ok|]. split; [constructor; [exact W|constructor]|]. split; [constructor; [exact Hb|constructor]|]. split; [apply one_history|]. split; [repeat constructor|].
  split; [intros e [<-|[]]; unfold weight; cbn; lra|]. split; [exact E|]. rewrite M. split; [lra|].
  rewrite V. cbn [app existsb snd c u_generating one_each orb]. unfold norm_of, batch_integral, events, Rsum. cbn [b b_extra b_points map List.combine fold_right]. unfold c.
  rewrite one_first, one_second, one_smear, Ropp_0, exp_0, cos_0. field.
Qed.

(** ** C105: where the events are kept does not matter, in any arithmetic and for any sequence of calls *)
Definition same_events {T P : Type} (b b' : batch (T := T) (P := P)) : Prop := b_points b = b_points b' /\ b_extra b = b_extra b'.
Theorem C105_host_device : forall (T : Type) (Ar : LeafGen.ops T) (P : Type) A B res nrm (bs bs' : list (batch (T := T) (P := P))) cs,
  Forall2 same_events bs bs' -> calls Ar A B res nrm bs cs (fresh Ar A B bs) None = calls Ar A B res nrm bs' cs (fresh Ar A B bs') None.
Proof.
  intros T Ar P A B res nrm bs bs' cs F.
  assert (F0 : fresh Ar A B bs = fresh Ar A B bs'). { unfold fresh. f_equal. induction F as [|? ? ? ? _ _ IH]; cbn [map]; congruence. }
  rewrite F0. generalize (fresh Ar A B bs') as k, (@None T) as r. clear F0.
  assert (S1 : forall t (c : call (T := T) (P := P)) idle spins changed ks, norm_batches Ar A B res nrm t c idle spins changed bs ks = norm_batches Ar A B res nrm t c idle spins changed bs' ks).
  { intros t c idle spins changed. induction F as [|b b' l l' (E1 & E2) _ IH]; intros [|k ks]; try reflexivity. cbn [norm_batches]. rewrite !batch_device, IH.
    replace (norm_device Ar A B res nrm t c idle spins changed b k) with (norm_device Ar A B res nrm t c idle spins changed b' k); [reflexivity|]. unfold norm_device, integral. now rewrite E1, E2. }
  assert (S2 : omap (init_weights Ar) bs = omap (init_weights Ar) bs').
  { clear S1. induction F as [|b b' l l' (E1 & E2) _ IH]; [reflexivity|]. cbn [omap]. unfold init_weights at 1 3. now rewrite E1, E2, IH. }
  induction cs as [|(t & c) cs IH]; intros k r; [reflexivity|]. cbn [calls].
  replace (normalize Ar A B res nrm bs t c k) with (normalize Ar A B res nrm bs' t c k) by (unfold normalize; now rewrite S1, S2).
  destruct (normalize Ar A B res nrm bs' t c k); [|reflexivity]. cbn [obind]. apply IH.
Qed.
Example C105_ex : Forall2 same_events [mkBatch (T := R) true [1; 2] None; mkBatch true [3] (Some [(1, 0, 1)])] [mkBatch false [1; 2] None; mkBatch true [3] (Some [(1, 0, 1)])].
Proof. repeat constructor. Qed.

(** ** C62 for Amp4Body_TD: once toy events have been generated, the normalisation is 1 *)
Theorem C62_TD_generation_refuted : forall (P : Type) A B res nrm (bs : list (batch (T := R) (P := P))) ns cs t c,
  td_ok A B -> Forall batch_ok bs -> Forall2 counts bs ns -> td_history A B (cs ++ [(t, c)]) -> existsb (fun tc => u_generating (snd tc)) cs = true ->
  exists k, calls R_ops A B res nrm bs (cs ++ [(t, c)]) (fresh R_ops A B bs) None = Some (k, Some 1).
Proof.
  intros P A B res nrm bs ns cs t c Ho Hb Hn H G. destruct (history_norm A B res nrm bs ns Ho Hb Hn cs t c H) as (k & r & E & V & _). exists k. rewrite E, V, existsb_app, G. reflexivity.
Qed.
(** The same two calls, the first of them of GenerateSig or not: 1 and 3/2. *)
Definition two_calls (g : bool) : list (list nat * call (T := R) (P := R)) := [(table [a0] [a2], one_each 1 0 1 g)] ++ [(table [a0] [a2], one_each 1 0 1 false)].
Example C62_TD_ex : exists k k', calls R_ops [a0] [a2] truth truth_norm [mkBatch true [1] None] (two_calls true) (fresh R_ops [a0] [a2] [mkBatch true [1] None]) None = Some (k, Some 1) /\
  calls R_ops [a0] [a2] truth truth_norm [mkBatch true [1] None] (two_calls false) (fresh R_ops [a0] [a2] [mkBatch true [1] None]) None = Some (k', Some (3 / 2)).
Proof.
  assert (H : forall g, td_history [a0] [a2] (two_calls g)).
  { intro g. split; [reflexivity|]. split; [split; [left; reflexivity|exact I]|]. repeat constructor; exact one_table. }
  assert (Hb : Forall batch_ok [mkBatch (T := R) true [1] None]). { constructor; [|constructor]. split; [now left|cbn; lra]. }
  assert (Hn : Forall2 counts [mkBatch (T := R) true [1] None] [1]) by (constructor; [reflexivity|constructor]).
  destruct (C62_TD_generation_refuted R [a0] [a2] truth truth_norm _ _ _ _ _ one_ok Hb Hn (H true) eq_refl) as (k & E). exists k.
  destruct (history_norm [a0] [a2] truth truth_norm _ _ one_ok Hb Hn _ _ _ (H false)) as (k' & r & E' & V & _). exists k'. split; [exact E|]. unfold two_calls. rewrite E', V. f_equal. f_equal. f_equal.
  cbn [app existsb snd u_generating one_each orb]. unfold norm_of, batch_integral, Rsum. cbn [b_extra b_points map fold_right]. rewrite one_first, one_second.
  unfold truth_norm. rewrite truth_norm_value, <- !norm2_Cmod. unfold norm2, Cconj, Cmult, RtoC. cbn [fst snd u_tau u_x u_y one_each]. field.
Qed.

(** ** C106: generated events follow the PDF *)
(** The number 1.1 of the code. *)
Lemma eleven_tenths : LeafGen.o_lit R_ops 2476979795053773 (-51) = 2476979795053773 / 2251799813685248.
Proof. cbn [LeafGen.o_lit R_ops]. change (powerRZ 2 (-51)) with (/ 2 ^ 51). lra. Qed.
Lemma under_envelope : forall {P} (c : call (T := R) (P := P)) (a b : C) time sigma, 0 < u_tau c -> 0 <= time ->
  smear truth c a b time sigma <= exp (- time * gammamin R_ops (u_tau c) (u_y c)) * (2 * (Cmod a + Cmod b) ^ 2).
Proof.
  intros P c a b time sigma Ht H0. unfold smear, truth. rewrite truth_is_rate. unfold rate, gammamin. cbn [LeafGen.o_sub LeafGen.o_div LeafGen.o_one LeafGen.o_abs R_ops].
  set (s := time / u_tau c). assert (S0 : 0 <= s) by (unfold s; apply Rmult_le_pos; [lra|left; now apply Rinv_0_lt_compat]).
  replace (- time * (1 / u_tau c - Rabs (u_y c) / u_tau c)) with (- s + Rabs (u_y c) * s) by (unfold s; field; lra).
  replace (u_y c * time / u_tau c) with (u_y c * s) by (unfold s; field; lra). rewrite exp_plus, (Rmult_assoc (exp (- s)) (exp (Rabs (u_y c) * s))). apply Rmult_le_compat_l; [left; apply exp_pos|].
  set (z := Cmult a (Cconj b)). assert (Z : Cmod z = Cmod a * Cmod b) by (unfold z; rewrite Cmod_mult; f_equal; unfold Cmod, Cconj; cbn [fst snd]; f_equal; ring).
  pose proof (Cmod_ge_0 a) as Pa. pose proof (Cmod_ge_0 b) as Pb.
  assert (Re : Rabs (fst z) <= Cmod a * Cmod b) by (rewrite <- Z; eapply Rle_trans; [apply Rmax_l|apply Rmax_Cmod]).
  assert (Im : Rabs (snd z) <= Cmod a * Cmod b) by (rewrite <- Z; eapply Rle_trans; [apply Rmax_r|apply Rmax_Cmod]).
  set (E := exp (Rabs (u_y c) * s)). assert (E1 : 1 <= E). { unfold E. rewrite <- exp_0. destruct (Req_dec (Rabs (u_y c) * s) 0) as [->|N]; [lra|]. left. apply exp_increasing. pose proof (Rabs_pos (u_y c)). pose proof (Rmult_le_pos _ _ H S0). lra. }
  assert (EP : forall v, Rabs v <= Rabs (u_y c) * s -> exp v <= E).
  { intros v Hv. unfold E. pose proof (Rle_abs v). destruct (Req_dec v (Rabs (u_y c) * s)) as [->|N]; [lra|]. left. apply exp_increasing. lra. }
  assert (Y : Rabs (u_y c * s) <= Rabs (u_y c) * s) by (rewrite Rabs_mult, (Rabs_pos_eq s S0); lra).
  pose proof (EP _ Y) as EY. assert (EM : exp (- (u_y c * s)) <= E) by (apply EP; rewrite Rabs_Ropp; exact Y).
  pose proof (exp_pos (u_y c * s)). pose proof (exp_pos (- (u_y c * s))).
  assert (CH : cosh (u_y c * s) <= E) by (unfold cosh; lra). assert (SH : Rabs (sinh (u_y c * s)) <= E) by (apply Rabs_le; unfold sinh; lra).
  pose proof (COS_bound (u_x c * time / u_tau c)) as CB. pose proof (SIN_bound (u_x c * time / u_tau c)) as SB.
  set (co := cos _) in *. set (si := sin _) in *. set (ch := cosh _) in *. set (sh := sinh _) in *. set (A := Cmod a) in *. set (B := Cmod b) in *.
  assert (T1 : (A ^ 2 + B ^ 2) * ch <= (A ^ 2 + B ^ 2) * E) by (apply Rmult_le_compat_l; [nra|exact CH]).
  assert (T2 : (A ^ 2 - B ^ 2) * co <= (A ^ 2 + B ^ 2) * E). { apply Rle_trans with (A ^ 2 + B ^ 2); [|pose proof (pow2_ge_0 A); pose proof (pow2_ge_0 B); nra]. pose proof (pow2_ge_0 A); pose proof (pow2_ge_0 B); nra. }
  assert (T3 : - (2 * fst z * sh) <= 2 * (A * B) * E).
  { apply Rle_trans with (Rabs (- (2 * fst z * sh))); [apply Rle_abs|]. rewrite Rabs_Ropp, !Rabs_mult, (Rabs_pos_eq 2) by lra. pose proof (Rabs_pos (fst z)). pose proof (Rabs_pos sh).
    rewrite !Rmult_assoc. apply Rmult_le_compat_l; [lra|]. rewrite <- Rmult_assoc. apply Rmult_le_compat; assumption. }
  assert (T4 : - (2 * snd z * si) <= 2 * (A * B) * E).
  { apply Rle_trans with (Rabs (- (2 * snd z * si))); [apply Rle_abs|]. rewrite Rabs_Ropp, !Rabs_mult, (Rabs_pos_eq 2) by lra. pose proof (Rabs_pos (snd z)). pose proof (Rabs_pos si).
    rewrite !Rmult_assoc. apply Rmult_le_compat_l; [lra|]. rewrite <- Rmult_assoc. apply Rmult_le_compat; try assumption. apply Rabs_le. lra. }
  lra.
Qed.
(** Where the envelope is large enough, an event is kept with the probability value / envelope. *)
Theorem C106_accept_partial : forall (P : Type) A B (c : call (T := R) (P := P)) p time sigma w u,
  0 < u_tau c -> 0 <= time -> 0 <= u_eff c (p, time, sigma) -> 0 < w -> 2 * (Cmod (first c A p) + Cmod (second c B p)) ^ 2 * u_eff c (p, time, sigma) <= w ->
  let v := smear truth c (first c A p) (second c B p) time sigma * u_eff c (p, time, sigma) in
  let env := exp (- (time * (1 - Rabs (u_y c)) / u_tau c)) * w in
  0 <= v / env <= 1 /\ (accepted R_ops exp (gammamin R_ops (u_tau c) (u_y c)) w time v u = true <-> u < v / env).
Proof.
  intros P A B c p time sigma w u Ht H0 He Hw Hm v env.
  assert (EE : env = envelope R_ops exp (gammamin R_ops (u_tau c) (u_y c)) w time).
  { unfold env, envelope, gammamin. cbn [LeafGen.o_sub LeafGen.o_div LeafGen.o_one LeafGen.o_abs LeafGen.o_mul LeafGen.o_opp R_ops]. f_equal. f_equal. field. lra. }
  assert (EP : 0 < env) by (unfold env; apply Rmult_lt_0_compat; [apply exp_pos|exact Hw]).
  assert (V0 : 0 <= v). { unfold v. rewrite smear_truth. apply Rmult_le_pos; [|exact He]. unfold norm2. match goal with |- 0 <= 2 * (?x ^ 2 + ?y ^ 2) => pose proof (pow2_ge_0 x); pose proof (pow2_ge_0 y) end. lra. }
  assert (V1 : v <= env).
  { rewrite EE. unfold envelope. cbn [LeafGen.o_mul LeafGen.o_opp R_ops]. unfold v. apply Rle_trans with (exp (- time * gammamin R_ops (u_tau c) (u_y c)) * (2 * (Cmod (first c A p) + Cmod (second c B p)) ^ 2) * u_eff c (p, time, sigma)).
    - apply Rmult_le_compat_r; [exact He|]. now apply under_envelope.
    - rewrite Rmult_assoc. apply Rmult_le_compat_l; [left; apply exp_pos|exact Hm]. }
  split; [split; [apply Rmult_le_pos; [exact V0|left; now apply Rinv_0_lt_compat]|apply Rmult_le_reg_r with env; [exact EP|]; unfold Rdiv; rewrite Rmult_assoc, Rinv_l by lra; lra]|].
  unfold accepted. rewrite <- EE. cbn [LeafGen.o_lt LeafGen.o_mul R_ops]. unfold Rltb. split.
  - destruct (Rlt_dec (u * env) v) as [L|]; [|discriminate]. intros _. apply Rmult_lt_reg_r with env; [exact EP|]. unfold Rdiv. rewrite Rmult_assoc, Rinv_l by lra. lra.
  - intro L. destruct (Rlt_dec (u * env) v) as [|N]; [reflexivity|]. exfalso. apply N. apply Rmult_lt_compat_r with (r := env) in L; [|exact EP]. unfold Rdiv in L. rewrite Rmult_assoc, Rinv_l in L by lra. lra.
Qed.
(** wmax covers the events when the second decay is nowhere more than a twenty-fifth of the first. *)
Example C106_ex : 2 * (Cmod (first (one_each 1 (/ 25) 1 false) [a0] 1) + Cmod (second (one_each 1 (/ 25) 1 false) [a2] 1)) ^ 2 * u_eff (one_each 1 (/ 25) 1 false) (1, 1, 0)
  <= wmax R_ops [smear truth (one_each 1 (/ 25) 1 false) (first (one_each 1 (/ 25) 1 false) [a0] 1) (second (one_each 1 (/ 25) 1 false) [a2] 1) 0 0].
Proof.
  rewrite one_first, one_second, one_smear. unfold wmax. rewrite eleven_tenths. cbn [fold_left u_eff one_each LeafGen.o_mul R_ops]. rewrite !Cmod_R, !Rabs_pos_eq, Ropp_0, exp_0, cos_0 by lra. lra.
Qed.
(** wmax is 1.1 (as stored) times the largest of the values at decay time 0, for any number of events. *)
Lemma wmax_is : forall vs, vs <> [] -> exists m, In m vs /\ (forall v, In v vs -> v <= m) /\ wmax R_ops vs = 2476979795053773 / 2251799813685248 * m.
Proof.
  assert (G : forall l m, let M := fold_left (fun m v => if LeafGen.o_lt R_ops m v then v else m) l m in m <= M /\ (forall x, In x l -> x <= M) /\ (M = m \/ In M l)).
  { induction l as [|v l IH]; intros m; cbn [fold_left]; cbv zeta; [split; [lra|split; [intros x []|now left]]|].
    destruct (IH (if LeafGen.o_lt R_ops m v then v else m)) as (A & B & C). set (M := fold_left _ l _) in *. cbn [LeafGen.o_lt R_ops] in *. unfold Rltb in *. destruct (Rlt_dec m v) as [E|E].
    - split; [lra|]. split; [intros x [->|H]; [exact A|now apply B]|]. destruct C as [C|C]; [right; left; now symmetry|right; now right].
    - split; [exact A|]. split; [intros x [->|H0]; [lra|now apply B]|]. destruct C as [C|C]; [now left|right; now right]. }
  intros [|v l] H; [congruence|]. destruct (G l v) as (A & B & C). unfold wmax. rewrite eleven_tenths. cbn [LeafGen.o_mul R_ops]. eexists. split; [|split; [|reflexivity]].
  - destruct C as [C|C]; [left; symmetry; exact C|right; exact C].
  - intros x [->|X]; [exact A|now apply B].
Qed.
(** Any number of generated events: where the amplitude of the second decay is at most a twenty-fifth of that of the first in all of them, and the efficiency does
    not depend on the decay time, every event is kept, at every decay time, with the probability value / envelope. *)
Theorem C106_generated_partial : forall (P : Type) A B (c : call (T := R) (P := P)) (ps : list P) (eff : P -> R), ps <> [] -> 0 < u_tau c ->
  (forall p time sigma, u_eff c (p, time, sigma) = eff p) -> (forall p, In p ps -> 0 < eff p /\ first c A p <> 0%R /\ Cmod (second c B p) <= Cmod (first c A p) / 25) ->
  let v p time := smear truth c (first c A p) (second c B p) time 0 * u_eff c (p, time, 0) in
  let w := wmax R_ops (map (fun p => v p 0) ps) in
  forall p time u, In p ps -> 0 <= time ->
  let env := exp (- (time * (1 - Rabs (u_y c)) / u_tau c)) * w in
  0 <= v p time / env <= 1 /\ (accepted R_ops exp (gammamin R_ops (u_tau c) (u_y c)) w time (v p time) u = true <-> u < v p time / env).
Proof.
  intros P A B c ps eff NE Ht HE HP v w p time u Hp H0 env.
  assert (V0 : forall q, v q 0 = 2 * Cmod (first c A q) ^ 2 * eff q).
  { intro q. unfold v. rewrite HE. f_equal. unfold smear, truth. rewrite truth_is_rate. unfold rate. replace (0 / u_tau c) with 0 by (unfold Rdiv; ring). rewrite !Rmult_0_r. replace (0 / u_tau c) with 0 by (unfold Rdiv; ring).
    rewrite Ropp_0, exp_0, cosh_0, sinh_0, cos_0, sin_0. ring. }
  destruct (wmax_is (map (fun p => v p 0) ps)) as (m & Im & Um & Wm); [destruct ps; [congruence|discriminate]|]. fold w in Wm.
  destruct (HP p Hp) as (E0 & F0 & S0). assert (Q : v p 0 <= m) by (apply Um; change (v p 0) with ((fun p => v p 0) p); now apply in_map). rewrite V0 in Q.
  assert (FP : 0 < Cmod (first c A p)) by now apply Cmod_gt_0.
  assert (XP : 0 < 2 * Cmod (first c A p) ^ 2 * eff p) by (apply Rmult_lt_0_compat; [|exact E0]; pose proof (pow_lt _ 2 FP); lra).
  apply (C106_accept_partial P A B c p time 0 w u Ht H0).
  - rewrite HE. lra.
  - rewrite Wm. lra.
  - rewrite HE, Wm. pose proof (Cmod_ge_0 (second c B p)). set (a := Cmod (first c A p)) in *. set (b := Cmod (second c B p)) in *.
    assert (X : (a + b) ^ 2 <= (a + a / 25) ^ 2) by (apply pow_incr; lra).
    apply Rle_trans with (2 * (a + a / 25) ^ 2 * eff p); [apply Rmult_le_compat_r; lra|].
    apply Rle_trans with (2476979795053773 / 2251799813685248 * (2 * a ^ 2 * eff p)); [|apply Rmult_le_compat_l; lra]. replace (2 * (a + a / 25) ^ 2 * eff p) with (676 / 625 * (2 * a ^ 2 * eff p)) by field. apply Rmult_le_compat_r; lra.
Qed.
(** The hypotheses hold for the single-amplitude PDF of [C106_ex] and any number of events. *)
Example C106_generated_ex : forall ps : list R, Forall (fun p => p = 1) ps -> forall p, In p ps -> 0 < 1 /\ first (one_each 1 (/ 25) 1 false) [a0] p <> 0%R /\
  Cmod (second (one_each 1 (/ 25) 1 false) [a2] p) <= Cmod (first (one_each 1 (/ 25) 1 false) [a0] p) / 25.
Proof.
  intros ps F p H. rewrite Forall_forall in F. rewrite (F p H). rewrite one_first, one_second. split; [lra|]. split.
  - intro Q. apply (f_equal fst) in Q. cbn in Q. lra.
  - rewrite !Cmod_R, !Rabs_pos_eq by lra. lra.
Qed.
(** Several calls of GenerateSig on one object that do not throw: all use the envelope of the first one, so that the events kept from all of them
    belong together; and a call is refused exactly if its own envelope would be higher. *)
Theorem C106_batches_partial : forall (vs : list R) (vss : list (list R)), 0 < wmax R_ops vs ->
  batch_weights R_ops 0 (vs :: vss) =
  if forallb (fun vs' => if Rle_dec (wmax R_ops vs') (wmax R_ops vs) then true else false) vss then Some (repeat (wmax R_ops vs) (S (length vss))) else None.
Proof.
  intros vs vss H. set (w := wmax R_ops vs) in *.
  assert (G : batch_weights R_ops w vss = if forallb (fun vs' => if Rle_dec (wmax R_ops vs') w then true else false) vss then Some (repeat w (length vss)) else None).
  { clear - H. induction vss as [|vs' vss IH]; [reflexivity|]. cbn [batch_weights forallb length repeat]. unfold next_max. cbn [LeafGen.o_lt LeafGen.o_eq LeafGen.o_zero R_ops].
    unfold Rltb, Reqb. destruct (Rlt_dec w (wmax R_ops vs')) as [L|L]; destruct (Rle_dec (wmax R_ops vs') w) as [L'|L']; try lra; destruct (Req_EM_T w 0) as [Z|Z]; try lra; cbn [andb negb]; [reflexivity|].
    rewrite IH. destruct (forallb _ vss); reflexivity. }
  cbn [batch_weights]. fold w. unfold next_max. cbn [LeafGen.o_lt LeafGen.o_eq LeafGen.o_zero R_ops]. unfold Rltb, Reqb. destruct (Rlt_dec 0 w) as [L|L]; [|lra]. destruct (Req_EM_T 0 0) as [Z|Z]; [|lra]. cbn [andb negb].
  rewrite G. destruct (forallb _ vss); reflexivity.
Qed.
Example C106_batches_ex : 0 < wmax R_ops [1; 3; 2] /\ wmax R_ops [2; 3] = wmax R_ops [1; 3; 2].
Proof.
  destruct (wmax_is [1; 3; 2]) as (m & I & U & W); [discriminate|]. destruct (wmax_is [2; 3]) as (m' & I' & U' & W'); [discriminate|]. rewrite W, W'.
  assert (m = 3) by (destruct I as [<-|[<-|[<-|[]]]]; [pose proof (U 3 ltac:(right; left; reflexivity)); lra|reflexivity|pose proof (U 3 ltac:(right; left; reflexivity)); lra]).
  assert (m' = 3) by (destruct I' as [<-|[<-|[]]]; [pose proof (U' 3 ltac:(right; left; reflexivity)); lra|reflexivity]). subst. split; lra.
Qed.
(** Where the second decay is larger, it is not: an event is kept whatever the random number, and so is one with half the value over
    envelope, so that what is kept does not follow the PDF. *)
Theorem C106_envelope_refuted : exists A B (c : call (T := R) (P := R)) p t1 t2, td_ok A B /\ td_history A B [(table A B, c)] /\ 0 <= t1 /\ 0 <= t2 /\
  let v time := smear truth c (first c A p) (second c B p) time 0 in
  let w := wmax R_ops [v 0] in let env time := exp (- (time * (1 - Rabs (u_y c)) / u_tau c)) * w in
  v t1 / env t1 > 1.9 * (v t2 / env t2) /\
  forall u, 0 <= u < 1 -> accepted R_ops exp (gammamin R_ops (u_tau c) (u_y c)) w t1 (v t1) u = true /\ accepted R_ops exp (gammamin R_ops (u_tau c) (u_y c)) w t2 (v t2) u = true.
Proof.
  exists [a0], [a2], (one_each 1 10 1 false), 1, PI, (PI / 2). split; [exact one_ok|]. split; [apply one_history|]. pose proof PI_RGT_0 as PP. split; [lra|]. split; [lra|].
  rewrite (one_first 1 10 1 false 1), (one_second 1 10 1 false 1). cbv zeta beta. rewrite !(one_smear 1 10 1 false), cos_PI, cos_PI2, cos_0, Ropp_0, exp_0. unfold wmax. cbn [fold_left LeafGen.o_mul R_ops]. rewrite eleven_tenths.
  cbn [u_tau u_y one_each]. rewrite Rabs_R0.
  replace (- (PI * (1 - 0) / 1)) with (- PI) by field. replace (- (PI / 2 * (1 - 0) / 1)) with (- (PI / 2)) by field.
  pose proof (exp_pos (- PI)) as E1. pose proof (exp_pos (- (PI / 2))) as E2. split.
  - match goal with |- ?x / ?y > 1.9 * (?z / ?t) => replace (x / y) with (200 / (2476979795053773 / 2251799813685248 * 2)) by (field; lra); replace (z / t) with (101 / (2476979795053773 / 2251799813685248 * 2)) by (field; lra) end. lra.
  - intros u Hu. unfold accepted, envelope, gammamin. cbn [LeafGen.o_lt LeafGen.o_mul LeafGen.o_sub LeafGen.o_div LeafGen.o_one LeafGen.o_abs LeafGen.o_opp R_ops u_y u_tau one_each]. rewrite Rabs_R0.
    replace (- PI * (1 / 1 - 0 / 1)) with (- PI) by field. replace (- (PI / 2) * (1 / 1 - 0 / 1)) with (- (PI / 2)) by field. unfold Rltb. split.
    + destruct (Rlt_dec _ _) as [|N]; [reflexivity|]. exfalso. apply N. nra.
    + destruct (Rlt_dec _ _) as [|N]; [reflexivity|]. exfalso. apply N. nra.
Qed.

Print Assumptions C102_value_partial.
Print Assumptions C102_rate_partial.
Print Assumptions C102_twice_refuted.
Print Assumptions C103_mean_partial.
Print Assumptions C103_efficiency_refuted.
Print Assumptions C104_integer_partial.
Print Assumptions C104_fraction_refuted.
Print Assumptions C105_host_device.
Print Assumptions C62_TD_generation_refuted.
Print Assumptions C106_generated_partial.
Print Assumptions C106_batches_partial.
Print Assumptions C106_accept_partial.
Print Assumptions C106_envelope_refuted.
