(** C117: a convolution follows its model, its resolution and its integration constants. *)
From Coq Require Import List ZArith Bool Reals Lra Lia.
From Flocq Require Import Core.
From Verif Require Import F64 VariableModel PdfModel PdfSpec LeafFormulas FormulaSpec SmoothModel ConvModel ConvProofs WorkModel WorkSpec.
From Verif Require LeafGen.
Import ListNotations.
Open Scope Z_scope.

Section Any.
Context {T : Type} (Ar : LeafGen.ops T) (trunc : T -> option Z).
(** What holds after the constants were set to [c], if [now] are the functions at the last normalisation since. *)
Definition inv (c : conv T) (now : option ((T -> T) * (T -> T))) (flat : bool) (w : work T) : Prop :=
  w_conv w = c /\ (flat = true -> w_flat w = Some (v_lo c, v_hi c, v_step c)) /\
  w_filled w = (match now with Some _ => true | None => false end) /\
  forall f g, now = Some (f, g) -> exists n r, model_cells Ar c = Some n /\ res_cells Ar c = Some r /\
    w_model w = fill Ar f (v_lo c) (v_hi c) n /\ w_res w = fill Ar g (res_lo Ar c) (res_hi Ar c) r.
Lemma fill_ext (f f' : T -> T) lo hi n : (forall x, f x = f' x) -> fill Ar f lo hi n = fill Ar f' lo hi n.
Proof. intro E. unfold fill. apply map_ext. intro k. apply E. Qed.
Definition is_flatten (o : op T) : bool := match o with Flatten => true | _ => false end.
Lemma inv_run c h : keeps_constants h -> forall now flat w w', announced now h -> inv c now flat w -> run_work Ar h w = Some w' ->
  inv c (last_normalised now h) (flat || existsb is_flatten h) w'.
Proof.
  induction h as [|o h IH]; intros K now flat w w' A I E.
  - cbn [run_work last_normalised existsb] in *. injection E as <-. now rewrite orb_false_r.
  - assert (K' : keeps_constants h) by (intros d Hd; apply (K d); now right).
    cbn [run_work] in E. destruct (step_work Ar o w) as [w1|] eqn:S1; [|discriminate E]. cbn [obind] in E.
    destruct o as [d| |f b g b'].
    + exfalso. apply (K d). now left.
    + cbn [last_normalised existsb is_flatten announced] in *. rewrite orb_true_l, orb_true_r. change true with (true || existsb is_flatten h). refine (IH K' _ _ w1 _ A _ E).
      cbn [step_work] in S1. injection S1 as <-. destruct I as (I1 & I2 & I3 & I4). unfold inv, flatten. cbn [w_conv w_flat w_filled w_model w_res]. rewrite I1.
      split; [reflexivity|]. split; [reflexivity|]. split; [exact I3|exact I4].
    + cbn [last_normalised existsb is_flatten announced] in *. rewrite orb_false_l. destruct A as [A A']. refine (IH K' _ _ w1 _ A' _ E).
      cbn [step_work] in S1. unfold normalize_work in S1. destruct I as (I1 & I2 & I3 & I4). rewrite I1 in S1.
      destruct (model_cells Ar c) as [n|] eqn:N; [|discriminate S1]. cbn [obind] in S1. destruct (res_cells Ar c) as [r|] eqn:Q; [|discriminate S1]. cbn [obind] in S1.
      assert (S2 : forall a b : work T, Some a = Some b -> a = b) by (intros a d H; congruence). apply S2 in S1. subst w1.
      unfold inv. cbn [w_conv w_flat w_filled w_model w_res]. split; [reflexivity|]. split; [exact I2|]. split; [reflexivity|].
      intros f1 g1 H. injection H as <- <-. exists n, r. split; [exact N|]. split; [exact Q|].
      destruct now as [[f0 g0]|]; rewrite I3; cbn [negb orb]; [|split; reflexivity].
      destruct (I4 f0 g0 eq_refl) as (n0 & r0 & N0 & Q0 & M & Rs). injection N0 as <-. injection Q0 as <-. destruct A as [A1 A2].
      split; [destruct b; [reflexivity|]|destruct b'; [reflexivity|]].
      * destruct A1 as [A1|A1]; [discriminate A1|]. rewrite M. now apply fill_ext.
      * destruct A2 as [A2|A2]; [discriminate A2|]. rewrite Rs. now apply fill_ext.
Qed.
End Any.

(** After any history the value is that of the present constants, model and resolution (C59 says what it is), if the PDF was given data
    (flattened) after the constants were set, and changes of the parameters were announced. *)
Theorem C117_current_partial : forall T (Ar : LeafGen.ops T) trunc before after c f g start w x0,
  keeps_constants after -> In Flatten after -> announced None after -> last_normalised None after = Some (f, g) ->
  run_work Ar (before ++ Set_constants c :: after) start = Some w ->
  evaluate_work Ar trunc w x0 = conv_value Ar trunc c f g x0.
Proof.
  intros T Ar trunc before after c f g start w x0 K F A L E.
  assert (X : forall h w0, run_work Ar (h ++ Set_constants c :: after) w0 = Some w -> exists w1, run_work Ar (Set_constants c :: after) w1 = Some w).
  { induction h as [|o h IH]; intros w0 H; [now exists w0|]. cbn [run_work app] in H. destruct (step_work Ar o w0) as [w2|]; [|discriminate H]. cbn [obind] in H. now apply (IH w2). }
  destruct (X _ _ E) as [w1 E1]. clear E X. cbn [run_work step_work] in E1. unfold set_constants in E1.
  destruct (model_cells Ar c) as [n|] eqn:N; [|discriminate E1]. cbn [obind] in E1. destruct (res_cells Ar c) as [r|] eqn:Q; [|discriminate E1]. cbn [obind] in E1.
  destruct ((n <? 0) || (r <? 0)); [discriminate E1|]. cbn [obind] in E1.
  match type of E1 with run_work _ _ ?w2 = _ => assert (I : inv Ar c None false w2) end.
  { unfold inv. cbn [w_conv w_flat w_filled]. split; [reflexivity|]. split; [discriminate|]. split; [reflexivity|]. intros f0 g0 H. discriminate H. }
  pose proof (inv_run Ar c after K None false _ w A I E1) as (I1 & I2 & _ & I4). rewrite L in I4. destruct (I4 f g eq_refl) as (n' & r' & N' & Q' & M & Rs).
  rewrite N in N'. rewrite Q in Q'. injection N' as <-. injection Q' as <-.
  assert (Fl : existsb is_flatten after = true) by (apply existsb_exists; exists Flatten; split; [exact F|reflexivity]).
  specialize (I2 Fl). unfold evaluate_work, conv_value. rewrite I2, I1, M, Rs. cbn [obind].
  change (model_cells Ar (mkConv (v_lo c) (v_hi c) (v_step c) (v_dlo c) (v_dup c))) with (model_cells Ar c).
  change (shift_bins Ar (mkConv (v_lo c) (v_hi c) (v_step c) (v_dlo c) (v_dup c)) x0) with (shift_bins Ar c x0).
  rewrite N, Q. reflexivity.
Qed.
Print Assumptions C117_current_partial.

(** In doubles, for the object as constructed (-10, 10, 0.01) with an observable between 0 and 1. *)
Definition hundredth : f64 := fdiv (f_of_Z 1) (f_of_Z 100).
Definition simple (hi dup : Z) : conv f64 := mkConv (f_of_Z 0) (f_of_Z hi) (f_of_Z 1) (f_of_Z 0) (f_of_Z dup).
Definition start_of (h : list (op f64)) : option (work f64) :=
  obind (construct f64_ops (f_of_Z (-10)) (f_of_Z 10) hundredth (f_of_Z 0) (f_of_Z 1)) (run_work f64_ops h).
Lemma cells4 : model_cells f64_ops (simple 4 1) = Some 4 /\ res_cells f64_ops (simple 4 1) = Some 5 /\ model_offset f64_ops f2int (simple 4 1) = Some 1.
Proof. split; [vm_compute; reflexivity|]. split; vm_compute; reflexivity. Qed.
Lemma cells2 : model_cells f64_ops (simple 2 1) = Some 2 /\ res_cells f64_ops (simple 2 1) = Some 3 /\ model_offset f64_ops f2int (simple 2 1) = Some 1.
Proof. split; [vm_compute; reflexivity|]. split; vm_compute; reflexivity. Qed.
Lemma cells43 : model_cells f64_ops (simple 4 3) = Some 4 /\ res_cells f64_ops (simple 4 3) = Some 7 /\ model_offset f64_ops f2int (simple 4 3) = Some 3.
Proof. split; [vm_compute; reflexivity|]. split; vm_compute; reflexivity. Qed.
Lemma constructed : exists w, construct f64_ops (f_of_Z (-10)) (f_of_Z 10) hundredth (f_of_Z 0) (f_of_Z 1) = Some w /\ w_flat w = None.
Proof.
  unfold construct, set_constants.
  assert (E : model_cells f64_ops (mkConv (f_of_Z (-10)) (f_of_Z 10) hundredth (f_of_Z 0) (f_of_Z 1)) = Some 2000) by (vm_compute; reflexivity).
  assert (E' : res_cells f64_ops (mkConv (f_of_Z (-10)) (f_of_Z 10) hundredth (f_of_Z 0) (f_of_Z 1)) = Some 2100) by (vm_compute; reflexivity).
  rewrite E, E'. cbn [obind]. change ((2000 <? 0) || (2100 <? 0)) with false. cbv iota. eexists. split; reflexivity.
Qed.
Lemma set_ok flat (c : conv f64) n r : model_cells f64_ops c = Some n -> res_cells f64_ops c = Some r -> (0 <= n)%Z -> (0 <= r)%Z ->
  exists ms rs, set_constants f64_ops flat c = Some (mkWork c flat ms rs false).
Proof.
  intros N Q Hn Hr. unfold set_constants. rewrite N, Q. cbn [obind]. destruct (Z.ltb_spec n 0); [lia|]. destruct (Z.ltb_spec r 0); [lia|]. cbn [orb]. eexists. eexists. reflexivity.
Qed.
(** The object after the constants were set, data attached, and a normalisation *)
Definition after_fill (c : conv f64) (flat : option (f64 * f64 * f64)) (n r : Z) (f g : f64 -> f64) : work f64 :=
  mkWork c flat (fill f64_ops f (v_lo c) (v_hi c) n) (fill f64_ops g (res_lo f64_ops c) (res_hi f64_ops c) r) true.
Lemma normalize_ok c flat ms rs n r f b g b' : model_cells f64_ops c = Some n -> res_cells f64_ops c = Some r ->
  normalize_work f64_ops f b g b' (mkWork c flat ms rs false) = Some (after_fill c flat n r f g).
Proof. intros N Q. unfold normalize_work. cbn [w_conv w_flat w_filled w_model w_res]. rewrite N, Q. reflexivity. Qed.
Lemma first_fill f b g b' t w' : run_work f64_ops t (after_fill (simple 4 1) (Some (f_of_Z 0, f_of_Z 4, f_of_Z 1)) 4 5 f g) = Some w' ->
  start_of (Set_constants (simple 4 1) :: Flatten :: Normalize f b g b' :: t) = Some w'.
Proof.
  intro H. unfold start_of. destruct constructed as (w0 & -> & _). cbn [obind run_work step_work]. destruct cells4 as (N & Q & _).
  destruct (set_ok (w_flat w0) (simple 4 1) 4 5 N Q ltac:(lia) ltac:(lia)) as (ms & rs & ->). cbn [obind]. unfold flatten. cbn [w_conv w_flat w_filled w_model w_res].
  rewrite (normalize_ok _ _ _ _ 4 5 _ _ _ _ N Q). cbn [obind]. exact H.
Qed.
(** The claim's hypotheses hold of a program that sets the constants, attaches data, and normalises twice with different models. *)
Example C117_ex : forall f f' g : f64 -> f64, let after := [Flatten; Normalize f false g true; Normalize f' true g false] in
  keeps_constants after /\ In Flatten after /\ announced None after /\ last_normalised None after = Some (f', g) /\
  exists w, start_of ([] ++ Set_constants (simple 4 1) :: after) = Some w.
Proof.
  intros f f' g after. split; [intros c [H|[H|[H|[]]]]; discriminate H|]. split; [now left|]. split; [cbn [announced after]; repeat split; [now left|now right]|].
  split; [reflexivity|]. eexists. cbn [app]. unfold after. apply first_fill. cbn [run_work step_work]. unfold normalize_work, after_fill. cbn [w_conv]. destruct cells4 as (-> & -> & _). cbn [obind]. reflexivity.
Qed.
(** New constants after the data were attached: the loop still runs over the old cells, beyond the end of the new work space, whatever
    the model and the resolution are, although the convolution with the new constants is well defined. *)
Theorem C117_constants_refuted : forall f g : f64 -> f64, exists w,
  start_of [Set_constants (simple 4 1); Flatten; Normalize f true g true; Set_constants (simple 2 1); Normalize f true g true] = Some w /\
  evaluate_work f64_ops f2int w (f_of_Z 0) = None /\ conv_value f64_ops f2int (simple 2 1) f g (f_of_Z 0) <> None.
Proof.
  intros f g. destruct cells2 as (N & Q & O). exists (after_fill (simple 2 1) (Some (f_of_Z 0, f_of_Z 4, f_of_Z 1)) 2 3 f g). split; [|split].
  - apply first_fill. cbn [run_work step_work]. destruct (set_ok (Some (f_of_Z 0, f_of_Z 4, f_of_Z 1)) (simple 2 1) 2 3 N Q ltac:(lia) ltac:(lia)) as (ms & rs & E).
    unfold after_fill at 1. cbn [w_flat]. rewrite E. cbn [obind]. now rewrite (normalize_ok _ _ _ _ 2 3 _ _ _ _ N Q).
  - unfold evaluate_work, after_fill. cbn [w_flat w_conv w_model w_res obind]. change (mkConv (f_of_Z 0) (f_of_Z 4) (f_of_Z 1) (v_dlo (simple 2 1)) (v_dup (simple 2 1))) with (simple 4 1).
    destruct cells4 as (-> & _ & _). rewrite O. cbn [obind]. assert (SH : shift_bins f64_ops (simple 4 1) (f_of_Z 0) = Some 0) by (vm_compute; reflexivity). rewrite SH. cbn [obind].
    apply (loop_stops f64_ops _ _ _ _ _ 3); [apply in_map_iff; exists 3%nat; split; [reflexivity|apply in_seq; lia]|]. apply zread_past. right. unfold fill. rewrite map_length, seq_length. cbn. lia.
  - assert (SH : shift_bins f64_ops (simple 2 1) (f_of_Z 0) = Some 0) by (vm_compute; reflexivity).
    rewrite (conv_ok f64_ops f2int (simple 2 1) f g (f_of_Z 0) 2 3 1 0 N Q O SH) by lia. discriminate.
Qed.
Print Assumptions C117_constants_refuted.
(** New limits of the observable: the offset and the size of the work space stay those of the old ones. *)
Theorem C117_limits_refuted : forall f g : f64 -> f64, exists w,
  start_of [Set_constants (simple 4 1); Flatten; Normalize f true g true] = Some w /\
  in_range (f_of_Z 0) (f_of_Z 3) (f_of_Z 3) = true /\ evaluate_work f64_ops f2int w (f_of_Z 3) = None /\
  conv_value f64_ops f2int (simple 4 3) f g (f_of_Z 3) <> None.
Proof.
  intros f g. exists (after_fill (simple 4 1) (Some (f_of_Z 0, f_of_Z 4, f_of_Z 1)) 4 5 f g). split; [now apply first_fill|]. split; [vm_compute; reflexivity|].
  assert (SH : forall d, shift_bins f64_ops (simple 4 d) (f_of_Z 3) = Some 3) by (intro d; vm_compute; reflexivity). split.
  - unfold evaluate_work, after_fill. cbn [w_flat w_conv w_model w_res obind]. change (mkConv (f_of_Z 0) (f_of_Z 4) (f_of_Z 1) (v_dlo (simple 4 1)) (v_dup (simple 4 1))) with (simple 4 1).
    destruct cells4 as (-> & _ & ->). cbn [obind]. rewrite SH. cbn [obind].
    apply (loop_stops f64_ops _ _ _ _ _ 0); [apply in_map_iff; exists 0%nat; split; [reflexivity|apply in_seq; lia]|]. apply zread_past. left. lia.
  - destruct cells43 as (N & Q & O). rewrite (conv_ok f64_ops f2int (simple 4 3) f g (f_of_Z 3) 4 7 3 3 N Q O (SH 3)) by lia. discriminate.
Qed.
Print Assumptions C117_limits_refuted.
(** A change that parametersChanged() does not report (C33: an assignment by the program) is not followed. *)
Theorem C117_unannounced_refuted : exists (f f' g : f64 -> f64) w v v',
  start_of [Set_constants (simple 4 1); Flatten; Normalize f true g true; Normalize f' false g false] = Some w /\
  evaluate_work f64_ops f2int w (f_of_Z 0) = Some v /\ conv_value f64_ops f2int (simple 4 1) f' g (f_of_Z 0) = Some v' /\ flt (f_of_Z 3) v = true /\ flt (f_of_Z 3) v' = false.
Proof.
  exists (fun _ => f_of_Z 1), (fun _ => f_of_Z 0), (fun _ => f_of_Z 1). exists (after_fill (simple 4 1) (Some (f_of_Z 0, f_of_Z 4, f_of_Z 1)) 4 5 (fun _ => f_of_Z 1) (fun _ => f_of_Z 1)).
  destruct cells4 as (N & Q & O). assert (SH : shift_bins f64_ops (simple 4 1) (f_of_Z 0) = Some 0) by (vm_compute; reflexivity). eexists. eexists. split; [|split; [|split; [|split]]].
  - apply first_fill. cbn [run_work step_work]. unfold normalize_work. cbn [w_conv after_fill]. rewrite N. cbn [obind]. rewrite Q. cbn [obind]. reflexivity.
  - transitivity (conv_value f64_ops f2int (simple 4 1) (fun _ => f_of_Z 1) (fun _ => f_of_Z 1) (f_of_Z 0)); [|apply (conv_ok f64_ops f2int (simple 4 1) _ _ (f_of_Z 0) 4 5 1 0 N Q O SH); lia].
    unfold evaluate_work, conv_value, after_fill. cbn [w_flat w_conv w_model w_res obind]. change (mkConv (f_of_Z 0) (f_of_Z 4) (f_of_Z 1) (v_dlo (simple 4 1)) (v_dup (simple 4 1))) with (simple 4 1).
    rewrite N, Q, O. reflexivity.
  - apply (conv_ok f64_ops f2int (simple 4 1) _ _ (f_of_Z 0) 4 5 1 0 N Q O SH); lia.
  - vm_compute. reflexivity.
  - vm_compute. reflexivity.
Qed.
Print Assumptions C117_unannounced_refuted.
