(** The rate and the normalisation of ThreeGaussResolutionSplice as integrals over the decay time. *)
From Coq Require Import List ZArith Reals Lra Lia Arith Bool.
From Coquelicot Require Import Coquelicot.
From Verif Require Import FormulaSpec ResolModel ResolSpec ResolMoment ResolProofs ResolProofs2 ResolProofs3 ResolProofs4 SpliceModel SpliceSpec SpliceProofs SpliceProofs2.
From Verif Require LeafGen.
Import ListNotations.
Open Scope R_scope.

(** ** Gluing the pieces *)
Lemma along_int (g : cubic -> R -> R) (V : R -> R -> cubic -> R) (after : R -> R) (v : R) : (forall lo hi c, is_RInt (g c) lo hi (V lo hi c)) ->
  forall cs k ks, length ks = length cs -> in_order k ks -> is_RInt_gen after (at_point (last (k :: ks) 0)) (Rbar_locally p_infty) v ->
  is_RInt_gen (along (k :: ks) (map g cs) after) (at_point k) (Rbar_locally p_infty) (psums V (k :: ks) cs + v).
Proof.
  intros Hg. induction cs as [|c cs IH]; intros k ks Hl Ho Ha.
  - destruct ks; [|discriminate]. refine (gen_ext _ _ _ _ _ _ _ _ Ha); [reflexivity|cbn; eqR; ring].
  - destruct ks as [|k' ks]; [discriminate|]. cbn [in_order] in Ho. destruct Ho as [L Ho]. cbn [length] in Hl. injection Hl as Hl.
    specialize (IH k' ks Hl Ho Ha).
    replace (psums V (k :: k' :: ks) (c :: cs) + v) with (V k k' c + (psums V (k' :: ks) cs + v)) by (cbn [psums]; ring).
    refine (glue _ (g c) _ k k' _ _ L _ _ (Hg k k' c) IH).
    + intros t [_ T]. cbn [along map]. destruct (Rlt_dec t k'); [reflexivity|contradiction].
    + intros t T. cbn [along map]. destruct (Rlt_dec t k'); [lra|reflexivity].
Qed.
Lemma along_ext g h after after' : forall ks (cs : list cubic) t, (forall c, g c t = h c t) -> after t = after' t -> along ks (map g cs) after t = along ks (map h cs) after' t.
Proof.
  induction ks as [|k ks IH]; intros cs t E A; [exact A|]. destruct ks as [|k' ks]; [exact A|]. destruct cs as [|c cs]; [exact A|].
  cbn [along map] in *. destruct Rlt_dec; [apply E|]. apply (IH cs t E A).
Qed.
Lemma along_mult after (r : R -> R) : forall ks (cs : list cubic) t, along ks (map value cs) after t * r t = along ks (map (fun c t => value c t * r t) cs) (fun t => after t * r t) t.
Proof.
  induction ks as [|k ks IH]; intros cs t; [reflexivity|]. destruct ks as [|k' ks]; [reflexivity|]. destruct cs as [|c cs]; [reflexivity|].
  cbn [along map] in *. destruct Rlt_dec; [reflexivity|]. apply IH.
Qed.
Lemma order_last : forall ks k, in_order k ks -> k <= last (k :: ks) 0.
Proof.
  induction ks as [|k' ks IH]; intros k Ho; [cbn; lra|]. cbn [in_order] in Ho. destruct Ho as [L Ho]. specialize (IH k' Ho).
  change (last (k :: k' :: ks) 0) with (last (k' :: ks) 0). lra.
Qed.
Lemma along_cases (A B g : R -> R) t : forall ks k (cs : list cubic), in_order k ks -> length ks = length cs -> (1 <= length ks)%nat ->
  along (k :: ks) (map (fun c t => value c t * A t) cs) (fun t => g t * B t) t = along (k :: ks) (map value cs) g t * (if Rlt_dec t (last (k :: ks) 0) then A t else B t).
Proof.
  induction ks as [|k' ks IH]; intros k cs Ho Hl Hn; [cbn in Hn; lia|]. destruct cs as [|c cs]; [discriminate|].
  cbn [in_order] in Ho. destruct Ho as [L Ho]. pose proof (order_last ks k' Ho) as OL. change (last (k :: k' :: ks) 0) with (last (k' :: ks) 0).
  change (along (k :: k' :: ks) (map (fun c t => value c t * A t) (c :: cs)) (fun t => g t * B t) t) with
    (if Rlt_dec t k' then value c t * A t else along (k' :: ks) (map (fun c t => value c t * A t) cs) (fun t => g t * B t) t).
  change (along (k :: k' :: ks) (map value (c :: cs)) g t) with (if Rlt_dec t k' then value c t else along (k' :: ks) (map value cs) g t).
  destruct (Rlt_dec t k') as [T|T].
  - destruct (Rlt_dec t (last (k' :: ks) 0)); [reflexivity|lra].
  - destruct ks as [|k'' ks].
    + destruct cs; [|discriminate]. cbn [along map last]. destruct (Rlt_dec t k'); [contradiction|reflexivity].
    + apply IH; [exact Ho|now injection Hl|cbn; lia].
Qed.
Lemma along_after (g : cubic -> R -> R) after t : forall ks k (cs : list cubic), in_order k ks -> length ks = length cs -> last (k :: ks) 0 <= t ->
  along (k :: ks) (map g cs) after t = after t.
Proof.
  induction ks as [|k' ks IH]; intros k cs Ho Hl L; [now destruct cs|]. destruct cs as [|c cs]; [discriminate|].
  cbn [in_order] in Ho. destruct Ho as [L1 Ho]. pose proof (order_last ks k' Ho) as OL. change (last (k :: k' :: ks) 0) with (last (k' :: ks) 0) in L.
  change (along (k :: k' :: ks) (map g (c :: cs)) after t) with (if Rlt_dec t k' then g c t else along (k' :: ks) (map g cs) after t).
  destruct (Rlt_dec t k'); [lra|]. apply IH; [exact Ho|now injection Hl|exact L].
Qed.
Lemma continued_form a v m t : continued a v m t = v * exp (- m / v * a) * exp (- (- m / v) * t).
Proof. unfold continued. rewrite Rmult_assoc, <- exp_plus. do 2 f_equal. unfold Rdiv. ring. Qed.

(** ** One Gaussian *)
Lemma one_gauss_int tau x y s k ks cs v m c1 c2 c3 c4 T : tau <> 0 -> 0 < s -> length ks = length cs -> in_order k ks ->
  is_RInt_gen (along (k :: ks) (map (fun c t => value c t * (rate_code (x * (1 / tau) * s) c1 c2 c3 c4 tau x y t * normal s (T - t))) cs)
                 (fun t => continued (last (k :: ks) 0) v m t * (rate_cubic c1 c2 c3 c4 tau x y t * normal s (T - t))))
    (at_point k) (Rbar_locally p_infty) (one_gauss tau x y s (k :: ks) cs v m c1 c2 c3 c4 T).
Proof.
  intros Ht Hs Hl Ho. unfold one_gauss. apply along_int; [|exact Hl|exact Ho|].
  - intros lo hi c. apply psum_int; [|exact Ht]. intros k' n _. now apply H_smear_fin.
  - set (e := last (k :: ks) 0).
    refine (gen_ext _ _ _ _ _ _ _ eq_refl (gen_scal _ _ _ (v * exp (- m / v * e)) _ (smear_one tau x y (- m / v) s e T c1 c2 c3 c4 Ht Hs))).
    intros t. rewrite continued_form. ring.
Qed.

Section Device.
Variable W : R -> R -> R.
Variables (cf tf cb cs tb ts ob os bias scale bias2 scale2 sigma tau x y : R) (k : R) (ks : list R) (ps : list cubic).
Let r := tg_shape cf tf cb cs tb ts ob os bias scale bias2 scale2 sigma.
Let params := splice_params cf tf cb cs tb ts ob os bias scale bias2 scale2 (k :: ks) (map c_0 ps) (map c_1 ps) (map c_2 ps) (map c_3 ps).
Let n := length (k :: ks).
Let e := last (k :: ks) 0.
Let z := last ps c_d.
Let v := c_1 z * e + c_0 z.
Hypothesis Hl : length ks = length ps.
Hypothesis Hn : (1 <= length ks <= 7)%nat.
Hypothesis Hw : wide r.
Lemma rate_value c1 c2 c3 c4 T : splice_rate R_ops (R_lib W) R_extra params n c1 c2 c3 c4 tau T x y sigma =
  Some (cf * one_gauss tau x y (w_core r) (0 :: ks) ps v (c_1 z) c1 c2 c3 c4 (T - b_core r)
      + tf * one_gauss tau x y (w_tail r) (0 :: ks) ps v (c_1 z) c1 c2 c3 c4 (T - b_tail r)
      + (1 - cf - tf) * one_gauss tau x y (w_outl r) (0 :: ks) ps v (c_1 z) c1 c2 c3 c4 (T - b_outl r)).
Proof.
  destruct Hw as (W1 & W2 & W3). unfold r in W1, W2, W3. cbn [w_core w_tail w_outl tg_shape] in W1, W2, W3.
  unfold splice_rate. cbv zeta.
  assert (Hr : read_arrays R_ops params n = Some (arrays_of (0 :: ks) ps)).
  { exact (read_value [cf; tf; cb; cs; tb; ts; ob; os; bias; scale; bias2; scale2] (k :: ks) ps eq_refl ltac:(cbn [length]; now rewrite Hl) ltac:(cbn [length]; lia)). }
  rewrite Hr. unfold n. change (length (k :: ks)) with (length (0 :: ks)).
  rewrite (tail_value (0 :: ks) ps) by (cbn [length]; now rewrite Hl). cbv zeta.
  replace (last (0 :: ks) 0) with e by (unfold e; destruct ks; [cbn [length] in Hn; lia|reflexivity]). fold z. fold v. f_equal.
  unfold params, splice_params. cbn [app nth]. rops.
  unfold r, one_gauss. cbn [w_core w_tail w_outl b_core b_tail b_outl tg_shape].
  replace (last (0 :: ks) 0) with e by (unfold e; destruct ks; [cbn [length] in Hn; lia|reflexivity]).
  rewrite <- !(splice_value W) by (first [assumption|cbn [length]; now rewrite Hl]).
  rewrite <- !combine_gq, !(high_value' W) by assumption. rewrite !combine_value. unfold mix, add_quad, scale_quad. cbn [p1 p2 p3 p4]. rops. ring.
Qed.
(** The acceptance that the code uses: its tail continues the straight line of the last piece. *)
Definition seen (t : R) : R := along (0 :: ks) (map value ps) (continued e v (c_1 z)) t.
Lemma last_e : last (0 :: ks) 0 = e. Proof using Hn. unfold e; clear - Hn; destruct ks; [cbn [length] in Hn; lia|reflexivity]. Qed.
Lemma seen_straight t : straight z -> seen t = spliced (0 :: ks) ps t.
Proof using Hn.
  intros [Z2 Z3]. unfold seen, spliced. cbv zeta. rewrite last_e. change (0, 0, 0, 0) with c_d. fold z.
  replace (value z e) with v by (unfold value, v; rewrite Z2, Z3; ring). replace (slope z e) with (c_1 z) by (unfold slope; rewrite Z2, Z3; ring). reflexivity.
Qed.
(** What the code puts in place of the rate, for a Gaussian of width s. *)
Definition cut_rate (s c1 c2 c3 c4 t : R) : R := if Rlt_dec t e then rate_code (x * (1 / tau) * s) c1 c2 c3 c4 tau x y t else rate_cubic c1 c2 c3 c4 tau x y t.
Lemma one_seen s c1 c2 c3 c4 T : tau <> 0 -> 0 < s -> in_order 0 ks ->
  over_decay_time (fun t => seen t * cut_rate s c1 c2 c3 c4 t * normal s (T - t)) (one_gauss tau x y s (0 :: ks) ps v (c_1 z) c1 c2 c3 c4 T).
Proof.
  intros Ht Hs Ho. refine (gen_ext _ _ _ _ _ _ _ eq_refl (one_gauss_int tau x y s 0 ks ps v (c_1 z) c1 c2 c3 c4 T Ht Hs Hl Ho)).
  intros t. unfold seen, cut_rate. rewrite <- last_e.
  rewrite (along_cases (fun t => rate_code (x * (1 / tau) * s) c1 c2 c3 c4 tau x y t * normal s (T - t)) (fun t => rate_cubic c1 c2 c3 c4 tau x y t * normal s (T - t)))
    by (first [exact Ho|exact Hl|lia]). cbv beta. destruct Rlt_dec; ring.
Qed.
Lemma device_seen c1 c2 c3 c4 T : tau <> 0 -> in_order 0 ks ->
  exists u, splice_rate R_ops (R_lib W) R_extra params n c1 c2 c3 c4 tau T x y sigma = Some u /\
    over_decay_time (fun t => seen t * (cf * (cut_rate (w_core r) c1 c2 c3 c4 t * normal (w_core r) (T - b_core r - t)) + tf * (cut_rate (w_tail r) c1 c2 c3 c4 t * normal (w_tail r) (T - b_tail r - t))
      + (1 - cf - tf) * (cut_rate (w_outl r) c1 c2 c3 c4 t * normal (w_outl r) (T - b_outl r - t)))) u.
Proof.
  intros Ht Ho. rewrite rate_value. eexists. split; [reflexivity|]. destruct Hw as (W1 & W2 & W3).
  assert (M : forall c s b, 0 < s -> is_RInt_gen (fun t => c * (seen t * cut_rate s c1 c2 c3 c4 t * normal s (T - b - t)))
                                       (at_point 0) (Rbar_locally p_infty) (c * one_gauss tau x y s (0 :: ks) ps v (c_1 z) c1 c2 c3 c4 (T - b))).
  { intros c s b Hs. apply gen_scal; try typeclasses eauto. now apply one_seen. }
  refine (gen_ext _ _ _ _ _ _ _ eq_refl (gen_plus _ _ _ _ _ _ (gen_plus _ _ _ _ _ _ (M cf _ (b_core r) W1) (M tf _ (b_tail r) W2)) (M (1 - cf - tf) _ (b_outl r) W3))).
  intros t. ring.
Qed.
Lemma resolution_form T t : resolution r (T - t) = cf * normal (w_core r) (T - b_core r - t) + tf * normal (w_tail r) (T - b_tail r - t) + (1 - cf - tf) * normal (w_outl r) (T - b_outl r - t).
Proof.
  unfold resolution. replace (T - t - b_core r) with (T - b_core r - t) by ring. replace (T - t - b_tail r) with (T - b_tail r - t) by ring.
  replace (T - t - b_outl r) with (T - b_outl r - t) by ring. reflexivity.
Qed.
(** For x = 0. *)
Lemma cut_x0 s c1 c2 c3 c4 t : x = 0 -> cut_rate s c1 c2 c3 c4 t = rate c1 c2 c3 c4 tau x y t.
Proof. intros X. unfold cut_rate. destruct Rlt_dec; rewrite X; [apply code_x0|apply cubic_x0]. Qed.
Lemma device_x0 c1 c2 c3 c4 T : tau <> 0 -> x = 0 -> in_order 0 ks ->
  exists u, splice_rate R_ops (R_lib W) R_extra params n c1 c2 c3 c4 tau T x y sigma = Some u /\
    over_decay_time (fun t => seen t * rate c1 c2 c3 c4 tau x y t * resolution r (T - t)) u.
Proof.
  intros Ht Hx Ho. destruct (device_seen c1 c2 c3 c4 T Ht Ho) as (u & E & I0). exists u. split; [exact E|].
  refine (gen_ext _ _ _ _ _ _ _ eq_refl I0). intros t. rewrite !cut_x0 by exact Hx. rewrite resolution_form. ring.
Qed.
End Device.

(** ** The normalisation *)
Lemma total_sum k a : k <> 0 -> forall n, total k n a = rs (fun i => INR (fact n) / INR (fact (n - i)) / k ^ S i * (a ^ (n - i) * exp (- k * a))) (S n).
Proof.
  intros Hk. induction n as [|n IH].
  - cbn [rs total]. cbn [Nat.sub fact pow]. cbn [INR]. field. exact Hk.
  - rewrite rs_first. cbn [total]. rewrite IH. clear IH.
    assert (E2 : rs (fun i => INR (fact (S n)) / INR (fact (S n - S i)) / k ^ S (S i) * (a ^ (S n - S i) * exp (- k * a))) (S n)
      = INR (S n) / k * rs (fun i => INR (fact n) / INR (fact (n - i)) / k ^ S i * (a ^ (n - i) * exp (- k * a))) (S n)).
    { rewrite <- rs_scal. apply rs_ext. intros i Hi. replace (S n - S i)%nat with (n - i)%nat by lia. rewrite fact_simpl, mult_INR.
      change (k ^ S (S i)) with (k * k ^ S i). pose proof (INR_fact_neq_0 (n - i)) as F. pose proof (pow_nonzero k (S i) Hk) as Q. field. repeat split; assumption. }
    rewrite E2. clear E2. generalize (rs (fun i => INR (fact n) / INR (fact (n - i)) / k ^ S i * (a ^ (n - i) * exp (- k * a))) (S n)). intros A.
    rewrite Nat.sub_0_r. change (k ^ 1) with (k * 1). pose proof (INR_fact_neq_0 (S n)) as F. generalize (INR (S n)). intros I1. field. split; assumption.
Qed.
Lemma total_derive k n a : k <> 0 -> is_derive (fun a => - total k n a) a (a ^ n * exp (- k * a)).
Proof.
  intros Hk. induction n as [|n IH].
  - cbn [total pow]. auto_derive; [exact I|]. eqR. field. exact Hk.
  - cbn [total].
    assert (D2 : is_derive (fun a => - (a ^ S n * exp (- k * a) / k)) a (a ^ S n * exp (- k * a) - INR (S n) / k * (a ^ n * exp (- k * a)))).
    { auto_derive; [exact I|]. eqR. cbn [Nat.pred]. change (match n with 0%nat => 1 | S _ => INR n + 1 end) with (INR (S n)). cbn [pow]. field. exact Hk. }
    pose proof (is_derive_plus (fun a => INR (S n) / k * - total k n a) _ a _ _ (is_derive_scal (fun a => - total k n a) a (INR (S n) / k) _ IH) D2) as D3.
    eapply dval; [eapply is_derive_ext; [|exact D3]|].
    + intros t. unfold plus; cbn -[INR pow total]. field. exact Hk.
    + unfold plus; cbn -[INR pow total]. unfold scal; cbn -[INR pow total]. unfold mult; cbn -[INR pow total]. ring.
Qed.
Definition DT (lo hi k : R) (n : nat) : R := total k n lo - total k n hi.
Lemma total_int k n lo hi : k <> 0 -> is_RInt (fun t => t ^ n * (exp (- k * t) * 1)) lo hi (DT lo hi k n).
Proof.
  intros Hk. unfold DT. replace (total k n lo - total k n hi) with (minus (- total k n hi) (- total k n lo)) by (unfold minus, plus, opp; cbn; ring).
  apply is_RInt_ext with (fun t => t ^ n * exp (- k * t)); [intros; eqR; ring|].
  apply (is_RInt_derive (fun t => - total k n t)); intros t _; [now apply total_derive|]. apply gcont. auto_derive. exact I.
Qed.
Lemma rs_minus f g n : rs f n - rs g n = rs (fun i => f i - g i) n.
Proof. induction n as [|n IH]; cbn [rs]; [ring|rewrite <- IH; ring]. Qed.
Section Norm.
Variable W : R -> R -> R.
Lemma pow_gamma_value Ga yt n : pow_gamma R_ops Ga yt n = (Ga * yt) ^ n.
Proof. induction n as [|n IH]; [reflexivity|]. cbn [pow_gamma pow]. rewrite IH. rops. ring. Qed.
Lemma pow_gamma1_value Ga n : pow_gamma1 R_ops Ga n = (Ga * 1) ^ n.
Proof. rewrite Rmult_1_r. induction n as [|n IH]; [reflexivity|]. cbn [pow_gamma1 pow]. rewrite IH. rops. ring. Qed.
Lemma norm_term_value lo hi yt Ga n powg : Ga * yt <> 0 -> (forall i, powg i = (Ga * yt) ^ i) ->
  norm_term_y R_ops (R_lib W) lo hi yt Ga n powg = DT lo hi (Ga * yt) n.
Proof.
  intros Hk Hp. unfold norm_term_y. rops. rewrite (fold_rs (fun i => _)), Rplus_0_l. unfold DT.
  rewrite !(total_sum (Ga * yt) _ Hk). 
  rewrite rs_minus.
  apply rs_ext. intros i _. rewrite !factorial_value, !Rpow_nat, Hp.
  replace (- hi * Ga * yt) with (- (Ga * yt) * hi) by ring. replace (- lo * Ga * yt) with (- (Ga * yt) * lo) by ring.
  pose proof (INR_fact_neq_0 (n - i)) as F. pose proof (pow_nonzero (Ga * yt) (S i) Hk) as Q. field. split; assumption.
Qed.
Lemma fold_adds (F : nat -> quad) n q0 :
  fold_left (fun q i => mkQuad (p1 q + p1 (F i)) (p2 q + p2 (F i)) (p3 q + p3 (F i)) (p4 q + p4 (F i))) (seq 0 n) q0 =
  mkQuad (p1 q0 + rs (fun i => p1 (F i)) n) (p2 q0 + rs (fun i => p2 (F i)) n) (p3 q0 + rs (fun i => p3 (F i)) n) (p4 q0 + rs (fun i => p4 (F i)) n).
Proof.
  induction n as [|n IH]; [cbn; destruct q0; cbn; f_equal; ring|]. rewrite seq_S, fold_left_app, IH. cbn [fold_left Nat.add rs p1 p2 p3 p4]. f_equal; ring.
Qed.
Definition norm_value (tau x y : R) (k : R) (ks : list R) (ps : list cubic) (v m c1 c2 c3 c4 : R) : R :=
  psums (fun lo hi c => psum (DT lo hi) 1 c1 c2 c3 c4 tau x y c) (k :: ks) ps
  + v * exp (- m / v * last (k :: ks) 0) * tail_int tau x y (- m / v) c1 c2 c3 c4 (last (k :: ks) 0).
Lemma normalization_value k ks ps di1 di2 di3 di4 tau x y : length ks = length ps -> (1 <= length ks)%nat ->
  let e := last (k :: ks) 0 in let z := last ps c_d in let v := c_1 z * e + c_0 z in let sb := - c_1 z / v in
  0 < tau -> 1 - y <> 0 -> 1 + y <> 0 -> 0 < 1 / tau + sb - y * (1 / tau) -> 0 < 1 / tau + sb + y * (1 / tau) ->
  splice_normalization R_ops (R_lib W) (k :: ks) (map c_0 ps) (map c_1 ps) (map c_2 ps) (map c_3 ps) di1 di2 di3 di4 tau x y =
  Some (norm_value tau x y k ks ps v (c_1 z) (di1 + di2) (di1 - di2) di3 di4).
Proof.
  intros Hl Hn e z v sb Ht Y1 Y2 Kp Km. unfold splice_normalization. cbv zeta.
  replace (length (k :: ks) - 1)%nat with (length ps) by (cbn [length]; lia). rewrite !map_length, !Nat.leb_refl.
  replace (Nat.leb 2 (length (k :: ks))) with true by (symmetry; apply Nat.leb_le; cbn [length]; lia). cbn [andb].
  change (mkArrays (k :: ks) (map c_0 ps) (map c_1 ps) (map c_2 ps) (map c_3 ps)) with (arrays_of (k :: ks) ps).
  rewrite (tail_value (k :: ks) ps) by (cbn [length]; now rewrite Hl). cbv zeta. fold e. fold z. fold v. fold sb. rops.
  assert (G0 : 0 < 1 / tau) by (unfold Rdiv; rewrite Rmult_1_l; now apply Rinv_0_lt_compat).
  set (Ga := 1 / tau) in *.
  assert (N1 : forall lo hi j, norm_term_y R_ops (R_lib W) lo hi (1 - y) Ga j (pow_gamma R_ops Ga (1 - y)) = DT lo hi (Ga * (1 - y)) j).
  { intros. apply norm_term_value; [apply Rmult_integral_contrapositive_currified; [lra|exact Y1]|apply pow_gamma_value]. }
  assert (N2 : forall lo hi j, norm_term_y R_ops (R_lib W) lo hi (y + 1) Ga j (pow_gamma R_ops Ga (y + 1)) = DT lo hi (Ga * (1 + y)) j).
  { intros. rewrite (Rplus_comm y 1). apply norm_term_value; [apply Rmult_integral_contrapositive_currified; [lra|exact Y2]|apply pow_gamma_value]. }
  assert (N3 : forall lo hi j, norm_term_y R_ops (R_lib W) lo hi 1 Ga j (pow_gamma1 R_ops Ga) = DT lo hi Ga j).
  { intros. rewrite <- (Rmult_1_r Ga) at 3. apply norm_term_value; [lra|apply pow_gamma1_value]. }
  set (F := fun i => let lo := nth i (k :: ks) 0 in let hi := nth (S i) (k :: ks) 0 in let c := nth i ps c_d in
     let on f := c_0 c * f 0%nat + c_1 c * f 1%nat + c_2 c * f 2%nat + c_3 c * f 3%nat in
     mkQuad (on (fun j => / 2 * DT lo hi (Ga * (1 - y)) j + / 2 * DT lo hi (Ga * (1 + y)) j))
            (on (fun j => DT lo hi Ga j - / 2 * (x * Ga) ^ 2 * DT lo hi Ga (j + 2) + / 24 * (x * Ga) ^ 4 * DT lo hi Ga (j + 4)))
            (on (fun j => / 2 * DT lo hi (Ga * (1 - y)) j - / 2 * DT lo hi (Ga * (1 + y)) j))
            (on (fun j => x * Ga * DT lo hi Ga (j + 1) - / 6 * (x * Ga) ^ 3 * DT lo hi Ga (j + 3) + / 120 * (x * Ga) ^ 5 * DT lo hi Ga (j + 5)))).
  match goal with |- context [fold_left ?f (seq 0 (length ps)) ?q0] =>
    replace f with (fun q i => mkQuad (p1 q + p1 (F i)) (p2 q + p2 (F i)) (p3 q + p3 (F i)) (p4 q + p4 (F i))) end.
  2:{ apply FunctionalExtensionality.functional_extensionality. intros q. apply FunctionalExtensionality.functional_extensionality. intros i.
      unfold F. cbv zeta. cbn [p1 p2 p3 p4]. rewrite piece_at_of. unfold piece_of. cbn [a0 a1 a2 a3]. rewrite !N1, !N2, !N3.
      change 2%Z with (Z.of_nat 2). change 4%Z with (Z.of_nat 4). change 3%Z with (Z.of_nat 3). change 5%Z with (Z.of_nat 5).
      rewrite !Rpow_nat. generalize (DT (nth i (k :: ks) 0) (nth (S i) (k :: ks) 0)). intros D. f_equal; field. }
  rewrite fold_adds. cbn [p1 p2 p3 p4]. f_equal. unfold norm_value. fold e. fold sb.
  rewrite <- (rs_psums _ ps (k :: ks)) by (cbn [length]; now rewrite Hl).
  assert (P : forall N, rs (fun i => psum (DT (nth i (k :: ks) 0) (nth (S i) (k :: ks) 0)) 1 (di1 + di2) (di1 - di2) di3 di4 tau x y (nth i ps c_d)) N =
     (di1 + di2) * rs (fun i => p1 (F i)) N + (di1 - di2) * rs (fun i => p2 (F i)) N - 2 * di3 * rs (fun i => p3 (F i)) N - 2 * di4 * rs (fun i => p4 (F i)) N).
  { intros N. induction N as [|N IH]; cbn [rs]; [ring|]. rewrite IH. generalize (rs (fun i => p1 (F i)) N) (rs (fun i => p2 (F i)) N) (rs (fun i => p3 (F i)) N) (rs (fun i => p4 (F i)) N). intros q1 q2 q3 q4. unfold F. cbv zeta. cbn [p1 p2 p3 p4]. unfold psum, pterm. fold Ga. cbn [Nat.add].
    generalize (DT (nth N (k :: ks) 0) (nth (S N) (k :: ks) 0)). intros D. generalize (nth N ps c_d). intros c. rewrite !pow1. clear IH. clearbody F Ga. field. }
  rewrite P. clear P. unfold combine. cbv zeta. rops.
  generalize (rs (fun i => p1 (F i)) (length ps)) (rs (fun i => p2 (F i)) (length ps)) (rs (fun i => p3 (F i)) (length ps)) (rs (fun i => p4 (F i)) (length ps)). intros s1 s2 s3 s4.
  assert (K : 0 < Ga + sb) by lra. pose proof (sq_pos (Ga + sb) (x * Ga) K) as Q.
  unfold tail_int, Ecos, Esin. fold Ga.
  replace (e * (y * Ga - Ga - sb)) with (- (Ga + sb - y * Ga) * e) by ring.
  replace (e * (- y * Ga - Ga - sb)) with (- (Ga + sb + y * Ga) * e) by ring.
  replace (y * Ga - Ga - sb) with (- (Ga + sb - y * Ga)) by ring.
  replace (- y * Ga - Ga - sb) with (- (Ga + sb + y * Ga)) by ring.
  replace ((Ga + sb) * (Ga + sb) + x * x * Ga * Ga) with ((Ga + sb) ^ 2 + (x * Ga) ^ 2) by ring.
  clearbody F. clear N1 N2 N3. set (X := x * Ga) in *. set (Y := y * Ga) in *. set (kh := Ga + sb) in *.
  generalize (exp (sb * e)) (cos (X * e)) (sin (X * e)) (exp (- kh * e)) (exp (- (kh - Y) * e)) (exp (- (kh + Y) * e)).
  clearbody X Y kh v. intros. field. repeat split; lra.
Qed.
Lemma norm_int tau x y k ks ps v m c1 c2 c3 c4 : length ks = length ps -> in_order k ks ->
  0 < tau -> 1 - y <> 0 -> 1 + y <> 0 -> 0 < 1 / tau + - m / v - y * (1 / tau) -> 0 < 1 / tau + - m / v + y * (1 / tau) ->
  is_RInt_gen (along (k :: ks) (map (fun c t => value c t * rate_quintic c1 c2 c3 c4 tau x y t) ps) (fun t => continued (last (k :: ks) 0) v m t * rate c1 c2 c3 c4 tau x y t))
    (at_point k) (Rbar_locally p_infty) (norm_value tau x y k ks ps v m c1 c2 c3 c4).
Proof.
  intros Hl Ho Ht Y1 Y2 Kp Km. unfold norm_value.
  assert (G0 : 0 < 1 / tau) by (unfold Rdiv; rewrite Rmult_1_l; now apply Rinv_0_lt_compat).
  apply along_int; [|exact Hl|exact Ho|].
  - intros lo hi c. eapply is_RInt_ext; [|apply (psum_int (DT lo hi) 1 c1 c2 c3 c4 tau x y (fun t => 1) lo hi)]; [| |lra].
    + intros t _. cbv beta. rewrite code_quintic. eqR. ring.
    + intros k' n K. apply total_int. assert (NZ : forall u, u <> 0 -> 1 / tau * u <> 0) by (intros u U; apply Rmult_integral_contrapositive_currified; lra).
      destruct K as [-> |[-> | -> ]]; [now apply NZ|now apply NZ|lra].
  - set (e := last (k :: ks) 0). assert (K : 0 < 1 / tau + - m / v) by lra. pose proof (sq_pos (1 / tau + - m / v) (x * (1 / tau)) K) as Q.
    assert (A := acc_inf tau x y (- m / v) ltac:(lra) ltac:(lra) ltac:(lra) ltac:(lra) ltac:(lra) ltac:(lra) ltac:(lra) c1 c2 c3 c4 e).
    refine (gen_ext _ _ _ _ _ _ _ eq_refl (gen_scal _ _ _ (v * exp (- m / v * e)) _ A)).
    intros t. rewrite continued_form. ring.
Qed.
End Norm.
