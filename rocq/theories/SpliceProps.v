(** The properties C72 and C73: ThreeGaussResolutionSplice. *)
From Coq Require Import List ZArith Reals Lra Lia Arith Bool.
From Coquelicot Require Import Coquelicot.
From Verif Require Import FormulaSpec ResolModel ResolSpec ResolMoment ResolProofs ResolProofs2 ResolProofs3 ResolProofs4 SpliceModel SpliceSpec SpliceProofs SpliceProofs2 SpliceProofs3 SpliceProofs4.
From Verif Require LeafGen.
Import ListNotations.
Open Scope R_scope.

(** ** C72: the rate of ThreeGaussResolutionSplice is the rate, times the spliced acceptance, seen through the resolution *)
(** The moments of the normal distribution, of any order. *)
Theorem C72_moments : forall W n a b, is_RInt (fun v => v ^ n * normal 1 v) a b (evaluate_convo R_ops (R_lib W) R_extra n a b).
Proof. intros. apply convo_moment. Qed.
(** For x = 0, two to eight knots from 0 on and a straight last piece. *)
Theorem C72_smeared_partial : forall W cf tf cb cs tb ts ob os bias scale bias2 scale2 sigma tau y ks ps c1 c2 c3 c4 T,
  let r := tg_shape cf tf cb cs tb ts ob os bias scale bias2 scale2 sigma in
  0 < tau -> wide r -> (1 <= length ks <= 7)%nat -> length ks = length ps -> in_order 0 ks ->
  straight (last ps (0, 0, 0, 0)) -> value (last ps (0, 0, 0, 0)) (last (0 :: ks) 0) <> 0 ->
  exists u, splice_rate R_ops (R_lib W) R_extra
              (splice_params cf tf cb cs tb ts ob os bias scale bias2 scale2 (0 :: ks) (map c_0 ps) (map c_1 ps) (map c_2 ps) (map c_3 ps))
              (length (0 :: ks)) c1 c2 c3 c4 tau T 0 y sigma = Some u /\
    over_decay_time (fun t => spliced (0 :: ks) ps t * rate c1 c2 c3 c4 tau 0 y t * resolution r (T - t)) u.
Proof.
  intros W cf tf cb cs tb ts ob os bias scale bias2 scale2 sigma tau y ks ps c1 c2 c3 c4 T r Ht Hw Hn Hl Ho Hz _.
  destruct (device_x0 W cf tf cb cs tb ts ob os bias scale bias2 scale2 sigma tau 0 y 0 ks ps Hl ltac:(lia) Hw c1 c2 c3 c4 T ltac:(lra) eq_refl Ho) as (u & E & I0).
  exists u. split; [exact E|]. refine (gen_ext _ _ _ _ _ _ _ eq_refl I0). intros t. now rewrite (seen_straight 0 ks ps ltac:(lia) t Hz).
Qed.
(** Not for a curved last piece: the tail starts with the value and the slope of the straight part of the polynomial. *)
Theorem C72_tail_refuted : forall W cf tf cb cs tb ts ob os bias scale bias2 scale2 sigma tau y a b q T,
  let r := tg_shape cf tf cb cs tb ts ob os bias scale bias2 scale2 sigma in
  0 < tau -> wide r -> mixture r -> 0 < a -> 0 < b -> 0 < q ->
  ~ exists u, splice_rate R_ops (R_lib W) R_extra
                (splice_params cf tf cb cs tb ts ob os bias scale bias2 scale2 [0; a] [b] [0] [q] [0]) 2 1 1 0 0 tau T 0 y sigma = Some u /\
      over_decay_time (fun t => spliced [0; a] [(b, 0, q, 0)] t * rate 1 1 0 0 tau 0 y t * resolution r (T - t)) u.
Proof.
  intros W cf tf cb cs tb ts ob os bias scale bias2 scale2 sigma tau y a b q T r Ht Hw Hm Ha Hb Hq.
  exact (tail_wrong W cf tf cb cs tb ts ob os bias scale bias2 scale2 sigma tau Hw Ht Hm a b q y T Ha Hb Hq).
Qed.
(** Not for x different from 0, not even where x is small. *)
Theorem C72_mixing_refuted : forall W cf tf cb cs tb ts ob os bias scale bias2 scale2 sigma tau x y ks ps c1 c2 c3 T,
  let r := tg_shape cf tf cb cs tb ts ob os bias scale bias2 scale2 sigma in
  let e := last (0 :: ks) 0 in let z := last ps (0, 0, 0, 0) in
  0 < tau -> wide r -> mixture r -> (1 <= length ks <= 7)%nat -> length ks = length ps -> in_order 0 ks -> straight z ->
  (forall t, 0 < t -> 0 <= spliced (0 :: ks) ps t) -> 0 < value z e ->
  x <> 0 -> 0 < c2 -> Rabs (x / tau * e) <= 1 ->
  Rabs (x / tau * w_core r) <= / 2 -> Rabs (x / tau * w_tail r) <= / 2 -> Rabs (x / tau * w_outl r) <= / 2 ->
  ~ exists u, splice_rate R_ops (R_lib W) R_extra
                (splice_params cf tf cb cs tb ts ob os bias scale bias2 scale2 (0 :: ks) (map c_0 ps) (map c_1 ps) (map c_2 ps) (map c_3 ps))
                (length (0 :: ks)) c1 c2 c3 0 tau T x y sigma = Some u /\
      over_decay_time (fun t => spliced (0 :: ks) ps t * rate c1 c2 c3 0 tau x y t * resolution r (T - t)) u.
Proof.
  intros W cf tf cb cs tb ts ob os bias scale bias2 scale2 sigma tau x y ks ps c1 c2 c3 T r e z Ht Hw Hm Hn Hl Ho Hz Hs Hv Hx Hc He F1 F2 F3.
  exact (mixing_wrong W cf tf cb cs tb ts ob os bias scale bias2 scale2 sigma tau Hw Ht Hm x y ks ps c1 c2 c3 T Hl ltac:(lia) Ho Hz Hx Hc He F1 F2 F3 Hs Hv).
Qed.
(** And with more than eight knots the device function writes beyond its arrays. *)
Theorem C72_knots_refuted : forall W cf tf cb cs tb ts ob os bias scale bias2 scale2 sigma tau x y ks v0 v1 v2 v3 c1 c2 c3 c4 T,
  (8 < length ks)%nat ->
  splice_rate R_ops (R_lib W) R_extra (splice_params cf tf cb cs tb ts ob os bias scale bias2 scale2 ks v0 v1 v2 v3)
    (length ks) c1 c2 c3 c4 tau T x y sigma = None.
Proof.
  intros. unfold splice_rate. cbv zeta. unfold read_arrays. cbv zeta.
  replace (Nat.leb (length ks) 8) with false; [reflexivity|]. symmetry. now apply Nat.leb_gt.
Qed.
Example C72_ex : let r := tg_shape (4 / 5) (3 / 20) 0 1 (1 / 10) 2 0 5 0 1 0 1 (1 / 100) in
  let ks := [1 / 5; 2 / 5] in let ps := [(1 / 2, 0, 1, 1 / 2); (3 / 5, - 1 / 10, 0, 0)] in
  wide r /\ mixture r /\ in_order 0 ks /\ straight (last ps (0, 0, 0, 0)) /\ 0 < value (last ps (0, 0, 0, 0)) (last (0 :: ks) 0) /\
  (forall t, 0 < t -> 0 <= spliced (0 :: ks) ps t) /\ Rabs (1 / 2 / (2 / 5) * (2 / 5)) <= 1 /\ Rabs (1 / 2 / (2 / 5) * w_outl r) <= / 2.
Proof.
  cbv zeta. assert (V : 0 < value (3 / 5, - 1 / 10, 0, 0) (2 / 5)) by (unfold value; cbn; lra).
  repeat split; cbn [f_core f_tail w_core w_tail w_outl tg_shape last value c_0 c_1 c_2 c_3 in_order]; try lra.
  - intros t Pt. unfold spliced. cbv zeta. cbn [last along map]. destruct Rlt_dec; [|destruct Rlt_dec].
    + unfold value. cbn [c_0 c_1 c_2 c_3]. assert (0 <= t ^ 2) by nra. assert (0 <= t ^ 3) by (apply pow_le; lra). lra.
    + unfold value. cbn [c_0 c_1 c_2 c_3]. lra.
    + unfold continued. apply Rmult_le_pos; [lra|left; apply exp_pos].
  - rewrite Rabs_pos_eq; lra.
  - rewrite Rabs_pos_eq; lra.
Qed.

(** ** C73: the normalisation of ThreeGaussResolutionSplice *)
(** Its building block, for a power of any order. *)
Theorem C73_term : forall W lo hi yterm Gamma n, Gamma * yterm <> 0 ->
  is_RInt (fun t => t ^ n * exp (- (Gamma * yterm) * t)) lo hi (norm_term_y R_ops (R_lib W) lo hi yterm Gamma n (pow_gamma R_ops Gamma yterm)).
Proof.
  intros W lo hi yt Ga n Hk. rewrite (norm_term_value W lo hi yt Ga n _ Hk (pow_gamma_value Ga yt)).
  eapply is_RInt_ext; [|apply (total_int (Ga * yt) n lo hi Hk)]. intros t _. cbv beta. eqR. ring.
Qed.
(** For x = 0, knots from 0 on and a straight last piece it is the integral of acceptance and rate over the decay time. *)
Theorem C73_true_time_partial : forall W ks ps A2 B2 ABr ABi tau y,
  let e := last (0 :: ks) 0 in let z := last ps (0, 0, 0, 0) in
  0 < tau -> (1 <= length ks)%nat -> length ks = length ps -> in_order 0 ks -> straight z -> value z e <> 0 ->
  1 - y <> 0 -> 1 + y <> 0 -> 0 < 1 / tau - slope z e / value z e - y / tau -> 0 < 1 / tau - slope z e / value z e + y / tau ->
  exists v, splice_normalization R_ops (R_lib W) (0 :: ks) (map c_0 ps) (map c_1 ps) (map c_2 ps) (map c_3 ps) A2 B2 ABr ABi tau 0 y = Some v /\
    over_decay_time (fun t => spliced (0 :: ks) ps t * rate (A2 + B2) (A2 - B2) ABr ABi tau 0 y t) v.
Proof.
  intros W ks ps A2 B2 ABr ABi tau y e z Ht Hn Hl Ho Hz _ Y1 Y2 Kp Km.
  assert (Kp' : 0 < 1 / tau + - slope z e / value z e - y * (1 / tau)) by (unfold Rdiv in *; lra).
  assert (Km' : 0 < 1 / tau + - slope z e / value z e + y * (1 / tau)) by (unfold Rdiv in *; lra).
  destruct (straight_value z e Hz) as [Ev Es].
  eexists. split; [rewrite Ev, Es in Kp', Km'; apply (normalization_value W 0 ks ps); assumption|].
  refine (gen_ext _ _ _ _ _ _ _ eq_refl (norm_series tau y Ht 0 ks ps (A2 + B2) (A2 - B2) ABr ABi Hl Ho Hz Y1 Y2 Kp' Km' Hn)).
  intros t. destruct Rlt_dec; [now rewrite quintic_x0|reflexivity].
Qed.
(** For any x: below the last knot the series of cos and sin are cut off after the fifth power. *)
Theorem C73_series_partial : forall W ks ps A2 B2 ABr ABi tau x y,
  let e := last (0 :: ks) 0 in let z := last ps (0, 0, 0, 0) in
  0 < tau -> (1 <= length ks)%nat -> length ks = length ps -> in_order 0 ks -> straight z -> value z e <> 0 ->
  1 - y <> 0 -> 1 + y <> 0 -> 0 < 1 / tau - slope z e / value z e - y / tau -> 0 < 1 / tau - slope z e / value z e + y / tau ->
  exists v, splice_normalization R_ops (R_lib W) (0 :: ks) (map c_0 ps) (map c_1 ps) (map c_2 ps) (map c_3 ps) A2 B2 ABr ABi tau x y = Some v /\
    over_decay_time (fun t => spliced (0 :: ks) ps t *
      (if Rlt_dec t e then rate_quintic (A2 + B2) (A2 - B2) ABr ABi tau x y t else rate (A2 + B2) (A2 - B2) ABr ABi tau x y t)) v.
Proof.
  intros W ks ps A2 B2 ABr ABi tau x y e z Ht Hn Hl Ho Hz _ Y1 Y2 Kp Km.
  assert (Kp' : 0 < 1 / tau + - slope z e / value z e - y * (1 / tau)) by (unfold Rdiv in *; lra).
  assert (Km' : 0 < 1 / tau + - slope z e / value z e + y * (1 / tau)) by (unfold Rdiv in *; lra).
  destruct (straight_value z e Hz) as [Ev Es].
  eexists. split; [rewrite Ev, Es in Kp', Km'; apply (normalization_value W 0 ks ps); assumption|].
  exact (norm_series tau y Ht x ks ps (A2 + B2) (A2 - B2) ABr ABi Hl Ho Hz Y1 Y2 Kp' Km' Hn).
Qed.
(** So it is too large for x different from 0, |A| > |B|, even where x is small. *)
Theorem C73_mixing_refuted : forall W k1 ks p1 ps A2 B2 ABr tau x y,
  let e := last (0 :: k1 :: ks) 0 in let z := last (p1 :: ps) (0, 0, 0, 0) in
  0 < tau -> 0 < k1 -> in_order k1 ks -> length ks = length ps -> straight z ->
  1 - y <> 0 -> 1 + y <> 0 -> 0 < 1 / tau - slope z e / value z e - y / tau -> 0 < 1 / tau - slope z e / value z e + y / tau ->
  (forall t, 0 < t -> 0 <= spliced (0 :: k1 :: ks) (p1 :: ps) t) -> (forall t, 0 < t < k1 -> 0 < value p1 t) ->
  x <> 0 -> B2 < A2 -> Rabs (x / tau * e) <= 1 ->
  ~ exists v, splice_normalization R_ops (R_lib W) (0 :: k1 :: ks) (map c_0 (p1 :: ps)) (map c_1 (p1 :: ps)) (map c_2 (p1 :: ps)) (map c_3 (p1 :: ps))
                A2 B2 ABr 0 tau x y = Some v /\
      over_decay_time (fun t => spliced (0 :: k1 :: ks) (p1 :: ps) t * rate (A2 + B2) (A2 - B2) ABr 0 tau x y t) v.
Proof.
  intros W k1 ks p0 ps A2 B2 ABr tau x y e z Ht Hk Ho Hl Hz Y1 Y2 Kp Km Hs Hp Hx HA He (v & E & I0).
  assert (Kp' : 0 < 1 / tau + - slope z e / value z e - y * (1 / tau)) by (unfold Rdiv in *; lra).
  assert (Km' : 0 < 1 / tau + - slope z e / value z e + y * (1 / tau)) by (unfold Rdiv in *; lra).
  destruct (straight_value z e Hz) as [Ev Es].
  rewrite (normalization_value W 0 (k1 :: ks) (p0 :: ps) A2 B2 ABr 0 tau x y) in E;
    [|cbn [length]; now rewrite Hl|cbn [length]; lia|exact Ht|exact Y1|exact Y2
     |rewrite Ev, Es in Kp'; exact Kp'|rewrite Ev, Es in Km'; exact Km'].
  injection E as E. subst v. revert I0.
  exact (norm_mixing_wrong tau y Ht x k1 ks p0 ps (A2 + B2) (A2 - B2) ABr Hl Hk Ho Hz Y1 Y2 Kp' Km' Hx ltac:(lra) He Hs Hp).
Qed.
(** For x = 0 it is also the integral of the smeared rate over the measured time. *)
Theorem C73_measured_time_partial : forall W cf tf cb cs tb ts ob os bias scale bias2 scale2 sigma tau y ks ps A2 B2 ABr ABi,
  let r := tg_shape cf tf cb cs tb ts ob os bias scale bias2 scale2 sigma in
  let e := last (0 :: ks) 0 in let z := last ps (0, 0, 0, 0) in
  0 < tau -> wide r -> (1 <= length ks <= 7)%nat -> length ks = length ps -> straight z -> value z e <> 0 ->
  -1 < y < 1 -> 0 < 1 / tau - slope z e / value z e - y / tau -> 0 < 1 / tau - slope z e / value z e + y / tau ->
  exists F v,
    (forall T, splice_rate R_ops (R_lib W) R_extra
                 (splice_params cf tf cb cs tb ts ob os bias scale bias2 scale2 (0 :: ks) (map c_0 ps) (map c_1 ps) (map c_2 ps) (map c_3 ps))
                 (length (0 :: ks)) (A2 + B2) (A2 - B2) ABr ABi tau T 0 y sigma = Some (F T)) /\
    splice_normalization R_ops (R_lib W) (0 :: ks) (map c_0 ps) (map c_1 ps) (map c_2 ps) (map c_3 ps) A2 B2 ABr ABi tau 0 y = Some v /\
    over_measured_time F v.
Proof.
  intros W cf tf cb cs tb ts ob os bias scale bias2 scale2 sigma tau y ks ps A2 B2 ABr ABi r e z Ht Hw Hn Hl Hz _ [Y1 Y2] Kp Km.
  destruct (straight_value z e Hz) as [Ev Es].
  assert (Kp' : 0 < 1 / tau + - c_1 z / (c_1 z * e + c_0 z) - y * (1 / tau)) by (rewrite Ev, Es in Kp; unfold Rdiv in *; lra).
  assert (Km' : 0 < 1 / tau + - c_1 z / (c_1 z * e + c_0 z) + y * (1 / tau)) by (rewrite Ev, Es in Km; unfold Rdiv in *; lra).
  destruct (total_x0 W cf tf cb cs tb ts ob os bias scale bias2 scale2 sigma tau Hw Ht y 0 ks ps (A2 + B2) (A2 - B2) ABr ABi Hl ltac:(lia) ltac:(lra) ltac:(lra) Kp' Km') as (F & E & I0).
  exists F. eexists. split; [exact E|]. split; [|exact I0]. apply (normalization_value W 0 ks ps); first [assumption|lia|lra].
Qed.
(** But with another first knot the two differ: the rate is that of an acceptance that starts at 0. *)
Theorem C73_first_knot_refuted : forall W cf tf cb cs tb ts ob os bias scale bias2 scale2 sigma tau y k k1 ks p1 ps,
  let r := tg_shape cf tf cb cs tb ts ob os bias scale bias2 scale2 sigma in
  let e := last (k :: k1 :: ks) 0 in let z := last (p1 :: ps) (0, 0, 0, 0) in
  0 < tau -> wide r -> (2 <= length (k :: k1 :: ks) <= 8)%nat -> length ks = length ps -> straight z -> value z e <> 0 ->
  -1 < y < 1 -> 0 < 1 / tau - slope z e / value z e - y / tau -> 0 < 1 / tau - slope z e / value z e + y / tau ->
  0 < k -> k <= k1 -> (forall t, 0 < t < k -> 0 < value p1 t) ->
  exists F v,
    (forall T, splice_rate R_ops (R_lib W) R_extra
                 (splice_params cf tf cb cs tb ts ob os bias scale bias2 scale2 (k :: k1 :: ks) (map c_0 (p1 :: ps)) (map c_1 (p1 :: ps)) (map c_2 (p1 :: ps)) (map c_3 (p1 :: ps)))
                 (length (k :: k1 :: ks)) 1 1 0 0 tau T 0 y sigma = Some (F T)) /\
    splice_normalization R_ops (R_lib W) (k :: k1 :: ks) (map c_0 (p1 :: ps)) (map c_1 (p1 :: ps)) (map c_2 (p1 :: ps)) (map c_3 (p1 :: ps)) 1 0 0 0 tau 0 y = Some v /\
    ~ over_measured_time F v.
Proof.
  intros W cf tf cb cs tb ts ob os bias scale bias2 scale2 sigma tau y k k1 ks p0 ps r e z Ht Hw Hn Hl Hz _ [Y1 Y2] Kp Km Hk L1 Hp. cbn [length] in Hn.
  destruct (straight_value z e Hz) as [Ev Es].
  assert (Kp' : 0 < 1 / tau + - c_1 z / (c_1 z * e + c_0 z) - y * (1 / tau)) by (rewrite Ev, Es in Kp; unfold Rdiv in *; lra).
  assert (Km' : 0 < 1 / tau + - c_1 z / (c_1 z * e + c_0 z) + y * (1 / tau)) by (rewrite Ev, Es in Km; unfold Rdiv in *; lra).
  destruct (total_x0 W cf tf cb cs tb ts ob os bias scale bias2 scale2 sigma tau Hw Ht y k (k1 :: ks) (p0 :: ps) (1 + 0) (1 - 0) 0 0 ltac:(cbn [length]; now rewrite Hl) ltac:(cbn [length]; lia) ltac:(lra) ltac:(lra) Kp' Km') as (F & E & I0).
  exists F. eexists. split; [|split].
  - intros T. rewrite <- (E T). now rewrite Rplus_0_r, Rminus_0_r.
  - apply (normalization_value W k (k1 :: ks) (p0 :: ps)); first [assumption|cbn [length]; now rewrite Hl|cbn [length]; lia|lra].
  - intros I1. change (last (p0 :: ps) c_d) with z in I0, I1. change (last (k :: k1 :: ks) 0) with e in I0, I1. pose proof (unique_measured _ _ _ I0 I1) as U. symmetry in U. revert U. apply Rlt_not_eq. apply norm_first; try lra.
    intros t T. apply Rmult_lt_0_compat; [now apply Hp|]. unfold rate. apply Rmult_lt_0_compat; [apply exp_pos|]. replace (0 * t / tau) with 0 by (unfold Rdiv; ring). rewrite cos_0. unfold cosh.
    pose proof (exp_pos (y * t / tau)). pose proof (exp_pos (- (y * t / tau))). lra.
Qed.
Example C73_ex : let ks := [1 / 5; 2 / 5] in let ps := [(1 / 2, 0, 1, 1 / 2); (3 / 5, - 1 / 10, 0, 0)] in
  exists v, splice_normalization R_ops (R_lib (fun _ _ => 0)) (0 :: ks) (map c_0 ps) (map c_1 ps) (map c_2 ps) (map c_3 ps) 1 3 (1 / 2) (1 / 4) (2 / 5) 0 (1 / 2) = Some v /\
    over_decay_time (fun t => spliced (0 :: ks) ps t * rate (1 + 3) (1 - 3) (1 / 2) (1 / 4) (2 / 5) 0 (1 / 2) t) v.
Proof.
  cbv zeta. apply C73_true_time_partial; cbn [length last in_order]; unfold straight, slope, value; cbn [c_0 c_1 c_2 c_3]; try lra; try lia; try reflexivity.
Qed.

Print Assumptions C72_moments.
Print Assumptions C72_smeared_partial.
Print Assumptions C72_tail_refuted.
Print Assumptions C72_mixing_refuted.
Print Assumptions C72_knots_refuted.
Print Assumptions C73_term.
Print Assumptions C73_true_time_partial.
Print Assumptions C73_series_partial.
Print Assumptions C73_mixing_refuted.
Print Assumptions C73_measured_time_partial.
Print Assumptions C73_first_knot_refuted.
