(** Amp3Body_TD: C74 to C78. *)
From Coq Require Import Reals List Lra Lia Arith Bool ZArith.
From Coquelicot Require Import Coquelicot.
From Verif Require Import FormulaSpec AmpModel AmpSpec AmpProofs ResolModel ResolSpec ResolProofs ResolProofs4 ResolProps TdModel TdSpec TdProofs.
Import ListNotations.
Open Scope R_scope.

(** One resonance, one cell; all points are inside. *)
Definition one_res (b : R -> R -> R * R) (g : grid (T := R)) : call (T := R) := mkCall [(1, 0)] (fun _ => b) (fun _ _ => 1) (fun _ _ => true) g [(1, 2)] true (fun _ => false).
Definition one_cell : grid (T := R) := mkGrid 0 1 1 0 1 1.
Definition ordered (x y : R) : R * R := if Rlt_dec x y then (1, 0) else (2, 1).
Lemma one_honest : forall t, force (td_dp t) = true -> td_honest ([] ++ [TdNormalize t]).
Proof. intros t F. split; [split; [exact F|exact I]|]. intros a b [<-|[]] [<-|[]]. reflexivity. Qed.

(** ** C74: the value at an event *)
(** With the true decay time and no mistag: the squared modulus of the amplitude after mixing, times the efficiency. *)
Theorem C74_value_partial : forall W os t n e,
  td_honest (os ++ [TdNormalize t]) -> fractions_if_symmetric os ->
  nth_error (events (td_dp t)) n = Some (e_m12 e, e_m13 e) -> e_mistag e <= 0 -> e_tag e = 1%Z \/ e_tag e = 0%Z \/ e_tag e = (-1)%Z ->
  td_value R_ops (truth W) t (fst (td_calls R_ops (truth W) (os ++ [TdNormalize t]))) n e =
  td_density t (x_of t (e_tag e)) (y_of t (e_tag e)) (e_m12 e) (e_m13 e) (e_time e).
Proof.
  intros W os t n e H O E M G. destruct (td_calls_fresh (truth W) os t H O) as [F _]. rewrite (td_value_truth W t _ n e F E G). unfold with_mistag.
  destruct (Rlt_dec 0 (e_mistag e)); [lra|]. ring.
Qed.
(** With any resolution: its rate for the coefficients |A|^2 + |B|^2, |A|^2 - |B|^2, A B*. *)
Theorem C74_resolution_partial : forall res os t n e,
  td_honest (os ++ [TdNormalize t]) -> fractions_if_symmetric os ->
  nth_error (events (td_dp t)) n = Some (e_m12 e, e_m13 e) -> e_mistag e <= 0 -> e_tag e = 1%Z \/ e_tag e = 0%Z \/ e_tag e = (-1)%Z ->
  let A := dec_A (td_dp t) (e_m12 e) (e_m13 e) in let B := dec_B (td_dp t) (e_m12 e) (e_m13 e) in
  td_value R_ops res t (fst (td_calls R_ops res (os ++ [TdNormalize t]))) n e =
  if inside (td_dp t) (e_m12 e) (e_m13 e) then
    r_rate res (norm2 A + norm2 B) (norm2 A - norm2 B) (fst (cmult A (cconj B))) (snd (cmult A (cconj B))) (td_tau t) (e_time e) (x_of t (e_tag e)) (y_of t (e_tag e)) (e_sigma e)
    * eff (td_dp t) (e_m12 e) (e_m13 e)
  else 0.
Proof.
  intros res os t n e H O E M G A B. destruct (td_calls_fresh res os t H O) as [F _]. rewrite (td_value_rate res t _ n e F E G).
  destruct (Rlt_dec 0 (e_mistag e)); [lra|]. destruct (inside (td_dp t) (e_m12 e) (e_m13 e)); [|reflexivity]. fold A B. ring.
Qed.
(** With three Gaussians and no mass difference: that density times the selection bias, convolved with the resolution. *)
Theorem C74_smeared_partial : forall W cf tf cb cs tb ts ob os sb bias scale bias2 scale2 hs t n e,
  let res := three_gauss W cf tf cb cs tb ts ob os sb bias scale bias2 scale2 in
  let r := tg_shape cf tf cb cs tb ts ob os bias scale bias2 scale2 (e_sigma e) in
  td_honest (hs ++ [TdNormalize t]) -> fractions_if_symmetric hs ->
  nth_error (events (td_dp t)) n = Some (e_m12 e, e_m13 e) -> e_mistag e <= 0 -> e_tag e = 1%Z \/ e_tag e = 0%Z \/ e_tag e = (-1)%Z ->
  0 < td_tau t -> wide r -> x_of t (e_tag e) = 0 ->
  over_decay_time (fun time => exp (- sb * time) * td_density t 0 (y_of t (e_tag e)) (e_m12 e) (e_m13 e) time * resolution r (e_time e - time))
    (td_value R_ops res t (fst (td_calls R_ops res (hs ++ [TdNormalize t]))) n e).
Proof.
  intros W cf tf cb cs tb ts ob os sb bias scale bias2 scale2 hs t n e res r H O E M G Ht Hw Hx.
  rewrite (C74_resolution_partial res hs t n e H O E M G). rewrite Hx. set (A := dec_A (td_dp t) (e_m12 e) (e_m13 e)). set (B := dec_B (td_dp t) (e_m12 e) (e_m13 e)).
  pose proof (C68_smeared_partial W cf tf cb cs tb ts ob os sb bias scale bias2 scale2 (td_tau t) (y_of t (e_tag e)) (e_sigma e)
    (norm2 A + norm2 B) (norm2 A - norm2 B) (fst (cmult A (cconj B))) (snd (cmult A (cconj B))) (e_time e) Ht Hw) as P. cbv zeta in P. fold r in P.
  refine (gen_ext _ _ _ _ _ _ _ _ (gen_scal _ _ _ (weight (td_dp t) (e_m12 e) (e_m13 e)) _ P)).
  - intros time. unfold td_density. rewrite <- point_rate_density. unfold point_rate. fold A B. ring.
  - unfold weight. destruct (inside (td_dp t) (e_m12 e) (e_m13 e)); [|ring]. apply Rmult_comm.
Qed.
Corollary C74_not_negative : forall W os t n e,
  td_honest (os ++ [TdNormalize t]) -> fractions_if_symmetric os ->
  nth_error (events (td_dp t)) n = Some (e_m12 e, e_m13 e) -> e_mistag e <= 0 -> e_tag e = 1%Z \/ e_tag e = 0%Z \/ e_tag e = (-1)%Z ->
  0 <= eff (td_dp t) (e_m12 e) (e_m13 e) ->
  0 <= td_value R_ops (truth W) t (fst (td_calls R_ops (truth W) (os ++ [TdNormalize t]))) n e.
Proof.
  intros W os t n e H O E M G P. rewrite (C74_value_partial W os t n e H O E M G). unfold td_density, signal. destruct (inside _ _ _); [|lra].
  apply Rmult_le_pos; [|exact P]. apply Rmult_le_pos; [lra|]. unfold norm2. apply Rplus_le_le_0_compat; apply pow2_ge_0.
Qed.
(** Not the formula printed in the header: without mixing and with B not 0 they differ. *)
Theorem C74_header_refuted : forall W os t n e,
  td_honest (os ++ [TdNormalize t]) -> fractions_if_symmetric os ->
  nth_error (events (td_dp t)) n = Some (e_m12 e, e_m13 e) -> e_mistag e <= 0 -> e_tag e = 1%Z \/ e_tag e = 0%Z \/ e_tag e = (-1)%Z ->
  inside (td_dp t) (e_m12 e) (e_m13 e) = true -> eff (td_dp t) (e_m12 e) (e_m13 e) <> 0 ->
  x_of t (e_tag e) = 0 -> y_of t (e_tag e) = 0 -> norm2 (dec_B (td_dp t) (e_m12 e) (e_m13 e)) <> 0 ->
  td_value R_ops (truth W) t (fst (td_calls R_ops (truth W) (os ++ [TdNormalize t]))) n e
  <> header_formula t (x_of t (e_tag e)) (y_of t (e_tag e)) (e_m12 e) (e_m13 e) (e_time e).
Proof.
  intros W os t n e H O E M G Hi He Hx Hy HB. rewrite (C74_value_partial W os t n e H O E M G), Hx, Hy. unfold td_density. rewrite <- point_rate_density. unfold point_rate, header_formula, weight. rewrite Hi.
  set (A := dec_A (td_dp t) (e_m12 e) (e_m13 e)) in *. set (B := dec_B (td_dp t) (e_m12 e) (e_m13 e)) in *. unfold rate. rewrite !Rmult_0_l.
  replace (0 / td_tau t) with 0 by (unfold Rdiv; ring). rewrite cosh_0, sinh_0, cos_0, sin_0. intros Q. apply Rmult_eq_reg_r in Q; [|exact He].
  apply Rmult_eq_reg_l in Q; [|apply Rgt_not_eq, exp_pos]. apply HB.
  replace (norm2 (cplus A B)) with (norm2 A + norm2 B + 2 * fst (cmult A (cconj B))) in Q by (unfold norm2, cplus, cmult, cconj; cbn [fst snd]; ring).
  replace (norm2 (cplus A (cscale (-1) B))) with (norm2 A + norm2 B - 2 * fst (cmult A (cconj B))) in Q by (unfold norm2, cplus, cmult, cconj, cscale; cbn [fst snd]; ring).
  lra.
Qed.
Example C74_ex : let t := mkTd (one_res ordered one_cell) (2 / 5) 0 0 0 0 (1 / 2) 0 false in let e := mkEvent 1 2 (1 / 3) (1 / 10) 0 1%Z in
  td_honest ([] ++ [TdNormalize t]) /\ nth_error (events (td_dp t)) 0 = Some (e_m12 e, e_m13 e) /\ e_mistag e <= 0 /\
  inside (td_dp t) (e_m12 e) (e_m13 e) = true /\ eff (td_dp t) (e_m12 e) (e_m13 e) <> 0 /\ x_of t (e_tag e) = 0 /\ y_of t (e_tag e) = 0 /\
  norm2 (dec_B (td_dp t) (e_m12 e) (e_m13 e)) <> 0.
Proof.
  cbv zeta. split; [now apply one_honest|]. cbn [td_dp one_res events nth_error e_m12 e_m13 e_mistag inside eff e_tag].
  repeat split; try lra; unfold x_of, y_of; cbn [td_x td_y td_dx td_dy]; try ring.
  unfold dec_B, amplitude, Ctotal, norm2, ordered. cbn [amps bw one_res length seq map fold_right nth]. destruct (Rlt_dec 2 1); [lra|]. unfold Cmult, Cplus, RtoC. cbn [fst snd]. apply Rgt_not_eq. match goal with |- ?l > 0 => replace l with 5 by ring end. lra.
Qed.

(** ** C75: events with a wrong tag *)
(** For one lifetime and one pair of mixing parameters: a fraction 1 - mistag with the right tag, the rest with the wrong one. *)
Theorem C75_mixture_partial : forall W os t n e,
  td_honest (os ++ [TdNormalize t]) -> fractions_if_symmetric os ->
  nth_error (events (td_dp t)) n = Some (e_m12 e, e_m13 e) -> 0 <= e_mistag e -> e_tag e = 1%Z \/ e_tag e = 0%Z \/ e_tag e = (-1)%Z ->
  td_tau t = 4101 / 10000 -> x_of t (e_tag e) = 39 / 10000 -> y_of t (e_tag e) = 65 / 10000 ->
  td_value R_ops (truth W) t (fst (td_calls R_ops (truth W) (os ++ [TdNormalize t]))) n e =
  header_mistag t (1 - e_mistag e) (e_tag e) (e_m12 e) (e_m13 e) (e_time e).
Proof.
  intros W os t n e H O E M G Ht Hx Hy. destruct (td_calls_fresh (truth W) os t H O) as [F _]. rewrite (td_value_truth W t _ n e F E G). unfold with_mistag, header_mistag, td_density.
  destruct fix_values as (-> & -> & ->). rewrite Ht, Hx, Hy.
  replace (if Rlt_dec 0 (e_mistag e) then e_mistag e else 0) with (e_mistag e) by (destruct (Rlt_dec 0 (e_mistag e)); lra). ring.
Qed.
(** Not for other lifetimes: with half of the tags wrong the value is too small at every time. *)
Theorem C75_lifetime_refuted : forall W os t n e,
  td_honest (os ++ [TdNormalize t]) -> fractions_if_symmetric os ->
  nth_error (events (td_dp t)) n = Some (e_m12 e, e_m13 e) -> e_mistag e = 1 / 2 -> e_tag e = 1%Z \/ e_tag e = 0%Z \/ e_tag e = (-1)%Z ->
  inside (td_dp t) (e_m12 e) (e_m13 e) = true -> 0 < eff (td_dp t) (e_m12 e) (e_m13 e) -> 0 < e_time e ->
  1 / 2 <= td_tau t -> y_of t (e_tag e) = 0 -> 0 < norm2 (dec_A (td_dp t) (e_m12 e) (e_m13 e)) + norm2 (dec_B (td_dp t) (e_m12 e) (e_m13 e)) ->
  td_value R_ops (truth W) t (fst (td_calls R_ops (truth W) (os ++ [TdNormalize t]))) n e
  < header_mistag t (1 / 2) (e_tag e) (e_m12 e) (e_m13 e) (e_time e).
Proof.
  intros W os t n e H O E M G Hi He Hs Ht Hy HN. destruct (td_calls_fresh (truth W) os t H O) as [F _]. rewrite (td_value_truth W t _ n e F E G). unfold with_mistag, header_mistag, td_density.
  rewrite M. destruct (Rlt_dec 0 (1 / 2)); [|lra]. rewrite Hy, <- !point_rate_density. unfold point_rate, weight. rewrite Hi.
  set (A := dec_A (td_dp t) (e_m12 e) (e_m13 e)) in *. set (B := dec_B (td_dp t) (e_m12 e) (e_m13 e)) in *. destruct fix_values as (-> & -> & ->).
  set (N := norm2 A + norm2 B) in *. set (c3 := fst (cmult A (cconj B))). set (s := e_time e) in *. unfold rate. rewrite !Rmult_0_l.
  replace (0 / td_tau t) with 0 by (unfold Rdiv; ring). rewrite cosh_0, sinh_0. set (tau := td_tau t) in *. set (f := eff (td_dp t) (e_m12 e) (e_m13 e)) in *.
  set (u := 65 / 10000 * s / (4101 / 10000)). set (v := s / (4101 / 10000)).
  assert (C3 : Rabs (2 * c3) <= N).
  { unfold c3, N, norm2, cmult, cconj. cbn [fst snd]. apply Rabs_le. pose proof (pow2_ge_0 (fst A - fst B)). pose proof (pow2_ge_0 (snd A - snd B)).
    pose proof (pow2_ge_0 (fst A + fst B)). pose proof (pow2_ge_0 (snd A + snd B)). split; nra. }
  assert (U : 0 < u) by (unfold u; lra).
  assert (L : N * cosh u - 2 * c3 * sinh u <= N * exp u).
  { unfold cosh, sinh. apply Rabs_le_between in C3. pose proof (exp_pos (- u)). assert (exp (- u) < exp u) by (apply exp_increasing; lra). nra. }
  assert (X : exp (- v) * exp u < exp (- (s / tau))).
  { rewrite <- exp_plus. apply exp_increasing. assert (s / tau <= s * 2) by (unfold Rdiv; apply Rmult_le_compat_l; [lra|]; replace 2 with (/ (1 / 2)) by field; apply Rinv_le_contravar; lra).
    unfold u, v. lra. }
  pose proof (exp_pos (- v)) as P.
  assert (Y : exp (- v) * (N * cosh u - 2 * c3 * sinh u) < exp (- (s / tau)) * N).
  { apply Rle_lt_trans with (exp (- v) * (N * exp u)); [apply Rmult_le_compat_l; lra|]. nra. }
  assert (Y' : exp (- v) * (N * cosh u - 2 * c3 * sinh u) * f < exp (- (s / tau)) * N * f) by (apply Rmult_lt_compat_r; assumption).
  match goal with |- ?l < ?r => replace l with (exp (- v) * (N * cosh u - 2 * c3 * sinh u) * f) by field; replace r with (exp (- (s / tau)) * N * f) by field end. exact Y'.
Qed.
(** Nor is the variable the fraction with the right tag, as the header says: if it is 1 the value is that of the wrong tag. *)
Theorem C75_right_tag_refuted : forall W, exists t n e, td_honest ([] ++ [TdNormalize t]) /\
  nth_error (events (td_dp t)) n = Some (e_m12 e, e_m13 e) /\ e_tag e = 1%Z /\ 0 < e_mistag e <= 1 /\
  td_tau t = 4101 / 10000 /\ x_of t (e_tag e) = 39 / 10000 /\ y_of t (e_tag e) = 65 / 10000 /\
  td_value R_ops (truth W) t (fst (td_calls R_ops (truth W) ([] ++ [TdNormalize t]))) n e
  <> header_mistag t (e_mistag e) (e_tag e) (e_m12 e) (e_m13 e) (e_time e).
Proof.
  intros W. set (t := mkTd (one_res ordered one_cell) (4101 / 10000) (39 / 10000) (65 / 10000) 0 0 (1 / 2) 0 false). set (e := mkEvent 1 2 0 (1 / 10) 1 1%Z).
  assert (Hx : x_of t (e_tag e) = 39 / 10000) by (unfold x_of; cbn; ring). assert (Hy : y_of t (e_tag e) = 65 / 10000) by (unfold y_of; cbn; ring).
  exists t, O, e. split; [now apply one_honest|]. split; [reflexivity|]. split; [reflexivity|]. split; [cbn; lra|]. split; [reflexivity|]. split; [exact Hx|]. split; [exact Hy|].
  rewrite (C75_mixture_partial W [] t O e (one_honest t eq_refl)); [|intros ? []|reflexivity|cbn; lra|now left|reflexivity|exact Hx|exact Hy].
  unfold header_mistag. rewrite <- !point_rate_density. unfold point_rate, weight, rate. cbn [e e_m12 e_m13 e_time e_mistag e_tag inside eff td_dp t one_res].
  rewrite !Rmult_0_r. replace (0 / td_tau t) with 0 by (unfold Rdiv; ring). rewrite cosh_0, sinh_0, cos_0, sin_0, Ropp_0, exp_0.
  unfold dec_A, dec_B, amplitude, Ctotal, norm2, ordered. cbn [amps bw one_res length seq map fold_right nth t td_dp]. destruct (Rlt_dec 1 2); [|lra]. destruct (Rlt_dec 2 1); [lra|].
  unfold Cmult, Cplus, RtoC. cbn [fst snd]. lra.
Qed.
Example C75_ex : let t := mkTd (one_res ordered one_cell) (4101 / 10000) (39 / 10000) (65 / 10000) 0 0 (1 / 2) 0 false in let e := mkEvent 1 2 (1 / 3) (1 / 10) (1 / 5) 1%Z in
  td_honest ([] ++ [TdNormalize t]) /\ x_of t (e_tag e) = 39 / 10000 /\ y_of t (e_tag e) = 65 / 10000 /\ 0 <= e_mistag e.
Proof. cbv zeta. split; [now apply one_honest|]. unfold x_of, y_of. cbn. lra. Qed.

(** ** C76: the normalisation *)
(** For the true decay time: the integral over the decay time, and the sum over the cells, of the values given to events there, with the two
    tags in the given proportion and the mistag that the observable holds. *)
Theorem C76_truth_partial : forall W os t,
  td_honest (os ++ [TdNormalize t]) -> fractions_if_symmetric os ->
  let w := if td_in_limits t then td_mistag t else 0 in 0 <= w -> 0 < td_tau t -> -1 < y_of t 1 < 1 -> -1 < y_of t (-1) < 1 ->
  exists r, snd (td_calls R_ops (truth W) (os ++ [TdNormalize t])) = Some r /\
    over_decay_time (fun time => over_cells (range (td_dp t)) (fun m12 m13 =>
      td_d0 t * given (truth W) t w 1 m12 m13 time + (1 - td_d0 t) * given (truth W) t w (-1) m12 m13 time)) r.
Proof.
  intros W os t H O w Hw Ht Hp Hm. destruct (td_calls_fresh (truth W) os t H O) as [F ->]. eexists. split; [reflexivity|].
  destruct fix_values as (T1 & T2 & T3).
  refine (gen_ext _ _ _ _ _ _ _ eq_refl (td_total (truth W) (fun _ => 1) t _ F _ _ _)); try (apply truth_integrates; assumption).
  - intros time. rewrite Rmult_1_l. apply over_cells_ext. intros x y. fold w. rewrite !given_truth by (auto; tauto). reflexivity.
  - right. apply truth_integrates; rewrite ?T1, ?T3; lra.
Qed.
(** For any resolution whose own normalisation is the integral of the rate times an acceptance, without mistag. *)
Theorem C76_resolution_partial : forall res K os t,
  td_honest (os ++ [TdNormalize t]) -> fractions_if_symmetric os -> td_in_limits t = false \/ td_mistag t = 0 ->
  integrates res K (td_tau t) (x_of t 1) (y_of t 1) -> integrates res K (td_tau t) (x_of t (-1)) (y_of t (-1)) ->
  exists r, snd (td_calls R_ops res (os ++ [TdNormalize t])) = Some r /\
    over_decay_time (fun time => K time * over_cells (range (td_dp t)) (fun m12 m13 => td_mixture t m12 m13 time)) r.
Proof.
  intros res K os t H O Hw I1 I2. destruct (td_calls_fresh res os t H O) as [F ->]. eexists. split; [reflexivity|].
  assert (Z : (if td_in_limits t then td_mistag t else 0) = 0) by (destruct Hw as [-> | ->]; [reflexivity|]; destruct (td_in_limits t); reflexivity).
  refine (gen_ext _ _ _ _ _ _ _ eq_refl (td_total res K t _ F I1 I2 (or_introl Z))).
  intros time. f_equal. apply over_cells_ext. intros x y. rewrite Z. unfold with_mistag, td_mixture. ring.
Qed.
Corollary C76_three_gauss_partial : forall W cf tf cb cs tb ts ob os sb bias scale bias2 scale2 hs t,
  let res := three_gauss W cf tf cb cs tb ts ob os sb bias scale bias2 scale2 in let G := 1 / td_tau t in
  td_honest (hs ++ [TdNormalize t]) -> fractions_if_symmetric hs -> td_in_limits t = false \/ td_mistag t = 0 -> 0 < td_tau t ->
  (forall tag, tag = 1%Z \/ tag = (-1)%Z -> 0 < G + sb - y_of t tag * G /\ 0 < G + sb + y_of t tag * G) ->
  exists r, snd (td_calls R_ops res (hs ++ [TdNormalize t])) = Some r /\
    over_decay_time (fun time => exp (- sb * time) * over_cells (range (td_dp t)) (fun m12 m13 => td_mixture t m12 m13 time)) r.
Proof.
  intros W cf tf cb cs tb ts ob os sb bias scale bias2 scale2 hs t res G H O Hw Ht Hy. apply C76_resolution_partial; auto; intros A2 B2 ABr ABi; cbn [r_norm res three_gauss];
    [destruct (Hy 1%Z (or_introl eq_refl))|destruct (Hy (-1)%Z (or_intror eq_refl))]; now apply C69_true_time.
Qed.
Corollary C76_three_gauss_ext_partial : forall W cf tf cb cs tb ts ob os sb_low sb_high thres Ct hs t,
  let res := three_gauss_ext W cf tf cb cs tb ts ob os sb_low sb_high thres Ct in let G := 1 / td_tau t in
  td_honest (hs ++ [TdNormalize t]) -> fractions_if_symmetric hs -> td_in_limits t = false \/ td_mistag t = 0 -> 0 < td_tau t -> 0 <= thres ->
  (forall tag, tag = 1%Z \/ tag = (-1)%Z -> G + sb_low - y_of t tag * G <> 0 /\ G + sb_low + y_of t tag * G <> 0 /\ (G + sb_low) ^ 2 + (x_of t tag * G) ^ 2 <> 0 /\
     0 < G + sb_high - y_of t tag * G /\ 0 < G + sb_high + y_of t tag * G) ->
  exists r, snd (td_calls R_ops res (hs ++ [TdNormalize t])) = Some r /\
    over_decay_time (fun time => acceptance sb_low sb_high thres Ct time * over_cells (range (td_dp t)) (fun m12 m13 => td_mixture t m12 m13 time)) r.
Proof.
  intros W cf tf cb cs tb ts ob os sb_low sb_high thres Ct hs t res G H O Hw Ht Hth Hy. apply C76_resolution_partial; auto; intros A2 B2 ABr ABi; cbn [r_norm res three_gauss_ext];
    [destruct (Hy 1%Z (or_introl eq_refl)) as (? & ? & ? & ? & ?)|destruct (Hy (-1)%Z (or_intror eq_refl)) as (? & ? & ? & ? & ?)]; now apply C71_true_time.
Qed.
Lemma bins_one : forall lo12 up12 lo13 up13 f, bins (mkGrid lo12 up12 1 lo13 up13 1) f = f ((lo12 + up12) / 2) ((lo13 + up13) / 2).
Proof.
  intros. unfold bins, Rtotal, cell_IS, centre, of_nat. cbn [n12 n13 Nat.mul Nat.add seq map fold_right AmpModel.lo12 AmpModel.up12 AmpModel.lo13 AmpModel.up13 fst snd].
  change (0 mod 1)%nat with 0%nat. change (0 / 1)%nat with 0%nat. cbn [Z.of_nat Pos.of_succ_nat LeafGen.o_add LeafGen.o_sub LeafGen.o_mul LeafGen.o_div LeafGen.o_half LeafGen.o_ofZ R_ops].
  rewrite Rplus_0_r. f_equal; field.
Qed.
Lemma one_amplitude : forall b g x y, amplitude (one_res b g) x y = b x y.
Proof.
  intros b g x y. unfold amplitude, Ctotal. cbn [amps one_res length seq map fold_right nth bw]. destruct (b x y) as [u v]. unfold Cmult, Cplus, RtoC. cbn [fst snd]. f_equal; ring.
Qed.
(** The normalisation takes the mistag from the observable, not from the events: wrong when it holds another one than they do. *)
Theorem C76_mistag_refuted : forall W w d0, w <> 0 ->
  let t := mkTd (one_res (fun _ _ => (1, 0)) one_cell) 1 0 0 0 0 d0 w true in
  td_honest ([] ++ [TdNormalize t]) /\
  ~ exists r, snd (td_calls R_ops (truth W) ([] ++ [TdNormalize t])) = Some r /\
      over_decay_time (fun time => over_cells (range (td_dp t)) (fun m12 m13 =>
        td_d0 t * given (truth W) t 0 1 m12 m13 time + (1 - td_d0 t) * given (truth W) t 0 (-1) m12 m13 time)) r.
Proof.
  intros W w d0 Hw t. split; [now apply one_honest|]. intros (r & Hr & I).
  destruct (td_calls_fresh (truth W) [] t (one_honest t eq_refl)) as [F Q]; [intros ? []|]. rewrite Q in Hr. injection Hr as Hr. clear Q.
  set (k := fst (td_calls R_ops (truth W) ([] ++ [TdNormalize t]))) in *.
  set (t0 := mkTd (one_res (fun _ _ => (1, 0)) one_cell) 1 0 0 0 0 d0 w false).
  assert (I1 : integrates (truth W) (fun _ => 1) (td_tau t0) (x_of t0 1) (y_of t0 1)) by (apply truth_integrates; unfold y_of; cbn; lra).
  assert (I2 : integrates (truth W) (fun _ => 1) (td_tau t0) (x_of t0 (-1)) (y_of t0 (-1))) by (apply truth_integrates; unfold y_of; cbn; lra).
  pose proof (td_total (truth W) (fun _ => 1) t0 k F I1 I2 (or_introl eq_refl)) as P.
  assert (E : r = td_result R_ops (truth W) t0 k).
  { apply (unique_decay _ _ _ I). refine (gen_ext _ _ _ _ _ _ _ eq_refl P). intros time. rewrite Rmult_1_l. apply over_cells_ext. intros x y. rewrite !given_truth by (lra || tauto). reflexivity. }
  rewrite <- Hr, !result_value in E. cbn [td_in_limits td_mistag td_dp t t0] in E. unfold norm_of in E. fold t t0 in E.
  destruct (td_sums (td_dp t) k F) as (E1 & E2 & E3 & E4). cbn [td_dp t one_res range] in E1, E2, E3, E4. unfold one_cell in E1, E2, E3, E4. rewrite bins_one in E1, E2, E3, E4.
  unfold dec_A, dec_B in E1, E2, E3, E4. fold one_cell in E1, E2, E3, E4.
  change (mkCall [(1, 0)] (fun _ _ _ => (1, 0)) (fun _ _ => 1) (fun _ _ => true) one_cell [(1, 2)] true (fun _ => false)) with (one_res (fun _ _ => (1, 0)) one_cell) in *.
  rewrite !one_amplitude in E1, E2, E3, E4. unfold norm2, cmult, cconj, weight in E1, E2, E3, E4. cbn [fst snd inside eff one_res] in E1, E2, E3, E4.
  fold (one_res (fun _ _ => (1, 0)) one_cell) in *.
  rewrite E1, E2, E3, E4 in E. unfold truth in E. cbn [r_norm] in E. rewrite !truth_norm_value in E. destruct fix_values as (T1 & T2 & T3). rewrite T1, T2, T3 in E.
  unfold x_of, y_of, size12, size13, of_nat in E. cbn in E. lra.
Qed.
Lemma some_inj : forall a b : R, Some a = Some b -> a = b. Proof. now intros a b [= ->]. Qed.
(** The limits and bins are read at the first call only: after a change of the limits, even if announced, the integral is another one. *)
Theorem C76_range_refuted : forall W d0, let first := one_res (fun x _ => (x, 0)) one_cell in let then_ := one_res (fun x _ => (x, 0)) (mkGrid 0 2 1 0 2 1) in
  let t1 := mkTd first 1 0 0 0 0 d0 0 false in let t2 := mkTd then_ 1 0 0 0 0 d0 0 false in
  honest [first; then_] /\
  ~ exists r, snd (td_calls R_ops (truth W) [TdNormalize t1; TdNormalize t2]) = Some r /\
      over_decay_time (fun time => over_cells (range (td_dp t2)) (fun m12 m13 =>
        td_d0 t2 * given (truth W) t2 0 1 m12 m13 time + (1 - td_d0 t2) * given (truth W) t2 0 (-1) m12 m13 time)) r.
Proof.
  intros W d0 c1 c2 t1 t2. split; [split; [reflexivity|]; cbn; split; [now left|exact I]|]. intros (r & Hr & I).
  assert (Ty : forall tag, -1 < y_of t2 tag < 1) by (intros tag; unfold y_of; cbn [td_y td_dy t2]; lra).
  destruct (C76_truth_partial W [] t2 (one_honest t2 eq_refl)) as (r' & Hr' & I'); [intros ? []|cbn; lra|cbn; lra|apply Ty|apply Ty|].
  pose proof (unique_decay _ _ _ I I') as E. clear I I'.
  destruct (td_calls_fresh (truth W) [] t2 (one_honest t2 eq_refl)) as [F2 Q2]; [intros ? []|].
  destruct (td_calls_fresh (truth W) [] t1 (one_honest t1 eq_refl)) as [F1 _]; [intros ? []|].
  rewrite Q2 in Hr'. apply some_inj in Hr'. clear Q2.
  set (k2 := fst (td_calls R_ops (truth W) ([] ++ [TdNormalize t2]))) in *.
  assert (S : exists k, td_fresh c1 k /\ snd (td_calls R_ops (truth W) [TdNormalize t1; TdNormalize t2]) = Some (td_result R_ops (truth W) t2 k)).
  { exists (fst (td_calls R_ops (truth W) [TdNormalize t1; TdNormalize t2])). split; [|reflexivity]. split; [|split]; intros; reflexivity. }
  destruct S as (k & Fk & S). rewrite S in Hr. apply some_inj in Hr. rewrite <- Hr, <- Hr', !result_value in E. clear S Hr Hr'.
  destruct (td_sums c1 k Fk) as (E1 & E2 & E3 & E4). destruct (td_sums c2 k2 F2) as (G1 & G2 & G3 & G4).
  change (range c1) with one_cell in *. change (range c2) with (mkGrid 0 2 1 0 2 1) in *. unfold one_cell in E1, E2, E3, E4. rewrite bins_one in *.
  unfold dec_A, dec_B, c1, c2 in E1, E2, E3, E4, G1, G2, G3, G4. rewrite !one_amplitude in *.
  unfold norm2, cmult, cconj, weight in E1, E2, E3, E4, G1, G2, G3, G4. cbn [fst snd inside eff one_res] in E1, E2, E3, E4, G1, G2, G3, G4.
  unfold norm_of in E.
  change (td_sum R_ops (td_dp t2) k) with (td_sum R_ops (one_res (fun x _ => (x, 0)) one_cell) k) in E.
  change (td_sum R_ops (td_dp t2) k2) with (td_sum R_ops (one_res (fun x _ => (x, 0)) (mkGrid 0 2 1 0 2 1)) k2) in E.
  rewrite E1, E2, E3, E4, G1, G2, G3, G4 in E. unfold truth in E. cbn [r_norm] in E. rewrite !truth_norm_value in E.
  unfold x_of, y_of, size12, size13, of_nat in E. cbn in E. lra.
Qed.
Example C76_ex : let t := mkTd (one_res ordered one_cell) (2 / 5) (1 / 100) (1 / 100) 0 0 (1 / 2) (1 / 10) true in
  td_honest ([] ++ [TdNormalize t]) /\ 0 <= (if td_in_limits t then td_mistag t else 0) /\ 0 < td_tau t /\ -1 < y_of t 1 < 1 /\ -1 < y_of t (-1) < 1.
Proof. cbv zeta. split; [now apply one_honest|]. unfold y_of. cbn. lra. Qed.

(** ** C77: getFractions *)
(** What it returns: the interference terms summed over the cells, not yet divided by the total. *)
Theorem C77_integrals_partial : forall res os t i j, td_honest (os ++ [TdFractions t]) -> fractions_if_symmetric (os ++ [TdFractions t]) ->
  (i < length (amps (td_dp t)))%nat -> (j < length (amps (td_dp t)))%nat ->
  let g := range (td_dp t) in
  entry (snd (td_fractions R_ops t (fst (td_calls R_ops res os)))) i j * (((up12 g - lo12 g) / INR (n12 g)) * ((up13 g - lo13 g) / INR (n13 g)))
  = over_cells g (cross (td_dp t) i j).
Proof.
  intros res os t i j H O Hi Hj g.
  assert (F : td_fresh (td_dp t) (fst (td_fractions R_ops t (fst (td_calls R_ops res os))))).
  { apply td_fractions_fresh; [apply O, in_or_app; right; now left|]. apply (td_calls_ready res os (TdFractions t) H). intros t' Ht'. apply O, in_or_app. now left. }
  destruct F as (_ & FI & _). set (k := fst (td_calls R_ops res os)) in *. unfold td_fractions in *. cbn [fst snd] in *. set (k' := mkTdKept _ _ _) in *.
  unfold entry. rewrite nth_map_seq by exact Hi. rewrite nth_map_seq by exact Hj. rewrite FI by assumption. rewrite td_integral_value. unfold aa. cbn [fst snd].
  change (c_mul ?a ?b) with (Cmult a b). rewrite Ctotal_mult_l, Rtotal_fst. rewrite <- bins_over_cells. destruct (size_R g) as [-> ->]. rewrite Rmult_1_l. f_equal.
  unfold bins. apply Rtotal_ext. intros b _. fold g. set (x := fst (cell_IS R_ops g b)). set (y := snd (cell_IS R_ops g b)). unfold cross, weight, amp.
  change (c_zero R_ops) with (0, 0). destruct (nth i (amps (td_dp t)) (0, 0)) as [a1 a2], (nth j (amps (td_dp t)) (0, 0)) as [b1 b2], (bw (td_dp t) i x y) as [u1 u2], (bw (td_dp t) j x y) as [v1 v2].
  unfold c_conj, AmpModel.c_mul, cmult, cconj, Cmult, Cconj, RtoC. cbn [fst snd LeafGen.o_opp LeafGen.o_add LeafGen.o_sub LeafGen.o_mul R_ops]. destruct (inside (td_dp t) x y); ring.
Qed.
(** They are not the fractions: for one resonance the fraction is 1, the number returned the integral over the area of a cell. *)
Theorem C77_fractions_refuted : forall (res : time_resolution R) a, a <> 0 -> a * a <> 1 ->
  let t := mkTd (mkCall [(a, 0)] (fun _ _ _ => (1, 0)) (fun _ _ => 1) (fun _ _ => true) one_cell [] true (fun _ => false)) 1 0 0 0 0 (1 / 2) 0 false in
  td_honest ([] ++ [TdFractions t]) /\ symmetric (td_dp t) /\ fit_fraction (td_dp t) 0 0 = 1 /\
  entry (snd (td_fractions R_ops t (fst (td_calls R_ops res [])))) 0 0 <> fit_fraction (td_dp t) 0 0.
Proof.
  intros res a Ha Ha1 t.
  assert (H : td_honest ([] ++ [TdFractions t])) by (split; [split; [reflexivity|exact I]|]; intros x y [<-|[]] [<-|[]]; reflexivity).
  assert (S : symmetric (td_dp t)) by (repeat split).
  assert (V : over_cells (range (td_dp t)) (cross (td_dp t) 0 0) = a * a).
  { rewrite <- bins_over_cells. change (range (td_dp t)) with one_cell. unfold one_cell. rewrite bins_one. unfold cross, cmult, cconj, size12, size13, of_nat. cbn. field. }
  assert (D : over_cells (range (td_dp t)) (density (td_dp t)) = a * a).
  { rewrite <- bins_over_cells. change (range (td_dp t)) with one_cell. unfold one_cell. rewrite bins_one. unfold density, intensity, amplitude, Ctotal.
    cbn [td_dp t inside eff amps bw length seq map fold_right nth]. replace (Cplus (Cmult (a, 0) (1, 0)) (RtoC 0)) with (RtoC a) by (unfold Cplus, Cmult, RtoC; cbn [fst snd]; f_equal; ring).
    rewrite Cmod_R, pow2_abs. unfold size12, size13, of_nat. cbn. field. }
  assert (Fr : fit_fraction (td_dp t) 0 0 = 1) by (unfold fit_fraction; rewrite V, D; field; exact Ha).
  split; [exact H|]. split; [exact S|]. split; [exact Fr|]. rewrite Fr. intros Q.
  pose proof (C77_integrals_partial res [] t 0 0 H) as P. cbv zeta in P. rewrite V, Q in P. apply Ha1. rewrite <- P; [cbn; field| | |]; [|cbn; lia|cbn; lia].
  intros t' [E|[]]. injection E as <-. exact S.
Qed.
(** When the grid (or the efficiency) is not symmetric, getFractions spoils the integrals kept for normalize(): nothing changes between the two calls
    of normalize() here, and they give different numbers. *)
Definition two_res (f : bool) : call (T := R) :=
  mkCall [(1, 0); (1, 0)] (fun i x _ => match i with O => (1, 0) | _ => (0, x) end) (fun _ _ => 1) (fun _ _ => true) (mkGrid 0 1 1 0 3 1) [] f (fun _ => false).
Definition two_td (f : bool) : td_call (T := R) := mkTd (two_res f) 1 1 0 0 0 (1 / 2) 0 false.
Lemma two_integrals : forall f i j, td_integral R_ops (two_res f) (range (two_res f)) i j =
  (Cmult (bw (two_res f) i (1 / 2) (3 / 2)) (Cconj (bw (two_res f) j (1 / 2) (3 / 2))),
   Cmult (bw (two_res f) i (1 / 2) (3 / 2)) (Cconj (bw (two_res f) j (3 / 2) (1 / 2))),
   Cmult (bw (two_res f) i (3 / 2) (1 / 2)) (Cconj (bw (two_res f) j (3 / 2) (1 / 2)))).
Proof.
  intros f i j. rewrite td_integral_value. unfold Ctotal, cell_IS, centre, of_nat. cbn [two_res range n12 n13 Nat.mul Nat.add seq map fold_right lo12 lo13 up12 up13 fst snd].
  change (0 mod 1)%nat with 0%nat. change (0 / 1)%nat with 0%nat. cbn [Z.of_nat Pos.of_succ_nat LeafGen.o_add LeafGen.o_sub LeafGen.o_mul LeafGen.o_div LeafGen.o_half LeafGen.o_ofZ R_ops].
  replace ((1 - 0) / 1 * (0 + / 2) + 0) with (1 / 2) by field. replace ((3 - 0) / 1 * (0 + / 2) + 0) with (3 / 2) by field.
  unfold weight. cbn [inside eff]. change (RtoC 1) with (1%C). now rewrite !Cmult_1_r, !Cplus_0_r.
Qed.
Theorem C77_then_normalize_refuted : forall W, let h := [TdNormalize (two_td true)] in let h' := [TdNormalize (two_td true); TdFractions (two_td true); TdNormalize (two_td false)] in
  td_honest h' /\ exists r r', snd (td_calls R_ops (truth W) h) = Some r /\ snd (td_calls R_ops (truth W) h') = Some r' /\ r <> r'.
Proof.
  intros W h h'. split.
  { split; [split; [reflexivity|]|].
    - cbn. repeat split. { now left. } right. repeat split.
    - intros a b [<-|[<-|[<-|[]]]] [<-|[<-|[<-|[]]]]; reflexivity. }
  set (k := fst (td_calls R_ops (truth W) h)). set (k' := fst (td_calls R_ops (truth W) h')).
  exists (td_result R_ops (truth W) (two_td true) k), (td_result R_ops (truth W) (two_td false) k'). split; [reflexivity|]. split; [reflexivity|].
  assert (K : forall i j, i_kept k i j = td_integral R_ops (two_res true) (range (two_res true)) i j) by reflexivity.
  assert (K' : forall i j, i_kept k' i j = fold_left (f_step R_ops (two_res true) (range (two_res true))) (pairs 2) (i_kept k) i j) by reflexivity.
  assert (K00 : i_kept k' 0 0 = i_kept k 0 0) by (rewrite K'; reflexivity).
  assert (K01 : i_kept k' 0 1 = t_conj R_ops (i_kept k 1 0)) by (rewrite K'; reflexivity).
  assert (K10 : i_kept k' 1 0 = i_kept k 1 0) by (rewrite K'; reflexivity).
  assert (K11 : i_kept k' 1 1 = i_kept k 1 1) by (rewrite K'; reflexivity).
  assert (U : forall kk f part, td_sum R_ops (two_res f) kk part =
    Cplus (Cplus (part (i_kept kk 0%nat 0%nat)) (part (i_kept kk 0%nat 1%nat))) (Cplus (part (i_kept kk 1%nat 0%nat)) (part (i_kept kk 1%nat 1%nat)))).
  { intros kk f part. unfold td_sum. rewrite fold_total2. cbn [nres two_res amps length seq map fold_right]. change (c_zero R_ops) with (RtoC 0). unfold Ctotal. cbn [seq map fold_right amp two_res amps nth].
    assert (O1 : forall z : C, c_mul (c_mul (1, 0) (c_conj R_ops (1, 0))) z = z).
    { intros [u v]. unfold AmpModel.c_mul, c_conj. cbn [fst snd LeafGen.o_opp LeafGen.o_add LeafGen.o_sub LeafGen.o_mul R_ops]. f_equal; ring. }
    unfold amp. cbn [amps nth]. rewrite !O1. cring. }
  rewrite !result_value. unfold norm_of. cbn [td_dp two_td td_in_limits]. rewrite !U. rewrite K00, K01, K10, K11, !K, !two_integrals.
  unfold t_conj, aa, ab, bb. cbn [fst snd bw two_res]. unfold c_conj, Cmult, Cconj, Cplus. cbn [fst snd LeafGen.o_opp R_ops]. unfold truth. cbn [r_norm]. rewrite !truth_norm_value.
  unfold x_of, y_of, size12, size13, of_nat. cbn. lra.
Qed.

(** ** C78: the cached waves of several PDFs *)
Theorem C78_own_waves_partial : forall pdfs a0, (forall p, In p pdfs -> (p < 20)%nat) ->
  exists a, set_all pdfs a0 = Some a /\ forall p i, In p pdfs -> (i < 16)%nat -> read_wave p i a = Some (p, i).
Proof.
  intros pdfs. induction pdfs as [|q pdfs IH] using rev_ind; intros a0 H; [exists a0; split; [reflexivity|intros p i []]|].
  destruct (IH a0) as (a & E & P); [intros; apply H, in_or_app; now left|]. unfold set_all in *. rewrite fold_left_app, E. cbn [fold_left]. unfold set_data_size, cw_size.
  assert (q < 20)%nat by (apply H, in_or_app; right; now left). destruct (Nat.leb_spec (16 * q + 16) 320); [|lia]. eexists. split; [reflexivity|].
  intros p i Hp Hi. unfold read_wave, cw_size in *. assert (p < 20)%nat by (now apply H). destruct (Nat.ltb_spec (i + 16 * p) 320); [|lia].
  destruct (Nat.leb_spec (16 * q) (i + 16 * p)), (Nat.ltb_spec (i + 16 * p) (16 * q + 16)); cbn [andb].
  1: assert (p = q) by lia; subst; repeat f_equal; lia.
  all: apply in_app_or in Hp; destruct Hp as [Hp|[<-|[]]]; [|lia]; specialize (P p i Hp Hi); destruct (Nat.ltb_spec (i + 16 * p) 320); [exact P|lia].
Qed.
(** Resonance 16 and the following of one PDF are resonances 0 and the following of the next. *)
Theorem C78_many_resonances_refuted : forall pdfs a0 p i, (forall q, In q pdfs -> (q < 20)%nat) -> In (S p) pdfs -> (16 <= i < 32)%nat ->
  exists a, set_all pdfs a0 = Some a /\ read_wave p i a = Some (S p, i - 16)%nat.
Proof.
  intros pdfs a0 p i H Hp Hi. destruct (C78_own_waves_partial pdfs a0 H) as (a & E & P). exists a. split; [exact E|].
  specialize (P (S p) (i - 16)%nat Hp ltac:(lia)). unfold read_wave in *. replace (i - 16 + 16 * S p)%nat with (i + 16 * p)%nat in P by lia. exact P.
Qed.
(** The twenty-first PDF writes beyond the array. *)
Theorem C78_many_pdfs_refuted : forall pdfs a0 p, In p pdfs -> (20 <= p)%nat -> set_all pdfs a0 = None.
Proof.
  intros pdfs a0 p Hp H. unfold set_all. assert (N : forall l, fold_left (fun a p => match a with Some a => set_data_size p a | None => None end) l None = None) by (induction l; auto).
  revert a0. induction pdfs as [|q pdfs IH]; intros a0; [destruct Hp|]. cbn [fold_left]. destruct (set_data_size q a0) as [a|] eqn:E; [|apply N].
  destruct Hp as [-> |Hp]; [|now apply IH]. unfold set_data_size, cw_size in E. destruct (Nat.leb_spec (16 * p + 16) 320); [lia|discriminate].
Qed.
Example C78_ex : exists a, set_all [0; 1; 19]%nat (fun _ => None) = Some a /\ read_wave 19 15 a = Some (19, 15)%nat /\ read_wave 0 16 a = Some (1, 0)%nat /\ read_wave 1 16 a = None.
Proof. eexists. split; [reflexivity|]. split; [reflexivity|]. split; reflexivity. Qed.

Print Assumptions C74_value_partial.
Print Assumptions C74_resolution_partial.
Print Assumptions C74_smeared_partial.
Print Assumptions C74_not_negative.
Print Assumptions C74_header_refuted.
Print Assumptions C75_mixture_partial.
Print Assumptions C75_lifetime_refuted.
Print Assumptions C75_right_tag_refuted.
Print Assumptions C76_truth_partial.
Print Assumptions C76_resolution_partial.
Print Assumptions C76_three_gauss_partial.
Print Assumptions C76_three_gauss_ext_partial.
Print Assumptions C76_mistag_refuted.
Print Assumptions C76_range_refuted.
Print Assumptions C77_integrals_partial.
Print Assumptions C77_fractions_refuted.
Print Assumptions C77_then_normalize_refuted.
Print Assumptions C78_own_waves_partial.
Print Assumptions C78_many_resonances_refuted.
Print Assumptions C78_many_pdfs_refuted.
