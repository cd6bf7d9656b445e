(** Rounding-error analysis of the bin arithmetic: which bin a value falls in, bin centres, bin volumes. *)
From Coq Require Import List ZArith Bool Lia Reals Lra.
From Flocq Require Import Core BinarySingleNaN.
From Verif Require Import F64 F64Lemmas F64Err ListAux VariableModel DataSetModel BinModel BinSpec BinProofs.
Import ListNotations.
Open Scope R_scope.

Lemma pow_bpow : forall n, 2 ^ n = bpow radix2 (Z.of_nat n).
Proof.
  intros n. induction n as [|n IH]; [reflexivity|].
  rewrite Nat2Z.inj_succ. unfold Z.succ. rewrite bpow_plus. rewrite <- IH.
  change (bpow radix2 1) with 2. simpl. lra.
Qed.
Lemma pow_bpow_inv : forall n, / 2 ^ n = bpow radix2 (- Z.of_nat n).
Proof. intros n. rewrite bpow_opp, <- pow_bpow. reflexivity. Qed.

Lemma ratio_bound : forall u a b c d, 0 <= u <= / 1000000 -> Rabs a <= u -> Rabs b <= u -> Rabs c <= u -> Rabs d <= u ->
  Rabs ((1 + c) * (1 + d) / ((1 + a) * (1 + b)) - 1) <= 5 * u.
Proof.
  intros u a b c d Hu Ha Hb Hc Hd.
  apply Rabs_le_inv in Ha, Hb, Hc, Hd.
  assert (P : 1 - 3 * u <= (1 + a) * (1 + b)) by nra.
  assert (Q : 0 < (1 + a) * (1 + b)) by nra.
  replace ((1 + c) * (1 + d) / ((1 + a) * (1 + b)) - 1) with
    (((1 + c) * (1 + d) - (1 + a) * (1 + b)) * / ((1 + a) * (1 + b))) by (field; nra).
  rewrite Rabs_mult, (Rabs_right (/ _)) by (apply Rle_ge; left; apply Rinv_0_lt_compat; auto).
  apply Rmult_le_reg_r with ((1 + a) * (1 + b)); auto.
  rewrite Rmult_assoc, Rinv_l, Rmult_1_r by lra.
  apply Rle_trans with (4 * u + 2 * (u * u)).
  - apply Rabs_le. split; nra.
  - nra.
Qed.

Section OneObservable.
Variables (lo up : f64) (n : Z).
Hypothesis U : usable lo up n.

Local Notation l := (B2R lo).
Local Notation h := (B2R up).
Local Notation w := (width (B2R lo) (B2R up) n).

Lemma U' : is_finite lo = true /\ is_finite up = true /\ (1 <= n <= 2 ^ 32)%Z /\
  - bpow radix2 1021 <= l /\ l < h /\ h <= bpow radix2 1021 /\ bpow radix2 (-1000) <= w.
Proof.
  destruct U as (A & B & C & D & E & F & G). rewrite pow_bpow in D, F. rewrite pow_bpow_inv in G.
  repeat split; try assumption; apply C.
Qed.

Lemma n_pos : 1 <= IZR n. Proof. destruct U' as (_ & _ & Hn & _). apply IZR_le. lia. Qed.
Lemma n_le : IZR n <= 4294967296. Proof. destruct U' as (_ & _ & Hn & _). apply IZR_le. lia. Qed.
Lemma w_eq : h - l = IZR n * w. Proof. unfold width. pose proof n_pos. field. lra. Qed.
Lemma w_pos : 0 < w.
Proof. destruct U' as (_ & _ & _ & _ & H & _). pose proof n_pos. unfold width. apply Rdiv_lt_0_compat; lra. Qed.
Lemma w_low : bpow radix2 (-1000) <= w.
Proof. apply U'. Qed.
Lemma span_le2 : h - l <= bpow radix2 1022.
Proof.
  destruct U' as (_ & _ & _ & H1 & _ & H2 & _).
  change 1022%Z with (1021 + 1)%Z. rewrite bpow_plus. change (bpow radix2 1) with 2. lra.
Qed.
Lemma span_le : h - l <= bpow radix2 1023.
Proof. eapply Rle_trans; [apply span_le2|]. apply bpow_le. lia. Qed.
Lemma w_le_span : w <= h - l.
Proof. rewrite w_eq. pose proof n_pos. pose proof w_pos. nra. Qed.
Lemma fin_lo : is_finite lo = true. Proof. apply U'. Qed.
Lemma fin_up : is_finite up = true. Proof. apply U'. Qed.

Lemma uro_b : 0 <= uro <= / 1000000.
Proof. pose proof uro_pos. pose proof uro_small. split; [lra|]. eapply Rle_trans; [exact H0|]. apply Rinv_le; lra. Qed.

Lemma f_of_n : B2R (f_of_Z n) = IZR n /\ is_finite (f_of_Z n) = true.
Proof. apply f_of_Z_exact. destruct U' as (_ & _ & Hn & _). lia. Qed.

(** The bin size is the width up to relative errors. *)
Lemma bin_size_err : is_finite (bin_size lo up n) = true /\
  exists d1 d2, Rabs d1 <= uro /\ Rabs d2 <= uro /\ B2R (bin_size lo up n) = w * ((1 + d1) * (1 + d2)).
Proof.
  unfold bin_size. pose proof n_pos as HN. pose proof w_pos as HW. pose proof w_low as HWl.
  pose proof span_le as HS. pose proof uro_b as Hu. pose proof w_le_span as HWs.
  destruct (fsub_err up lo fin_up fin_lo) as (F & d1 & D1 & E1).
  { fold l h. rewrite Rabs_right; [exact HS|]. rewrite w_eq. apply Rle_ge. apply Rmult_le_pos; lra. }
  destruct f_of_n as [En Fn].
  assert (Eq : B2R (fsub up lo) / B2R (f_of_Z n) = w * (1 + d1)).
  { rewrite E1, En, w_eq. field. lra. }
  apply Rabs_le_inv in D1 as D1'.
  assert (B : 0 < w * (1 + d1)) by nra.
  destruct (fdiv_rnd (fsub up lo) (f_of_Z n) F) as [F2 E2].
  { rewrite En. lra. }
  { rewrite Eq. rewrite Rabs_right by lra.
    assert (w * (1 + d1) <= B2R (fsub up lo)) by (rewrite E1, w_eq; nra).
    (* rounding of up - lo stays below 2^1023 *)
    eapply Rle_trans; [exact H|].
    destruct (fsub_rnd up lo fin_up fin_lo) as [_ E1'].
    { fold l h. rewrite Rabs_right; [exact HS|]. rewrite w_eq. apply Rle_ge. apply Rmult_le_pos; lra. }
    rewrite E1'. fold l h.
    rewrite <- (rnd_format (bpow radix2 1023)). apply rnd_le; exact HS.
    apply generic_format_bpow. change (SpecFloat.fexp 53 1024) with (FLT_exp (-1074) 53). unfold FLT_exp. lia. }
  split; [exact F2|].
  destruct (rnd_rel (w * (1 + d1))) as (d2 & D2 & E3).
  { rewrite Rabs_right by lra. apply Rle_trans with (bpow radix2 (-1000) * / 2).
    - change (/ 2) with (bpow radix2 (-1)). rewrite <- bpow_plus. apply bpow_le. lia.
    - nra. }
  exists d1, d2. split; [exact D1|]. split; [exact D2|]. rewrite E2, Eq, E3. ring.
Qed.

Lemma bin_size_pos : 0 < B2R (bin_size lo up n).
Proof.
  destruct bin_size_err as (_ & d1 & d2 & D1 & D2 & E). rewrite E. pose proof uro_b. pose proof w_pos.
  apply Rabs_le_inv in D1, D2. apply Rmult_lt_0_compat; [lra|nra].
Qed.

(** The quotient whose floor is the bin. *)
Definition quotient (v : f64) : f64 := fdiv (fsub v lo) (bin_size lo up n).

Lemma quotient_err : forall v, is_finite v = true -> l <= B2R v <= h ->
  is_finite (quotient v) = true /\ 0 <= B2R (quotient v) /\
  Rabs (B2R (quotient v) - (B2R v - l) / w) <= 6 * uro * IZR n.
Proof.
  intros v Fv [Hl Hh]. unfold quotient. pose proof n_pos as HN. pose proof w_pos as HW. pose proof uro_b as Hu.
  pose proof span_le as HS. pose proof n_le as HNl.
  destruct (fsub_err v lo Fv fin_lo) as (F & d3 & D3 & E3).
  { rewrite Rabs_right; lra. }
  destruct bin_size_err as (Fs & d1 & d2 & D1 & D2 & Es).
  set (x := (B2R v - l) / w).
  assert (Hx : 0 <= x <= IZR n).
  { unfold x. split. apply Rmult_le_pos; [lra|left; apply Rinv_0_lt_compat; auto].
    apply Rmult_le_reg_r with w; auto. unfold Rdiv. rewrite Rmult_assoc, Rinv_l, Rmult_1_r by lra.
    rewrite <- w_eq. lra. }
  apply Rabs_le_inv in D1 as D1', D2 as D2', D3 as D3'.
  assert (P : 0 < (1 + d1) * (1 + d2)) by nra.
  assert (Eq : B2R (fsub v lo) / B2R (bin_size lo up n) = x * ((1 + d3) / ((1 + d1) * (1 + d2)))).
  { rewrite E3, Es. unfold x. field. repeat split; try lra; nra. }
  assert (R0 : Rabs ((1 + d3) * (1 + 0) / ((1 + d1) * (1 + d2)) - 1) <= 5 * uro).
  { apply ratio_bound; auto; try lra. rewrite Rabs_R0. lra. }
  rewrite Rplus_0_r, Rmult_1_r in R0.
  apply Rabs_le_inv in R0. pose proof uro_small as Hus.
  assert (Hq0 : 0 <= B2R (fsub v lo) / B2R (bin_size lo up n)).
  { rewrite Eq. apply Rmult_le_pos; [lra|]. lra. }
  assert (Hq1 : B2R (fsub v lo) / B2R (bin_size lo up n) <= bpow radix2 1023).
  { rewrite Eq. apply Rle_trans with (IZR n * 2). apply Rmult_le_compat; lra.
    apply Rle_trans with (bpow radix2 33). change (bpow radix2 33) with 8589934592. lra.
    apply bpow_le. lia. }
  destruct (fdiv_rnd (fsub v lo) (bin_size lo up n) F) as [F2 E2].
  { pose proof bin_size_pos. lra. }
  { rewrite Rabs_right; lra. }
  split; [exact F2|]. rewrite E2. split.
  { rewrite <- rnd_0. apply rnd_le. exact Hq0. }
  destruct (rnd_err (B2R (fsub v lo) / B2R (bin_size lo up n))) as (d4 & e & D4 & De & E4).
  rewrite E4, Eq.
  replace (x * ((1 + d3) / ((1 + d1) * (1 + d2))) * (1 + d4) + e - x)
    with (x * ((1 + d3) * (1 + d4) / ((1 + d1) * (1 + d2)) - 1) + e) by (field; nra).
  eapply Rle_trans; [apply Rabs_triang|].
  rewrite Rabs_mult. rewrite (Rabs_right x) by lra.
  pose proof (ratio_bound uro d1 d2 d3 d4 Hu D1 D2 D3 D4) as R1.
  assert (He : Rabs e <= uro * IZR n).
  { eapply Rle_trans; [exact De|]. apply Rle_trans with uro.
    unfold eta0, uro. apply bpow_le. lia. pose proof uro_pos. nra. }
  assert (x * Rabs ((1 + d3) * (1 + d4) / ((1 + d1) * (1 + d2)) - 1) <= IZR n * (5 * uro)).
  { apply Rmult_le_compat; try lra. apply Rabs_pos. }
  lra.
Qed.

Lemma margin_eq : margin n = 8 * uro * IZR n.
Proof. unfold margin. rewrite uro_val. change (IZR (2^53)) with 9007199254740992. 
  replace (2 ^ 50) with 1125899906842624 by (rewrite pow_bpow; reflexivity). field. Qed.
Lemma margin_small : 0 < margin n < / 1000.
Proof.
  rewrite margin_eq. pose proof n_le. pose proof n_pos. pose proof uro_pos. split; [nra|].
  rewrite uro_val. change (IZR (2^53)) with 9007199254740992. lra.
Qed.

Lemma clamp_id : forall v, is_finite v = true -> l <= B2R v <= h -> std_min (std_max v lo) up = v.
Proof.
  intros v Fv [Hl Hh]. unfold std_max, std_min.
  rewrite (proj2 (flt_false_spec v lo Fv fin_lo)) by exact Hl.
  rewrite (proj2 (flt_false_spec up v fin_up Fv)) by exact Hh. reflexivity.
Qed.

Lemma value_to_bin_floor : forall v, is_finite v = true -> l <= B2R v <= h ->
  exists k, value_to_bin lo up n v = BOk k /\ (0 <= k <= n)%Z /\ k = Zfloor (B2R (quotient v)).
Proof.
  intros v Fv Hv. destruct (quotient_err v Fv Hv) as (Fq & Hq & Eq).
  unfold value_to_bin. rewrite clamp_id by auto. fold (quotient v).
  unfold floor_to_size_t. rewrite ffloorZ_spec. change (f_isfinite (quotient v)) with (is_finite (quotient v)). rewrite Fq.
  exists (Zfloor (B2R (quotient v))).
  assert (H0 : (0 <= Zfloor (B2R (quotient v)))%Z) by (apply Zfloor_lub; exact Hq).
  assert (Hx : (B2R v - l) / w <= IZR n).
  { pose proof w_pos. apply Rmult_le_reg_r with w; auto. unfold Rdiv. rewrite Rmult_assoc, Rinv_l, Rmult_1_r by lra.
    rewrite <- w_eq. lra. }
  assert (H1 : (Zfloor (B2R (quotient v)) <= n)%Z).
  { apply Zlt_succ_le. apply lt_IZR. apply Rle_lt_trans with (B2R (quotient v)). apply Zfloor_lb.
    rewrite succ_IZR. apply Rabs_le_inv in Eq. pose proof margin_small as M. rewrite margin_eq in M.
    pose proof n_pos. pose proof uro_pos. nra. }
  assert (Hn : (n <= 2 ^ 32)%Z) by (destruct U' as (_ & _ & ? & _); lia).
  split; [|split; [lia|reflexivity]].
  replace (0 <=? Zfloor (B2R (quotient v)))%Z with true by (symmetry; apply Z.leb_le; lia).
  replace (Zfloor (B2R (quotient v)) <? 2 ^ 64)%Z with true by (symmetry; apply Z.ltb_lt; lia). reflexivity.
Qed.

Lemma edge_0 : edge l h n 0 = l. Proof. unfold edge. lra. Qed.
Lemma edge_le : forall k, (0 <= k <= n)%Z -> l <= edge l h n k <= h.
Proof.
  intros k Hk. unfold edge. pose proof w_pos. pose proof w_eq.
  assert (0 <= IZR k <= IZR n) by (split; apply IZR_le; lia). split; nra.
Qed.

Lemma inside_limits : forall k v, inside lo up n k v -> is_finite v = true /\ l <= B2R v <= h.
Proof.
  intros k v (Fv & Hk & Hlow & Hup). unfold f2R in *. split; [exact Fv|].
  pose proof (edge_le k ltac:(lia)). pose proof (edge_le (k+1) ltac:(lia)). pose proof w_pos. pose proof margin_small.
  split.
  - destruct Hlow as [[_ H3]|H3]; [exact H3|nra].
  - nra.
Qed.

Lemma value_in_bin : forall k v, inside lo up n k v -> value_to_bin lo up n v = BOk k.
Proof.
  intros k v H. destruct (inside_limits k v H) as [Fv Hv].
  destruct (value_to_bin_floor v Fv Hv) as (k' & E & _ & Ek). rewrite E. f_equal. subst k'.
  destruct (quotient_err v Fv Hv) as (Fq & Hq & Eq). apply Rabs_le_inv in Eq.
  destruct H as (_ & Hk & Hlow & Hup). unfold f2R in *. 
  pose proof w_pos as HW. pose proof margin_eq as M. pose proof margin_small as Ms. pose proof n_pos. pose proof uro_pos.
  assert (Hx2 : (B2R v - l) / w <= IZR k + 1 - margin n).
  { apply Rmult_le_reg_r with w; auto. unfold Rdiv. rewrite Rmult_assoc, Rinv_l, Rmult_1_r by lra.
    unfold edge in Hup. rewrite plus_IZR in Hup. lra. }
  apply Zfloor_imp. rewrite plus_IZR. split; [|nra].
  destruct Hlow as [[-> _]|Hlow]; [exact Hq|].
  assert (Hx1 : IZR k + margin n <= (B2R v - l) / w).
  { apply Rmult_le_reg_r with w; auto. unfold Rdiv. rewrite Rmult_assoc, Rinv_l, Rmult_1_r by lra.
    unfold edge in Hlow. lra. }
  nra.
Qed.

(** *** Bin centres *)
Definition biggest : R := Rmax (Rabs l) (Rabs h).
Lemma biggest_pos : 0 < biggest.
Proof.
  unfold biggest. pose proof w_pos. pose proof w_le_span.
  destruct (Rle_or_lt 0 h).
  - destruct (Req_dec h 0).
    + apply Rlt_le_trans with (Rabs l); [|apply Rmax_l]. apply Rabs_pos_lt. lra.
    + apply Rlt_le_trans with (Rabs h); [|apply Rmax_r]. apply Rabs_pos_lt. lra.
  - apply Rlt_le_trans with (Rabs h); [|apply Rmax_r]. apply Rabs_pos_lt. lra.
Qed.
Lemma between_biggest : forall x, l <= x <= h -> Rabs x <= biggest.
Proof.
  intros x Hx. unfold biggest. apply Rabs_le.
  pose proof (Rmax_l (Rabs l) (Rabs h)). pose proof (Rmax_r (Rabs l) (Rabs h)).
  pose proof (Rle_abs h). pose proof (Rle_abs (- l)). rewrite Rabs_Ropp in H2. lra.
Qed.
Lemma biggest_le : biggest <= bpow radix2 1021.
Proof.
  unfold biggest. destruct U' as (_ & _ & _ & H1 & H & H2 & _). apply Rmax_lub; apply Rabs_le; lra.
Qed.

Lemma half_plus : forall k, (0 <= k < 2 ^ 33)%Z ->
  is_finite (fadd (f_of_Z k) fhalf) = true /\ B2R (fadd (f_of_Z k) fhalf) = IZR k + / 2.
Proof.
  intros k Hk. destruct (f_of_Z_exact k ltac:(lia)) as [Ek Fk].
  assert (Fh : is_finite fhalf = true) by reflexivity.
  assert (Eh : B2R fhalf = / 2).
  { unfold fhalf, f_of_ZE.
    pose proof (binary_normalize_correct 53 1024 f64_prec_gt f64_prec_lt mode_NE 1 (-1) false) as H. cbv zeta in H.
    assert (Eg : F2R (Float radix2 1 (-1)) = bpow radix2 (-1)) by (unfold F2R; cbn [Fnum Fexp]; ring).
    rewrite Eg in H. rewrite Rlt_bool_true in H.
    - destruct H as [H _]. rewrite H. rewrite round_generic. reflexivity. apply valid_rnd_round_mode.
      apply generic_format_bpow. change (SpecFloat.fexp 53 1024) with (FLT_exp (-1074) 53). unfold FLT_exp. lia.
    - apply rnd_no_ovf. rewrite Rabs_right by (apply Rle_ge, bpow_ge_0). apply bpow_le. lia. }
  assert (B : 0 <= IZR k <= 8589934592) by (split; apply IZR_le; lia).
  destruct (fadd_rnd (f_of_Z k) fhalf Fk Fh) as [F E].
  { rewrite Ek, Eh. rewrite Rabs_right by lra. apply Rle_trans with (bpow radix2 34).
    change (bpow radix2 34) with 17179869184. lra. apply bpow_le. lia. }
  split; [exact F|]. rewrite E, Ek, Eh. apply rnd_format.
  change (SpecFloat.fexp 53 1024) with (FLT_exp (-1074) 53). apply generic_format_FLT.
  apply FLT_spec with (Float radix2 (2 * k + 1) (-1)).
  - unfold F2R. cbn [Fnum Fexp]. rewrite plus_IZR, mult_IZR. change (bpow radix2 (-1)) with (/ 2). lra.
  - cbn [Fnum]. rewrite Z.abs_eq by lia. change (radix_val radix2 ^ 53)%Z with (2^53)%Z. lia.
  - simpl. lia.
Qed.

Lemma center_err : forall k, (0 <= k < n)%Z ->
  is_finite (bin_center lo up n k) = true /\
  Rabs (B2R (bin_center lo up n k) - midpoint l h n k) <= 12 * uro * biggest.
Proof.
  intros k Hk. unfold bin_center.
  assert (Hn : (n <= 2 ^ 32)%Z) by (destruct U' as (_ & _ & ? & _); lia).
  destruct (half_plus k ltac:(lia)) as [Fh Eh].
  destruct bin_size_err as (Fs & d1 & d2 & D1 & D2 & Es).
  pose proof uro_b as Hu. pose proof uro_small as Hus. pose proof w_pos as HW. pose proof n_pos as HN. pose proof w_eq as Hw.
  pose proof biggest_pos as HB. pose proof biggest_le as HBl.
  assert (Hspan : h - l <= 2 * biggest).
  { pose proof (between_biggest l). pose proof (between_biggest h). pose proof (Rle_abs h). pose proof (Rle_abs (-l)).
    rewrite Rabs_Ropp in H2. lra. }
  assert (Hk0 : / 2 <= IZR k + / 2 <= IZR n).
  { assert (0 <= IZR k) by (apply IZR_le; lia). assert (IZR (k + 1) <= IZR n) by (apply IZR_le; lia).
    rewrite plus_IZR in H0. lra. }
  set (x := IZR k + / 2) in *.
  set (P := B2R (bin_size lo up n) * B2R (fadd (f_of_Z k) fhalf)).
  apply Rabs_le_inv in D1 as D1', D2 as D2'.
  assert (EP : P = w * x * ((1 + d1) * (1 + d2))) by (unfold P; rewrite Es, Eh; ring).
  assert (Hwx : 0 < w * x <= h - l) by (rewrite Hw; split; nra).
  assert (H12 : 1 - 3 * uro <= (1 + d1) * (1 + d2) <= 1 + 3 * uro) by (split; nra).
  assert (HP : w * x * / 2 <= P <= 2 * (h - l)) by (rewrite EP; split; nra).
  assert (Hmin : bpow radix2 (-1002) <= w * x * / 2).
  { apply Rle_trans with (bpow radix2 (-1000) * / 2 * / 2).
    - change (/ 2) with (bpow radix2 (-1)). rewrite <- !bpow_plus. apply bpow_le. lia.
    - pose proof w_low. pose proof (bpow_gt_0 radix2 (-1000)). nra. }
  pose proof (bpow_gt_0 radix2 (-1002)) as Hb.
  destruct (fmul_err (bin_size lo up n) (fadd (f_of_Z k) fhalf) Fs Fh) as (Fm & d3 & D3 & Em).
  { fold P. rewrite Rabs_right by lra. pose proof span_le2.
    apply Rle_trans with (2 * bpow radix2 1022); [lra|]. change 2 with (bpow radix2 1). rewrite <- bpow_plus. apply bpow_le. lia. }
  { fold P. rewrite Rabs_right by lra. apply Rle_trans with (bpow radix2 (-1002)); [apply bpow_le; lia|lra]. }
  fold P in Em. apply Rabs_le_inv in D3 as D3'.
  set (m := fmul (bin_size lo up n) (fadd (f_of_Z k) fhalf)) in *.
  assert (H3 : Rabs ((1 + d1) * (1 + d2) * (1 + d3) - 1) <= 4 * uro) by (apply Rabs_le; split; nra).
  assert (Hm : Rabs (B2R m - w * x) <= 8 * uro * biggest).
  { rewrite Em, EP. replace (w * x * ((1 + d1) * (1 + d2)) * (1 + d3) - w * x)
      with (w * x * ((1 + d1) * (1 + d2) * (1 + d3) - 1)) by ring.
    rewrite Rabs_mult, (Rabs_right (w * x)) by lra.
    apply Rle_trans with ((h - l) * (4 * uro)); [apply Rmult_le_compat; try lra; apply Rabs_pos|]. nra. }
  apply Rabs_le_inv in Hm as Hm'.
  assert (Hmid : Rabs (l + w * x) <= biggest) by (apply between_biggest; lra).
  apply Rabs_le_inv in Hmid as Hmid'.
  assert (Hsum : Rabs (B2R m + l) <= (1 + 8 * uro) * biggest) by (apply Rabs_le; lra).
  destruct (fadd_err m lo Fm fin_lo) as (Fc & d4 & D4 & Ec).
  { eapply Rle_trans; [exact Hsum|]. apply Rle_trans with (2 * bpow radix2 1021).
    - assert (8 * uro <= 1) by lra. nra.
    - change 2 with (bpow radix2 1). rewrite <- bpow_plus. apply bpow_le. lia. }
  split; [exact Fc|]. rewrite Ec.
  replace (midpoint l h n k) with (l + w * x) by (unfold midpoint, x; ring).
  replace ((B2R m + l) * (1 + d4) - (l + w * x)) with ((B2R m - w * x) + (B2R m + l) * d4) by ring.
  eapply Rle_trans; [apply Rabs_triang|].
  assert (Rabs ((B2R m + l) * d4) <= (1 + 8 * uro) * biggest * uro).
  { rewrite Rabs_mult. apply Rmult_le_compat; auto; apply Rabs_pos. }
  assert ((1 + 8 * uro) * biggest * uro <= 4 * uro * biggest).
  { pose proof uro_pos. assert (1 + 8 * uro <= 4) by lra. nra. }
  lra.
Qed.

(** The bin found for a bin centre is that bin, when a bin is not lost in the rounding of the limits. *)
Lemma center_inside : forall k, (0 <= k < n)%Z -> biggest <= 2 ^ 46 * w -> inside lo up n k (bin_center lo up n k).
Proof.
  intros k Hk HB. destruct (center_err k Hk) as [Fc Ec].
  pose proof w_pos as HW. pose proof margin_small as M.
  assert (HE : 12 * uro * biggest <= / 4 * w).
  { apply Rle_trans with (12 * uro * (2 ^ 46 * w)). apply Rmult_le_compat_l; [pose proof uro_pos; lra|exact HB].
    replace (2 ^ 46) with 70368744177664 by (rewrite pow_bpow; reflexivity). rewrite uro_val. change (IZR (2^53)) with 9007199254740992. nra. }
  apply Rabs_le_inv in Ec. unfold midpoint in Ec.
  split; [exact Fc|]. split; [exact Hk|]. unfold f2R, edge. rewrite plus_IZR. split; [right|]; nra.
Qed.
Lemma center_bin : forall k, (0 <= k < n)%Z -> biggest <= 2 ^ 46 * w -> value_to_bin lo up n (bin_center lo up n k) = BOk k.
Proof. intros k Hk HB. apply value_in_bin. apply center_inside; auto. Qed.
End OneObservable.

(** *** Volumes *)
Lemma rel_step : forall u j r a b c, 0 < u -> 0 <= j -> 4 * j * u <= / 10 -> u <= / 1000000 ->
  Rabs (r - 1) <= 4 * j * u -> Rabs a <= u -> Rabs b <= u -> Rabs c <= u ->
  Rabs (r * ((1 + a) * (1 + b)) * (1 + c) - 1) <= 4 * (j + 1) * u.
Proof.
  intros u j r a b c Hu Hj Hju Hus Hr Ha Hb Hc.
  apply Rabs_le_inv in Hr, Ha, Hb, Hc.
  assert (T0 : Rabs (a * b) <= / 1000000 * u).
  { rewrite Rabs_mult. apply Rmult_le_compat; try apply Rabs_pos; apply Rabs_le; lra. }
  apply Rabs_le_inv in T0. set (p := a + b + a * b) in *.
  assert (Hp : - (201 / 100 * u) <= p <= 201 / 100 * u) by (unfold p; lra).
  assert (T1 : Rabs (p * c) <= / 1000000 * (3 * u)).
  { rewrite Rmult_comm, Rabs_mult. apply Rmult_le_compat; try apply Rabs_pos; apply Rabs_le; lra. }
  apply Rabs_le_inv in T1.
  assert (T : Rabs ((1 + a) * (1 + b) * (1 + c) - 1) <= 31 / 10 * u).
  { replace ((1 + a) * (1 + b) * (1 + c) - 1) with (p + c + p * c) by (unfold p; ring). apply Rabs_le; lra. }
  set (t := (1 + a) * (1 + b) * (1 + c) - 1) in *. apply Rabs_le_inv in T.
  replace (r * ((1 + a) * (1 + b)) * (1 + c) - 1) with ((r - 1) + t + (r - 1) * t) by (unfold t; ring).
  assert (X : Rabs ((r - 1) * t) <= / 10 * (31 / 10 * u)).
  { rewrite Rabs_mult. apply Rmult_le_compat; try apply Rabs_pos; apply Rabs_le; lra. }
  apply Rabs_le_inv in X. apply Rabs_le. lra.
Qed.

Lemma volume_err : forall hp obs sizes ret P j,
  Forall2 (obs_usable hp) obs sizes ->
  is_finite ret = true -> 0 < P -> 0 <= j -> 4 * (j + INR (length obs)) * uro <= / 10 ->
  Rabs (B2R ret / P - 1) <= 4 * j * uro ->
  (forall k, (k <= length obs)%nat ->
     bpow radix2 (-900) <= P * bin_volume hp (firstn k obs) (firstn k sizes) <= bpow radix2 900) ->
  is_finite (volume_loop hp obs sizes ret) = true /\
  Rabs (B2R (volume_loop hp obs sizes ret) / (P * bin_volume hp obs sizes) - 1) <= 4 * (j + INR (length obs)) * uro.
Proof.
  intros hp obs sizes ret P j H; revert ret P j; induction H as [|o n os ns Ho H IH]; intros ret P j Fr HP Hj Hju Hr HB.
  - cbn [volume_loop bin_volume length INR]. split; [exact Fr|]. rewrite Rmult_1_r, Rplus_0_r. exact Hr.
  - cbn [volume_loop]. unfold obs_usable in Ho.
    set (lo := get_f hp o FLower) in *. set (up := get_f hp o FUpper) in *.
    destruct (bin_size_err lo up n Ho) as (Fs & d1 & d2 & D1 & D2 & Es).
    set (s := bin_size lo up n) in *. set (w := width (B2R lo) (B2R up) n) in *.
    pose proof (w_pos lo up n Ho) as HW. fold w in HW.
    pose proof uro_b as Hu. pose proof uro_pos as Hup.
    assert (Hlen : INR (length (o :: os)) = INR (length os) + 1) by (cbn [length]; apply S_INR).
    pose proof (pos_INR (length os)) as Hpos.
    set (r := B2R ret / P) in *.
    assert (Er : B2R ret = r * P) by (unfold r; field; lra).
    pose proof (HB 0%nat ltac:(simpl; lia)) as HB0. pose proof (HB 1%nat ltac:(simpl; lia)) as HB1.
    cbn [firstn bin_volume] in HB0, HB1. change (width (f2R (get_f hp o FLower)) (f2R (get_f hp o FUpper)) n) with w in HB1. rewrite Rmult_1_r in HB0, HB1.
    rewrite Hlen in Hju.
    assert (Hrb : 9 / 10 <= r <= 11 / 10) by (apply Rabs_le_inv in Hr; nra).
    apply Rabs_le_inv in D1 as D1', D2 as D2'.
    assert (H12 : 9 / 10 <= (1 + d1) * (1 + d2) <= 11 / 10) by (split; nra).
    set (q := r * ((1 + d1) * (1 + d2))).
    assert (Hq : / 2 <= q <= 2) by (unfold q; split; nra).
    assert (EP : B2R ret * B2R s = P * w * q) by (rewrite Er, Es; unfold q; ring).
    assert (HPw : 0 < P * w) by (apply Rmult_lt_0_compat; lra).
    destruct (fmul_err ret s Fr Fs) as (Fm & d3 & D3 & Em).
    { rewrite EP, Rabs_right by nra. apply Rle_trans with (bpow radix2 900 * 2); [nra|].
      change 2 with (bpow radix2 1). rewrite <- bpow_plus. apply bpow_le. lia. }
    { rewrite EP, Rabs_right by nra. apply Rle_trans with (bpow radix2 (-900) * / 2).
      change (/ 2) with (bpow radix2 (-1)). rewrite <- bpow_plus. apply bpow_le. lia. nra. }
    destruct (IH (fmul ret s) (P * w) (j + 1)) as [F E]; auto.
    + lra.
    + replace (j + 1 + INR (length os)) with (j + (INR (length os) + 1)) by ring. exact Hju.
    + rewrite Em, EP. replace (P * w * q * (1 + d3) / (P * w)) with (r * ((1 + d1) * (1 + d2)) * (1 + d3))
        by (unfold q; field; split; lra).
      apply rel_step; auto; try lra. 
      * nra.
    + intros k Hk. specialize (HB (S k) ltac:(simpl; lia)). cbn [firstn bin_volume] in HB.
      change (width (f2R (get_f hp o FLower)) (f2R (get_f hp o FUpper)) n) with w in HB.
      rewrite <- Rmult_assoc in HB. exact HB.
    + split; [exact F|]. cbn [bin_volume]. change (width (f2R (get_f hp o FLower)) (f2R (get_f hp o FUpper)) n) with w.
      rewrite <- Rmult_assoc. rewrite Hlen. replace (j + (INR (length os) + 1)) with (j + 1 + INR (length os)) by ring. exact E.
Qed.

Lemma box_bins : forall hp obs sizes, Forall2 (obs_usable hp) obs sizes ->
  box hp obs = IZR (zproduct sizes) * bin_volume hp obs sizes /\ 0 < bin_volume hp obs sizes.
Proof.
  intros hp obs sizes H; induction H as [|o n os ns Ho H [IH1 IH2]].
  - simpl. split; lra.
  - cbn [box bin_volume fold_right] in *. change (zproduct (n :: ns)) with (n * zproduct ns)%Z.
    rewrite mult_IZR. fold (box hp os). unfold box in IH1 at 1. fold (box hp os) in IH1. rewrite IH1.
    pose proof (w_eq _ _ _ Ho) as Hw. pose proof (w_pos _ _ _ Ho) as HW. unfold f2R. rewrite Hw. split; [ring|].
    apply Rmult_lt_0_compat; auto.
Qed.

Lemma volumes_fill_box : forall hp b, Forall2 (obs_usable hp) (b_obs b) (b_sizes b) ->
  (length (b_obs b) <= 1000)%nat ->
  (forall k, (k <= length (b_obs b))%nat ->
     / 2 ^ 900 <= bin_volume hp (firstn k (b_obs b)) (firstn k (b_sizes b)) <= 2 ^ 900) ->
  Rabs (IZR (zproduct (b_sizes b)) * f2R (getBinVolume hp b) - box hp (b_obs b))
    <= 4 * INR (length (b_obs b)) * / 2 ^ 53 * box hp (b_obs b).
Proof.
  intros hp b H HL HB. destruct (box_bins hp _ _ H) as [Eb Pb].
  destruct (f_of_Z_exact 1 ltac:(lia)) as [E1 F1].
  assert (HLr : 0 <= INR (length (b_obs b)) <= 1000).
  { split; [apply pos_INR|]. replace 1000 with (INR 1000) by (rewrite INR_IZR_INZ; reflexivity). apply le_INR. exact HL. }
  pose proof uro_pos as Hup. pose proof uro_small as Hus.
  destruct (volume_err hp (b_obs b) (b_sizes b) fone 1 0 H F1) as [_ E]; try lra.
  - nra.
  - unfold fone. rewrite E1. unfold Rdiv. rewrite Rinv_1, Rmult_1_r, Rminus_diag_eq by reflexivity. rewrite Rabs_R0. lra.
  - intros k Hk. rewrite Rmult_1_l. specialize (HB k Hk). rewrite pow_bpow_inv, pow_bpow in HB. exact HB.
  - rewrite Rmult_1_l, Rplus_0_l in E. fold (getBinVolume hp b) in E. unfold f2R.
    set (v := B2R (getBinVolume hp b)) in *. set (p := bin_volume hp (b_obs b) (b_sizes b)) in *.
    assert (Z1 : 0 <= IZR (zproduct (b_sizes b))).
    { apply IZR_le. pose proof (zproduct_pos (b_sizes b)) as HZ. assert (1 <= zproduct (b_sizes b))%Z; [|lia]. apply HZ.
      clear - H. induction H; constructor; auto. destruct H as (_ & _ & ? & _). lia. }
    rewrite Eb. replace (IZR (zproduct (b_sizes b)) * v - IZR (zproduct (b_sizes b)) * p)
      with (IZR (zproduct (b_sizes b)) * p * (v / p - 1)) by (field; lra).
    rewrite Rabs_mult, (Rabs_right (_ * p)) by (apply Rle_ge; apply Rmult_le_pos; lra).
    rewrite (Rmult_comm _ (IZR (zproduct (b_sizes b)) * p)). apply Rmult_le_compat_l.
    + apply Rmult_le_pos; lra.
    + rewrite pow_bpow_inv. exact E.
Qed.

(** *** The bin number of the current values. *)
Lemma convert_inside : forall hp obs sizes ks, Forall2 (obs_usable hp) obs sizes ->
  Forall2 (obs_inside hp) obs (combine sizes ks) -> length ks = length sizes ->
  convertValuesToBins hp obs sizes (getCurrentValues hp obs) = BOk ks /\ Forall2 (fun k n => (0 <= k < n)%Z) ks sizes.
Proof.
  intros hp obs sizes ks H; revert ks; induction H as [|o n os ns Ho H IH]; intros ks HI HL.
  - destruct ks; [|discriminate]. split; [reflexivity|constructor].
  - destruct ks as [|k ks]; [discriminate|]. cbn [combine] in HI. inversion HI as [|? ? ? ? Hk HI']; subst.
    cbn [convertValuesToBins getCurrentValues map]. unfold obs_inside in Hk. cbn [fst snd] in Hk.
    rewrite (value_in_bin _ _ _ Ho k _ Hk). cbn [bbind].
    destruct (IH ks HI' ltac:(simpl in HL; lia)) as [E F]. unfold getCurrentValues in E. rewrite E. cbn [bbind].
    split; [reflexivity|]. constructor; auto. apply Hk.
Qed.

Lemma bin_number_inside : forall hp b ks, Forall2 (obs_usable hp) (b_obs b) (b_sizes b) ->
  (zproduct (b_sizes b) <= 2 ^ 32)%Z -> length ks = length (b_sizes b) ->
  Forall2 (obs_inside hp) (b_obs b) (combine (b_sizes b) ks) ->
  getBinNumber hp b = BOk (global_of (b_sizes b) ks) /\ (0 <= global_of (b_sizes b) ks < zproduct (b_sizes b))%Z.
Proof.
  intros hp b ks HU HP HL HI. destruct (convert_inside hp _ _ ks HU HI HL) as [E F].
  unfold getBinNumber. rewrite E. cbn [bbind]. rewrite localToGlobal_ok by auto. split; [reflexivity|].
  apply global_of_range; auto.
Qed.
