(** Toy generation in doubles: the cell picked and the value drawn. *)
From Coq Require Import List ZArith Reals Lra Lia Bool Psatz.
From Flocq Require Import Core BinarySingleNaN.
From Verif Require Import F64 F64Lemmas F64Err ListAux LeafFormulas VariableModel VariableSpec VariableProofs DataSetModel DataSetSpec DataSetProofs GridSpec GridProofs
  DataSetProofs2 BinModel BinSpec BinProofs BinGeom GridProofs2 McModel McSpec McProofs.
From Verif Require LeafGen.
Import ListNotations.
Open Scope R_scope.

Section Cells.
Variable pdf : list f64.
Hypothesis HV : Forall (fun v => is_finite v = true /\ 0 <= B2R v) pdf.
Hypothesis HS : 0 < rsum (map B2R pdf) <= bpow radix2 1000.
Hypothesis HN : (Z.of_nat (length pdf) <= 2 ^ 32)%Z.
Local Notation n := (length pdf).
Local Notation P k := (rsum (firstn k (map B2R pdf))).
Local Notation Sm k := (nth k (partial_sum f64_ops pdf) fzero).

Lemma len : length (map B2R pdf) = n.
Proof. apply map_length. Qed.
Lemma HVR : Forall (fun v => 0 <= v) (map B2R pdf).
Proof. apply Forall_map. eapply Forall_impl; [|exact HV]. cbv beta. intros v H; apply H. Qed.
Lemma n_nz : (n <> 0)%nat.
Proof. destruct pdf; [cbn in HS; lra|discriminate]. Qed.
Lemma nu_small : INR n * uro <= / 1000000.
Proof.
  rewrite INR_IZR_INZ. apply IZR_le in HN. rewrite uro_val. change (2 ^ 32)%Z with 4294967296%Z in HN. change (2 ^ 53)%Z with 9007199254740992%Z.
  pose proof (IZR_le 0 (Z.of_nat n) ltac:(lia)). lra.
Qed.
Lemma P_bound : forall k, 0 <= P k <= rsum (map B2R pdf).
Proof.
  intro k. split.
  - replace 0 with (P 0) by reflexivity. apply (prefix_mono _ HVR). lia.
  - destruct (Nat.le_gt_cases k n) as [H|H].
    + replace (rsum (map B2R pdf)) with (P n); [apply (prefix_mono _ HVR); exact H|]. rewrite firstn_all2; [reflexivity|]. rewrite len. lia.
    + rewrite firstn_all2; [lra|]. rewrite len. lia.
Qed.
Lemma v_ok : forall k, (k < n)%nat -> is_finite (nth k pdf fzero) = true /\ 0 <= B2R (nth k pdf fzero).
Proof. intros k H. apply (proj1 (Forall_forall _ _) HV). now apply nth_In. Qed.
Lemma P_S : forall k, (k < n)%nat -> P (S k) = P k + B2R (nth k pdf fzero).
Proof. intros k H. rewrite prefix_S by (rewrite len; exact H). f_equal. change 0 with (B2R fzero). now rewrite map_nth. Qed.
Lemma sum_err : forall k, (k < n)%nat -> is_finite (Sm k) = true /\ Rabs (B2R (Sm k) - P (S k)) <= 2 * INR k * uro * P (S k).
Proof.
  induction k as [|k IH]; intro H.
  - rewrite sums_0. destruct (v_ok 0 H) as [F _]. split; [exact F|]. rewrite P_S by exact H. cbn [firstn rsum INR]. rewrite Rplus_0_l, Rminus_eq_0, Rabs_R0. lra.
  - destruct (IH ltac:(lia)) as [F1 E1]. rewrite sums_nth by exact H. cbn [LeafGen.o_add f64_ops]. destruct (v_ok (S k) H) as [F2 V2].
    pose proof (P_bound (S k)) as B1. pose proof (P_bound (S (S k))) as B2. pose proof (P_S (S k) H) as ES.
    assert (Hk : 0 <= INR k /\ INR k * uro <= / 1000000).
    { split; [apply pos_INR|]. eapply Rle_trans; [|exact nu_small]. apply Rmult_le_compat_r; [pose proof uro_pos; lra|]. apply le_INR. lia. }
    pose proof uro_b as Hu. apply Rabs_le_inv in E1. set (s := B2R (Sm k)) in *. set (v := B2R (nth (S k) pdf fzero)) in *. set (p := P (S k)) in *. set (q := P (S (S k))) in *.
    set (a := INR k * uro) in *. replace (2 * INR k * uro) with (2 * a) in E1 by (unfold a; ring).
    assert (SV : Rabs (s + v) <= bpow radix2 1023).
    { apply Rabs_le. assert (bpow radix2 1000 * 2 <= bpow radix2 1023). { change 2 with (bpow radix2 1). rewrite <- bpow_plus. apply bpow_le. lia. }
      destruct Hk as [_ Hk]. assert (0 <= a) by (unfold a; apply Rmult_le_pos; [apply pos_INR|lra]). split; nra. }
    destruct (fadd_err _ _ F1 F2 SV) as (F & d & D & E). split; [exact F|]. rewrite E. fold s v.
    replace (2 * INR (S k) * uro) with (2 * a + 2 * uro) by (rewrite S_INR; unfold a; ring). apply Rabs_le_inv in D.
    assert (0 <= a) by (unfold a; apply Rmult_le_pos; [apply pos_INR|lra]). destruct Hk as [_ Hk].
    replace ((s + v) * (1 + d) - q) with ((s - p) * (1 + d) + q * d) by (rewrite ES; ring).
    assert (pq : p <= q) by lra. assert (E1' : Rabs (s - p) <= 2 * a * q) by (apply Rabs_le; split; nra).
    assert (X1 : Rabs ((s - p) * (1 + d)) <= 2 * a * q * (1 + uro)).
    { rewrite Rabs_mult. apply Rmult_le_compat; try apply Rabs_pos; [exact E1'|]. apply Rabs_le. lra. }
    assert (X2 : Rabs (q * d) <= q * uro). { rewrite Rabs_mult. apply Rmult_le_compat; try apply Rabs_pos; [|apply Rabs_le; lra]. rewrite Rabs_pos_eq; lra. }
    eapply Rle_trans; [apply Rabs_triang|]. assert (Q0 : 0 <= q) by lra. assert (QU : 0 <= q * uro) by (apply Rmult_le_pos; lra).
    assert (AQ : 2 * a * (q * uro) <= 1 * (q * uro)) by (apply Rmult_le_compat_r; [exact QU|lra]). lra.
Qed.
Lemma sum_mono : forall k, (S k < n)%nat -> B2R (Sm k) <= B2R (Sm (S k)).
Proof.
  intros k H. destruct (sum_err k ltac:(lia)) as [F1 E1]. rewrite sums_nth by exact H. cbn [LeafGen.o_add f64_ops]. destruct (v_ok (S k) H) as [F2 V2].
  pose proof (P_bound (S k)) as B1. pose proof (P_bound (S (S k))) as B2. pose proof (P_S (S k) H) as ES. apply Rabs_le_inv in E1.
  assert (Hk : 0 <= INR k * uro /\ INR k * uro <= / 1000000).
  { split; [apply Rmult_le_pos; [apply pos_INR|pose proof uro_pos; lra]|]. eapply Rle_trans; [|exact nu_small]. apply Rmult_le_compat_r; [pose proof uro_pos; lra|]. apply le_INR. lia. }
  replace (2 * INR k * uro) with (2 * (INR k * uro)) in E1 by ring.
  destruct (fadd_rnd _ _ F1 F2) as [_ ->].
  - apply Rabs_le. assert (bpow radix2 1000 * 2 <= bpow radix2 1023). { change 2 with (bpow radix2 1). rewrite <- bpow_plus. apply bpow_le. lia. } split; nra.
  - rewrite <- (rnd_B2R (Sm k)) at 1. apply rnd_le. lra.
Qed.
Lemma sum_mono_le : forall i j, (i <= j)%nat -> (j < n)%nat -> B2R (Sm i) <= B2R (Sm j).
Proof. intros i j Hij. induction Hij as [|j Hij IH]; intro H; [lra|]. eapply Rle_trans; [apply IH; lia|]. apply sum_mono. exact H. Qed.
Lemma sum_nonneg : forall k, (k < n)%nat -> 0 <= B2R (Sm k).
Proof. intros k H. eapply Rle_trans; [|apply (sum_mono_le 0 k); lia]. rewrite sums_0. apply v_ok. lia. Qed.
Local Notation T := (B2R (Sm (n - 1))).
Lemma total_err : Rabs (T - rsum (map B2R pdf)) <= 2 * (INR n - 1) * uro * rsum (map B2R pdf).
Proof.
  pose proof n_nz as NZ. destruct (sum_err (n - 1) ltac:(lia)) as [_ E]. replace (S (n - 1)) with n in E by lia.
  rewrite firstn_all2 in E by (rewrite len; lia). rewrite minus_INR in E by lia. exact E.
Qed.
Lemma total_pos : 0 < T.
Proof.
  pose proof total_err as E. apply Rabs_le_inv in E. pose proof nu_small. pose proof uro_pos. destruct HS as [A _]. 
  replace (2 * (INR n - 1) * uro) with (2 * (INR n * uro) - 2 * uro) in E by ring. set (q := rsum _) in *. nra.
Qed.
Local Notation Fr k := (nth k (fractions f64_ops pdf) fzero).
Lemma fraction_ok : forall k, (k < n)%nat -> is_finite (Fr k) = true /\ B2R (Fr k) = rnd (B2R (Sm k) / T).
Proof.
  intros k H. change fzero with (LeafGen.o_zero f64_ops). rewrite fractions_nth by exact H. cbn [LeafGen.o_div LeafGen.o_zero f64_ops]. destruct (sum_err k H) as [F _]. pose proof total_pos as TP.
  assert (0 <= B2R (Sm k) / T <= 1).
  { pose proof (sum_nonneg k H). pose proof (sum_mono_le k (n - 1) ltac:(lia) ltac:(lia)). split.
    - apply Rmult_le_pos; [assumption|]. apply Rlt_le, Rinv_0_lt_compat, TP.
    - apply Rmult_le_reg_r with T; [exact TP|]. unfold Rdiv. rewrite Rmult_assoc, Rinv_l by lra. lra. }
  apply fdiv_rnd; [exact F|lra|]. rewrite Rabs_pos_eq by lra. apply Rle_trans with 1; [lra|]. change 1 with (bpow radix2 0). apply bpow_le. lia.
Qed.
Lemma fraction_mono : forall k, (S k < n)%nat -> B2R (Fr k) <= B2R (Fr (S k)).
Proof.
  intros k H. destruct (fraction_ok k ltac:(lia)) as [_ ->]. destruct (fraction_ok (S k) H) as [_ ->]. apply rnd_le. pose proof total_pos as TP.
  apply Rmult_le_compat_r; [apply Rlt_le, Rinv_0_lt_compat, TP|]. now apply sum_mono.
Qed.
Lemma rnd_1 : rnd 1 = 1.
Proof. destruct (f_of_Z_exact 1 ltac:(lia)) as [E _]. rewrite <- E at 1. rewrite rnd_B2R. exact E. Qed.
Lemma fraction_last : B2R (Fr (n - 1)) = 1.
Proof. pose proof n_nz. destruct (fraction_ok (n - 1) ltac:(lia)) as [_ ->]. pose proof total_pos. unfold Rdiv. rewrite Rinv_r by lra. apply rnd_1. Qed.
Lemma fraction_err : forall k, (k < n)%nat -> Rabs (B2R (Fr k) - below (map B2R pdf) (S k)) <= margin (Z.of_nat n).
Proof.
  intros k H. destruct (fraction_ok k H) as [_ ->]. unfold below. pose proof total_err as ET. pose proof total_pos as TP. destruct (sum_err k H) as [_ EK].
  pose proof (P_bound (S k)) as B. destruct HS as [SP _]. pose proof nu_small as NU. pose proof uro_pos as U. pose proof uro_small as US.
  set (q := rsum (map B2R pdf)) in *. set (p := P (S k)) in *. set (s := B2R (Sm k)) in *. set (t := T) in *.
  set (a := INR n * uro) in *. assert (Hm : margin (Z.of_nat n) = 8 * a).
  { unfold margin, a. rewrite <- INR_IZR_INZ. rewrite uro_val. change (2 ^ 53)%Z with 9007199254740992%Z. replace (2 ^ 50) with 1125899906842624 by (cbn; lra). field. }
  assert (Ha1 : uro <= a). { unfold a. assert (1 <= INR n) by (change 1 with (INR 1); apply le_INR; lia). nra. }
  assert (EK' : Rabs (s - p) <= (2 * a - 2 * uro) * q).
  { eapply Rle_trans; [exact EK|]. assert (0 <= INR k) by apply pos_INR. assert (INR k <= INR n - 1) by (change 1 with (INR 1); rewrite <- minus_INR by lia; apply le_INR; lia).
    apply Rle_trans with (2 * (INR n - 1) * uro * p); [apply Rmult_le_compat_r; [lra|]; nra|]. replace (2 * (INR n - 1) * uro) with (2 * a - 2 * uro) by (unfold a; ring). nra. }
  replace (2 * (INR n - 1) * uro) with (2 * a - 2 * uro) in ET by (unfold a; ring).
  set (b := 2 * a - 2 * uro) in *. assert (Hb : 0 <= b <= / 100000) by (unfold b; lra).
  destruct (rnd_err (s / t)) as (d & e & D & E & ->).
  assert (St : 0 <= s / t <= 1).
  { pose proof (sum_nonneg k H). pose proof (sum_mono_le k (n - 1) ltac:(lia) ltac:(lia)). fold s t in H0, H1. split.
    - apply Rmult_le_pos; [assumption|]. apply Rlt_le, Rinv_0_lt_compat, TP.
    - apply Rmult_le_reg_r with t; [exact TP|]. unfold Rdiv. rewrite Rmult_assoc, Rinv_l by lra. lra. }
  assert (Q1 : Rabs (s / t - p / q) <= 2 * b + / 1000 * b).
  { replace (s / t - p / q) with (((s - p) - p / q * (t - q)) / t) by (field; lra). unfold Rdiv at 1. rewrite Rabs_mult, (Rabs_pos_eq (/ t)) by (apply Rlt_le, Rinv_0_lt_compat, TP).
    apply Rmult_le_reg_r with t; [exact TP|]. rewrite Rmult_assoc, Rinv_l, Rmult_1_r by lra.
    assert (pq : 0 <= p / q <= 1). { split; [apply Rmult_le_pos; [lra|apply Rlt_le, Rinv_0_lt_compat, SP]|]. apply Rmult_le_reg_r with q; [exact SP|]. unfold Rdiv. rewrite Rmult_assoc, Rinv_l by lra. lra. }
    apply Rle_trans with (b * q + b * q).
    - eapply Rle_trans; [apply Rabs_triang|]. apply Rplus_le_compat; [exact EK'|]. rewrite Rabs_Ropp, Rabs_mult, (Rabs_pos_eq (p / q)) by lra. pose proof (Rabs_pos (t - q)). nra.
    - apply Rabs_le_inv in ET. assert ((1 - b) * q <= t) by lra. assert (b * q <= b * (t + b * q)) by nra. assert (q <= 2 * t) by nra. nra. }
  rewrite Hm. apply Rabs_le_inv in Q1, D, E. assert (Q2 : Rabs (s / t * d) <= uro) by (rewrite Rabs_mult, (Rabs_pos_eq (s / t)) by lra; assert (Rabs d <= uro) by (apply Rabs_le; lra); pose proof (Rabs_pos d); nra).
  apply Rabs_le_inv in Q2. assert (E0 : eta0 <= uro) by (apply bpow_le; lia). apply Rabs_le. unfold b in *. split; lra.
Qed.
Lemma pick_f64 : forall r, is_finite r = true -> 0 <= B2R r < 1 -> nearly_belongs (map B2R pdf) (margin (Z.of_nat n)) (B2R r) (pick f64_ops pdf r).
Proof.
  intros r FR Hr. pose proof n_nz as NZ.
  destruct (split_point (fun i => flt (Fr i) r) n NZ) as (k & K & K1 & K2).
  - intros i Hi E. destruct (fraction_ok i ltac:(lia)) as [Fi _]. destruct (fraction_ok (S i) Hi) as [Fj _]. apply (flt_spec _ _ Fj FR) in E. apply (flt_spec _ _ Fi FR).
    eapply Rle_lt_trans; [apply fraction_mono; exact Hi|exact E].
  - destruct (fraction_ok (n - 1) ltac:(lia)) as [Fi _]. apply (flt_false_spec _ _ Fi FR). rewrite fraction_last. lra.
  - rewrite (pick_ok f64_ops pdf r k ltac:(lia)); [|exact K1|exact K2]. split; [now rewrite len|]. split.
    + destruct k as [|k].
      * unfold below at 1. cbn [firstn rsum]. unfold Rdiv. rewrite Rmult_0_l. assert (0 <= margin (Z.of_nat n)); [|lra]. unfold margin. apply Rmult_le_pos; [apply IZR_le; lia|]. apply Rlt_le, Rinv_0_lt_compat, pow_lt. lra.
      * specialize (K1 k ltac:(lia)). cbv beta in K1. destruct (fraction_ok k ltac:(lia)) as [Fi _]. apply (flt_spec _ _ Fi FR) in K1. pose proof (fraction_err k ltac:(lia)) as E. apply Rabs_le_inv in E. lra.
    + specialize (K2 k ltac:(lia)). cbv beta in K2. destruct (fraction_ok k ltac:(lia)) as [Fi _]. apply (flt_false_spec _ _ Fi FR) in K2. pose proof (fraction_err k ltac:(lia)) as E. apply Rabs_le_inv in E. lra.
Qed.
End Cells.
