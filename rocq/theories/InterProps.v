(** C100: InterHistPdf.  C101: compute_inverse5. *)
From Coq Require Import Reals List ZArith Bool Lia Lra.
From Coquelicot Require Import Coquelicot.
From Flocq Require Import Core BinarySingleNaN.
From Verif Require Import F64 F64Lemmas F64Err SmoothModel AmpModel WaveModel FormulaSpec WaveSpec WaveProofs LineProofs2 InterModel InterSpec.
From Verif Require LeafGen.
Import ListNotations.

(** ** C100 *)
(** Up to four observables: NaN for every histogram and every event. *)
Theorem C100_nan_refuted : forall index axes hist params event, (1 <= List.length axes <= 4)%nat -> hist <> [] ->
  exists v, inter_value index axes hist params event = Got v /\ f_isnan v = true.
Proof.
  intros index axes hist params event N H. destruct hist as [|h t]; [contradiction|].
  unfold inter_value, inter_device.
  assert (Q : own (inter_constants index axes) 1 = Got (f_of_Z (Z.of_nat (List.length axes)))) by reflexivity.
  rewrite Q. cbn [gbind]. clear Q.
  assert (Z0 : Z.to_nat (Z.quot (ftruncZ (fsub (f_of_Z (Z.of_nat (List.length axes))) fone)) 4) = 0%nat).
  { destruct axes as [|? [|? [|? [|? [|? ?]]]]]; cbn [List.length] in *; try lia; vm_compute; reflexivity. }
  rewrite Z0. change (map Z.of_nat (seq 0 (Z.to_nat (powi3 0)))) with [0%Z]. cbn [inter_axes gbind inter_loop inter_offset].
  change (flt fzero fzero) with false. cbn [own zread Z.ltb Z.compare Z.to_nat nth_error gbind].
  eexists. split; [reflexivity|]. destruct h as [[]|[]| |[]]; reflexivity.
Qed.
Theorem C100_refuted : forall index axes hist params event, (1 <= List.length axes <= 4)%nat -> hist <> [] ->
  ~ interpolates hist (inter_value index axes hist params event).
Proof.
  intros index axes hist params event N H (x & a & b & E & F & _). destruct (C100_nan_refuted index axes hist params event N H) as (v & V & W).
  rewrite V in E. injection E as <-. destruct v; discriminate.
Qed.
(** More observables: it reads parameters it does not have. *)
Lemma count_quot : forall n, (5 <= n < 2 ^ 31)%Z -> exists k, Z.to_nat (Z.quot (ftruncZ (fsub (f_of_Z n) fone)) 4) = S k.
Proof.
  intros n N. destruct (f_of_Z_exact n ltac:(lia)) as [En Fn]. destruct (f_of_Z_exact 1 ltac:(lia)) as [E1 F1]. fold fone in E1, F1.
  assert (B : ftruncZ (fsub (f_of_Z n) fone) = (n - 1)%Z).
  { destruct (fsub_rnd (f_of_Z n) fone Fn F1) as [_ R0].
    - rewrite En, E1, <- minus_IZR. rewrite <- abs_IZR. apply Rle_trans with (IZR (2 ^ 31)); [apply IZR_le; lia|]. change (2 ^ 31)%Z with (Zpower radix2 31). rewrite IZR_Zpower by lia. apply bpow_le. lia.
    - rewrite ftruncZ_spec, R0, En, E1, <- minus_IZR. unfold rnd. rewrite round_Z by lia. apply Ztrunc_IZR. }
  rewrite B. exists (Z.to_nat (Z.quot (n - 1) 4) - 1)%nat. rewrite Z.quot_div_nonneg by lia. assert (1 <= (n - 1) / 4)%Z by (apply Z.div_le_lower_bound; lia). lia.
Qed.
Theorem C100_foreign_refuted : forall index axes hist params event, (5 <= Z.of_nat (List.length axes) < 2 ^ 31)%Z ->
  inter_value index axes hist params event = Foreign.
Proof.
  intros index axes hist params event N. unfold inter_value, inter_device.
  assert (Q : own (inter_constants index axes) 1 = Got (f_of_Z (Z.of_nat (List.length axes)))) by reflexivity.
  rewrite Q. cbn [gbind]. clear Q. destruct (count_quot _ N) as [k ->]. cbn [inter_axes].
  destruct (own (inter_constants index axes) (2 + 0 * 4)) as [c|]; [|reflexivity]. cbn [gbind].
  destruct (if (ftruncZ c =? obs_code)%Z then own event 0 else own (inter_parameters params) (ftruncZ c)) as [x|]; reflexivity.
Qed.
Example C100_ex : exists axes hist, (1 <= List.length axes <= 4)%nat /\ hist <> [] /\ List.length hist = 2%nat /\
  inter_value 0 axes hist [] [fhalf] = Got fnan.
Proof. exists [mkAxis fzero fone 2], [fone; fone]. repeat split; try (cbn; lia); try discriminate; vm_compute; reflexivity. Qed.
Print Assumptions C100_nan_refuted. Print Assumptions C100_refuted. Print Assumptions C100_foreign_refuted.

(** ** C101 *)
Local Open Scope R_scope.
Local Open Scope C_scope.
Definition cof0 (M : nat -> nat -> C) : C := (M 1%nat 1%nat * M 2%nat 2%nat * M 3%nat 3%nat * M 4%nat 4%nat - M 1%nat 1%nat * M 2%nat 2%nat * M 3%nat 4%nat * M 4%nat 3%nat - M 1%nat 1%nat * M 2%nat 3%nat * M 3%nat 2%nat * M 4%nat 4%nat + M 1%nat 1%nat * M 2%nat 3%nat * M 3%nat 4%nat * M 4%nat 2%nat + M 1%nat 1%nat * M 2%nat 4%nat * M 3%nat 2%nat * M 4%nat 3%nat - M 1%nat 1%nat * M 2%nat 4%nat * M 3%nat 3%nat * M 4%nat 2%nat + M 1%nat 3%nat * M 2%nat 1%nat * M 3%nat 2%nat * M 4%nat 4%nat - M 1%nat 3%nat * M 2%nat 1%nat * M 3%nat 4%nat * M 4%nat 2%nat - M 1%nat 3%nat * M 2%nat 2%nat * M 3%nat 1%nat * M 4%nat 4%nat + M 1%nat 3%nat * M 2%nat 2%nat * M 3%nat 4%nat * M 4%nat 1%nat + M 1%nat 3%nat * M 2%nat 4%nat * M 3%nat 1%nat * M 4%nat 2%nat - M 1%nat 3%nat * M 2%nat 4%nat * M 3%nat 2%nat * M 4%nat 1%nat - M 1%nat 4%nat * M 2%nat 1%nat * M 3%nat 2%nat * M 4%nat 3%nat + M 1%nat 4%nat * M 2%nat 1%nat * M 3%nat 3%nat * M 4%nat 2%nat + M 1%nat 4%nat * M 2%nat 2%nat * M 3%nat 1%nat * M 4%nat 3%nat - M 1%nat 4%nat * M 2%nat 2%nat * M 3%nat 3%nat * M 4%nat 1%nat - M 1%nat 4%nat * M 2%nat 3%nat * M 3%nat 1%nat * M 4%nat 2%nat + M 1%nat 4%nat * M 2%nat 3%nat * M 3%nat 2%nat * M 4%nat 1%nat)%C.
Definition cof1 (M : nat -> nat -> C) : C := (0 - M 0%nat 1%nat * M 2%nat 2%nat * M 3%nat 3%nat * M 4%nat 4%nat + M 0%nat 1%nat * M 2%nat 2%nat * M 3%nat 4%nat * M 4%nat 3%nat + M 0%nat 1%nat * M 2%nat 3%nat * M 3%nat 2%nat * M 4%nat 4%nat - M 0%nat 1%nat * M 2%nat 3%nat * M 3%nat 4%nat * M 4%nat 2%nat - M 0%nat 1%nat * M 2%nat 4%nat * M 3%nat 2%nat * M 4%nat 3%nat + M 0%nat 1%nat * M 2%nat 4%nat * M 3%nat 3%nat * M 4%nat 2%nat - M 0%nat 3%nat * M 2%nat 1%nat * M 3%nat 2%nat * M 4%nat 4%nat + M 0%nat 3%nat * M 2%nat 1%nat * M 3%nat 4%nat * M 4%nat 2%nat + M 0%nat 3%nat * M 2%nat 2%nat * M 3%nat 1%nat * M 4%nat 4%nat - M 0%nat 3%nat * M 2%nat 2%nat * M 3%nat 4%nat * M 4%nat 1%nat - M 0%nat 3%nat * M 2%nat 4%nat * M 3%nat 1%nat * M 4%nat 2%nat + M 0%nat 3%nat * M 2%nat 4%nat * M 3%nat 2%nat * M 4%nat 1%nat + M 0%nat 4%nat * M 2%nat 1%nat * M 3%nat 2%nat * M 4%nat 3%nat - M 0%nat 4%nat * M 2%nat 1%nat * M 3%nat 3%nat * M 4%nat 2%nat - M 0%nat 4%nat * M 2%nat 2%nat * M 3%nat 1%nat * M 4%nat 3%nat + M 0%nat 4%nat * M 2%nat 2%nat * M 3%nat 3%nat * M 4%nat 1%nat + M 0%nat 4%nat * M 2%nat 3%nat * M 3%nat 1%nat * M 4%nat 2%nat - M 0%nat 4%nat * M 2%nat 3%nat * M 3%nat 2%nat * M 4%nat 1%nat)%C.
Definition cof2 (M : nat -> nat -> C) : C := (0 - M 0%nat 1%nat * M 1%nat 3%nat * M 3%nat 2%nat * M 4%nat 4%nat + M 0%nat 1%nat * M 1%nat 3%nat * M 3%nat 4%nat * M 4%nat 2%nat + M 0%nat 1%nat * M 1%nat 4%nat * M 3%nat 2%nat * M 4%nat 3%nat - M 0%nat 1%nat * M 1%nat 4%nat * M 3%nat 3%nat * M 4%nat 2%nat + M 0%nat 3%nat * M 1%nat 1%nat * M 3%nat 2%nat * M 4%nat 4%nat - M 0%nat 3%nat * M 1%nat 1%nat * M 3%nat 4%nat * M 4%nat 2%nat + M 0%nat 3%nat * M 1%nat 4%nat * M 3%nat 1%nat * M 4%nat 2%nat - M 0%nat 3%nat * M 1%nat 4%nat * M 3%nat 2%nat * M 4%nat 1%nat - M 0%nat 4%nat * M 1%nat 1%nat * M 3%nat 2%nat * M 4%nat 3%nat + M 0%nat 4%nat * M 1%nat 1%nat * M 3%nat 3%nat * M 4%nat 2%nat - M 0%nat 4%nat * M 1%nat 3%nat * M 3%nat 1%nat * M 4%nat 2%nat + M 0%nat 4%nat * M 1%nat 3%nat * M 3%nat 2%nat * M 4%nat 1%nat)%C.
Definition cof3 (M : nat -> nat -> C) : C := (M 0%nat 1%nat * M 1%nat 3%nat * M 2%nat 2%nat * M 4%nat 4%nat - M 0%nat 1%nat * M 1%nat 3%nat * M 2%nat 4%nat * M 4%nat 2%nat - M 0%nat 1%nat * M 1%nat 4%nat * M 2%nat 2%nat * M 4%nat 3%nat + M 0%nat 1%nat * M 1%nat 4%nat * M 2%nat 3%nat * M 4%nat 2%nat - M 0%nat 3%nat * M 1%nat 1%nat * M 2%nat 2%nat * M 4%nat 4%nat + M 0%nat 3%nat * M 1%nat 1%nat * M 2%nat 4%nat * M 4%nat 2%nat - M 0%nat 3%nat * M 1%nat 4%nat * M 2%nat 1%nat * M 4%nat 2%nat + M 0%nat 3%nat * M 1%nat 4%nat * M 2%nat 2%nat * M 4%nat 1%nat + M 0%nat 4%nat * M 1%nat 1%nat * M 2%nat 2%nat * M 4%nat 3%nat - M 0%nat 4%nat * M 1%nat 1%nat * M 2%nat 3%nat * M 4%nat 2%nat + M 0%nat 4%nat * M 1%nat 3%nat * M 2%nat 1%nat * M 4%nat 2%nat - M 0%nat 4%nat * M 1%nat 3%nat * M 2%nat 2%nat * M 4%nat 1%nat)%C.
Definition cof4 (M : nat -> nat -> C) : C := (0 - M 0%nat 1%nat * M 1%nat 3%nat * M 2%nat 2%nat * M 3%nat 4%nat + M 0%nat 1%nat * M 1%nat 3%nat * M 2%nat 4%nat * M 3%nat 2%nat + M 0%nat 1%nat * M 1%nat 4%nat * M 2%nat 2%nat * M 3%nat 3%nat - M 0%nat 1%nat * M 1%nat 4%nat * M 2%nat 3%nat * M 3%nat 2%nat + M 0%nat 3%nat * M 1%nat 1%nat * M 2%nat 2%nat * M 3%nat 4%nat - M 0%nat 3%nat * M 1%nat 1%nat * M 2%nat 4%nat * M 3%nat 2%nat + M 0%nat 3%nat * M 1%nat 4%nat * M 2%nat 1%nat * M 3%nat 2%nat - M 0%nat 3%nat * M 1%nat 4%nat * M 2%nat 2%nat * M 3%nat 1%nat - M 0%nat 4%nat * M 1%nat 1%nat * M 2%nat 2%nat * M 3%nat 3%nat + M 0%nat 4%nat * M 1%nat 1%nat * M 2%nat 3%nat * M 3%nat 2%nat - M 0%nat 4%nat * M 1%nat 3%nat * M 2%nat 1%nat * M 3%nat 2%nat + M 0%nat 4%nat * M 1%nat 3%nat * M 2%nat 2%nat * M 3%nat 1%nat)%C.
Lemma add_C : c_add R_ops = Cplus.
Proof. reflexivity. Qed.
Lemma mul_C : c_mul R_ops = Cmult.
Proof. reflexivity. Qed.
Lemma minus_C : c_minus R_ops = Cminus.
Proof. reflexivity. Qed.
Lemma cramer : forall (M : nat -> nat -> C) (n : nat -> C), M O 2%nat = 0 -> M 1%nat 2%nat = 0 ->
  (forall i, (i < 5)%nat -> total (fun k => M i k * n k) 5 = unit i O) -> n O * inv5_denominator R_ops M = inv5_numerator R_ops M.
Proof.
  intros M n Z0 Z1 H. pose proof (H 0%nat ltac:(lia)) as H0. pose proof (H 1%nat ltac:(lia)) as H1. pose proof (H 2%nat ltac:(lia)) as H2.
  pose proof (H 3%nat ltac:(lia)) as H3. pose proof (H 4%nat ltac:(lia)) as H4. clear H. cbn [total unit Nat.eqb] in *.
  rewrite Z0 in *. rewrite Z1 in *. unfold inv5_denominator, inv5_numerator.
  rewrite add_C, mul_C, minus_C.
  match goal with |- ?l = ?r => transitivity (cof0 M * (0 + M O O * n O + M 0%nat 1%nat * n 1%nat + 0 * n 2%nat + M 0%nat 3%nat * n 3%nat + M 0%nat 4%nat * n 4%nat) +
    cof1 M * (0 + M 1%nat O * n O + M 1%nat 1%nat * n 1%nat + 0 * n 2%nat + M 1%nat 3%nat * n 3%nat + M 1%nat 4%nat * n 4%nat) +
    cof2 M * (0 + M 2%nat O * n O + M 2%nat 1%nat * n 1%nat + M 2%nat 2%nat * n 2%nat + M 2%nat 3%nat * n 3%nat + M 2%nat 4%nat * n 4%nat) +
    cof3 M * (0 + M 3%nat O * n O + M 3%nat 1%nat * n 1%nat + M 3%nat 2%nat * n 2%nat + M 3%nat 3%nat * n 3%nat + M 3%nat 4%nat * n 4%nat) +
    cof4 M * (0 + M 4%nat O * n O + M 4%nat 1%nat * n 1%nat + M 4%nat 2%nat * n 2%nat + M 4%nat 3%nat * n 3%nat + M 4%nat 4%nat * n 4%nat)) end.
  - unfold cof0, cof1, cof2, cof3, cof4. ring.
  - rewrite H0, H1, H2, H3, H4. unfold cof0. ring.
Qed.
Lemma denominator_det : forall M : nat -> nat -> C, M O 2%nat = 0 -> M 1%nat 2%nat = 0 -> det 5 M = inv5_denominator R_ops M.
Proof.
  intros M Z0 Z1. cbn [det total without Nat.ltb Nat.leb Nat.even]. unfold without. cbn [Nat.ltb Nat.leb]. rewrite Z0, Z1. unfold inv5_denominator.
  rewrite add_C, mul_C, minus_C. ring.
Qed.
(** The first element is right. *)
Theorem C101_first_partial : forall M N : nat -> nat -> C, M O 2%nat = 0 -> M 1%nat 2%nat = 0 -> det 5 M <> 0 -> is_inverse M N -> inverse5 R_ops M 0 0 = N O O.
Proof.
  intros M N Z0 Z1 D I. unfold inverse5. rewrite div_Cdiv, <- (cramer M (fun k => N k O) Z0 Z1); [|intros i Hi; exact (I i O Hi ltac:(lia))].
  rewrite denominator_det in D by assumption. symmetry. change (@eq C (N O O) (N O O * inv5_denominator R_ops M / inv5_denominator R_ops M)). field. exact D.
Qed.
(** The whole is not the inverse of any matrix. *)
Theorem C101_refuted : forall M : nat -> nat -> C, ~ is_inverse M (inverse5 R_ops M).
Proof.
  intros M I. pose proof (I 0%nat 0%nat ltac:(lia) ltac:(lia)) as A. pose proof (I 0%nat 1%nat ltac:(lia) ltac:(lia)) as B. cbn [total unit Nat.eqb] in A, B.
  unfold unit in A, B. cbn [Nat.eqb] in A, B. unfold inverse5 in A, B. rewrite A in B. injection B. lra.
Qed.
Example C101_ex : exists M N : nat -> nat -> C, M O 2%nat = 0 /\ M 1%nat 2%nat = 0 /\ det 5 M <> 0 /\ is_inverse M N.
Proof.
  exists unit, unit. repeat split.
  - cbn [det total without Nat.ltb Nat.leb Nat.even]. unfold without, unit. cbn [Nat.ltb Nat.leb Nat.eqb]. intro H. apply (f_equal fst) in H. cbn in H. lra.
  - intros i j Hi Hj. do 5 (destruct i as [|i]; [do 5 (destruct j as [|j]; [cbn [total]; unfold unit; cbn [Nat.eqb]; ring|]); lia|]). lia.
Qed.
Print Assumptions C101_first_partial. Print Assumptions C101_refuted.
