(** Property theorems for the utilities (C39, C40, C41). *)
From Coq Require Import List Bool Arith Reals Lra Lia ZArith.
From Flocq Require Import Core BinarySingleNaN.
From Verif Require Import F64 F64Lemmas F64Err ListAux Reduce CombineSpec UtilModel UtilProofs.
Import ListNotations.
Open Scope R_scope.

(** ** C39 *)
(** Read in the real numbers, the algorithm returns the sum, whichever way its comparisons go. *)
Theorem C39_exact_in_reals : forall ge vals, neumaier R_arith ge vals = Rsum vals.
Proof. exact neumaier_real. Qed.
Print Assumptions C39_exact_in_reals.
(** In doubles: what is added to the compensation in one step is exactly the rounding error of that step's sum. *)
Theorem C39_step_correction_exact : forall sum c x t c', neumaier_step f64_arith f64_ge_abs (sum, c) x = (t, c') -> is_finite c' = true -> is_finite t = true ->
  exists e, c' = fadd c e /\ t = fadd sum x /\ B2R t + B2R e = B2R sum + B2R x.
Proof.
  intros sum c x t c' H F G. rewrite step_eq in H. injection H as <- <-. destruct (fadd_finite _ _ F) as (_ & C & _). exists (correction sum x). split; [reflexivity|]. split; [reflexivity|]. now apply correction_exact.
Qed.
Print Assumptions C39_step_correction_exact.
(** Error bound: for a finite result, half an ulp of the exact sum plus a term of second order in the unit roundoff
    uro = 2^-53, for any number of elements n ((1+uro)^n - 1 is about n uro). *)
Theorem C39_error_bound : forall vals, let n := length vals in let S := Rsum (map B2R vals) in let M := Rsum (map (fun x => Rabs (B2R x)) vals) in
  is_finite (doNeumaierSummation vals) = true ->
  Rabs (B2R (doNeumaierSummation vals) - S) <= uro * Rabs S + (1 + uro) * (((1 + uro) ^ n - 1) * (INR n * uro * (1 + uro) ^ n)) * M.
Proof.
  intros vals n S M F. pose proof (neumaier_error vals F) as H. unfold growth, Rsum_abs, reals, f2R in H. rewrite map_map in H. exact H.
Qed.
Print Assumptions C39_error_bound.
(** 1 + 2^60 + 1 - 2^60: plain summation loses both ones. *)
Definition big : f64 := f_of_ZE 1 60.
Example C39_example : let vals := [fone; big; fone; fopp big] in is_finite (doNeumaierSummation vals) = true /\
  fsame (doNeumaierSummation vals) (f_of_Z 2) = true /\ fsame (fold_left fadd vals fzero) (f_of_Z 2) = false.
Proof. cbv zeta. repeat split; vm_compute; reflexivity. Qed.

(** ** C40 *)
(** No operator gives a negative uncertainty: each returns a value whose uncertainty is not below zero or throws, for
    every expression (doubles). *)
Theorem C40_never_negative : forall e r, u_eval f64_arith (fun u => flt u fzero) e = Some r -> flt (u_unc r) fzero = false.
Proof. intros e r. exact (eval_nonneg f64_arith (fun u => flt u fzero) e r). Qed.
Print Assumptions C40_never_negative.
(** Reading the operators in the real numbers.  [covers a x]: the true value x is within the uncertainty of a. *)
Definition Rneg (u : R) : bool := if Rlt_dec u 0 then true else false.
Definition covers (a : uncertain) (x : R) : Prop := Rabs (x - u_value a) <= u_unc a.
Lemma Rneg_false : forall u, 0 <= u -> Rneg u = false.
Proof. intros u H. unfold Rneg. destruct (Rlt_dec u 0); [lra|reflexivity]. Qed.
Lemma covers_pos : forall a x, covers a x -> 0 <= u_unc a.
Proof. intros a x H. unfold covers in H. pose proof (Rabs_pos (x - u_value a)). lra. Qed.
Theorem C40_sum_covers : forall a b x y, covers a x -> covers b y ->
  (exists r, u_add R_arith Rneg a b = Some r /\ covers r (x + y) /\ u_unc r = u_unc a + u_unc b) /\
  (exists r, u_sub R_arith Rneg a b = Some r /\ covers r (x - y) /\ u_unc r = u_unc a + u_unc b).
Proof.
  intros a b x y Ha Hb. pose proof (covers_pos _ _ Ha). pose proof (covers_pos _ _ Hb). unfold u_add, u_sub, uncertain_of. cbn [R_arith add sub]. rewrite Rneg_false by lra. unfold covers in *. split; eexists; (split; [reflexivity|]; cbn [u_value u_unc]; split; [|reflexivity]).
  - replace (x + y - (u_value a + u_value b)) with ((x - u_value a) + (y - u_value b)) by ring. eapply Rle_trans; [apply Rabs_triang|]. lra.
  - replace (x - y - (u_value a - u_value b)) with ((x - u_value a) + - (y - u_value b)) by ring. eapply Rle_trans; [apply Rabs_triang|]. rewrite Rabs_Ropp. lra.
Qed.
Print Assumptions C40_sum_covers.
Theorem C40_scale_partial : forall a x k, covers a x -> 0 < k ->
  (exists r, u_scale R_arith Rneg a k = Some r /\ covers r (x * k)) /\ (exists r, u_over R_arith Rneg a k = Some r /\ covers r (x / k)).
Proof.
  intros a x k Ha Hk. pose proof (covers_pos _ _ Ha) as P. unfold u_scale, u_over, uncertain_of. cbn [R_arith mul div]. unfold covers in *.
  assert (I : 0 < / k) by now apply Rinv_0_lt_compat. split.
  - rewrite Rneg_false by (apply Rmult_le_pos; lra). eexists. split; [reflexivity|]. cbn [u_value u_unc]. replace (x * k - u_value a * k) with ((x - u_value a) * k) by ring. rewrite Rabs_mult, (Rabs_pos_eq k) by lra. apply Rmult_le_compat_r; lra.
  - rewrite Rneg_false by (unfold Rdiv; apply Rmult_le_pos; lra). eexists. split; [reflexivity|]. cbn [u_value u_unc]. unfold Rdiv. replace (x * / k - u_value a * / k) with ((x - u_value a) * / k) by ring. rewrite Rabs_mult, (Rabs_pos_eq (/ k)) by lra. apply Rmult_le_compat_r; lra.
Qed.
Print Assumptions C40_scale_partial.
(** Multiplying an uncertain number by a negative one throws. *)
Theorem C40_negative_scale_refuted : forall a k, 0 < u_unc a -> k < 0 -> u_scale R_arith Rneg a k = None.
Proof. intros a k H K. unfold u_scale, uncertain_of. cbn [R_arith mul]. unfold Rneg. destruct (Rlt_dec (u_unc a * k) 0); [reflexivity|]. exfalso. apply n. nra. Qed.
Print Assumptions C40_negative_scale_refuted.
(** Products (and quotients) store the sum of the relative uncertainties as the absolute one.  The relative uncertainty of the
    product is the sum of the relative uncertainties only if the product is 1 (or both are exact). *)
Theorem C40_product_relative : forall a b r, u_value a <> 0 -> u_value b <> 0 -> u_mul R_arith Rneg a b = Some r ->
  (relative R_arith r = relative R_arith a + relative R_arith b <-> u_value a * u_value b = 1 \/ relative R_arith a + relative R_arith b = 0).
Proof.
  intros a b r Ha Hb H. unfold u_mul, uncertain_of in H. cbn [R_arith mul add] in H. destruct (Rneg _) in H; [discriminate|]. injection H as <-. unfold relative. cbn [R_arith div add u_unc u_value].
  set (s := u_unc a / u_value a + u_unc b / u_value b). clearbody s. assert (P : u_value a * u_value b <> 0) by (now apply Rmult_integral_contrapositive_currified). split.
  - intro E. destruct (Req_dec s 0) as [Z|Z]; [now right|left]. apply (Rmult_eq_reg_l s); [|exact Z]. rewrite Rmult_1_r. transitivity (s / (u_value a * u_value b) * (u_value a * u_value b)); [now rewrite E|now field].
  - intros [E|E]; [rewrite E; field|rewrite E; now field].
Qed.
Print Assumptions C40_product_relative.
(** 3 +- 1 times 4 +- 1 gives 12 +- 7/12, which does not cover 4 * 5 = 20. *)
Theorem C40_product_refuted : exists a b x y r, covers a x /\ covers b y /\ u_mul R_arith Rneg a b = Some r /\ ~ covers r (x * y) /\ relative R_arith r <> relative R_arith a + relative R_arith b.
Proof.
  exists (mkU 3 1), (mkU 4 1), 4, 5. unfold u_mul, uncertain_of, relative, covers. cbn [R_arith mul add div u_value u_unc]. rewrite Rneg_false by lra. eexists.
  split; [|split; [|split; [reflexivity|]]].
  - replace (4 - 3) with 1 by ring. rewrite Rabs_R1. lra.
  - replace (5 - 4) with 1 by ring. rewrite Rabs_R1. lra.
  - cbn [u_value u_unc]. split; [|lra]. replace (4 * 5 - 3 * 4) with 8 by ring. rewrite Rabs_pos_eq by lra. lra.
Qed.
Print Assumptions C40_product_refuted.
Example C40_example : covers (mkU 3 1) 4 /\ covers (mkU 4 1) (7 / 2) /\ u_eval f64_arith (fun u => flt u fzero) (USub (UConst fone fone) (UScale (UConst fone fone) fone)) <> None.
Proof.
  unfold covers. cbn [u_value u_unc]. split; [replace (4 - 3) with 1 by ring; rewrite Rabs_R1; lra|]. split; [replace (7 / 2 - 4) with (- / 2) by field; rewrite Rabs_Ropp, Rabs_pos_eq; lra|].
  assert (X : match u_eval f64_arith (fun u => flt u fzero) (USub (UConst fone fone) (UScale (UConst fone fone) fone)) with Some _ => true | None => false end = true) by (vm_compute; reflexivity).
  destruct (u_eval _ _ _); [discriminate|discriminate X].
Qed.

(** ** C41 *)
(** GPU: for every history of pushes, clears, writes and syncs, after sync or smart_sync every element of the device copy
    is the host's, or compares equal to it. *)
Theorem C41_gpu_synced_partial : forall (T : Type) (neqb : T -> T -> bool) ops o, Forall (fun o => o <> ClearDevice) ops -> (o = Sync \/ o = SmartSync) ->
  exists v, s_run neqb s_new (ops ++ [o]) = Some v /\ Forall2 (fun d h => d = h \/ neqb d h = false) (s_dev v) (s_host v).
Proof.
  intros T neqb ops o F. apply (synced neqb ops o). eapply Forall_impl; [|exact F]. intros []; cbn; auto.
Qed.
Print Assumptions C41_gpu_synced_partial.
(** For element types whose != is inequality (the integers and function handles of the flattened arrays) it is the host array. *)
Theorem C41_gpu_exact : forall (T : Type) (neqb : T -> T -> bool) ops o, (forall a b, neqb a b = false -> a = b) -> Forall (fun o => o <> ClearDevice) ops -> (o = Sync \/ o = SmartSync) ->
  exists v, s_run neqb s_new (ops ++ [o]) = Some v /\ s_dev v = s_host v.
Proof.
  intros T neqb ops o N F H. destruct (C41_gpu_synced_partial T neqb ops o F H) as (v & R & E). exists v. split; [exact R|]. induction E as [|d h ds hs [->|D] _ IH]; [reflexivity| |]; f_equal; auto.
Qed.
Print Assumptions C41_gpu_exact.
(** For doubles, smart_sync does not transfer a change of 0 to -0. *)
Definition fneq (a b : f64) : bool := negb (feq a b).
Definition zeros : list (sop f64) := [Push fzero; Sync; Assign 0 (fopp fzero)].
Theorem C41_gpu_minus_zero_refuted : exists ops v, Forall (fun o => o <> ClearDevice) ops /\ s_run fneq s_new (ops ++ [SmartSync]) = Some v /\ s_dev v <> s_host v.
Proof.
  exists zeros, (mkS [fopp fzero] [fzero] [fzero]). split; [repeat (constructor; [discriminate|]); constructor|]. split; [reflexivity|]. cbn. discriminate.
Qed.
Print Assumptions C41_gpu_minus_zero_refuted.
(** After clear_device a smart_sync of an array of unchanged size writes to storage that was given back, or leaves the device
    copy empty. *)
Theorem C41_gpu_clear_device_refuted :
  (exists ops, s_run (fun a b => negb (Nat.eqb a b)) s_new (ops ++ [SmartSync]) = None) /\
  (exists ops v, s_run (fun a b => negb (Nat.eqb a b)) s_new (ops ++ [SmartSync]) = Some v /\ s_dev v = [] /\ s_host v <> []).
Proof.
  split.
  - exists [Push 1%nat; Sync; ClearDevice; Assign 0 2%nat]. reflexivity.
  - exists [Push 1%nat; Sync; ClearDevice], (mkS [1%nat] [1%nat] []). split; [reflexivity|]. split; [reflexivity|discriminate].
Qed.
Print Assumptions C41_gpu_clear_device_refuted.
(** CPU: from a sync on, through any writes and further syncs, the device pointer reads the host array, whatever happened before
    and however the library grows its storage. *)
Theorem C41_cpu_synced_partial : forall (T : Type) (grow : nat -> nat) (ops after : list (sop T)) o i, (o = Sync \/ o = SmartSync) ->
  Forall (fun o => match o with Push _ | Clear => False | _ => True end) after ->
  let v := c_run grow c_new (ops ++ o :: after) in c_read v i = nth_error (c_data v) i.
Proof. intros T grow ops after o i H F. exact (cpu_synced grow ops o after i H F). Qed.
Print Assumptions C41_cpu_synced_partial.
(** A push_back after the sync can leave the pointer dangling. *)
Theorem C41_cpu_push_refuted : exists ops : list (sop nat), forall x, c_read (c_run S c_new (ops ++ [Sync; Push x])) 0 = None /\ nth_error (c_data (c_run S c_new (ops ++ [Sync; Push x]))) 0 <> None.
Proof. exists [Push 1%nat]. intro x. split; [reflexivity|discriminate]. Qed.
Print Assumptions C41_cpu_push_refuted.
Example C41_example : Forall (fun o => o <> ClearDevice) [Push 1; Push 2; Sync; Assign 0 7; Push 3; Clear; Push 4]%nat /\
  s_run (fun a b => negb (Nat.eqb a b)) s_new ([Push 1; Push 2; Sync; Assign 0 7; SmartSync; Assign 1 9] ++ [SmartSync])%nat = Some (mkS [7; 9] [7; 9] [7; 9])%nat.
Proof. split; [repeat (constructor; [discriminate|]); constructor|reflexivity]. Qed.
