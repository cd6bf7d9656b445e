(** Proofs for UtilModel. *)
From Coq Require Import List Bool Arith Reals Lra Lia ZArith.
From Flocq Require Import Core BinarySingleNaN Pff2Flocq.
From Verif Require Import F64 F64Lemmas F64Err ListAux Reduce CombineSpec UtilModel.
Import ListNotations.
Open Scope R_scope.

(** *** Fast2Sum *)
Lemma B2R_format : forall x : f64, generic_format radix2 (FLT_exp (-1074) 53) (B2R x).
Proof. intro x. exact (generic_format_B2R 53 1024 x). Qed.
Lemma choice_sym_NE : forall x, negb (Z.even x) = negb (negb (Z.even (- (x + 1)))).
Proof. intro x. rewrite Z.even_opp, Z.even_add. change (Z.even 1) with false. now destruct (Z.even x). Qed.
Lemma fast2sum : forall x y : f64, Rabs (B2R y) <= Rabs (B2R x) ->
  rnd (B2R x + B2R y) + rnd (B2R y + rnd (B2R x - rnd (B2R x + B2R y))) = B2R x + B2R y.
Proof.
  intros x y H. pose proof (Fast2Sum_correct (-1074) 53 (fun x => negb (Z.even x)) ltac:(lia) ltac:(lia) choice_sym_NE (B2R x) (B2R y) (B2R_format x) (B2R_format y) H) as E. exact E.
Qed.
Lemma fsub_finite : forall x y, is_finite (fsub x y) = true -> is_finite x = true /\ is_finite y = true /\ B2R (fsub x y) = rnd (B2R x - B2R y).
Proof.
  intros x y H. assert (F : is_finite x = true /\ is_finite y = true).
  { destruct x as [s|s| |s m e p], y as [t|t| |t m' e' p']; cbn in *; try (now split); try discriminate; try (now destruct (Bool.eqb s (negb t))). }
  destruct F as [Fx Fy]. repeat split; try assumption. pose proof (Bminus_correct 53 1024 f64_prec_gt f64_prec_lt mode_NE x y Fx Fy) as E. cbv zeta in E.
  destruct (Rlt_bool _ _) eqn:B in E; [apply E|]. destruct E as [E _]. exfalso. unfold fsub in H. rewrite <- is_finite_SF_B2SF in H. rewrite E in H. discriminate.
Qed.
Lemma B2R_fabs : forall x, B2R (fabs x) = Rabs (B2R x).
Proof. intro x. apply B2R_Babs. Qed.
Lemma fabs_finite : forall x, is_finite (fabs x) = is_finite x.
Proof. intro x. apply is_finite_Babs. Qed.
Lemma ge_abs_spec : forall x y, is_finite x = true -> is_finite y = true -> f64_ge_abs x y = true <-> Rabs (B2R y) <= Rabs (B2R x).
Proof. intros x y Fx Fy. unfold f64_ge_abs. rewrite fle_R by (rewrite fabs_finite; assumption). now rewrite !B2R_fabs. Qed.

(** The correction of one step. *)
Definition correction (sum x : f64) : f64 :=
  let t := fadd sum x in if f64_ge_abs sum x then fadd (fsub sum t) x else fadd (fsub x t) sum.
Lemma step_eq : forall sum c x, neumaier_step f64_arith f64_ge_abs (sum, c) x = (fadd sum x, fadd c (correction sum x)).
Proof. intros. unfold neumaier_step, correction. cbn [f64_arith add sub]. now destruct (f64_ge_abs sum x). Qed.
Lemma correction_exact : forall sum x, is_finite (fadd sum x) = true -> is_finite (correction sum x) = true -> B2R (fadd sum x) + B2R (correction sum x) = B2R sum + B2R x.
Proof.
  intros s x F C. destruct (fadd_finite _ _ F) as (Fs & Fx & E). unfold correction in *. destruct (f64_ge_abs s x) eqn:G.
  - apply ge_abs_spec in G; try assumption. destruct (fadd_finite _ _ C) as (F1 & _ & E1). destruct (fsub_finite _ _ F1) as (_ & _ & E2).
    rewrite E1, E2, E. rewrite (Rplus_comm (rnd (B2R s - _)) (B2R x)). now apply fast2sum.
  - assert (G' : Rabs (B2R s) <= Rabs (B2R x)). { destruct (Rle_or_lt (Rabs (B2R x)) (Rabs (B2R s))) as [H|H]; [|lra]. apply (ge_abs_spec s x Fs Fx) in H. congruence. }
    destruct (fadd_finite _ _ C) as (F1 & _ & E1). destruct (fsub_finite _ _ F1) as (_ & _ & E2).
    rewrite E1, E2, E. rewrite (Rplus_comm (rnd (B2R x - _)) (B2R s)), (Rplus_comm (B2R s) (B2R x)). now apply fast2sum.
Qed.
Lemma correction_small : forall sum x, is_finite (fadd sum x) = true -> is_finite (correction sum x) = true -> Rabs (B2R (correction sum x)) <= uro * Rabs (B2R sum + B2R x).
Proof.
  intros s x F C. pose proof (correction_exact s x F C) as X. destruct (fadd_finite _ _ F) as (_ & _ & E). destruct (rnd_plus_rel s x) as (d & Hd & R). rewrite E, R in X.
  replace (B2R (correction s x)) with (- d * (B2R s + B2R x)) by lra. rewrite Rabs_mult, Rabs_Ropp. apply Rmult_le_compat_r; [apply Rabs_pos|exact Hd].
Qed.

(** The sums and corrections of all steps. *)
Fixpoint partials (sum : f64) (vals : list f64) : list f64 := match vals with [] => [] | x :: t => fadd sum x :: partials (fadd sum x) t end.
Fixpoint corrections (sum : f64) (vals : list f64) : list f64 := match vals with [] => [] | x :: t => correction sum x :: corrections (fadd sum x) t end.
Lemma fold_steps : forall vals sum c, fold_left (neumaier_step f64_arith f64_ge_abs) vals (sum, c) = (fold_left fadd vals sum, fold_left fadd (corrections sum vals) c).
Proof. induction vals as [|x vals IH]; intros sum c; cbn [fold_left corrections]; [reflexivity|]. now rewrite step_eq, IH. Qed.
Lemma fold_fadd_finite : forall l a, is_finite (fold_left fadd l a) = true -> is_finite a = true /\ Forall (fun x => is_finite x = true) l.
Proof.
  induction l as [|x l IH]; intros a H; cbn [fold_left] in H; [split; [exact H|constructor]|]. destruct (IH _ H) as [F G]. destruct (fadd_finite _ _ F) as (A & B & _). split; [exact A|now constructor].
Qed.
Lemma corrections_exact : forall vals sum, is_finite (fold_left fadd vals sum) = true -> Forall (fun x => is_finite x = true) (corrections sum vals) ->
  B2R (fold_left fadd vals sum) + Rsum (reals (corrections sum vals)) = B2R sum + Rsum (reals vals).
Proof.
  induction vals as [|x vals IH]; intros sum F C; cbn [fold_left corrections] in *; [reflexivity|]. inversion C as [|? ? C1 C2]; subst. destruct (fold_fadd_finite _ _ F) as [F1 _].
  specialize (IH _ F C2). pose proof (correction_exact sum x F1 C1) as X. unfold reals, Rsum, f2R in *. cbn [map fold_right]. lra.
Qed.
Lemma corrections_bound : forall vals sum, is_finite (fold_left fadd vals sum) = true -> Forall (fun x => is_finite x = true) (corrections sum vals) ->
  Rsum_abs (reals (corrections sum vals)) <= INR (length vals) * uro * (1 + uro) ^ (length vals) * (Rabs (B2R sum) + Rsum_abs (reals vals)).
Proof.
  pose proof uro_pos as U.
  induction vals as [|x vals IH]; intros sum F C; cbn [fold_left corrections] in *; [unfold Rsum_abs, Rsum; cbn; rewrite !Rmult_0_l; lra|]. inversion C as [|? ? C1 C2]; subst. destruct (fold_fadd_finite _ _ F) as [F1 _].
  specialize (IH _ F C2). pose proof (correction_small sum x F1 C1) as X. destruct (fadd_finite _ _ F1) as (_ & _ & E). destruct (rnd_plus_rel sum x) as (d & Hd & R).
  change (length (x :: vals)) with (S (length vals)). set (n := length vals) in *. change (reals (correction sum x :: corrections (fadd sum x) vals)) with (B2R (correction sum x) :: reals (corrections (fadd sum x) vals)). change (reals (x :: vals)) with (B2R x :: reals vals).
  change (Rsum_abs (B2R (correction sum x) :: reals (corrections (fadd sum x) vals))) with (Rabs (B2R (correction sum x)) + Rsum_abs (reals (corrections (fadd sum x) vals))). change (Rsum_abs (B2R x :: reals vals)) with (Rabs (B2R x) + Rsum_abs (reals vals)).
  set (ss := Rabs (B2R sum) + (Rabs (B2R x) + Rsum_abs (reals vals))). pose proof (Rsum_abs_pos (reals vals)) as P0. pose proof (Rabs_pos (B2R sum)) as P1. pose proof (Rabs_pos (B2R x)) as P2. pose proof (Rabs_triang (B2R sum) (B2R x)) as P3.
  assert (A : Rabs (B2R (fadd sum x)) <= (1 + uro) * (Rabs (B2R sum) + Rabs (B2R x))).
  { rewrite E, R, Rabs_mult, Rmult_comm. apply Rmult_le_compat; try apply Rabs_pos; [|lra]. eapply Rle_trans; [apply Rabs_triang|]. rewrite Rabs_R1. lra. }
  assert (B : Rabs (B2R (fadd sum x)) + Rsum_abs (reals vals) <= (1 + uro) * ss). { unfold ss. nra. }
  assert (PW : 1 <= (1 + uro) ^ n) by (apply pow_R1_Rle; lra). assert (PN : 0 <= INR n) by apply pos_INR.
  assert (K : 0 <= INR n * uro * (1 + uro) ^ n) by (apply Rmult_le_pos; [apply Rmult_le_pos; lra|lra]).
  assert (D : Rsum_abs (reals (corrections (fadd sum x) vals)) <= INR n * uro * (1 + uro) ^ n * ((1 + uro) * ss)) by (eapply Rle_trans; [exact IH|]; apply Rmult_le_compat_l; assumption).
  rewrite S_INR. cbn [pow]. assert (SS : 0 <= ss) by (unfold ss; lra). assert (X2 : Rabs (B2R (correction sum x)) <= uro * ss). { eapply Rle_trans; [exact X|]. apply Rmult_le_compat_l; [lra|unfold ss; lra]. }
  assert (Y : uro * ss <= uro * ((1 + uro) * (1 + uro) ^ n) * ss). { apply Rmult_le_compat_r; [exact SS|]. assert (1 <= (1 + uro) * (1 + uro) ^ n) by nra. nra. }
  replace ((INR n + 1) * uro * ((1 + uro) * (1 + uro) ^ n) * ss) with (INR n * uro * (1 + uro) ^ n * ((1 + uro) * ss) + uro * ((1 + uro) * (1 + uro) ^ n) * ss) by ring. lra.
Qed.
Lemma seq_reduces : forall l, exists n, (n <= length l)%nat /\ reduces n l (fold_left fadd l fzero).
Proof.
  assert (G : forall l n l0 a, reduces n l0 a -> reduces (n + length l) (l0 ++ l) (fold_left fadd l a)).
  { induction l as [|x l IH]; intros n l0 a H; cbn [fold_left length].
    - now rewrite app_nil_r, Nat.add_0_r.
    - replace (n + S (length l))%nat with (S (n + 0) + length l)%nat by lia. replace (l0 ++ x :: l) with ((l0 ++ [x]) ++ l) by now rewrite <- app_assoc. apply IH. apply red_plus; [exact H|constructor]. }
  intro l. exists (length l). split; [lia|]. exact (G l 0%nat [] fzero red_start).
Qed.
Lemma corrections_length : forall vals sum, length (corrections sum vals) = length vals.
Proof. induction vals; intro sum; cbn; [reflexivity|]. now rewrite IHvals. Qed.

Lemma neumaier_unfold : forall vals, (length vals <> 1)%nat -> doNeumaierSummation vals = fadd (fold_left fadd vals fzero) (fold_left fadd (corrections fzero vals) fzero).
Proof.
  intros vals H. unfold doNeumaierSummation, neumaier. destruct vals as [|x [|y t]].
  - cbn. reflexivity.
  - now cbn in H.
  - rewrite fold_steps. reflexivity.
Qed.
Lemma neumaier_error : forall vals, is_finite (doNeumaierSummation vals) = true ->
  Rabs (B2R (doNeumaierSummation vals) - Rsum (reals vals)) <= uro * Rabs (Rsum (reals vals)) + (1 + uro) * (growth (length vals) * (INR (length vals) * uro * (1 + uro) ^ (length vals))) * Rsum_abs (reals vals).
Proof.
  intros vals F. pose proof uro_pos as U. pose proof (Rsum_abs_pos (reals vals)) as P0. pose proof (growth_pos (length vals)) as G0. pose proof (pos_INR (length vals)) as N0.
  assert (PW : 1 <= (1 + uro) ^ (length vals)) by (apply pow_R1_Rle; lra).
  set (K := INR (length vals) * uro * (1 + uro) ^ length vals). assert (K0 : 0 <= K) by (apply Rmult_le_pos; [apply Rmult_le_pos; lra|lra]).
  set (ss := Rsum (reals vals)) in *.
  destruct (Nat.eq_dec (length vals) 1) as [L1|L1].
  - destruct vals as [|x [|]]; try discriminate. cbn [doNeumaierSummation neumaier]. unfold doNeumaierSummation, neumaier. unfold ss, reals, Rsum, f2R. cbn [map fold_right]. replace (B2R x - (B2R x + 0)) with 0 by ring. rewrite Rabs_R0.
    apply Rplus_le_le_0_compat; [apply Rmult_le_pos; [lra|apply Rabs_pos]|]. apply Rmult_le_pos; [|exact P0]. apply Rmult_le_pos; [lra|]. now apply Rmult_le_pos.
  - rewrite (neumaier_unfold vals L1) in *. destruct (fadd_finite _ _ F) as (F1 & F2 & E). destruct (fold_fadd_finite _ _ F2) as [_ FC].
    pose proof (corrections_exact vals fzero F1 FC) as X. pose proof (corrections_bound vals fzero F1 FC) as Y. cbn [B2R fzero] in X, Y. rewrite Rplus_0_l in X. rewrite Rabs_R0, Rplus_0_l in Y. fold K in Y.
    destruct (seq_reduces (corrections fzero vals)) as (n & Ln & HR). destruct (reduces_error n _ _ HR F2) as [_ Z]. rewrite corrections_length in Ln.
    destruct (rnd_plus_rel (fold_left fadd vals fzero) (fold_left fadd (corrections fzero vals) fzero)) as (d & Hd & R). rewrite E, R.
    set (s := B2R (fold_left fadd vals fzero)) in *. set (c := B2R (fold_left fadd (corrections fzero vals) fzero)) in *. set (e := Rsum (reals (corrections fzero vals))) in *. fold ss in X.
    assert (Z2 : Rabs (c - e) <= growth (length vals) * (K * Rsum_abs (reals vals))).
    { eapply Rle_trans; [exact Z|]. apply Rmult_le_compat; [apply growth_pos|apply Rsum_abs_pos|now apply growth_mono|exact Y]. }
    replace ((s + c) * (1 + d) - ss) with (ss * d + (c - e) * (1 + d)) by (rewrite <- X; ring).
    eapply Rle_trans; [apply Rabs_triang|]. apply Rplus_le_compat.
    + rewrite Rabs_mult, Rmult_comm. apply Rmult_le_compat_r; [apply Rabs_pos|exact Hd].
    + rewrite Rabs_mult, Rmult_comm. replace ((1 + uro) * (growth (length vals) * K) * Rsum_abs (reals vals)) with ((1 + uro) * (growth (length vals) * (K * Rsum_abs (reals vals)))) by ring.
      apply Rmult_le_compat; try apply Rabs_pos; [|exact Z2]. eapply Rle_trans; [apply Rabs_triang|]. rewrite Rabs_R1. lra.
Qed.

Lemma neumaier_real : forall ge vals, neumaier R_arith ge vals = Rsum vals.
Proof.
  intros ge vals. assert (G : forall l s, fold_left (neumaier_step R_arith ge) l (s, 0) = (s + Rsum l, 0)).
  { unfold Rsum. induction l as [|x l IH]; intro s; cbn [fold_left fold_right]; [now rewrite Rplus_0_r|]. unfold neumaier_step at 2. cbn [R_arith add sub].
    replace (if ge s x then 0 + (s - (s + x) + x) else 0 + (x - (s + x) + s)) with 0 by (destruct (ge s x); ring). rewrite IH. f_equal. ring. }
  unfold neumaier. destruct vals as [|x [|y t]].
  - cbn. unfold Rsum. cbn. ring.
  - unfold Rsum. cbn. ring.
  - cbn [zero R_arith]. rewrite G. cbn [add R_arith]. ring.
Qed.

(** *** Uncertain *)
Lemma eval_nonneg : forall {T} (A : arith T) (neg : T -> bool) e r, u_eval A neg e = Some r -> neg (u_unc r) = false.
Proof.
  intros T A neg. assert (G : forall v u r, uncertain_of neg v u = Some r -> neg (u_unc r) = false) by (intros v u r; unfold uncertain_of; destruct (neg u) eqn:E; intro H; [discriminate|injection H as <-; exact E]).
  intros e r H. destruct e; cbn [u_eval] in H; unfold bind2 in H; repeat match goal with H : context [match u_eval A neg ?e with _ => _ end] |- _ => destruct (u_eval A neg e); try discriminate H end; eapply G; exact H.
Qed.

(** *** SmartVector *)
Section Smart.
Context {T : Type} (neqb : T -> T -> bool).
Definition same_as (d h : T) : Prop := d = h \/ neqb d h = false.
Lemma loop_ok : forall host local, length local = length host -> exists l', s_loop neqb host local local = Some (l', l') /\ Forall2 same_as l' host.
Proof.
  induction host as [|h host IH]; intros [|l local] E; try discriminate; cbn [s_loop]; [exists []; split; [reflexivity|constructor]|].
  injection E as E. destruct (IH local E) as (l' & E' & F). destruct (neqb l h) eqn:N; cbn [tl]; rewrite E'.
  - exists (h :: l'). split; [reflexivity|]. constructor; [now left|exact F].
  - exists (l :: l'). split; [reflexivity|]. constructor; [now right|exact F].
Qed.
Definition keeps_device (o : sop T) : Prop := match o with ClearDevice => False | _ => True end.
Lemma step_equal : forall v o, s_local v = s_dev v -> keeps_device o -> exists v', s_step neqb v o = Some v' /\ s_local v' = s_dev v'.
Proof.
  intros v o E K. destruct o; try (eexists; split; [reflexivity|exact E]); try contradiction.
  - eexists. split; reflexivity.
  - cbn [s_step]. unfold s_smart_sync. destruct (Nat.eqb (length (s_local v)) (length (s_host v))) eqn:L; [|eexists; split; reflexivity].
    apply Nat.eqb_eq in L. rewrite <- E. destruct (loop_ok _ _ L) as (l' & -> & _). eexists. split; reflexivity.
Qed.
Lemma run_equal : forall ops v, s_local v = s_dev v -> Forall keeps_device ops -> exists v', s_run neqb v ops = Some v' /\ s_local v' = s_dev v'.
Proof.
  induction ops as [|o ops IH]; intros v E F; cbn [s_run]; [now exists v|]. inversion F as [|? ? K F']; subst. destruct (step_equal v o E K) as (v1 & -> & E1). now apply IH.
Qed.
Lemma run_app : forall a b v, s_run neqb v (a ++ b) = match s_run neqb v a with Some v' => s_run neqb v' b | None => None end.
Proof. induction a as [|o a IH]; intros b v; cbn [app s_run]; [reflexivity|]. destruct (s_step neqb v o); [apply IH|reflexivity]. Qed.
Lemma same_refl_list : forall l : list T, Forall2 same_as l l.
Proof. induction l; constructor; [now left|assumption]. Qed.
(** After sync or smart_sync the device equals the host, and smart_sync never fails. *)
Lemma synced : forall ops o, Forall keeps_device ops -> (o = Sync \/ o = SmartSync) -> exists v, s_run neqb s_new (ops ++ [o]) = Some v /\ Forall2 same_as (s_dev v) (s_host v).
Proof.
  intros ops o F H. destruct (run_equal ops s_new eq_refl F) as (v & R & E). rewrite run_app, R. cbn [s_run]. destruct H as [-> | ->]; cbn [s_step].
  - eexists. split; [reflexivity|]. cbn. apply same_refl_list.
  - unfold s_smart_sync. destruct (Nat.eqb (length (s_local v)) (length (s_host v))) eqn:L; [|eexists; split; [reflexivity|apply same_refl_list]].
    apply Nat.eqb_eq in L. rewrite <- E. destruct (loop_ok _ _ L) as (l' & -> & FF). eexists. split; [reflexivity|exact FF].
Qed.
(** A full sync works even after clear_device, and gives exactly the host array. *)
Lemma full_sync : forall v, s_dev (s_sync v) = s_host v /\ @s_local T (s_sync v) = s_host v.
Proof. now intros. Qed.
End Smart.

Section Cpu.
Context {T : Type} (grow : nat -> nat).
Definition no_resize (o : sop T) : Prop := match o with Push _ | Clear => False | _ => True end.
Lemma cpu_synced : forall ops o after i, (o = Sync \/ o = SmartSync) -> Forall no_resize after ->
  let v := c_run grow c_new (ops ++ o :: after) in c_read v i = nth_error (c_data v) i.
Proof.
  intros ops o after i H F v. unfold v, c_run. rewrite fold_left_app. cbn [fold_left]. set (w := c_step grow (fold_left (c_step grow) ops c_new) o).
  assert (W : c_ptr w = Some (c_block w)) by (unfold w; destruct H as [-> | ->]; reflexivity). clearbody w. revert w W. clear v.
  induction after as [|p after IH]; intros w W; cbn [fold_left].
  - unfold c_read. now rewrite W, Nat.eqb_refl.
  - inversion F as [|? ? K F']; subst. apply IH; [exact F'|]. destruct p; try contradiction; cbn [c_step c_ptr c_block]; try exact W; reflexivity.
Qed.
End Cpu.
