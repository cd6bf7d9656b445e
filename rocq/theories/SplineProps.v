(** C55, C64, C65: splines. *)
From Coq Require Import Reals List Lra Lia Arith Bool ZArith.
From Coquelicot Require Import Coquelicot.
From Verif Require Import FormulaSpec AmpModel Amp4Model SplineModel SplineSpec SplineProofs.
From Verif Require LeafGen.
Import ListNotations.
Open Scope R_scope.

(** ** C55: the spline reads only existing knots, is zero outside, and passes through the coefficients *)
(** In any arithmetic (doubles included): 2 to 100 knots with as many coefficients: nothing outside the arrays is read or
    written, for any masses. *)
Theorem C55_reads_partial : forall (T : Type) (Ar : LeafGen.ops T) limits reals imags cyc symm,
  (2 <= length limits <= 100)%nat -> length reals = length limits -> length imags = length limits ->
  exists s, make limits reals imags cyc symm = Some s /\
  forall t, length t = 100%nat -> (exists t', recalc Ar t s = Some t' /\ length t' = 100%nat) /\
  forall m12 m13 m23, exists z, value Ar t s m12 m13 m23 = Some z.
Proof.
  intros T Ar limits reals imags cyc symm Hn H1 H2. destruct (make_wf limits reals imags cyc symm H1 H2) as (s & E & W & _ & _ & N & _).
  exists s. split; [exact E|]. intros t Ht. split.
  - destruct (recalc_some Ar t s ltac:(lia)) as (t' & R & L). exists t'. split; [exact R|lia].
  - intros m12 m13 m23. unfold value. destruct (run_some Ar t s (mAB s m12 m13 m23) (LeafGen.o_zero Ar, LeafGen.o_zero Ar) W ltac:(lia)) as (z & ->). cbn [obind].
    destruct (s_swap s); [|eauto]. apply run_some; [exact W|lia].
Qed.
(** Other numbers of knots: the constructor reads or writes outside its arrays. *)
Theorem C55_sizes_refuted : forall (T : Type) (Ar : LeafGen.ops T) limits reals imags cyc symm s t,
  make limits reals imags cyc symm = Some s -> length t = 100%nat -> (length limits < 2 \/ 100 < length limits)%nat -> recalc Ar t s = None.
Proof.
  intros T Ar limits reals imags cyc symm s t E Ht H. unfold make in E. destruct (_ && _)%bool; [|discriminate]. injection E as <-. unfold recalc. cbn [s_n]. rewrite Ht.
  destruct (Nat.ltb (length limits) 2) eqn:L; [reflexivity|]. apply Nat.ltb_ge in L. replace (Nat.leb _ _) with false by (symmetry; apply Nat.leb_gt; lia). reflexivity.
Qed.
Example C55_ex_sizes : exists s, make (repeat 0 101) (repeat 0 101) (repeat 0 101) 0 false = Some s /\ recalc R_ops (SplineModel.table0 R_ops) s = None.
Proof.
  destruct (make_wf (repeat 0 101) (repeat 0 101) (repeat 0 101) 0 false eq_refl eq_refl) as (s & E & _). exists s. split; [exact E|].
  apply (C55_sizes_refuted R R_ops _ _ _ _ _ _ _ E); [apply repeat_length|rewrite repeat_length; lia].
Qed.
(** Zero when each mass used is below the first limit or not below any; in any arithmetic. *)
Definition outside {T : Type} (Ar : LeafGen.ops T) (limits : list T) (m : T) : Prop :=
  (forall x, nth_error limits 0 = Some x -> LeafGen.o_lt Ar m x = true) \/ (forall x, In x limits -> LeafGen.o_lt Ar m x = false).
Theorem C55_outside : forall (T : Type) (Ar : LeafGen.ops T) limits reals imags cyc symm s t m12 m13 m23,
  length reals = length limits -> length imags = length limits -> make limits reals imags cyc symm = Some s ->
  outside Ar limits (own_mass cyc m12 m13 m23) -> (symm = true -> outside Ar limits (other_mass cyc m12 m13 m23)) ->
  value Ar t s m12 m13 m23 = Some (LeafGen.o_zero Ar, LeafGen.o_zero Ar).
Proof.
  intros T Ar limits reals imags cyc symm s t m12 m13 m23 H1 H2 E O1 O2. destruct (make_wf limits reals imags cyc symm H1 H2) as (s' & E' & W & K & _ & _ & C & S).
  rewrite E in E'. injection E' as <-. unfold value. rewrite mAB_own, mAC_other, C. rewrite <- K in O1, O2. rewrite (run_outside Ar t s _ _ W O1). cbn [obind].
  rewrite S. destruct symm; [|reflexivity]. apply run_outside; [exact W|now apply O2].
Qed.
(** At every knot but the last the spline is the coefficient, whatever the derivatives. *)
Theorem C55_knots_partial : forall limits reals imags cyc symm s t m12 m13 m23 k,
  (2 <= length limits <= 100)%nat -> length reals = length limits -> length imags = length limits -> increasing limits ->
  make limits reals imags cyc symm = Some s -> length t = 100%nat -> (S k < length limits)%nat ->
  own_mass cyc m12 m13 m23 = nth k limits 0 -> (symm = true -> outside R_ops limits (other_mass cyc m12 m13 m23)) ->
  value R_ops t s m12 m13 m23 = Some (nth k reals 0, nth k imags 0).
Proof.
  intros limits reals imags cyc symm s t m12 m13 m23 k Hn H1 H2 Hi E Ht Hk HM O. destruct (make_wf limits reals imags cyc symm H1 H2) as (s' & E' & W & K & Co & N & C & S).
  rewrite E in E'. injection E' as <-. unfold value. rewrite mAB_own, mAC_other, C, HM, S. rewrite <- K in Hi, O. rewrite <- K.
  rewrite (run_knot t s W) by (lia || exact Hi || idtac). cbn [obind fst snd].
  rewrite Co, combine_nth by lia. cbn [fst snd LeafGen.o_zero R_ops]. rewrite !Rplus_0_l. destruct symm; [|reflexivity]. apply run_outside; [exact W|now apply O].
Qed.
(** At the last knot it is zero, for every spline. *)
Theorem C55_last_refuted : forall limits reals imags cyc s t m12 m13 m23,
  length reals = length limits -> length imags = length limits -> increasing limits ->
  make limits reals imags cyc false = Some s -> own_mass cyc m12 m13 m23 = nth (length limits - 1) limits 0 ->
  value R_ops t s m12 m13 m23 = Some (0, 0).
Proof.
  intros limits reals imags cyc s t m12 m13 m23 H1 H2 Hi E HM. apply (C55_outside R R_ops limits reals imags cyc false s t m12 m13 m23 H1 H2 E); [|discriminate].
  right. intros x Hx. apply (In_nth _ _ 0) in Hx. destruct Hx as (i & Li & <-). cbn [LeafGen.o_lt R_ops]. apply Rltb_false. rewrite HM.
  destruct (Nat.eq_dec i (length limits - 1)) as [->|Ne]; [lra|]. left. apply Hi. lia.
Qed.
Lemma ex_inc : increasing [1; 2; 4].
Proof. intros i j H. cbn [length] in H. assert (C : (i = 0 /\ j = 1 \/ i = 0 /\ j = 2 \/ i = 1 /\ j = 2)%nat) by lia. destruct C as [(-> & ->)|[(-> & ->)|(-> & ->)]]; cbn; lra. Qed.
Example C55_ex : exists s t, make [1; 2; 4] [5; 6; 7] [8; 9; 10] 1 false = Some s /\ recalc R_ops (SplineModel.table0 R_ops) s = Some t /\
  value R_ops t s 30 2 30 = Some (6, 9) /\ value R_ops t s 30 4 30 = Some (0, 0) /\ value R_ops t s 30 (1 / 2) 30 = Some (0, 0).
Proof.
  destruct (C55_reads_partial R R_ops [1; 2; 4] [5; 6; 7] [8; 9; 10] 1 false ltac:(cbn; lia) eq_refl eq_refl) as (s & E & Q).
  destruct (Q (SplineModel.table0 R_ops) (repeat_length _ _)) as ((t & Rc & L) & _). exists s, t. split; [exact E|]. split; [exact Rc|]. split; [|split].
  - apply (C55_knots_partial [1; 2; 4] [5; 6; 7] [8; 9; 10] 1 false s t 30 2 30 1 ltac:(cbn; lia) eq_refl eq_refl ex_inc E L ltac:(cbn; lia) eq_refl). discriminate.
  - apply (C55_last_refuted [1; 2; 4] [5; 6; 7] [8; 9; 10] 1 s t 30 4 30 eq_refl eq_refl ex_inc E eq_refl).
  - apply (C55_outside R R_ops [1; 2; 4] [5; 6; 7] [8; 9; 10] 1 false s t 30 (1 / 2) 30 eq_refl eq_refl E); [|discriminate].
    left. intros x Hx. injection Hx as <-. cbn [LeafGen.o_lt R_ops own_mass Nat.eqb]. apply Rltb_iff. lra.
Qed.

(** ** C64: between the knots the spline is a smooth curve *)
(** With the derivatives its constructor computes: twice continuously differentiable between the first and the last knot. *)
Theorem C64_smooth_partial : forall limits reals imags cyc s t0 t,
  (2 <= length limits)%nat -> length reals = length limits -> length imags = length limits -> increasing limits ->
  make limits reals imags cyc false = Some s -> recalc R_ops t0 s = Some t ->
  smooth_between (re_of t s) (nth 0 limits 0) (nth (length limits - 1) limits 0) /\
  smooth_between (im_of t s) (nth 0 limits 0) (nth (length limits - 1) limits 0).
Proof.
  intros limits reals imags cyc s t0 t Hn H1 H2 Hi E R. destruct (make_wf limits reals imags cyc false H1 H2) as (s' & E' & W & K & _ & N & _ & S).
  rewrite E in E'. injection E' as <-. rewrite <- K in Hi. pose proof (recalc_smooth t0 s t W Hi S R) as Q. now rewrite K, N in Q.
Qed.
(** But the derivatives are those of the spline constructed last, at its initial coefficients. *)
Lemma ex_inc2 : increasing [0; 1; 2].
Proof. intros i j H. cbn [length] in H. assert (C : (i = 0 /\ j = 1 \/ i = 0 /\ j = 2 \/ i = 1 /\ j = 2)%nat) by lia. destruct C as [(-> & ->)|[(-> & ->)|(-> & ->)]]; cbn; lra. Qed.
Definition flat : spline (T := R) := mkSpline 0 false 3 [0; 1; 2] [(0, 0); (0, 0); (0, 0)].
Definition tent : spline (T := R) := mkSpline 0 false 3 [0; 1; 2] [(0, 0); (1, 0); (0, 0)].
Lemma flat_zero : forall t0 t k, recalc R_ops t0 flat = Some t -> (k < 3)%nat -> nth k t (0, 0) = (0, 0).
Proof.
  intros t0 t k Rc Hk. rewrite (recalc_reads t0 flat t k Rc Hk). unfold flat. cbn [s_n s_knots s_coefs].
  assert (Z : forall f : nat -> R, (forall i, f i = 0) -> forall j, second R_ops 3 (fun k => nth k [0; 1; 2] 0) f j = 0).
  { intros f Hf. assert (Y1 : yp1 R_ops (fun k => nth k [0; 1; 2] 0) f = 0) by (unfold yp1; rewrite !Hf; cbn; field).
    assert (YN : ypn R_ops 3 (fun k => nth k [0; 1; 2] 0) f = 0) by (unfold ypn; rewrite !Hf; cbn; field).
    assert (U : forall i, (i <= 1)%nat -> snd (dec R_ops (fun k => nth k [0; 1; 2] 0) f i) = 0).
    { intros [|[|i]] Hi; [| |lia].
      - cbn [dec]. rewrite Y1, !Hf. destruct (LeafGen.o_lt _ _ _); cbn; [reflexivity|]. field.
      - cbn [dec snd]. rewrite Y1, !Hf. destruct (LeafGen.o_lt _ _ _); cbn; field. }
    assert (T0 : top R_ops 3 (fun k => nth k [0; 1; 2] 0) f = 0).
    { unfold top. change (3 - 2)%nat with 1%nat. change (3 - 1)%nat with 2%nat. rewrite (U 1%nat) by lia. rewrite YN, !Hf.
      destruct (LeafGen.o_lt _ _ _); cbn [LeafGen.o_add LeafGen.o_sub LeafGen.o_mul LeafGen.o_div LeafGen.o_ofZ LeafGen.o_one LeafGen.o_half LeafGen.o_zero R_ops nth];
        match goal with |- ?a / ?b = 0 => replace a with 0 by (field; lra); unfold Rdiv; apply Rmult_0_l end. }
    assert (B : forall d, (d <= 2)%nat -> back R_ops 3 (fun k => nth k [0; 1; 2] 0) f d = 0).
    { induction d as [|d IH]; intro Hd; [exact T0|]. cbn [back]. rewrite IH by lia. rewrite U by lia. cbn. ring. }
    intro j. unfold second. apply B. lia. }
  f_equal; apply Z; intros [|[|[|[|i]]]]; reflexivity.
Qed.
Lemma tent_kink : forall t, (3 <= length t)%nat -> (forall k, (k < 3)%nat -> nth k t (0, 0) = (0, 0)) -> ~ ex_derive (re_of t tent) 1.
Proof.
  intros t L Z (l & D). assert (W : wf tent) by (split; reflexivity).
  assert (V : forall m, 0 <= m < 2 -> re_of t tent m = if Rlt_dec m 1 then m else 2 - m).
  { intros m Hm. unfold re_of. rewrite (value_single t tent W ltac:(cbn; lia) m m m eq_refl) by (rewrite own_same; exact Hm). rewrite own_same. cbn [fst].
    destruct (K_spec t tent W ltac:(cbn; lia) m Hm) as (_ & B1 & B2). cbn [s_n tent] in B1. unfold P0, cubic.
    destruct (K tent m) as [|[|k]]; [| |lia]; rewrite !Z by lia; cbn in B2 |- *; destruct (Rlt_dec m 1); try lra; field. }
  assert (D' : derivable_pt_lim (re_of t tent) 1 l) by now apply is_derive_Reals.
  destruct (D' (1 / 2) ltac:(lra)) as (d & Hd). set (e := Rmin (d / 2) (1 / 2)).
  assert (E : 0 < e /\ e < d /\ e <= 1 / 2). { unfold e. pose proof (cond_pos d). pose proof (Rmin_l (d / 2) (1 / 2)). pose proof (Rmin_r (d / 2) (1 / 2)). assert (0 < Rmin (d / 2) (1 / 2)) by (apply Rmin_pos; lra). lra. }
  pose proof (Hd e ltac:(lra) ltac:(rewrite Rabs_right; lra)) as A1. pose proof (Hd (- e) ltac:(lra) ltac:(rewrite Rabs_left; lra)) as A2.
  rewrite !V in A1, A2 by lra. destruct (Rlt_dec (1 + e) 1); [lra|]. destruct (Rlt_dec 1 1); [lra|]. destruct (Rlt_dec (1 + - e) 1); [|lra].
  replace ((2 - (1 + e) - (2 - 1)) / e) with (-1) in A1 by (field; lra). replace ((1 + - e - (2 - 1)) / - e) with 1 in A2 by (field; lra).
  apply Rabs_def2 in A1. apply Rabs_def2 in A2. lra.
Qed.
(** Coefficients changed after construction (recalculateCache is called by the constructor only). *)
Theorem C64_changed_refuted : exists (before after : spline (T := R)) t,
  make [0; 1; 2] [0; 0; 0] [0; 0; 0] 0 false = Some before /\ make [0; 1; 2] [0; 1; 0] [0; 0; 0] 0 false = Some after /\
  recalc R_ops (SplineModel.table0 R_ops) before = Some t /\ ~ smooth_between (re_of t after) 0 2.
Proof.
  destruct (recalc_some R_ops (SplineModel.table0 R_ops) flat) as (t & R & L); [unfold SplineModel.table0; rewrite repeat_length; cbn; lia|].
  exists flat, tent, t. split; [reflexivity|]. split; [reflexivity|]. split; [exact R|]. intros (f1 & f2 & S). destruct (S 1 ltac:(lra)) as (D & _).
  apply (tent_kink t); [rewrite L; unfold SplineModel.table0; rewrite repeat_length; lia| |eexists; exact D]. intros k Hk. exact (flat_zero _ t k R Hk).
Qed.
(** Two splines in one program: the first one evaluated with the derivatives of the second. *)
Theorem C64_two_refuted : exists (first second : spline (T := R)) t1 t2,
  make [0; 1; 2] [0; 1; 0] [0; 0; 0] 0 false = Some first /\ make [0; 1; 2] [0; 0; 0] [0; 0; 0] 0 false = Some second /\
  recalc R_ops (SplineModel.table0 R_ops) first = Some t1 /\ recalc R_ops t1 second = Some t2 /\
  smooth_between (re_of t1 first) 0 2 /\ ~ smooth_between (re_of t2 first) 0 2.
Proof.
  destruct (recalc_some R_ops (SplineModel.table0 R_ops) tent) as (t1 & R1 & L1); [unfold SplineModel.table0; rewrite repeat_length; cbn; lia|].
  unfold SplineModel.table0 in L1. rewrite repeat_length in L1.
  destruct (recalc_some R_ops t1 flat) as (t2 & R2 & L2); [rewrite L1; cbn; lia|].
  exists tent, flat, t1, t2. split; [reflexivity|]. split; [reflexivity|]. split; [exact R1|]. split; [exact R2|]. split.
  - apply (C64_smooth_partial [0; 1; 2] [0; 1; 0] [0; 0; 0] 0 tent _ t1 ltac:(cbn; lia) eq_refl eq_refl ex_inc2 eq_refl R1).
  - intros (f1 & f2 & S). destruct (S 1 ltac:(lra)) as (D & _).
    apply (tent_kink t2); [rewrite L2, L1; lia| |eexists; exact D]. intros k Hk. exact (flat_zero _ t2 k R2 Hk).
Qed.

(** ** C65: the width of a GSpline lineshape follows the given values *)
(** It does not: at and below the first knot the "value" is 0 whatever was given, and above the first knot numbers that are
    not the lineshape's own are read (or memory beyond the constants). *)
Theorem C65_first_refuted : forall solve mpair radius smin smax vals rest bin_of fmod x,
  (2 <= length vals)%nat -> x <= smin ->
  get_spline R_ops (gspline_constants R_ops solve mpair radius smin smax vals ++ rest) bin_of fmod x true (length vals) = Some 0.
Proof.
  intros solve mpair radius smin smax vals rest bin_of fmod x Hl Hx. unfold get_spline, gspline_constants. cbn [app nth_error obind LeafGen.o_le R_ops].
  replace (Rleb x smin) with true by (symmetry; unfold Rleb; destruct (Rle_dec x smin); [reflexivity|lra]).
  unfold curvatures. destruct vals as [|v vals]; [cbn in Hl; lia|]. cbn [length seq map app nth_error Nat.eqb orb obind]. reflexivity.
Qed.
Theorem C65_reads_refuted : forall solve mpair radius smin smax vals bin_of fmod x,
  smin < x < smax ->
  get_spline R_ops (gspline_constants R_ops solve mpair radius smin smax vals) bin_of fmod x true (length vals) = None.
Proof.
  intros solve mpair radius smin smax vals bin_of fmod x Hx. unfold get_spline.
  assert (L : length (gspline_constants R_ops solve mpair radius smin smax vals) = (5 + length vals)%nat).
  { unfold gspline_constants, curvatures. rewrite app_length, map_length, seq_length. reflexivity. }
  replace (nth_error (gspline_constants R_ops solve mpair radius smin smax vals) 2) with (Some smin) by reflexivity.
  replace (nth_error (gspline_constants R_ops solve mpair radius smin smax vals) 3) with (Some smax) by reflexivity. cbn [obind LeafGen.o_le R_ops].
  replace (Rleb x smin) with false by (symmetry; unfold Rleb; destruct (Rle_dec x smin); [lra|reflexivity]).
  replace (Rleb smax x) with false by (symmetry; unfold Rleb; destruct (Rle_dec smax x); [lra|reflexivity]).
  cbv zeta.
  assert (N : forall k, (5 + length vals <= k)%nat -> nth_error (gspline_constants R_ops solve mpair radius smin smax vals) k = None) by (intros; apply nth_error_None; lia).
  rewrite (N (5 + bin_of _ _ + length vals)%nat) by lia.
  destruct (nth_error _ _); [|reflexivity]. cbn [obind]. destruct (nth_error _ _); reflexivity.
Qed.
Example C65_ex : get_spline R_ops (gspline_constants R_ops (fun l => l) 0 1 1 3 [5; 6; 9] ++ [0; 0; 0]) (fun _ _ => 0%nat) (fun a b => 0) 1 true 3 = Some 0.
Proof. apply (C65_first_refuted (fun l => l) 0 1 1 3 [5; 6; 9] [0; 0; 0]); [cbn; lia|lra]. Qed.

Print Assumptions C55_reads_partial.
Print Assumptions C55_sizes_refuted.
Print Assumptions C55_outside.
Print Assumptions C55_knots_partial.
Print Assumptions C55_last_refuted.
Print Assumptions C64_smooth_partial.
Print Assumptions C64_changed_refuted.
Print Assumptions C64_two_refuted.
Print Assumptions C65_first_refuted.
Print Assumptions C65_reads_refuted.
