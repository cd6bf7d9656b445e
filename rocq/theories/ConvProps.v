(** C42 and C59: ConvolutionPdf. *)
From Coq Require Import List ZArith Bool Lia Reals Lra.
From Coquelicot Require Import Coquelicot.
From Flocq Require Import Core BinarySingleNaN.
From Verif Require Import F64 F64Lemmas ListAux PdfModel PdfSpec LeafFormulas FormulaSpec SmoothModel ConvModel ConvSpec ConvProofs ConvProofs2.
From Verif Require LeafGen VariableModel.
Import ListNotations.
Open Scope R_scope.

(** ** C42 *)

(** In exact arithmetic: if the integration limits and the limits of the observable are whole multiples of the step, no
    observable value in range makes the sum read outside the two work spaces. *)
Theorem C42_in_bounds_partial : forall (c : conv R) f g x0, 0 < v_step c -> v_lo c <= v_hi c ->
  multiple (v_step c) (v_lo c) -> multiple (v_step c) (v_hi c) -> multiple (v_step c) (v_dlo c) -> multiple (v_step c) (v_dup c) ->
  v_dlo c <= x0 <= v_dup c -> exists v, conv_value R_ops Rtrunc_int c f g x0 = Some v.
Proof.
  intros c f g x0 HS HL (a & Ba & Ea) (h & Bh & Eh) (d & Bd & Ed) (u & Bu & Eu) Hx. eexists.
  apply (conv_R c a h d u HS Ba Bh Bd Bu Ea Eh Ed Eu); [|exact Hx].
  apply le_IZR. apply (Rmult_le_reg_r (v_step c)); [exact HS|]. lra.
Qed.
Print Assumptions C42_in_bounds_partial.

(** The same for the doubles the code computes with: it is enough that the quotients round to whole numbers. *)
Theorem C42_in_bounds_double_partial : forall (c : conv f64) f g x0, sane_step (v_step c) ->
  fmultiple (v_step c) (v_lo c) -> fmultiple (v_step c) (v_hi c) -> fmultiple (v_step c) (v_dlo c) -> fmultiple (v_step c) (v_dup c) ->
  f_isfinite x0 = true -> f2R (v_dlo c) <= f2R x0 <= f2R (v_dup c) -> exists v, conv_value f64_ops f2int c f g x0 = Some v.
Proof.
  intros c f g x0 HS (Fa & a & Ba & Ea) (Fh & h & Bh & Eh) (Fd & d & Bd & Ed) (Fu & u & Bu & Eu) Fx Hx.
  exact (conv_f c a h d u HS Ba Bh Bd Bu Fa Fh Fd Fu Ea Eh Ed Eu f g x0 Fx Hx).
Qed.
Print Assumptions C42_in_bounds_double_partial.

(** The integration range and step every ConvolutionPdf starts with, -10, 10 and the double next to 0.01, and an observable
    between -5 and 5, in this case at -4.99. *)
Definition cent : f64 := fdiv (f_of_Z 1) (f_of_Z 100).
Definition conv42 : conv f64 := mkConv (f_of_Z (-10)) (f_of_Z 10) cent (f_of_Z (-5)) (f_of_Z 5).
Lemma fmultiple_ok : forall s x k, (Z.abs k <=? 2 ^ 28)%Z = true -> f_isfinite x = true -> fsame (fdiv x s) (f_of_Z k) = true -> fmultiple s x.
Proof. intros s x k H F E. apply Z.leb_le in H. split; [exact F|]. exists k. split; [exact H|]. now apply fsame_eq. Qed.
Lemma cent_R : is_finite cent = true /\ / 200 <= B2R cent <= / 50.
Proof.
  destruct (f_of_Z_exact 1 ltac:(lia)) as [E1 F1]. destruct (f_of_Z_exact 100 ltac:(lia)) as [E2 F2].
  destruct (F64Err.fdiv_rnd (f_of_Z 1) (f_of_Z 100) F1) as [F E].
  - rewrite E2. apply Rgt_not_eq. lra.
  - rewrite E1, E2. rewrite Rabs_right by lra. apply Rle_trans with (bpow radix2 1); [change (bpow radix2 1) with 2; lra|apply bpow_le; lia].
  - split; [exact F|]. unfold cent. rewrite E, E1, E2. destruct (F64Err.rnd_err (1 / 100)) as (dd & e & Hd & He & Er). rewrite Er.
    apply Rabs_le_inv in Hd, He. pose proof uro_bound. pose proof eta_bound. lra.
Qed.
Lemma sane_cent : sane_step cent.
Proof.
  destruct cent_R as (F & L & H). split; [exact F|]. split.
  - apply Rle_trans with (/ 2 ^ 10); [|replace (2 ^ 10) with 1024 by (simpl; lra); lra]. apply Rinv_le; [apply pow_lt; lra|]. apply Rle_pow; [lra|lia].
  - apply Rle_trans with (2 ^ 1); [rewrite pow_1; lra|]. apply Rle_pow; [lra|lia].
Qed.
Example C42_in_bounds_double_ex : sane_step (v_step conv42) /\
  fmultiple (v_step conv42) (v_lo conv42) /\ fmultiple (v_step conv42) (v_hi conv42) /\
  fmultiple (v_step conv42) (v_dlo conv42) /\ fmultiple (v_step conv42) (v_dup conv42) /\
  f2R (v_dlo conv42) <= f2R (f_of_Z (-4)) <= f2R (v_dup conv42).
Proof.
  split; [exact sane_cent|]. split; [apply (fmultiple_ok _ _ (-1000)); vm_compute; reflexivity|]. split; [apply (fmultiple_ok _ _ 1000); vm_compute; reflexivity|].
  split; [apply (fmultiple_ok _ _ (-500)); vm_compute; reflexivity|]. split; [apply (fmultiple_ok _ _ 500); vm_compute; reflexivity|].
  unfold f2R, conv42. cbn [v_dlo v_dup]. rewrite !(fun z H => proj1 (f_of_Z_exact z H)) by lia. lra.
Qed.
Example C42_in_bounds_ex : exists c : conv R, 0 < v_step c /\ v_lo c <= v_hi c /\ multiple (v_step c) (v_lo c) /\ multiple (v_step c) (v_hi c) /\
  multiple (v_step c) (v_dlo c) /\ multiple (v_step c) (v_dup c) /\ v_dlo c <= / 1000 <= v_dup c.
Proof.
  exists (mkConv (-10) 10 (/ 100) (-5) 5). cbn [v_lo v_hi v_step v_dlo v_dup].
  repeat split; try lra; [exists (-1000)%Z|exists 1000%Z|exists (-500)%Z|exists 500%Z]; split; try lia; lra.
Qed.

(** With the integration constants every ConvolutionPdf starts with and an observable between -5.003 and 5, the value at the
    lower limit is computed with a cell past the end of the resolution work space, whatever model and resolution. *)
Theorem C42_default_constants_refuted : exists (dlo x0 : f64),
  VariableModel.in_range dlo (f_of_Z 5) x0 = true /\ flt dlo (f_of_Z 5) = true /\
  forall f g, conv_value f64_ops f2int (mkConv (f_of_Z (-10)) (f_of_Z 10) cent dlo (f_of_Z 5)) f g x0 = None.
Proof.
  exists (fdiv (f_of_Z (-5003)) (f_of_Z 1000)), (fdiv (f_of_Z (-5003)) (f_of_Z 1000)).
  split; [vm_compute; reflexivity|]. split; [vm_compute; reflexivity|]. intros f g.
  apply (conv_oob f64_ops f2int _ f g _ 2000 3000 500 (-501)); try (vm_compute; reflexivity). lia. right. lia.
Qed.
Print Assumptions C42_default_constants_refuted.

(** An upper limit that is not a multiple of the step is enough too, when it is negative (the offset is truncated towards
    zero): observable between -6 and -1.5, step 1. *)
Theorem C42_negative_limit_refuted : exists (dlo dup x0 : f64),
  VariableModel.in_range dlo dup x0 = true /\ flt dlo dup = true /\
  forall f g, conv_value f64_ops f2int (mkConv (f_of_Z (-10)) (f_of_Z 10) (f_of_Z 1) dlo dup) f g x0 = None.
Proof.
  exists (f_of_Z (-6)), (f_of_ZE (-13) (-3)), (f_of_Z (-6)).
  split; [vm_compute; reflexivity|]. split; [vm_compute; reflexivity|]. intros f g.
  apply (conv_oob f64_ops f2int _ f g _ 20 24 (-1) (-6)); try (vm_compute; reflexivity). lia. right. lia.
Qed.
Print Assumptions C42_negative_limit_refuted.

(** ** C59 *)

(** What is computed, in exact arithmetic and with aligned constants: the midpoint sum of f(t) g(t - x'), where x' is x0
    rounded down to a multiple of the step.  Against the documentation, the argument of the resolution has the other sign. *)
Theorem C59_value_partial : forall (c : conv R) f g x0, 0 < v_step c -> v_lo c <= v_hi c ->
  multiple (v_step c) (v_lo c) -> multiple (v_step c) (v_hi c) -> multiple (v_step c) (v_dlo c) -> multiple (v_step c) (v_dup c) ->
  v_dlo c <= x0 <= v_dup c -> exists (n : nat) (x' v : R), v_hi c - v_lo c = INR n * v_step c /\ x' <= x0 < x' + v_step c /\ multiple (v_step c) x' /\
  conv_value R_ops Rtrunc_int c f g x0 = Some v /\ v = midpoint_sum (fun t => f t * g (t - x')) (v_lo c) (v_step c) n.
Proof.
  intros c f g x0 HS HL (a & Ba & Ea) (h & Bh & Eh) (d & Bd & Ed) (u & Bu & Eu) Hx.
  assert (Hah : (a <= h)%Z) by (apply le_IZR, (Rmult_le_reg_r (v_step c)); [exact HS|lra]).
  destruct (shift_R c a h d u HS Ba Bd Bu Ea Ed Eu x0 Hx) as (sh & _ & B & Es).
  exists (Z.to_nat (h - a)), (IZR (Zfloor (x0 / v_step c)) * v_step c). eexists. split; [|split; [|split; [|split]]].
  - rewrite INR_IZR_INZ, Z2Nat.id, minus_IZR, Ea, Eh by lia. ring.
  - pose proof (Zfloor_lb (x0 / v_step c)). pose proof (Zfloor_ub (x0 / v_step c)).
    assert (E : x0 = x0 / v_step c * v_step c) by (field; lra). set (y := x0 / v_step c) in *. rewrite E. split; nra.
  - exists (Zfloor (x0 / v_step c)). split; [lia|reflexivity].
  - exact (conv_R c a h d u HS Ba Bh Bd Bu Ea Eh Ed Eu Hah f g x0 Hx).
  - reflexivity.
Qed.
Print Assumptions C59_value_partial.

(** For a resolution that is an even function, step times the value is the documented convolution integral over the
    integration range, up to an error proportional to the step. *)
Theorem C59_symmetric_partial : forall (c : conv R) f g x0 A B K L, 0 < v_step c -> v_lo c <= v_hi c ->
  multiple (v_step c) (v_lo c) -> multiple (v_step c) (v_hi c) -> multiple (v_step c) (v_dlo c) -> multiple (v_step c) (v_dup c) ->
  v_dlo c <= x0 <= v_dup c -> (forall y, g (- y) = g y) ->
  (forall t, Rabs (f t) <= A) -> (forall t, Rabs (g t) <= B) -> (forall s t, Rabs (f s - f t) <= K * Rabs (s - t)) -> (forall s t, Rabs (g s - g t) <= L * Rabs (s - t)) ->
  exists v, conv_value R_ops Rtrunc_int c f g x0 = Some v /\ ex_RInt (fun t => f t * g (x0 - t)) (v_lo c) (v_hi c) /\
  Rabs (v_step c * v - RInt (fun t => f t * g (x0 - t)) (v_lo c) (v_hi c)) <= (2 * A * L + B * K) * (v_hi c - v_lo c) * v_step c.
Proof.
  intros c f g x0 A B K L HS HL Ma Mh Md Mu Hx Ev HA HB HK HLp.
  destruct (C59_value_partial c f g x0 HS HL Ma Mh Md Mu Hx) as (n & x' & v & En & Bx & _ & E & Ev').
  exists v. split; [exact E|]. exact (conv_integral f g A B K L (v_lo c) (v_step c) (v_hi c) x0 x' n v HS En Bx Ev HA HB HK HLp Ev').
Qed.
Print Assumptions C59_symmetric_partial.

(** An asymmetric resolution is mirrored: model 1 and resolution 3 + y over (-1, 1), at x = 1.  The documented integral is 8; step
    times the value is 4, however small the step. *)
Theorem C59_asymmetric_refuted : is_RInt (fun t => 1 * (3 + (1 - t))) (-1) 1 8 /\
  forall n : Z, (1 <= n <= 2 ^ 28)%Z -> exists v,
  conv_value R_ops Rtrunc_int (mkConv (-1) 1 (/ IZR n) (-1) 1) (fun _ => 1) (fun y => 3 + y) 1 = Some v /\ / IZR n * v = 4.
Proof.
  split.
  - evar_last. { apply (is_RInt_derive (fun t => 4 * t - t * t / 2) (fun t => 1 * (3 + (1 - t)))).
      - intros x _. auto_derive; [exact I|]. lra.
      - intros x _. apply (ex_derive_continuous (V := R_NormedModule)). auto_derive. exact I. }
    cbn. lra.
  - intros n Hn. assert (P : 0 < IZR n) by (apply (IZR_lt 0); lia).
    assert (HS : 0 < / IZR n) by now apply Rinv_0_lt_compat.
    assert (I1 : -1 = IZR (- n) * / IZR n) by (rewrite opp_IZR; field; lra). assert (I2 : 1 = IZR n * / IZR n) by (field; lra).
    eexists. split.
    + apply (conv_R (mkConv (-1) 1 (/ IZR n) (-1) 1) (- n) n (- n) n HS); cbn [v_lo v_hi v_step v_dlo v_dup]; try assumption; try lia; lra.
    + cbn [v_lo v_step]. replace (Zfloor (1 / / IZR n)) with n by (symmetry; replace (1 / / IZR n) with (IZR n) by (field; lra); apply Zfloor_IZR).
      replace (IZR n * / IZR n) with 1 by (field; lra). rewrite midpoint_linear. rewrite INR_IZR_INZ, Z2Nat.id by lia. replace (IZR (n - - n)) with (2 * IZR n) by (rewrite minus_IZR, opp_IZR; ring). field. lra.
Qed.
Print Assumptions C59_asymmetric_refuted.

Ltac cases := unfold Rmin, Rmax; repeat match goal with |- context [Rle_dec ?a ?b] => destruct (Rle_dec a b) | H : context [Rle_dec ?a ?b] |- _ => destruct (Rle_dec a b) end; unfold Rabs in *; repeat match goal with |- context [Rcase_abs ?a] => destruct (Rcase_abs a) | H : context [Rcase_abs ?a] |- _ => destruct (Rcase_abs a) end; lra.
Example C59_symmetric_ex : exists (f g : R -> R) A B K L, (forall y, g (- y) = g y) /\ (forall t, Rabs (f t) <= A) /\ (forall t, Rabs (g t) <= B) /\
  (forall s t, Rabs (f s - f t) <= K * Rabs (s - t)) /\ (forall s t, Rabs (g s - g t) <= L * Rabs (s - t)) /\ f 1 <> f 0 /\ g 1 <> g 0.
Proof.
  exists (fun t => Rmin 2 (Rmax 0 t)), (fun t => Rmax 0 (1 - Rabs t)), 2, 1, 1, 1.
  assert (X : forall s t, Rabs (Rmax 0 s - Rmax 0 t) <= Rabs (s - t)) by (intros s t; cases).
  split; [intro y; now rewrite Rabs_Ropp|]. split; [intro t; cases|]. split; [intro t; pose proof (Rabs_pos t); cases|].
  split; [intros s t; cases|]. split; [|split].
  - intros s t. eapply Rle_trans; [apply X|]. replace (1 - Rabs s - (1 - Rabs t)) with (Rabs t - Rabs s) by ring. rewrite Rmult_1_l, (Rabs_minus_sym s t). apply Rabs_triang_inv2.
  - apply Rgt_not_eq. cases.
  - apply Rlt_not_eq. cases.
Qed.
