(** The spline lineshape: C94. *)
From Coq Require Import Reals List ZArith Bool Arith Lra Lia.
From Coquelicot Require Import Coquelicot.
From Verif Require Import AmpModel AmpSpec FormulaSpec WaveModel WaveSpec WaveProofs KmModel LineModel LineSpec LineProofs LineProofs2 SplModel SplSpec SplProofs.
From Verif Require LeafGen.
Import ListNotations.
Local Open Scope R_scope.

(** C94, what holds: given a table with the values and the curvatures of the knots, the interpolation has the given value at every
    knot, the first and the last included. *)
Theorem C94_knots_partial : forall mpair radius lo hi ys fs b,
  List.length fs = List.length ys -> lo < hi -> (2 <= List.length ys)%nat -> (b < List.length ys)%nat ->
  R_spline mpair radius lo hi ys fs (knot lo hi (List.length ys) b) = Some (nth b ys 0).
Proof. exact spline_knots. Qed.
Print Assumptions C94_knots_partial.
Example C94_knots_ex : R_spline 0 1 0 2 [3; 5; 4] [0; -2; 0] 1 = Some 5.
Proof.
  pose proof (C94_knots_partial 0 1 0 2 [3; 5; 4] [0; -2; 0] 1 eq_refl ltac:(lra) ltac:(cbn; lia) ltac:(cbn; lia)) as H.
  replace (knot 0 2 (List.length [3; 5; 4]) 1) with 1 in H by (unfold knot; cbn; field). exact H.
Qed.

(** C94, refuted: it jumps at the right end of each interval that starts with a curvature other than zero (the term of the square of
    the distance lacks the factor 1/2). *)
Theorem C94_jump_refuted : forall mpair radius lo hi ys fs b,
  List.length fs = List.length ys -> lo < hi -> (S b < List.length ys)%nat -> nth b fs 0 <> 0 ->
  ~ continuous (fun x => match R_spline mpair radius lo hi ys fs x with Some y => y | None => 0 end) (knot lo hi (List.length ys) (S b)).
Proof. exact spline_jump. Qed.
Print Assumptions C94_jump_refuted.
Example C94_jump_ex :
  ~ continuous (fun x => match R_spline 0 1 0 2 [3; 5; 4] [0; -2; 0] x with Some y => y | None => 0 end) 2.
Proof.
  pose proof (C94_jump_refuted 0 1 0 2 [3; 5; 4] [0; -2; 0] 1 eq_refl ltac:(lra) ltac:(cbn; lia) ltac:(cbn; lra)) as H.
  replace (knot 0 2 (List.length [3; 5; 4]) 2) with 2 in H by (unfold knot; cbn; field). exact H.
Qed.

(** C94, refuted: with four or more knots the curvatures are computed from elements of a matrix that were never written, in any
    arithmetic. *)
Theorem C94_unwritten_refuted : forall (T : Type) (Ar : LeafGen.ops T) inverse mpair radius lo hi n values,
  (4 <= n)%nat -> List.length values = n -> gspline Ar inverse mpair radius lo hi n values = Undefined.
Proof. intros T Ar inverse. exact (gspline_four Ar inverse). Qed.
Print Assumptions C94_unwritten_refuted.
Example C94_unwritten_ex : gspline R_ops (fun m => m) 0 1 0 2 4 [1; 2; 3; 4] = Undefined.
Proof. apply C94_unwritten_refuted; [lia|reflexivity]. Qed.

(** C94, refuted: where a lineshape is made, it reads constants it never registered as soon as the pair's or the resonance's mass^2 lies
    inside the range of the knots, in any arithmetic. *)
Theorem C94_inside_refuted : forall (T : Type) (Ar : LeafGen.ops T) L fmod to_uint inverse mpair0 radius lo hi n values cs mass width mpair m1 m2,
  gspline Ar inverse mpair0 radius lo hi n values = Made cs ->
  (LeafGen.o_le Ar (LeafGen.o_mul Ar mpair mpair) lo = false /\ LeafGen.o_le Ar hi (LeafGen.o_mul Ar mpair mpair) = false) \/
  (LeafGen.o_le Ar (LeafGen.o_mul Ar mass mass) lo = false /\ LeafGen.o_le Ar hi (LeafGen.o_mul Ar mass mass) = false) ->
  spline_line Ar L fmod to_uint cs n mass width mpair m1 m2 = None.
Proof. intros T Ar L fmod to_uint inverse. exact (spline_made_inside Ar L fmod to_uint inverse). Qed.
Print Assumptions C94_inside_refuted.
Example C94_inside_ex : exists cs, gspline R_ops (fun m => m) 0 1 0 2 3 [3; 5; 4] = Made cs /\
  spline_line R_ops LL R_fmod R_uint cs 3 1 1 1 0 0 = None.
Proof.
  destruct (gspline R_ops (fun m => m) 0 1 0 2 3 [3; 5; 4]) as [| |cs] eqn:E; [discriminate E|discriminate E|]. exists cs. split; [reflexivity|].
  apply (C94_inside_refuted _ _ _ _ _ _ _ _ _ _ _ _ _ _ _ _ _ _ E). left. rops. split; apply Rleb_false; lra.
Qed.

(** C94, refuted: outside the range the width does not run: it is zero, whatever the values and the width. *)
Theorem C94_outside_refuted : forall inverse mpair0 radius lo hi n values cs mass width mpair m1 m2,
  gspline R_ops inverse mpair0 radius lo hi n values = Made cs -> 0 < mpair ->
  (mpair ^ 2 <= lo \/ hi <= mpair ^ 2) -> (mass ^ 2 <= lo \/ hi <= mass ^ 2) ->
  spline_line R_ops (R_lib (fun _ _ => 0)) R_fmod R_uint cs n mass width mpair m1 m2
  = Some (spline_amplitude mass width radius (mpair ^ 2) m1 m2 0).
Proof. exact spline_outside. Qed.
Print Assumptions C94_outside_refuted.
Example C94_outside_ex : exists cs, gspline R_ops (fun m => m) 0 1 0 2 2 [3; 5] = Made cs /\
  spline_line R_ops (R_lib (fun _ _ => 0)) R_fmod R_uint cs 2 3 1 2 0 0 = Some (spline_amplitude 3 1 1 (2 ^ 2) 0 0 0).
Proof.
  destruct (gspline R_ops (fun m => m) 0 1 0 2 2 [3; 5]) as [| |cs] eqn:E; [discriminate E|discriminate E|]. exists cs. split; [reflexivity|].
  apply (C94_outside_refuted _ _ _ _ _ _ _ _ _ _ _ _ _ E); lra.
Qed.

(** C94, what holds: given such a table, the amplitude is the Breit-Wigner function whose width is the nominal one times the interpolated value at the
    mass of the pair over that at the nominal mass, if the nominal mass^2 is inside the range. *)
Theorem C94_width_partial : forall mpair0 radius lo hi ys fs mass width mpair m1 m2 at_s at_m,
  R_spline mpair0 radius lo hi ys fs (mpair ^ 2) = Some at_s -> R_spline mpair0 radius lo hi ys fs (mass ^ 2) = Some at_m ->
  lo < mass ^ 2 < hi -> at_m <> 0 -> width <> 0 -> 0 < mpair ->
  spline_line R_ops (R_lib (fun _ _ => 0)) R_fmod R_uint (table mpair0 radius lo hi ys fs) (List.length ys) mass width mpair m1 m2
  = Some (spline_amplitude mass width radius (mpair ^ 2) m1 m2 (width * (at_s / at_m))).
Proof.
  intros mpair0 radius lo hi ys fs mass width mpair m1 m2 at_s at_m Es Em Hm N0 W0 P. unfold R_spline in *.
  assert (Em' : get_spline R_ops R_fmod R_uint (table mpair0 radius lo hi ys fs) (List.length ys) (mass ^ 2) false = Some at_m).
  { rewrite <- Em. unfold get_spline. change (nth_error (table mpair0 radius lo hi ys fs) 2) with (Some lo). change (nth_error (table mpair0 radius lo hi ys fs) 3) with (Some hi).
    rops. replace (Rleb (mass ^ 2) lo) with false by (symmetry; apply Rleb_false; lra). replace (Rleb hi (mass ^ 2)) with false by (symmetry; apply Rleb_false; lra). reflexivity. }
  unfold spline_line. change (nth_error (table mpair0 radius lo hi ys fs) 1) with (Some radius). rops.
  replace (mpair * mpair) with (mpair ^ 2) by ring. replace (mass * mass) with (mass ^ 2) by ring. rewrite Es. setoid_rewrite Em'.
  rewrite momentum_formula by nra.
  match goal with |- context [if ?b then _ else _] => assert (Z : b = false) end.
  { unfold R_ops. cbn [LeafGen.o_eq LeafGen.o_mul LeafGen.o_zero]. unfold Reqb. destruct (Req_EM_T (width * at_m) 0) as [Q|]; [|reflexivity]. exfalso. apply Rmult_integral in Q. tauto. }
  rewrite Z. f_equal. rewrite div_Cdiv. unfold spline_amplitude, k_factor. rewrite pi_const_value. rops.
  unfold RtoC. f_equal; [|f_equal; field; now split]. f_equal. cbn [LeafGen.m_exp LL R_lib].
  replace (mass * mass) with (mass ^ 2) by ring. replace (width * width) with (width ^ 2) by ring. replace (radius * radius) with (radius ^ 2) by ring. reflexivity.
Qed.
Print Assumptions C94_width_partial.
(** Knots 0, 1 and 2 with values 3, 5 and 4: nominal mass 1, pair of mass^2 2: width 2 times 4/5. *)
Example C94_width_ex : spline_line R_ops (R_lib (fun _ _ => 0)) R_fmod R_uint (table 0 1 0 2 [3; 5; 4] [0; -2; 0]) 3 1 2 (sqrt 2) 0 0
  = Some (spline_amplitude 1 2 1 (sqrt 2 ^ 2) 0 0 (2 * (4 / 5))).
Proof.
  apply (C94_width_partial 0 1 0 2 [3; 5; 4] [0; -2; 0] 1 2 (sqrt 2) 0 0 4 5); try lra; [| |apply sqrt_lt_R0; lra].
  - rewrite pow2_sqrt by lra. pose proof (C94_knots_partial 0 1 0 2 [3; 5; 4] [0; -2; 0] 2 eq_refl ltac:(lra) ltac:(cbn; lia) ltac:(cbn; lia)) as H.
    replace (knot 0 2 (List.length [3; 5; 4]) 2) with 2 in H by (unfold knot; cbn; field). exact H.
  - replace (1 ^ 2) with 1 by ring. exact C94_knots_ex.
Qed.
