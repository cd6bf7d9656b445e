(** Proofs about the Faddeeva function of the code: the choice of the table, the approximation near 0, the sign. *)
From Coq Require Import Reals List Lra Lia Psatz Arith Bool ZArith.
From Coquelicot Require Import Coquelicot.
From Flocq Require Import Core.Raux.
From Verif Require Import FormulaSpec FormulaProofs AmpModel WaveModel WaveProofs LineProofs2 FadModel FadSpec FadProofs FadProofs2.
From Verif Require LeafGen.
Import ListNotations.
Open Scope R_scope.

Lemma lit2 : forall m p, LeafGen.o_lit R_ops m (Z.neg p) = IZR m / 2 ^ Pos.to_nat p.
Proof. reflexivity. Qed.
Lemma node1 : forall p, In p table1 -> exists k, (1 <= k <= 12)%Z /\ sqrt (fst p) = IZR k / 2.
Proof.
  intros p H. unfold table1, n1, e1 in H. cbn [combine] in H. rops.
  assert (S : forall k : Z, (0 <= k)%Z -> forall v, v = IZR k / 2 * (IZR k / 2) -> sqrt v = IZR k / 2).
  { intros k K v ->. apply sqrt_square. apply IZR_le in K. lra. }
  cbn [In] in H. repeat (destruct H as [H|H]; [subst p; cbn [fst]|]); [..|destruct H].
  1: exists 1%Z. 2: exists 2%Z. 3: exists 3%Z. 4: exists 4%Z. 5: exists 5%Z. 6: exists 6%Z. 7: exists 7%Z. 8: exists 8%Z. 9: exists 9%Z. 10: exists 10%Z.
  11: exists 11%Z. 12: exists 12%Z.
  all: split; [lia|apply S; [lia|]; pos_nat; field].
Qed.
Lemma node2 : forall p, In p table2 -> exists k, (1 <= k <= 12)%Z /\ 53 / 100 * IZR k - / 10000 <= sqrt (fst p) <= 53 / 100 * IZR k + / 10000.
Proof.
  intros p H. unfold table2, n2, e2 in H. cbn [combine] in H. rops.
  assert (S : forall k : Z, (1 <= k)%Z -> forall v, (53 / 100 * IZR k - / 10000) * (53 / 100 * IZR k - / 10000) <= v <= (53 / 100 * IZR k + / 10000) * (53 / 100 * IZR k + / 10000) ->
    53 / 100 * IZR k - / 10000 <= sqrt v <= 53 / 100 * IZR k + / 10000).
  { intros k K v [A B]. apply IZR_le in K. rewrite <- (sqrt_square (53 / 100 * IZR k - / 10000)), <- (sqrt_square (53 / 100 * IZR k + / 10000)) by lra.
    split; apply sqrt_le_1; nra. }
  cbn [In] in H. repeat (destruct H as [H|H]; [subst p; cbn [fst]|]); [..|destruct H].
  1: exists 1%Z. 2: exists 2%Z. 3: exists 3%Z. 4: exists 4%Z. 5: exists 5%Z. 6: exists 6%Z. 7: exists 7%Z. 8: exists 8%Z. 9: exists 9%Z. 10: exists 10%Z.
  11: exists 11%Z. 12: exists 12%Z.
  all: split; [lia|apply S; [lia|]; pos_nat; lra].
Qed.
Lemma clear_re : forall x y t, 99 / 10000 <= Rabs (Rabs x - t) -> 0 <= t ->
  99 / 10000 <= Cmod ((x, y) - RtoC t)%C /\ 99 / 10000 <= Cmod ((x, y) + RtoC t)%C.
Proof.
  intros x y t H P. assert (A : forall z : C, 99 / 10000 <= Rabs (fst z) -> 99 / 10000 <= Cmod z).
  { intros z Z. eapply Rle_trans; [exact Z|]. eapply Rle_trans; [apply Rmax_l|apply Rmax_Cmod]. }
  split; apply A; unfold Cminus, Cplus, Copp, RtoC; cbn [fst snd]; unfold Rabs in *; repeat destruct Rcase_abs; lra.
Qed.
Lemma clear_im : forall x y t, 99 / 10000 <= Rabs y -> 99 / 10000 <= Cmod ((x, y) - RtoC t)%C /\ 99 / 10000 <= Cmod ((x, y) + RtoC t)%C.
Proof.
  intros x y t H. assert (A : forall z : C, 99 / 10000 <= Rabs (snd z) -> 99 / 10000 <= Cmod z).
  { intros z Z. eapply Rle_trans; [exact Z|]. eapply Rle_trans; [apply Rmax_r|apply Rmax_Cmod]. }
  split; apply A; unfold Cminus, Cplus, Copp, RtoC; cbn [fst snd]; unfold Rabs in *; repeat destruct Rcase_abs; lra.
Qed.
Lemma small_consts : 9999 / 1000000 < LeafGen.o_lit R_ops 5764607523034235 (-59) < 10001 / 1000000 /\ 60099 / 10000 < LeafGen.o_lit R_ops 3383329220062085 (-49) < 60101 / 10000 /\
  1999 / 100000 < LeafGen.o_lit R_ops 5764607523034235 (-58) < 2001 / 100000 /\ 97999 / 100000 < LeafGen.o_lit R_ops 2206763817411543 (-51) < 98001 / 100000.
Proof. rewrite !lit2. pos_nat. lra. Qed.
Lemma near_pole_spec : forall x y, exists g : Z, (0 <= g)%Z /\ (IZR g <= 2 * Rabs x < IZR g + 1) /\
  (if near_pole R_ops x y then Rabs x < 60101 / 10000 /\ (2 * Rabs x - IZR g < 2001 / 100000 \/ 97999 / 100000 < 2 * Rabs x - IZR g)
   else 9999 / 1000000 <= Rabs y \/ 60099 / 10000 <= Rabs x \/ (1999 / 100000 <= 2 * Rabs x - IZR g <= 98001 / 100000)).
Proof.
  intros x y. exists (Zfloor (2 * Rabs x)). pose proof (Rabs_pos x) as P. pose proof (Zfloor_lb (2 * Rabs x)) as F1. pose proof (Zfloor_ub (2 * Rabs x)) as F2.
  assert (G : (0 <= Zfloor (2 * Rabs x))%Z) by (apply Zfloor_lub; lra). split; [exact G|]. split; [lra|].
  destruct small_consts as (K1 & K2 & K3 & K4). unfold near_pole. set (c1 := LeafGen.o_lit R_ops 5764607523034235 (-59)) in *. set (c2 := LeafGen.o_lit R_ops 3383329220062085 (-49)) in *.
  set (c3 := LeafGen.o_lit R_ops 5764607523034235 (-58)) in *. set (c4 := LeafGen.o_lit R_ops 2206763817411543 (-51)) in *. clearbody c1 c2 c3 c4. rops.
  rewrite (Rmult_comm (Rabs x) 2). unfold Rltb. destruct (Rlt_dec (Rabs y) c1) as [Y|Y]; cbn [andb]; [|left; lra].
  destruct (Rlt_dec (Rabs x) c2) as [X|X]; [|right; left; lra].
  assert (GU : (Zfloor (2 * Rabs x) <= 13)%Z) by (apply le_IZR; lra).
  cbn [LeafGen.o_floor]. change (LeafGen.o_floor R_ops) with Rfloor_int. unfold Rfloor_int. cbv zeta.
  destruct (Z.leb_spec (-2147483648) (Zfloor (2 * Rabs x))), (Z.leb_spec (Zfloor (2 * Rabs x)) 2147483647); try lia. cbn [andb].
  destruct (Rlt_dec (2 * Rabs x - IZR (Zfloor (2 * Rabs x))) c3) as [H1|H1]; cbn [orb]; [split; [lra|left; lra]|].
  destruct (Rlt_dec c4 (2 * Rabs x - IZR (Zfloor (2 * Rabs x)))) as [H2|H2]; [split; [lra|right; lra]|]. right; right; lra.
Qed.
Lemma clear1 : forall x y, near_pole R_ops x y = false -> clear_of (99 / 10000) table1 (x, y).
Proof.
  intros x y E p H. destruct (node1 p H) as (k & K & ->). destruct (near_pole_spec x y) as (g & G & GB & S). rewrite E in S.
  assert (0 <= IZR k / 2 <= 6) by (split; destruct K as [K1 K2]; apply IZR_le in K1; apply IZR_le in K2; lra).
  destruct S as [S|[S|S]]; [apply clear_im; lra|apply clear_re; [|lra]; unfold Rabs at 1; destruct Rcase_abs; lra|].
  apply clear_re; [|lra]. destruct (Z_le_gt_dec k g) as [C|C].
  - apply IZR_le in C. unfold Rabs at 1. destruct Rcase_abs; lra.
  - assert (C' : (g + 1 <= k)%Z) by lia. apply IZR_le in C'. rewrite plus_IZR in C'. unfold Rabs at 1. destruct Rcase_abs; lra.
Qed.
Lemma clear2 : forall x y, near_pole R_ops x y = true -> clear_of (99 / 10000) table2 (x, y).
Proof.
  intros x y E p H. destruct (node2 p H) as (k & K & N). destruct (near_pole_spec x y) as (g & G & GB & S). rewrite E in S. destruct S as [X S].
  assert (J : exists j, (0 <= j <= 13)%Z /\ Rabs (2 * Rabs x - IZR j) <= 2001 / 100000).
  { assert (g <= 12)%Z. { assert (IZR g < 13) by lra. apply lt_IZR in H0. lia. }
    destruct S as [S|S]; [exists g|exists (g + 1)%Z]; (split; [lia|]); rewrite ?plus_IZR; apply Rabs_le; lra. }
  destruct J as (j & J & D). apply Rabs_le_inv in D. assert (1 <= IZR k) by (apply IZR_le; lia). apply clear_re; [|lra]. revert N D. set (t := sqrt (fst p)). set (a := Rabs x).
  clearbody t a. clear -K J. intros N D.
  destruct (Z_le_gt_dec j k) as [C|C].
  - (* j <= k: the node is to the right *)
    apply IZR_le in C. assert (1 <= IZR k) by (apply IZR_le; lia). unfold Rabs. destruct Rcase_abs; lra.
  - assert (C' : (k + 1 <= j)%Z) by lia. apply IZR_le in C'. rewrite plus_IZR in C'. assert (IZR k <= 12) by (apply IZR_le; lia). unfold Rabs. destruct Rcase_abs; lra.
Qed.

(** ** The approximation near 0 *)
Definition pade_top : list R := [175685635125; -32794651890; 8962513560; -791494704; 69973904; -2885792; 65536].
Definition pade_bottom : list R := [175685635125; 84329104860; 18332414100; 2329725600; 183783600; 8648640; 192192].
Lemma Cring : forall a b c : C, (a * b + c)%C = (c + b * a)%C.
Proof. intros. ring. Qed.
Lemma Cring0 : forall b c : C, c = (c + b * RtoC 0)%C.
Proof. intros. ring. Qed.
Lemma poly_value : forall t zz, table_poly R_ops t zz = poly (rev t) zz.
Proof.
  assert (H : forall t zz c (l : list R), c = poly l zz -> horner R_ops zz c t = poly (rev t ++ l) zz).
  { induction t as [|k t IH]; intros zz c l E; [exact E|]. cbn [horner rev]. rewrite <- app_assoc. cbn [app]. apply (IH zz). cbn [poly]. rewrite <- E.
    change (c_add R_ops (c_mul R_ops c zz) (k, 0)) with (c * zz + RtoC k)%C. apply (Cring (c : C) zz (RtoC k)). }
  intros [|k t] zz; [reflexivity|]. cbn [table_poly rev]. apply H. cbn [poly]. apply (Cring0 zz (RtoC k)).
Qed.
Lemma pade_value : forall W z, pade R_ops (R_lib W) z =
  (1 / Cexp (z * z) + Ci * RtoC (M_2_SQRTPI R_ops) * poly pade_top (z * z) / poly pade_bottom (z * z) * z * Cexp (z * z))%C.
Proof.
  intros W z. unfold pade. cbv zeta. rewrite !poly_value, !div_Cdiv.
  change (c_mul R_ops) with Cmult. change (c_add R_ops) with Cplus. change (c_exp R_ops (R_lib W)) with Cexp.
  change (rev (padeC R_ops)) with pade_top. change (rev (padeD R_ops)) with pade_bottom.
  change (LeafGen.o_one R_ops, LeafGen.o_zero R_ops) with (RtoC 1).
  replace (LeafGen.o_zero R_ops, M_2_SQRTPI R_ops) with (Ci * RtoC (M_2_SQRTPI R_ops))%C; [reflexivity|].
  unfold Ci, Cmult, RtoC. rops. cbn [fst snd]. f_equal; ring.
Qed.

(** ** The constants and the sign *)
Lemma two_sqrtpi : Rabs (M_2_SQRTPI R_ops - 2 / sqrt PI) <= / 100000.
Proof.
  pose proof PI_tight as HP. assert (HSP : 17724536 / 10000000 <= sqrt PI <= 17724540 / 10000000) by (apply sqrt_between; lra).
  apply inv_between in HSP; [|lra]. unfold M_2_SQRTPI. rewrite lit2. pos_nat. apply Rabs_le. unfold Rdiv at 2 4. lra.
Qed.
Lemma bound2pi_near : Rabs (bound2pi - 2 * PI) <= / 100000.
Proof. pose proof PI_tight as HP. unfold bound2pi, M_2PI. rewrite lit2. pos_nat. apply Rabs_le. lra. Qed.
Definition r1 : R := M_1_PI R_ops * LeafGen.o_half R_ops.
Definition r2 : R := M_1_PI R_ops * LeafGen.o_lit R_ops 2386907802506363 (-52).
Lemma r1_near : 0 < r1 /\ Rabs (r1 * PI - 1 / 2) <= / 1000000.
Proof. pose proof PI_tight as HP. unfold r1, M_1_PI. rewrite lit2. rops. pos_nat. split; [lra|]. apply Rabs_le. lra. Qed.
Lemma r2_near : 0 < r2 /\ Rabs (r2 * PI - 53 / 100) <= / 1000000.
Proof. pose proof PI_tight as HP. unfold r2, M_1_PI. rewrite !lit2. pos_nat. split; [lra|]. apply Rabs_le. lra. Qed.
Lemma nonneg1 : List.Forall (fun a => 0 <= a) (n1 R_ops) /\ List.Forall (fun a => 0 <= a) (e1 R_ops).
Proof. unfold n1, e1. rops. split; repeat (constructor; [pos_nat; lra|]); constructor. Qed.
Lemma nonneg2 : List.Forall (fun a => 0 <= a) (n2 R_ops) /\ List.Forall (fun a => 0 <= a) (e2 R_ops).
Proof. unfold n2, e2. rops. split; repeat (constructor; [pos_nat; lra|]); constructor. Qed.
Lemma sums_pos : forall s d f n e g h, 0 <= s -> 0 <= f -> List.Forall (fun a => 0 <= a) n -> List.Forall (fun a => 0 <= a) e -> 0 <= g ->
  0 <= fst (sums R_ops s d f n e g h).
Proof.
  intros s d f n. induction n as [|a n IH]; intros e g h PS PF PN PE PG; [exact PG|]. destruct e as [|b e]; [exact PG|]. cbn [sums]. rops.
  inversion PN; inversion PE; subst. apply IH; try assumption. set (q := (d + a) * (d + a) + f). assert (Q : 0 <= q) by (unfold q; pose proof (Rle_0_sqr (d + a)) as RS; unfold Rsqr in RS; lra).
  assert (0 <= b / q). { destruct (Req_dec q 0) as [->|NQ]; [unfold Rdiv; rewrite Rinv_0; lra|]. apply Rmult_le_pos; [assumption|]. left. apply Rinv_0_lt_compat. lra. }
  assert (0 <= (s + a) * (b / q)) by (apply Rmult_le_pos; lra). lra.
Qed.
Lemma far_up : forall W x y, bound2pi <= y -> 0 < fst (faddeeva R_ops (R_lib W) (x, y)).
Proof.
  intros W x y B. assert (Y : 6 < y). { pose proof bound2pi_near as N. apply Rabs_le_inv in N. pose proof PI_tight. lra. }
  assert (T : forall n e r, 0 < r -> List.Forall (fun a => 0 <= a) n -> List.Forall (fun a => 0 <= a) e -> 0 < fst (trapezoid R_ops (R_lib W) n e r (x, y))).
  { intros n e r PR PN PE. unfold trapezoid, c_norm. rops. cbn [fst snd].
    assert (PS : 0 < x * x + y * y) by nra.
    assert (PF : 0 <= 4 * x * x * y * y) by (replace (4 * x * x * y * y) with ((2 * (x * y)) * (2 * (x * y))) by ring; apply Rle_0_sqr).
    pose proof (sums_pos (x * x + y * y) ((y - x) * (y + x)) (4 * x * x * y * y) n e 0 0 (Rlt_le _ _ PS) PF PN PE (Rle_refl 0)) as G.
    destruct (sums R_ops _ _ _ n e 0 0) as [g h]. cbn [fst] in G. unfold Rltb. destruct Rlt_dec as [H|_]; [unfold bound2pi in B; lra|]. cbn [fst].
    assert (0 < 1 / (x * x + y * y)) by (apply Rdiv_lt_0_compat; lra). apply Rmult_lt_0_compat; [assumption|]. apply Rmult_lt_0_compat; lra. }
  unfold faddeeva. assert (N : LeafGen.o_lt R_ops (c_norm R_ops (x, y)) (LeafGen.o_lit R_ops 944473296573929 (-73)) = false).
  { unfold c_norm. rewrite lit2. rops. cbn [fst snd]. unfold Rltb. destruct Rlt_dec as [H|_]; [|reflexivity]. exfalso. revert H. pos_nat. intro H. nra. }
  rewrite N. destruct nonneg1, nonneg2. destruct (near_pole R_ops _ _); apply T; try assumption; [apply r2_near|apply r1_near].
Qed.
