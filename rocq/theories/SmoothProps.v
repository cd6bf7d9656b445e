(** C43 and C58: SmoothHistogramPdf. *)
From Coq Require Import List ZArith Bool Lia Reals Lra.
From Flocq Require Import Core BinarySingleNaN.
From Verif Require Import F64 F64Lemmas BinModel BinSpec BinGeom BinProofs2 PdfModel PdfSpec LeafFormulas FormulaSpec SmoothModel SmoothSpec SmoothProofs SmoothProofs2.
From Verif Require LeafGen.
Import ListNotations.
Open Scope Z_scope.

(** ** C43 *)

(** In every dimension, for all bin counts and contents and in any arithmetic: normalize() computes every bin without
    reading outside the histogram, and bin [c] becomes (H(c) + s * sum) / (1 + s * number), where the sum runs once over
    each existing bin that touches [c], diagonals included. *)
Theorem C43_smoothing : forall (T : Type) (Ar : LeafGen.ops T) (hist : list T) (sizes : list Z) (s : T),
  Forall (fun n => 1 <= n) sizes -> Z.of_nat (length hist) = zproduct sizes ->
  exists sm, smoothed Ar hist sizes s = Some sm /\ length sm = length hist /\
  forall c, cell sizes c -> exists ns, NoDup ns /\ (forall d, In d ns <-> neighbour sizes c d) /\
    zread sm (global_of sizes c) =
    Some (weighted_mean Ar (content (LeafGen.o_zero Ar) hist sizes c) (map (content (LeafGen.o_zero Ar) hist sizes) ns) s).
Proof. exact @smoothed_ok. Qed.
Print Assumptions C43_smoothing.

(** The corner bin of a 3 x 2 histogram has three neighbours. *)
Example C43_smoothing_ex : Forall (fun n => 1 <= n) [3; 2] /\ Z.of_nat (length (map IZR [1; 2; 3; 4; 5; 6])) = zproduct [3; 2] /\
  cell [3; 2] [2; 1] /\ global_of [3; 2] [2; 1] = 5 /\ neighbour [3; 2] [2; 1] [1; 0] /\ ~ neighbour [3; 2] [2; 1] [0; 0].
Proof.
  split; [repeat constructor; lia|]. split; [reflexivity|]. split; [repeat constructor; lia|]. split; [reflexivity|]. split.
  - split; [repeat constructor; lia|]. split; [discriminate|]. repeat constructor; cbn; lia.
  - intros (_ & _ & F). inversion F; subst. cbn in *. lia.
Qed.

(** An event that lies in bin [c] (by the rounding margin of C07 at edges between bins) is given the smoothed contents of
    [c]. *)
Theorem C43_evaluation_partial : forall (ks : list coordinate) (hist : list f64) (s : f64),
  Forall well_inside ks -> let sizes := map k_bins ks in let c := map k_bin ks in
  Z.of_nat (length hist) = zproduct sizes ->
  exists sm ns, smoothed f64_ops hist sizes s = Some sm /\ NoDup ns /\ (forall d, In d ns <-> neighbour sizes c d) /\
    eval_histogram f64_ops sm (map axis_of ks) =
    Some (weighted_mean f64_ops (content fzero hist sizes c) (map (content fzero hist sizes) ns) s).
Proof.
  intros ks hist s H sizes c HL. destruct (smoothed_ok f64_ops hist sizes s (inside_sizes _ H) HL) as (sm & E1 & _ & E2).
  destruct (E2 c (inside_cell _ H)) as (ns & A1 & A2 & A3). exists sm, ns. split; [exact E1|]. split; [exact A1|]. split; [exact A2|].
  unfold eval_histogram. rewrite bin_number_ok by exact H. cbn [obind]. fold sizes c. rewrite Z.add_0_l, Z.mul_1_l. exact A3.
Qed.
Print Assumptions C43_evaluation_partial.

Definition k43 : coordinate := mkCoord (f_of_Z 0) (f_of_Z 10) 5 (f_of_Z 7) 3.
Example C43_evaluation_ex : Forall well_inside [k43].
Proof.
  constructor; [|constructor]. unfold well_inside, k43. cbn [k_lo k_up k_bins k_value k_bin].
  destruct (usable_Z 0 10 5 ltac:(lia) ltac:(lia) ltac:(lia) ltac:(lia)) as (U & E0 & E10).
  destruct (f_of_Z_exact 7 ltac:(lia)) as [E7 F7]. split; [exact U|]. split; [lia|].
  unfold inside. split; [exact F7|]. split; [lia|].
  rewrite E0, E10. unfold f2R. rewrite E7. unfold edge, width, margin. split; [right|]; simpl; lra.
Qed.

(** At the upper limit of an observable, which a data set accepts, the histogram is read outside (or, in more than one
    dimension, another bin is read). *)
Theorem C43_upper_limit_refuted : exists lo up v n hist s sm,
  VariableModel.in_range lo up v = true /\ Z.of_nat (length hist) = zproduct [n] /\ smoothed f64_ops hist [n] s = Some sm /\
  eval_histogram f64_ops sm [(v, lo, bin_size lo up n, n)] = None.
Proof.
  exists (f_of_Z 0), (f_of_Z 2), (f_of_Z 2), 2, [fone; fone], fzero.
  destruct (smoothed_ok f64_ops [fone; fone] [2] fzero) as (sm & E & L & _); [repeat constructor; lia|reflexivity|].
  exists sm. split; [vm_compute; reflexivity|]. split; [reflexivity|]. split; [exact E|].
  unfold eval_histogram. assert (B : LeafGen.bin_number f64_ops [(f_of_Z 2, f_of_Z 0, bin_size (f_of_Z 0) (f_of_Z 2) 2, 2)] 0 1 = Some 2) by (vm_compute; reflexivity).
  rewrite B. cbn [obind]. unfold zread. cbn [Z.ltb Z.compare]. apply nth_error_None. rewrite L. cbn. lia.
Qed.
Print Assumptions C43_upper_limit_refuted.

(** Over the reals: with smoothing >= 0 the new contents lie between the smallest and the largest contents around; with
    smoothing 0 they are the old ones; and the values times the factor stored by normalize() integrate to 1. *)
Theorem C43_mean_between : forall h hs s lo hi, (0 <= s)%R -> (lo <= h <= hi)%R -> (forall x, In x hs -> (lo <= x <= hi)%R) ->
  (lo <= weighted_mean R_ops h hs s <= hi)%R.
Proof. exact mean_between. Qed.
Print Assumptions C43_mean_between.
Theorem C43_no_smoothing : forall h hs, weighted_mean R_ops h hs 0%R = h.
Proof. exact mean_plain. Qed.
Print Assumptions C43_no_smoothing.
Theorem C43_normalised : forall steps sm, let i := smooth_integral R_ops (fun l => fold_left Rplus l 0%R) steps sm in i <> 0%R ->
  fold_left Rplus (map (fun v => v * (1 / i) * fold_left Rmult steps 1) sm)%R 0%R = 1%R.
Proof. exact normalised_ok. Qed.
Print Assumptions C43_normalised.
Example C43_normalised_ex : smooth_integral R_ops (fun l => fold_left Rplus l 0%R) [2; 3]%R [1; 4]%R <> 0%R.
Proof. unfold smooth_integral. cbn. lra. Qed.

(** ** C58 *)

(** When every PDF gets its histogram at once, each PDF evaluates, and normalises, the histogram last given to it, for up to
    100 PDFs. *)
Theorem C58_own_histogram_partial : forall (T : Type) (full : list T -> bool) m ops p,
  at_once full 0 m ops -> (m <= 100)%nat -> (p < m)%nat ->
  let t := t_run full ops in
  h_ub t = false /\ last_given ops p <> None /\ t_read t p = last_given ops p /\ nth_error (h_own t) p = Some (last_given ops p).
Proof. exact @table_ok. Qed.
Print Assumptions C58_own_histogram_partial.

Definition full58 (h : list Z) : bool := 0 <? fold_left Z.add h 0.
Example C58_own_histogram_ex : let ops := [TNew [1; 2]; TNew [0; 0]; TCopy 1%nat [3; 4]; TNew [5; 6]] in
  at_once full58 0 3 ops /\ last_given ops 1 = Some [3; 4].
Proof.
  split; [|reflexivity]. change [TNew [1; 2]; TNew [0; 0]; TCopy 1%nat [3; 4]; TNew [5; 6]] with ((([] ++ [TNew [1; 2]]) ++ [TNew [0; 0]; TCopy 1%nat [3; 4]]) ++ [TNew [5; 6]]).
  apply ao_new; [|reflexivity]. apply ao_copy; [|reflexivity]. apply ao_new; [|reflexivity]. constructor.
Qed.

(** Two PDFs built on empty histograms that are filled later: the second evaluates the histogram of the first. *)
Theorem C58_filled_later_refuted : exists ops : list (top (T:=Z)),
  last_given ops 0 = Some [1; 2] /\ last_given ops 1 = Some [3; 4] /\
  t_read (t_run full58 ops) 0 = Some [1; 2] /\ t_read (t_run full58 ops) 1 = Some [1; 2].
Proof. exists [TNew [0; 0]; TNew [0; 0]; TCopy 0%nat [1; 2]; TCopy 1%nat [3; 4]]. repeat split. Qed.
Print Assumptions C58_filled_later_refuted.

(** Replacing the histogram of a PDF by copyHistogramToDevice has no effect on what it evaluates, but normalize() now runs over
    the bins of the new one. *)
Theorem C58_replaced_refuted : exists ops : list (top (T:=Z)),
  last_given ops 0 = Some [3; 4] /\ t_read (t_run full58 ops) 0 = Some [1; 2] /\
  nth_error (h_own (t_run full58 ops)) 0 = Some (Some [3; 4]).
Proof. exists [TNew [1; 2]; TCopy 0%nat [3; 4]]. repeat split. Qed.
Print Assumptions C58_replaced_refuted.

(** The 101st histogram is written past the end of the table. *)
Theorem C58_table_overrun_refuted : exists ops : list (top (T:=Z)),
  at_once full58 0 101 ops /\ h_ub (t_run full58 ops) = true.
Proof.
  exists (repeat (TNew [1]) 101). split; [|reflexivity].
  assert (G : forall n, at_once full58 0 n (repeat (TNew [1]) n)).
  { induction n as [|n IH]; [constructor|]. cbn [repeat]. rewrite repeat_cons. now apply ao_new. }
  apply G.
Qed.
Print Assumptions C58_table_overrun_refuted.
