(** Property theorems for coherent sums of resonances: the normalisation (C48) and the fit fractions (C49), in exact
    arithmetic. *)
From Coq Require Import Reals List Lra Lia Arith Bool.
From Coquelicot Require Import Complex.
From Verif Require Import FormulaSpec AmpModel AmpSpec AmpProofs KinProofs.
From Verif Require LeafGen.
Import ListNotations.
Open Scope R_scope.

(** ** C48 *)

(** Any sequence of calls of normalize() on one object, in which the resonance functions, the efficiency, the grid and the
    data only change when that is announced (setDataSize or setForceIntegrals, or parametersChanged() of the resonance),
    and the amplitudes change at will.  The last call returns the sum over all cells of |sum a_i BW_i|^2 times efficiency
    times area, for the current values of everything; the complex sum it is taken from is real; it is not negative when the
    efficiency is not; and the value of the PDF at every event of the data is intensity times efficiency, zero outside.
    Restricted to grids with the same number of bins in m12 and m13. *)
Theorem C48_normalisation_partial : forall (cs : list (call (T := R))) (c : call (T := R)),
  honest (cs ++ [c]) -> n12 (range c) = n13 (range c) -> n12 (range c) <> 0%nat ->
  let k := fst (calls R_ops (cs ++ [c])) in
  snd (calls R_ops (cs ++ [c])) = Some (cells c) /\
  snd (sum_integral R_ops c k) = 0 /\
  ((forall x y, 0 <= eff c x y) -> lo12 (range c) <= up12 (range c) -> lo13 (range c) <= up13 (range c) -> 0 <= cells c) /\
  forall e x y, nth_error (events c) e = Some (x, y) -> coherent R_ops c k e x y = density c x y.
Proof.
  intros cs c H EQ N k. destruct (calls_fresh cs c H) as [F V]. fold k in F, V. pose proof (sum_integral_value c k F) as S.
  split; [rewrite V, S; cbn [fst RtoC]; f_equal; now apply cells_value|]. split; [now rewrite S|]. split; [apply cells_nonneg|].
  intros e x y E. now apply coherent_value.
Qed.
Print Assumptions C48_normalisation_partial.

(** Two resonances on a grid of two by two bins, first normalised, then the second resonance and both amplitudes change. *)
Definition exc (a1 a2 : C) (s : R) (forced : bool) : call (T := R) :=
  mkCall [a1; a2] (fun i x y => match i with O => (x, y) | _ => (s * y, x) end) (fun x y => 1 + x * x) (fun x y => if Rle_dec (x + y) 5 then true else false)
         (mkGrid 0 4 2 0 4 2) [(1, 2); (3, 1)] forced (fun i => match i with O => false | _ => true end).
Example C48_ex : honest ([exc (1, 0) (0, 1) 1 true] ++ [exc (2, 1) (1, 1) 3 false]) /\
  n12 (range (exc (2, 1) (1, 1) 3 false)) = n13 (range (exc (2, 1) (1, 1) 3 false)) /\
  cells (exc (2, 1) (1, 1) 3 false) = 9008.
Proof.
  split; [|split; [reflexivity|]].
  - split; [reflexivity|]. cbn [app all_announced]. split; [|exact I]. right. cbn. repeat split. intros [|i] H; [reflexivity|discriminate].
  - unfold cells, Rtotal, exc, density, intensity, amplitude, Ctotal, mid. cbn [range n12 n13 lo12 up12 lo13 up13 seq map fold_right inside eff amps bw length nth INR].
    repeat match goal with |- context [Rle_dec ?a ?b] => destruct (Rle_dec a b); [try (exfalso; lra)|try (exfalso; lra)] end.
    unfold Cmod. rewrite !pow2_sqrt by nra. unfold Cplus, Cmult, RtoC. cbn [fst snd]. field.
Qed.

(** False for different numbers of bins: the number of m12 bins is used for the width of the m13 bins.  Massless daughters of
    a particle of mass 10, one resonance with constant amplitude 1, efficiency 1, one bin of m12 and two bins of m13: the
    second m13 bin is looked up outside the limits and its contribution is lost. *)
Definition exu : call (T := R) :=
  mkCall [(1, 0)] (fun _ _ _ => (1, 0)) (fun _ _ => 1) (fun x y => LeafGen.in_dalitz R_ops x y 10 0 0 0) (mkGrid 3 5 1 60 100 2) [] true (fun _ => true).
Lemma sqrt_4 : sqrt 4 = 2.
Proof. replace 4 with (2 * 2) by ring. apply sqrt_square. lra. Qed.
Lemma massless_in : forall s, 0 <= s <= 96 -> LeafGen.in_dalitz R_ops 4 s 10 0 0 0 = true.
Proof. intros s H. apply in_dalitz_R; try lra. rewrite sqrt_4. repeat split; try lra. nra. Qed.
Lemma massless_out : forall s, 96 < s -> LeafGen.in_dalitz R_ops 4 s 10 0 0 0 = false.
Proof. intros s H. destruct (LeafGen.in_dalitz R_ops 4 s 10 0 0 0) eqn:E; [|reflexivity]. exfalso. apply in_dalitz_R in E; try lra. Qed.
Theorem C48_unequal_bins_refuted : exists c : call (T := R), honest [c] /\ (0 < n12 (range c))%nat /\ (0 < n13 (range c))%nat /\
  snd (calls R_ops [c]) = Some 40 /\ cells c = 80.
Proof.
  exists exu. split; [split; [reflexivity|exact I]|]. cbn [exu range n12 n13]. split; [lia|]. split; [lia|]. split.
  - destruct (calls_fresh [] exu) as [F V]; [split; [reflexivity|exact I]|]. cbn [app] in F, V. rewrite V, (sum_integral_value _ _ F). cbn [fst RtoC]. f_equal.
    unfold Rtotal, cell, centre, of_nat, size12, size13, of_nat. cbn [exu range n12 n13 lo12 up12 lo13 up13 Nat.mul seq map fold_right].
    cbn [LeafGen.o_add LeafGen.o_sub LeafGen.o_mul LeafGen.o_div LeafGen.o_ofZ LeafGen.o_half R_ops Z.of_nat Pos.of_succ_nat Pos.succ].
    cbn [Nat.add seq map fold_right]. change (Z.of_nat (0 mod 1)) with 0%Z. change (Z.of_nat (1 mod 1)) with 0%Z. change (Z.of_nat (0 / 1)) with 0%Z. change (Z.of_nat (1 / 1)) with 1%Z.
    unfold density. cbn [exu inside eff].
    replace ((5 - 3) / 1 * (0 + / 2) + 3) with 4 by field. replace ((100 - 60) / 1 * (0 + / 2) + 60) with 80 by field. replace ((100 - 60) / 1 * (1 + / 2) + 60) with 120 by field.
    rewrite massless_in, massless_out by lra. unfold intensity, amplitude, Ctotal. cbn [exu amps length seq map fold_right nth bw].
    unfold Cmod. rewrite pow2_sqrt by (cbn; nra). unfold Cplus, Cmult, RtoC. cbn [fst snd]. field.
  - unfold cells, Rtotal, mid, density. cbn [exu range n12 n13 lo12 up12 lo13 up13 seq map fold_right inside eff INR].
    replace (3 + (0 + / 2) * ((5 - 3) / 1)) with 4 by field. replace (60 + (0 + / 2) * ((100 - 60) / (1 + 1))) with 70 by field. replace (60 + (1 + / 2) * ((100 - 60) / (1 + 1))) with 90 by field.
    rewrite !massless_in by lra. unfold intensity, amplitude, Ctotal. cbn [exu amps length seq map fold_right nth bw].
    unfold Cmod. rewrite pow2_sqrt by (cbn; nra). unfold Cplus, Cmult, RtoC. cbn [fst snd]. field.
Qed.
Print Assumptions C48_unequal_bins_refuted.

(** False when the efficiency changes (its parameters moved in the fit) and no resonance does: Amp3Body, unlike Amp3Body_IS,
    does not ask the efficiency, and the kept integrals are used.  Here the efficiency is doubled between two calls. *)
Definition exf (s : R) (forced : bool) : call (T := R) :=
  mkCall [(1, 0)] (fun _ _ _ => (1, 0)) (fun _ _ => s) (fun _ _ => true) (mkGrid 0 1 1 0 1 1) [] forced (fun _ => false).
Theorem C48_efficiency_change_refuted : exists a b : call (T := R), force a = true /\
  (forall x y, bw a 0%nat x y = bw b 0%nat x y) /\ range a = range b /\ n12 (range b) = n13 (range b) /\
  snd (calls R_ops [a; b]) = Some 1 /\ cells b = 2.
Proof.
  exists (exf 1 true), (exf 2 false). repeat split.
  - unfold calls, normalize, refresh, redo, sum_integral, nres, AmpModel.c_sum, integrand, cell, centre, amp, size12, size13, of_nat, exf.
    cbn [fold_left fst snd force changed orb negb andb amps length seq range n12 n13 Nat.mul map Nat.add bw eff inside k_int nth lo12 up12 lo13 up13 kept0].
    change (1 * 1)%nat with 1%nat. cbn [seq map fold_left fst snd].
    unfold AmpModel.c_mul, AmpModel.c_add, AmpModel.c_conj, c_scale, AmpModel.c_zero. cbn [fst snd LeafGen.o_add LeafGen.o_sub LeafGen.o_mul LeafGen.o_div LeafGen.o_opp LeafGen.o_zero LeafGen.o_one LeafGen.o_ofZ R_ops Z.of_nat Pos.of_succ_nat].
    f_equal. field.
  - unfold cells, Rtotal, density. cbn [exf range n12 n13 lo12 up12 lo13 up13 seq map fold_right inside eff INR].
    unfold intensity, amplitude, Ctotal. cbn [exf amps length seq map fold_right nth bw]. unfold Cmod. rewrite pow2_sqrt by (cbn; nra). unfold Cplus, Cmult, RtoC. cbn [fst snd]. field.
Qed.
Print Assumptions C48_efficiency_change_refuted.

(** ** C49 *)

(** For amplitudes a_i and cached waves w_i over N events, at one of which the total amplitude is not zero: the matrix is
    symmetric, its entries sum to one, the diagonal is not negative, and entry (i, i) is the share of |a_i w_i|^2 in the
    total intensity. *)
Theorem C49_fit_fractions : forall (coefs : list C) (w : nat -> list C) (N : nat),
  (forall i, (i < length coefs)%nat -> length (w i) = N) ->
  (exists e, (e < N)%nat /\ event_amplitude coefs w e <> RtoC 0) ->
  let n := length coefs in
  let ff := fit_fractions R_ops coefs w in
  (length ff = n /\ Forall (fun row => length row = n) ff) /\
  (forall i j, (i < n)%nat -> (j < n)%nat -> entry ff i j = entry ff j i) /\
  Rtotal n (fun i => Rtotal n (fun j => entry ff i j)) = 1 /\
  (forall i, (i < n)%nat -> 0 <= entry ff i i /\
     entry ff i i = Rtotal N (fun e => Cmod (Cmult (nth i coefs (RtoC 0)) (nth e (w i) (RtoC 0))) ^ 2) / total_intensity coefs w N).
Proof.
  intros coefs w N LEN (e & He & NZ) n ff.
  assert (TP : 0 < total_intensity coefs w N).
  { unfold total_intensity. apply (Rtotal_pos N _ e); [intros; apply pow2_ge_0|exact He|]. apply pow_lt. now apply Cmod_gt_0. }
  assert (n0 : (0 < n)%nat).
  { unfold n. destruct coefs; [exfalso; apply NZ; reflexivity|]. cbn. lia. }
  assert (EV : forall i j, (i < n)%nat -> (j < n)%nat -> entry ff i j = Rtotal N (re_term coefs w i j) / total_intensity coefs w N).
  { intros i j Hi Hj. apply entry_value; try assumption. lia. }
  split; [|split; [|split]].
  - unfold ff, fit_fractions. split; [now rewrite map_length, seq_length|]. apply Forall_forall. intros row Hr. apply in_map_iff in Hr.
    destruct Hr as (i & <- & _). now rewrite map_length, seq_length.
  - intros i j Hi Hj. rewrite !EV by assumption. f_equal. apply Rtotal_ext. intros e' _. unfold re_term.
    generalize (Cmult (nth i coefs (RtoC 0)) (nth e' (w i) (RtoC 0))) (Cmult (nth j coefs (RtoC 0)) (nth e' (w j) (RtoC 0))). intros [a b] [a' b'].
    unfold Cmult, Cconj. cbn [fst snd]. ring.
  - rewrite (Rtotal_ext n _ (fun i => Rtotal n (fun j => Rtotal N (re_term coefs w i j)) * / total_intensity coefs w N)).
    + rewrite <- Rtotal_mult_r. rewrite (Rtotal_ext n _ (fun i => Rtotal N (fun e => Rtotal n (fun j => re_term coefs w i j e)))) by (intros; apply Rtotal_swap).
      rewrite Rtotal_swap. replace (Rtotal N _) with (total_intensity coefs w N); [field; lra|]. unfold total_intensity. apply Rtotal_ext. intros e' _.
      change (Cmod (event_amplitude coefs w e') ^ 2) with (fst (RtoC (Cmod (event_amplitude coefs w e') ^ 2))). rewrite <- mod_sq.
      unfold event_amplitude. rewrite Ctotal_conj, <- product_of_sums, Ctotal_re. fold n. apply Rtotal_ext. intros i _. rewrite Ctotal_re. reflexivity.
    + intros i Hi. rewrite Rtotal_mult_r. apply Rtotal_ext. intros j Hj. now apply EV.
  - intros i Hi. assert (D : Rtotal N (re_term coefs w i i) = Rtotal N (fun e => Cmod (Cmult (nth i coefs (RtoC 0)) (nth e (w i) (RtoC 0))) ^ 2)).
    { apply Rtotal_ext. intros e' _. unfold re_term. now rewrite mod_sq. }
    rewrite EV by assumption. rewrite D. split; [|reflexivity]. apply Rmult_le_pos; [apply Rtotal_nonneg; intros; apply pow2_ge_0|]. left. now apply Rinv_0_lt_compat.
Qed.
Print Assumptions C49_fit_fractions.

Example C49_ex : let w := fun i => match i with O => [(1, 0); (0, 2)] | _ => [(1, 1); (3, 0)] end in
  (forall i, (i < 2)%nat -> length (w i) = 2%nat) /\ event_amplitude [(1, 0); (0, 1)] w 0 <> RtoC 0 /\
  entry (fit_fractions R_ops [(1, 0); (0, 1)] w) 0 1 = 5 / 26.
Proof.
  cbn zeta. split; [intros [|[|i]] H; try reflexivity; lia|]. split.
  - unfold event_amplitude, Ctotal. cbn. unfold Cplus, Cmult, RtoC. cbn. intro H. apply (f_equal snd) in H. cbn in H. lra.
  - unfold entry, fit_fractions, buffer, coef_sum, r_sum, of_nat. cbn [length seq map nth fold_left combine fst snd].
    unfold AmpModel.c_mul, AmpModel.c_conj, AmpModel.c_zero. cbn [fst snd LeafGen.o_add LeafGen.o_sub LeafGen.o_mul LeafGen.o_div LeafGen.o_opp LeafGen.o_zero LeafGen.o_ofZ R_ops Z.of_nat Pos.of_succ_nat Pos.succ].
    field.
Qed.
