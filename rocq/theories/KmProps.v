(** Properties of the K-matrix (C86, C87). *)
From Coq Require Import Reals List Lra Lia Arith Bool ZArith.
From Coquelicot Require Import Coquelicot.
From Verif Require Import FormulaSpec AmpModel WaveModel KmModel KmSpec KmProofs F64 LeafFormulas.
Import ListNotations.
Open Scope R_scope.

(** ** C86: the K-matrix amplitude solves (1 - i K rho) x = P *)
(** The propagator is the inverse matrix, whatever its array held before, for every number of channels: where all channels
    are open, and where K is non-negative and some are closed. *)
Theorem C86_propagator_open : forall n (K : nat -> nat -> R) (rho : nat -> C) F0 ad, symmetric n K ->
  (forall j, (j < n)%nat -> 0 <= fst (rho j) /\ snd (rho j) = 0) ->
  inverse_of n (system (fun i j => ad * K i j) rho) (R_propagator n K rho F0 ad).
Proof.
  intros n K rho F0 ad Sym Pos. apply propagator_inverse. intros m Hm. apply regular_system.
  - intros i j Hi Hj. f_equal. apply Sym; lia.
  - intros j Hj. destruct (Pos j ltac:(lia)). lra.
  - right. intros j Hj. apply Pos. lia.
Qed.
Theorem C86_propagator_closed_partial : forall n (K : nat -> nat -> R) (rho : nat -> C) F0 ad, symmetric n K ->
  nonnegative_form n (fun i j => ad * K i j) -> (forall j, (j < n)%nat -> 0 <= fst (rho j) /\ 0 <= snd (rho j)) ->
  inverse_of n (system (fun i j => ad * K i j) rho) (R_propagator n K rho F0 ad).
Proof.
  intros n K rho F0 ad Sym Q Pos. apply propagator_inverse. intros m Hm. apply regular_system.
  - intros i j Hi Hj. f_equal. apply Sym; lia.
  - intros j Hj. apply Pos. lia.
  - left. apply (form_block n m); assumption.
Qed.
(** Any matrix: as long as the blocks in the upper left corner are regular. *)
Theorem C86_inverse_partial : forall n (A F0 : nat -> nat -> C),
  (forall m, (m <= n)%nat -> regular m A) -> inverse_of n A (R_inverse n A F0).
Proof. exact inverse_regular. Qed.
Example C86_inverse_ex : (forall m, (m <= 2)%nat -> regular m (fun i j : nat => if (i =? j)%nat then RtoC 2 else Ci)).
Proof.
  intros m Hm v Hv j Hj. destruct m as [|[|[|m]]]; try lia.
  - assert (E := Hv 0%nat ltac:(lia)). cbn [csum Nat.eqb] in E. replace j with 0%nat by lia.
    replace (v 0%nat) with (RtoC (/ 2) * (RtoC 0 + RtoC 2 * v 0%nat))%C; [rewrite E; ring|].
    rewrite RtoC_inv by lra. field. intros H. apply RtoC_inj in H. lra.
  - assert (E0 := Hv 0%nat ltac:(lia)). assert (E1 := Hv 1%nat ltac:(lia)). cbn [csum Nat.eqb] in E0, E1.
    destruct (v 0%nat) as [a b] eqn:V0. destruct (v 1%nat) as [c d] eqn:V1. unfold Cmult, Cplus, RtoC, Ci in E0, E1. cbn [fst snd] in E0, E1.
    injection E0 as H1 H2. injection E1 as H3 H4.
    destruct j as [|[|j]]; [| |lia]; rewrite ?V0, ?V1; unfold RtoC; f_equal; lra.
Qed.
(** The amplitude of the lineshape and of the resonance, in terms of the arguments of the constructor, above all thresholds *)
Theorem C86_value_open : forall c mpair cyc m12 m13 m23 z s,
  k_lineshape R_ops c mpair = Some z /\ s = mpair ^ 2 \/ k_resonance R_ops c cyc m12 m13 m23 = Some z /\ s = by_pair cyc m12 m13 m23 ->
  (m_eta R_ops + m_etap R_ops) ^ 2 < s -> s <> k_s0_scatt c -> s <> k_s0_prod c -> s <> k_sA0 c -> (forall a, (a < 5)%nat -> s <> pole_mass c a ^ 2) ->
  exists x, solves 5 (equations c s) x (P_of c s) /\
    (forall x', solves 5 (equations c s) x' (P_of c s) -> forall i, (i < 5)%nat -> x' i = x i) /\ z = x O.
Proof.
  intros c mpair cyc m12 m13 m23 z s V Hs _ _ _ _.
  assert (Ps : 0 < s) by (destruct mass_bounds as (_ & _ & B3 & B4); nra).
  unfold k_lineshape, k_resonance in V. destruct (construct c) as [l|] eqn:E; [|destruct V as [[V _]|[V _]]; discriminate].
  destruct (amplitude_value c l s E Ps (open_regular c s Hs)) as (x & S & U & X). exists x. split; [exact S|]. split; [exact U|].
  rewrite <- X. destruct V as [[V ->]|[V ->]]; apply (f_equal (fun o => match o with Some y => y | None => RtoC 0 end)) in V; cbv beta iota in V; rewrite <- V.
  - unfold sq. cbn [LeafGen.o_mul R_ops]. replace (mpair ^ 2) with (mpair * mpair) by ring. reflexivity.
  - reflexivity.
Qed.
(** The same anywhere, as long as the blocks are regular *)
Theorem C86_value_partial : forall c mpair z, mpair <> 0 -> k_lineshape R_ops c mpair = Some z ->
  (forall m, (m <= 5)%nat -> regular m (equations c (mpair ^ 2))) ->
  exists x, solves 5 (equations c (mpair ^ 2)) x (P_of c (mpair ^ 2)) /\
    (forall x', solves 5 (equations c (mpair ^ 2)) x' (P_of c (mpair ^ 2)) -> forall i, (i < 5)%nat -> x' i = x i) /\ z = x O.
Proof.
  intros c mpair z N V Reg. unfold k_lineshape in V. destruct (construct c) as [l|] eqn:E; [|discriminate].
  assert (Ps : 0 < mpair ^ 2) by (apply pow2_gt_0; exact N).
  destruct (amplitude_value c l _ E Ps Reg) as (x & S & U & X). exists x. split; [exact S|]. split; [exact U|].
  rewrite <- X. apply (f_equal (fun o => match o with Some y => y | None => RtoC 0 end)) in V; cbv beta iota in V; rewrite <- V.
  unfold sq. cbn [LeafGen.o_mul R_ops]. replace (mpair ^ 2) with (mpair * mpair) by ring. reflexivity.
Qed.
(** It is: below all poles, without the slowly varying part. *)
Theorem C86_below_poles_partial : forall c s, 0 < s -> 0 <= four_pi_poly R_ops s -> 0 <= adler c (m_pi R_ops) s ->
  (forall a, (a < 5)%nat -> s < pole_mass c a ^ 2) -> (forall i j, scattering c i j = 0) ->
  forall m, (m <= 5)%nat -> regular m (equations c s).
Proof.
  intros c s Ps Pp Pa Pm Sc m Hm. apply (regular_system m (fun i j => adler c (m_pi R_ops) s * K_of c s i j) (rho_of s)).
  - intros i j Hi Hj. f_equal. apply (K_symmetric c s m); assumption.
  - intros j _. apply rho_nonneg; assumption.
  - left. intros x.
    rewrite (rsum_ext m _ (fun i => adler c (m_pi R_ops) s * rsum m (fun j => x i * K_of c s i j * x j))).
    + rewrite rsum_scal. apply Rmult_le_pos; [exact Pa|]. apply K_form; assumption.
    + intros i Hi. rewrite <- rsum_scal. apply rsum_ext. intros. ring.
Qed.
(** Five poles with two couplings each, a slowly varying part: at a mass of 2 *)
Definition ex_kmat : kmat := mkKmat (-1) 1 (-3) (-4) [1;0;1;0;1] [0;1;1;0;1] [1;1;1;1;1] [0;2;0;3;0]
  [1/4;-1/5;1/10;0;-1/3]
  [1/4;1/2;0;0;0;65/100; 0;1/2;1/3;0;0;12/10; 0;0;1/2;1/3;0;155/100; 1/3;0;0;1/2;0;121/100; 0;0;0;1/3;-1/2;182/100].
Example C86_value_ex : exists z, k_lineshape R_ops ex_kmat 2 = Some z /\ (m_eta R_ops + m_etap R_ops) ^ 2 < 2 ^ 2 /\
  2 ^ 2 <> k_s0_scatt ex_kmat /\ 2 ^ 2 <> k_s0_prod ex_kmat /\ 2 ^ 2 <> k_sA0 ex_kmat /\ (forall a, (a < 5)%nat -> 2 ^ 2 <> pole_mass ex_kmat a ^ 2) /\
  coupling ex_kmat 1 2 = 1/3 /\ pole_mass ex_kmat 1 = 12/10 /\ scattering ex_kmat 2 0 = 1/10.
Proof.
  destruct mass_bounds as (_ & _ & B3 & B4). unfold k_lineshape. destruct (construct ex_kmat) as [l|] eqn:E; [|discriminate E].
  eexists. split; [reflexivity|]. repeat split; cbn [ex_kmat k_s0_scatt k_s0_prod k_sA0]; try lra; try nra.
  intros a Ha. destruct a as [|[|[|[|[|a]]]]]; try lia; cbn; lra.
Qed.
(** At a mass of 0.5, without the slowly varying part *)
Example C86_below_ex : let c := mkKmat (-1) 1 (-3) (-4) [1;0;1;0;1] [0;1;1;0;1] [1;1;1;1;1] [0;2;0;3;0] [0;0;0;0;0] (k_poles ex_kmat) in
  let s := (1/2) ^ 2 in
  0 < s /\ 0 <= four_pi_poly R_ops s /\ 0 <= adler c (m_pi R_ops) s /\ (forall a, (a < 5)%nat -> s < pole_mass c a ^ 2) /\ (forall i j, scattering c i j = 0) /\
  0 < snd (rho_of s 1).
Proof.
  intros c s. unfold s. destruct mass_bounds as (B1 & B2 & _). split; [lra|]. split.
  { unfold four_pi_poly. cbn [LeafGen.o_lit LeafGen.o_add LeafGen.o_mul LeafGen.o_opp R_ops]. rewrite p55, p54.
    change (powerRZ 2 (-58)) with (/ 2 ^ 58). change (powerRZ 2 (-56)) with (/ 2 ^ 56). change (powerRZ 2 (-50)) with (/ 2 ^ 50). lra. }
  split; [unfold adler, c; cbn [k_sA0 k_sA]; assert (0 < (m_pi R_ops) ^ 2 < 0.02) by nra; apply Rmult_le_pos; [|lra]; lra|].
  split; [intros a Ha; destruct a as [|[|[|[|[|a]]]]]; try lia; cbn; lra|].
  split.
  - intros i j. unfold scattering, c. cbn [k_fscat]. destruct i as [|i]; [do 6 (destruct j as [|j]; [reflexivity|]); cbn; destruct j; reflexivity|].
    destruct j; [|reflexivity]. do 6 (destruct i as [|i]; [reflexivity|]). cbn. destruct i; reflexivity.
  - unfold rho_of. rewrite two_body_snd by lra. apply sqrt_lt_R0.
    assert (1 < (m_k R_ops + m_k R_ops) ^ 2 / (1 / 2) ^ 2); [|lra].
    replace ((m_k R_ops + m_k R_ops) ^ 2 / (1 / 2) ^ 2) with (16 * m_k R_ops ^ 2) by field. nra.
Qed.
(** The program does not exchange rows.  Where a block is singular it divides by zero, although the matrix has an inverse:
    one closed channel with K = -1, coupled to the next. *)
Definition pivot_K (i j : nat) : Z := match i, j with O, O => (-1)%Z | O, S O => 1%Z | S O, O => 1%Z | _, _ => 0%Z end.
Definition pivot_rho (i : nat) : Z * Z := match i with O => (0%Z, 1%Z) | _ => (1%Z, 0%Z) end.
Theorem C86_pivot_refuted : exists (K : nat -> nat -> Z) (rho : nat -> Z * Z), symmetric 5 (fun i j => IZR (K i j)) /\
  (exists F, inverse_of 5 (system (fun i j => IZR (K i j)) (fun j => (IZR (fst (rho j)), IZR (snd (rho j))))) F) /\
  forall i j, (i < 5)%nat -> (j < 2)%nat ->
    let f := fst (propagator f64_ops 5 (fun i j => f_of_Z (K i j)) (fun j => (f_of_Z (fst (rho j)), f_of_Z (snd (rho j)))) (zeros f64_ops) fone i j) in
    feq f f = false.
Proof.
  exists pivot_K, pivot_rho. split; [|split].
  - intros i j Hi Hj. destruct i as [|[|i]], j as [|[|j]]; reflexivity.
  - exists (fun i j => match i, j with O, O => (0, -1) | O, S O => RtoC 1 | S O, O => Ci | S O, S O => RtoC 0 | _, _ => unit_matrix i j end).
    intros i j Hi Hj. unfold product. cbn [csum]. unfold system, pivot_K, pivot_rho, unit_matrix.
    destruct i as [|[|[|[|[|i]]]]]; try lia; destruct j as [|[|[|[|[|j]]]]]; try lia;
      cbn [Nat.eqb fst snd]; unfold Cminus, Copp, Cmult, Cplus, Ci, RtoC; cbn [fst snd]; split; f_equal; ring.
  - intros i j Hi Hj. cbv zeta. destruct i as [|[|[|[|[|i]]]]]; try lia; destruct j as [|[|j]]; try lia; vm_compute; reflexivity.
Qed.

(** ** C87: the amplitude is a continuous function of the mass *)
(** The phase spaces of two particles are: the principal value below the threshold, continuous through it. *)
Theorem C87_two_body : forall s m1 m2, 0 < s ->
  phsp_two R_ops s m1 m2 = two_body_phase_space s m1 m2 /\
  continuous (fun s => fst (phsp_two R_ops s m1 m2)) s /\ continuous (fun s => snd (phsp_two R_ops s m1 m2)) s.
Proof.
  intros s m1 m2 Hs. split; [apply phsp_two_spec; assumption|]. destruct (two_body_continuous s m1 m2 Hs) as [H1 H2].
  split.
  - eapply continuous_ext_loc; [|exact H1]. generalize (near_positive s Hs). apply filter_imp. intros y Hy. rewrite phsp_two_spec by assumption. reflexivity.
  - eapply continuous_ext_loc; [|exact H2]. generalize (near_positive s Hs). apply filter_imp. intros y Hy. rewrite phsp_two_spec by assumption. reflexivity.
Qed.
(** The amplitude is not: it jumps at s = 1, where the two expressions for four pions meet. *)
Theorem C87_jump_refuted : exists c, (forall m, k_lineshape R_ops c m <> None) /\
  ~ continuous (fun m => match k_lineshape R_ops c m with Some z => snd z | None => 0 end) 1.
Proof.
  exists jump_kmat. split; [|exact jump_proof]. intros m. unfold k_lineshape. destruct (construct jump_kmat) eqn:E; [discriminate|discriminate E].
Qed.

Print Assumptions C86_propagator_open.
Print Assumptions C86_propagator_closed_partial.
Print Assumptions C86_inverse_partial.
Print Assumptions C86_value_open.
Print Assumptions C86_value_partial.
Print Assumptions C86_below_poles_partial.
Print Assumptions C86_pivot_refuted.
Print Assumptions C87_two_body.
Print Assumptions C87_jump_refuted.
