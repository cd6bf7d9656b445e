(** C116: the spin factors and the lineshapes of an event are the same whether computed from its momenta or from its five variables. *)
From Coq Require Import List ZArith Reals Lra Psatz Bool Lia.
From Verif Require Import FormulaSpec KinModel KinSpec KinProofs KinProps Dim5Model Dim5Spec Dim5Proofs Dim5Proofs2 Dim5Proofs3 Dim5Proofs4 Dim5Props.
From Verif Require Import SpinModel SpinSpec SpinProps CalcModel CalcProofs.
From Verif Require LeafGen.
Import ListNotations.
Open Scope R_scope.

Lemma range M m1 m2 m3 m4 (p1 p2 p3 p4 : mom) m12 m34 c12 c34 f : 0 <= m1 -> 0 <= m2 -> 0 <= m3 -> 0 <= m4 ->
  decay4 M m1 m2 m3 m4 p1 p2 p3 p4 -> plane p1 p2 -> plane p3 p4 -> dim5 R_ops acos p1 p2 p3 p4 = (m12, m34, c12, c34, f) ->
  four_body M m12 m34 m1 m2 m3 m4 /\ -1 <= c12 <= 1 /\ -1 <= c34 <= 1.
Proof.
  intros H1 H2 H3 H4 DE P1 P2 D. pose proof DE as (S1 & S2 & S3 & S4 & E). assert (GP : good M m1 m2 m3 m4 p1 p2 p3 p4) by (split; [exact DE|split; assumption]).
  pose proof (good_M M m1 m2 m3 m4 H1 H2 H3 H4 _ _ _ _ GP) as HM. pose proof (good_sum M m1 m2 m3 m4 H1 H2 H3 H4 _ _ _ _ GP) as GS.
  assert (PM : KinSpec.vadd (KinSpec.vadd (KinSpec.vadd p1 p2) p3) p4 = KinSpec.at_rest M) by (rewrite <- E; unfold KinSpec.vadd; cbn [vx vy vz ve]; f_equal; ring).
  unfold dim5 in D. change (v_add R_ops) with KinSpec.vadd in D. cbv zeta in D. rewrite PM in D.
  apply pair_equal_spec in D as [D D5]. apply pair_equal_spec in D as [D D4]. apply pair_equal_spec in D as [D D3]. apply pair_equal_spec in D as [D1 D2].
  unfold v_mass, v_mass2 in D1, D2. change (v_mul R_ops) with lor in D1, D2. cbn [LeafGen.o_sqrt R_ops] in D1, D2. rewrite !lor_minv in D1, D2.
  pose proof (pair_mass p1 p2 m1 m2 H1 H2 S1 S2 P1) as G1. pose proof (pair_mass p3 p4 m3 m4 H3 H4 S3 S4 P2) as G2. rewrite D1 in *. rewrite D2 in *.
  pose proof (hel_bound p1 p2 m1 m2 M H1 H2 S1 S2 P1 HM) as C1. pose proof (hel_bound p3 p4 m3 m4 M H3 H4 S3 S4 P2 HM) as C2. rewrite D3 in C1. rewrite D4 in C2.
  split; [unfold four_body; lra|]. split; nra.
Qed.

(** Every spin factor, with every assignment of the particles. *)
Theorem C116_spin_factor : forall W M m1 m2 m3 m4 (p1 p2 p3 p4 : mom) v k c i1 i2 i3 i4,
  0 <= m1 -> 0 <= m2 -> 0 <= m3 -> 0 <= m4 -> decay4 M m1 m2 m3 m4 p1 p2 p3 p4 -> plane p1 p2 -> plane p3 p4 -> dim5 R_ops acos p1 p2 p3 p4 = v ->
  sf_calc R_ops (R_lib W) (M, m1, m2, m3, m4) k c i1 i2 i3 i4 v = spin_value R_ops k c (map to_spin [p1; p2; p3; p4]) i1 i2 i3 i4.
Proof.
  intros W M m1 m2 m3 m4 p1 p2 p3 p4 [[[[m12 m34] c12] c34] f] k c i1 i2 i3 i4 H1 H2 H3 H4 DE P1 P2 D.
  destruct (range _ _ _ _ _ _ _ _ _ _ _ _ _ _ H1 H2 H3 H4 DE P1 P2 D) as (HF & C1 & C2). unfold sf_calc, momenta.
  destruct (get_4_vecs R_ops (R_lib W) m12 m34 c12 c34 f M m1 m2 m3 m4) as [[[q1 q2] q3] q4] eqn:Q.
  pose proof (C107_event_back W _ _ _ _ _ _ _ _ _ _ _ _ _ _ _ _ _ _ H1 H2 H3 H4 DE P1 P2 D Q) as SE.
  destruct (C47_four_vectors W _ _ _ _ _ _ _ _ _ _ _ _ _ _ HF C1 C2 Q) as (_ & _ & _ & _ & SQ & _).
  pose proof (good_M M m1 m2 m3 m4 H1 H2 H3 H4 _ _ _ _ (conj DE (conj P1 P2))) as HM. destruct DE as (_ & _ & _ & _ & SP). symmetry.
  exact (same_spin M (particle (p1, p2, p3, p4)) (particle (q1, q2, q3, q4)) HM SP SQ SE P1 k c i1 i2 i3 i4).
Qed.
Print Assumptions C116_spin_factor.
(** In particular, for particles with mass, the covariant expression (C96) of the momenta the event came from. *)
Theorem C116_covariant_partial : forall W M m1 m2 m3 m4 (p1 p2 p3 p4 : mom) v k c i1 i2 i3 i4,
  0 < m1 -> 0 < m2 -> 0 < m3 -> 0 < m4 -> decay4 M m1 m2 m3 m4 p1 p2 p3 p4 -> plane p1 p2 -> plane p3 p4 -> dim5 R_ops acos p1 p2 p3 p4 = v ->
  k <> DtoTP1 -> is_form_factor k = false -> (i1 < 4)%nat -> (i2 < 4)%nat -> (i3 < 4)%nat -> (i4 < 4)%nat ->
  let P i := to_spin (particle (p1, p2, p3, p4) (S i)) in
  sf_calc R_ops (R_lib W) (M, m1, m2, m3, m4) k c i1 i2 i3 i4 v = Some (covariant k (P i1) (P i2) (P i3) (P i4)).
Proof.
  intros W M m1 m2 m3 m4 p1 p2 p3 p4 v k c i1 i2 i3 i4 H1 H2 H3 H4 DE P1 P2 D NT NF I1 I2 I3 I4 P.
  rewrite (C116_spin_factor W M m1 m2 m3 m4 p1 p2 p3 p4 v k c i1 i2 i3 i4) by (try lra; assumption).
  assert (N : forall i, (i < 4)%nat -> nth_error (map to_spin [p1; p2; p3; p4]) i = Some (P i)).
  { intros i Hi. unfold P. destruct i as [|[|[|[|i]]]]; [reflexivity|reflexivity|reflexivity|reflexivity|lia]. }
  assert (PH : forall (p : mom) m, 0 < m -> on_shell p m -> physical (to_spin p)).
  { intros p m Hm [A B]. unfold physical, scalar, sum, g, to_spin, comp. cbn [vX vY vZ vE]. unfold minv in A. pose proof (pow_lt m 2 Hm). split; [nra|]. destruct (Req_dec (ve p) 0) as [E|E]; [|lra]. exfalso. rewrite E in A. nra. }
  destruct DE as (S1 & S2 & S3 & S4 & _).
  assert (F : forall i, (i < 4)%nat -> physical (P i)).
  { intros i Hi. unfold P. destruct i as [|[|[|[|i]]]]; cbn [particle]; [exact (PH _ _ H1 S1)|exact (PH _ _ H2 S2)|exact (PH _ _ H3 S3)|exact (PH _ _ H4 S4)|lia]. }
  eapply C96_covariant_partial; auto.
Qed.
Print Assumptions C116_covariant_partial.
(** Every lineshape is evaluated at the masses of its pair and of the daughters of its pair. *)
Theorem C116_lineshape : forall W M m1 m2 m3 m4 (p1 p2 p3 p4 : mom) v shape k g1 g2,
  0 <= m1 -> 0 <= m2 -> 0 <= m3 -> 0 <= m4 -> decay4 M m1 m2 m3 m4 p1 p2 p3 p4 -> plane p1 p2 -> plane p3 p4 -> dim5 R_ops acos p1 p2 p3 p4 = v ->
  nth_error KinSpec.pairs k = Some (g1, g2) ->
  let mass := system_mass (p1, p2, p3, p4) in
  ls_calc R_ops (R_lib W) (M, m1, m2, m3, m4) shape (Z.of_nat k) v = Some (shape (mass (g1 ++ g2)) (mass g1) (mass g2)).
Proof.
  intros W M m1 m2 m3 m4 p1 p2 p3 p4 [[[[m12 m34] c12] c34] f] shape k g1 g2 H1 H2 H3 H4 DE P1 P2 D K mass.
  destruct (range _ _ _ _ _ _ _ _ _ _ _ _ _ _ H1 H2 H3 H4 DE P1 P2 D) as (HF & C1 & C2). unfold ls_calc, momenta.
  rewrite (C60_lineshape_masses W M m12 m34 m1 m2 m3 m4 c12 c34 f k g1 g2 HF C1 C2 K).
  destruct (get_4_vecs R_ops (R_lib W) m12 m34 c12 c34 f M m1 m2 m3 m4) as [[[q1 q2] q3] q4] eqn:Q.
  pose proof (C107_event_back W _ _ _ _ _ _ _ _ _ _ _ _ _ _ _ _ _ _ H1 H2 H3 H4 DE P1 P2 D Q) as SE.
  assert (B : forall i, In i (g1 ++ g2) -> (1 <= i <= 4)%nat).
  { clear - K. intros i Hi. assert (A : List.Forall (fun h => List.Forall (fun i => (1 <= i <= 4)%nat) (fst h ++ snd h)) KinSpec.pairs) by (unfold KinSpec.pairs; cbn [app]; repeat constructor).
    rewrite Forall_forall in A. specialize (A _ (nth_error_In _ _ K)). cbn [fst snd] in A. rewrite Forall_forall in A. now apply A. }
  assert (Mx : forall h, (forall i, In i h -> (1 <= i <= 4)%nat) -> system_mass (q1, q2, q3, q4) h = mass h).
  { intros h Hh. unfold mass, system_mass. f_equal. symmetry. exact (same_minv _ _ SE h Hh). }
  rewrite !Mx; [reflexivity| | |]; intros i Hi; apply B; rewrite ?in_app_iff in *; tauto.
Qed.
Print Assumptions C116_lineshape.
(** The same from an array of events: the values are those of the event of the row, whatever else the rows contain and wherever in them
    the five observables are. *)
Definition holds (row : list R) (ids : observables) (v : R * R * R * R * R) : Prop :=
  let '(i12, i34, ic12, ic34, iphi) := ids in let '(m12, m34, c12, c34, f) := v in
  nth_error row i12 = Some m12 /\ nth_error row i34 = Some m34 /\ nth_error row ic12 = Some c12 /\ nth_error row ic34 = Some c34 /\ nth_error row iphi = Some f.
Theorem C116_data : forall W M m1 m2 m3 m4 (p1 p2 p3 p4 : mom) ids rows stride n row,
  0 <= m1 -> 0 <= m2 -> 0 <= m3 -> 0 <= m4 -> decay4 M m1 m2 m3 m4 p1 p2 p3 p4 -> plane p1 p2 -> plane p3 p4 ->
  List.Forall (fun r => length r = stride) rows -> nth_error rows n = Some row -> holds row ids (dim5 R_ops acos p1 p2 p3 p4) ->
  (forall k c i1 i2 i3 i4, sf_data R_ops (R_lib W) (M, m1, m2, m3, m4) k c i1 i2 i3 i4 ids (concat rows) stride n = spin_value R_ops k c (map to_spin [p1; p2; p3; p4]) i1 i2 i3 i4) /\
  (forall shape k g1 g2, nth_error KinSpec.pairs k = Some (g1, g2) ->
    let mass := system_mass (p1, p2, p3, p4) in
    ls_data R_ops (R_lib W) (M, m1, m2, m3, m4) shape (Z.of_nat k) ids (concat rows) stride n = Some (shape (mass (g1 ++ g2)) (mass g1) (mass g2))).
Proof.
  intros W M m1 m2 m3 m4 p1 p2 p3 p4 ids rows stride n row H1 H2 H3 H4 DE P1 P2 F N Ho.
  assert (RF : read_five (concat rows) stride n ids = Some (dim5 R_ops acos p1 p2 p3 p4)).
  { destruct ids as [[[[i12 i34] ic12] ic34] iphi]. destruct (dim5 R_ops acos p1 p2 p3 p4) as [[[[m12 m34] c12] c34] f]. destruct Ho as (A & B & C & D & E). unfold read_five. cbv zeta.
    now rewrite (nth_row _ _ _ _ _ _ F N A), (nth_row _ _ _ _ _ _ F N B), (nth_row _ _ _ _ _ _ F N C), (nth_row _ _ _ _ _ _ F N D), (nth_row _ _ _ _ _ _ F N E). }
  split.
  - intros k c i1 i2 i3 i4. unfold sf_data. rewrite RF. now apply C116_spin_factor.
  - intros shape k g1 g2 K mass. unfold ls_data. rewrite RF. now apply C116_lineshape.
Qed.
Print Assumptions C116_data.
Example C116_data_ex : holds [7; 1; 2; 3; 4; 5; 0] (1, 2, 3, 4, 5)%nat (1, 2, 3, 4, 5) /\ holds [5; 4; 3; 2; 1] (4, 3, 2, 1, 0)%nat (1, 2, 3, 4, 5).
Proof. repeat split. Qed.
(** Three particles of mass 4 and one of mass 8 from a mother of mass 24. *)
Example C116_ex : decay4 24 4 4 4 8 (mkV 2 2 1 5) (mkV (-1) (-2) 2 5) (mkV 2 (-2) (-1) 5) (mkV (-3) 2 (-2) 9) /\
  plane (mkV 2 2 1 5) (mkV (-1) (-2) 2 5) /\ plane (mkV 2 (-2) (-1) 5) (mkV (-3) 2 (-2) 9).
Proof.
  unfold decay4, on_shell, minv, plane, Dim5Spec.dot3, KinSpec.vadd, KinSpec.at_rest. cbn [vx vy vz ve].
  repeat split; try lra. f_equal; lra.
Qed.
