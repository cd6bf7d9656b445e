(** Events with the same invariants and the same handedness have the same spin factors and masses. *)
From Coq Require Import List ZArith Reals Lra Psatz Bool Lia.
From Verif Require Import FormulaSpec KinModel KinSpec KinProps Dim5Model Dim5Spec Dim5Props SpinModel SpinSpec SpinProps CalcModel.
From Verif Require LeafGen.
Import ListNotations.
Open Scope R_scope.

Notation mom := (KinModel.vec4 R).
(** The frame with the first axis along p and the third along p x q, as a matrix. *)
Definition axes_of (n k d : R) (p q : mom) (i j : ix) : R :=
  match i, j with
  | ix_x, ix_x => vx p / n | ix_x, ix_y => vy p / n | ix_x, ix_z => vz p / n
  | ix_y, ix_x => (n ^ 2 * vx q - k * vx p) / (n * d) | ix_y, ix_y => (n ^ 2 * vy q - k * vy p) / (n * d) | ix_y, ix_z => (n ^ 2 * vz q - k * vz p) / (n * d)
  | ix_z, ix_x => (vy p * vz q - vz p * vy q) / d | ix_z, ix_y => (vz p * vx q - vx p * vz q) / d | ix_z, ix_z => (vx p * vy q - vy p * vx q) / d
  | ix_t, ix_t => 1 | _, _ => 0
  end.
Section Frame.
Variables p q : mom.
Let n := sqrt (Dim5Spec.dot3 p p).
Let k := Dim5Spec.dot3 p q.
Let d := sqrt (Dim5Spec.dot3 p p * Dim5Spec.dot3 q q - k ^ 2).
Definition axes := axes_of n k d p q.
Hypothesis PL : plane p q.
Lemma gram : Dim5Spec.dot3 p p * Dim5Spec.dot3 q q - k ^ 2 = (vy p * vz q - vz p * vy q) ^ 2 + (vz p * vx q - vx p * vz q) ^ 2 + (vx p * vy q - vy p * vx q) ^ 2.
Proof. unfold k, Dim5Spec.dot3. ring. Qed.
Lemma d_pos : 0 < d.
Proof.
  apply sqrt_lt_R0. unfold plane in PL. fold k in PL. pose proof gram as G. set (a := vy p * vz q - vz p * vy q) in *. set (b := vz p * vx q - vx p * vz q) in *.
  set (c := vx p * vy q - vy p * vx q) in *. pose proof (pow2_ge_0 a). pose proof (pow2_ge_0 b). pose proof (pow2_ge_0 c). lra.
Qed.
Lemma n_pos : 0 < n.
Proof.
  apply sqrt_lt_R0. unfold plane in PL. assert (H : 0 <= Dim5Spec.dot3 p p) by (unfold Dim5Spec.dot3; nra). destruct (Req_dec (Dim5Spec.dot3 p p) 0) as [E|E]; [|lra]. exfalso. apply PL.
  unfold Dim5Spec.dot3 in E. assert (X : vx p = 0) by nra. assert (Y : vy p = 0) by nra. assert (Z : vz p = 0) by nra. unfold Dim5Spec.dot3. rewrite X, Y, Z. ring.
Qed.
Lemma n_sq : n ^ 2 = vx p * vx p + vy p * vy p + vz p * vz p.
Proof. unfold n. rewrite pow2_sqrt; [reflexivity|]. unfold Dim5Spec.dot3. nra. Qed.
Lemma d_sq : d ^ 2 = (vy p * vz q - vz p * vy q) ^ 2 + (vz p * vx q - vx p * vz q) ^ 2 + (vx p * vy q - vy p * vx q) ^ 2.
Proof. unfold d. rewrite pow2_sqrt; [apply gram|]. rewrite gram. pose proof (pow2_ge_0 (vy p * vz q - vz p * vy q)). pose proof (pow2_ge_0 (vz p * vx q - vx p * vz q)). pose proof (pow2_ge_0 (vx p * vy q - vy p * vx q)). lra. Qed.
Lemma axes_lorentz : lorentz axes.
Proof.
  pose proof n_pos as N. pose proof d_pos as D. pose proof n_sq as NS. pose proof d_sq as DS. assert (K : k = vx p * vx q + vy p * vy q + vz p * vz q) by reflexivity.
  unfold axes. clearbody n d k. intros i j. unfold sum. subst k.
  assert (F : forall a, a * (n ^ 2 * d ^ 2) = 0 -> a = 0). { intros a H. apply Rmult_integral in H. destruct H as [H|H]; [exact H|]. exfalso. pose proof (pow_lt n 2 N) as N2. pose proof (pow_lt d 2 D) as D2. pose proof (Rmult_lt_0_compat _ _ N2 D2) as ND. lra. }
  destruct i, j; cbn [axes_of g metric]; try ring.
  all: apply Rminus_diag_uniq; apply F; field_simplify; [|lra]; replace (n ^ 4) with (n ^ 2 * n ^ 2) by ring; rewrite ?DS, ?NS; ring.
Qed.
Lemma axes_det : det4 axes = 1.
Proof.
  pose proof n_pos as N. pose proof d_pos as D. pose proof n_sq as NS. pose proof d_sq as DS. assert (K : k = vx p * vx q + vy p * vy q + vz p * vz q) by reflexivity.
  unfold axes. clearbody n d k. subst k. unfold det4, sum, perm, order, rank. cbn [axes_of Nat.compare].
  assert (F : forall a, a * (n ^ 2 * d ^ 2) = 0 -> a = 0). { intros a H. apply Rmult_integral in H. destruct H as [H|H]; [exact H|]. exfalso. pose proof (pow_lt n 2 N) as N2. pose proof (pow_lt d 2 D) as D2. pose proof (Rmult_lt_0_compat _ _ N2 D2) as ND. lra. }
  apply Rminus_diag_uniq; apply F. 
  transitivity (n ^ 2 * ((vx p * (vy q * (vx p * vy q - vy p * vx q) - vz q * (vz p * vx q - vx p * vz q)) + vy p * (vz q * (vy p * vz q - vz p * vy q) - vx q * (vx p * vy q - vy p * vx q)) + vz p * (vx q * (vz p * vx q - vx p * vz q) - vy q * (vy p * vz q - vz p * vy q))) - d ^ 2)).
  { field. split; lra. }
  rewrite DS. ring.
Qed.
(** The components in that frame only depend on products of the vectors. *)
Lemma axes_apply r : apply axes (to_spin r) =
  Vec (Dim5Spec.dot3 p r / n) ((n ^ 2 * Dim5Spec.dot3 q r - k * Dim5Spec.dot3 p r) / (n * d)) (Dim5Spec.triple p q r / d) (ve r).
Proof.
  pose proof n_pos as N. pose proof d_pos as D. unfold axes. clearbody n d k. unfold apply, make, sum, to_spin, comp. cbn [axes_of vX vY vZ vE]. unfold Dim5Spec.dot3, Dim5Spec.triple.
  f_equal; field; lra.
Qed.
End Frame.
Section Same.
Variables (M : R) (p q : nat -> mom).
Hypothesis HM : 0 < M.
Hypothesis SP : KinSpec.vadd (KinSpec.vadd (p 1%nat) (p 2%nat)) (KinSpec.vadd (p 3%nat) (p 4%nat)) = KinSpec.at_rest M.
Hypothesis SQ : KinSpec.vadd (KinSpec.vadd (q 1%nat) (q 2%nat)) (KinSpec.vadd (q 3%nat) (q 4%nat)) = KinSpec.at_rest M.
Hypothesis SE : same_event p q.
Lemma total_energy (a : nat -> mom) i : KinSpec.vadd (KinSpec.vadd (a 1%nat) (a 2%nat)) (KinSpec.vadd (a 3%nat) (a 4%nat)) = KinSpec.at_rest M ->
  lor (a i) (a 1%nat) + lor (a i) (a 2%nat) + lor (a i) (a 3%nat) + lor (a i) (a 4%nat) = M * ve (a i).
Proof.
  unfold KinSpec.vadd, KinSpec.at_rest. cbn [vx vy vz ve]. intro E. injection E as X Y Z T. unfold lor. rewrite <- T.
  transitivity (ve (a i) * (ve (a 1%nat) + ve (a 2%nat) + (ve (a 3%nat) + ve (a 4%nat))) - vx (a i) * (vx (a 1%nat) + vx (a 2%nat) + (vx (a 3%nat) + vx (a 4%nat)))
    - vy (a i) * (vy (a 1%nat) + vy (a 2%nat) + (vy (a 3%nat) + vy (a 4%nat))) - vz (a i) * (vz (a 1%nat) + vz (a 2%nat) + (vz (a 3%nat) + vz (a 4%nat)))); [ring|]. rewrite X, Y, Z. ring.
Qed.
Lemma same_energy i : (1 <= i <= 4)%nat -> ve (p i) = ve (q i).
Proof.
  intro Hi. destruct SE as [L _]. pose proof (total_energy p i SP) as A. pose proof (total_energy q i SQ) as B.
  rewrite (L i 1%nat), (L i 2%nat), (L i 3%nat), (L i 4%nat) in A by lia. rewrite B in A. apply (Rmult_eq_reg_l M); [|lra]. symmetry. exact A.
Qed.
Lemma same_dot i j : (1 <= i <= 4)%nat -> (1 <= j <= 4)%nat -> Dim5Spec.dot3 (p i) (p j) = Dim5Spec.dot3 (q i) (q j).
Proof.
  intros Hi Hj. destruct SE as [L _]. specialize (L i j Hi Hj). pose proof (same_energy i Hi) as A. pose proof (same_energy j Hj) as B. unfold lor in L. unfold Dim5Spec.dot3. rewrite A, B in L. lra.
Qed.
Lemma triple_last (a : nat -> mom) : KinSpec.vadd (KinSpec.vadd (a 1%nat) (a 2%nat)) (KinSpec.vadd (a 3%nat) (a 4%nat)) = KinSpec.at_rest M ->
  Dim5Spec.triple (a 1%nat) (a 2%nat) (a 4%nat) = - Dim5Spec.triple (a 1%nat) (a 2%nat) (a 3%nat).
Proof.
  unfold KinSpec.vadd, KinSpec.at_rest. cbn [vx vy vz ve]. intro E. injection E as X Y Z _. unfold Dim5Spec.triple.
  replace (vx (a 4%nat)) with (- vx (a 1%nat) - vx (a 2%nat) - vx (a 3%nat)) by lra. replace (vy (a 4%nat)) with (- vy (a 1%nat) - vy (a 2%nat) - vy (a 3%nat)) by lra.
  replace (vz (a 4%nat)) with (- vz (a 1%nat) - vz (a 2%nat) - vz (a 3%nat)) by lra. ring.
Qed.
Lemma same_triple i : (1 <= i <= 4)%nat -> Dim5Spec.triple (p 1%nat) (p 2%nat) (p i) = Dim5Spec.triple (q 1%nat) (q 2%nat) (q i).
Proof.
  intro Hi. destruct SE as [_ L]. assert (C : i = 1%nat \/ i = 2%nat \/ i = 3%nat \/ i = 4%nat) by lia. destruct C as [->|[->|[->| ->]]].
  - unfold Dim5Spec.triple. ring.
  - unfold Dim5Spec.triple. ring.
  - exact L.
  - rewrite (triple_last p SP), (triple_last q SQ), L. reflexivity.
Qed.
Hypothesis PL : plane (p 1%nat) (p 2%nat).
Lemma same_plane : plane (q 1%nat) (q 2%nat).
Proof. unfold plane in *. rewrite <- !same_dot by lia. exact PL. Qed.
Lemma same_frame i : (1 <= i <= 4)%nat -> apply (axes (p 1%nat) (p 2%nat)) (to_spin (p i)) = apply (axes (q 1%nat) (q 2%nat)) (to_spin (q i)).
Proof.
  intro Hi. rewrite (axes_apply _ _ PL), (axes_apply _ _ same_plane). rewrite (same_triple i Hi), (same_energy i Hi), !same_dot by lia. reflexivity.
Qed.
Lemma same_spin k c i1 i2 i3 i4 :
  spin_value R_ops k c (map to_spin [p 1%nat; p 2%nat; p 3%nat; p 4%nat]) i1 i2 i3 i4 = spin_value R_ops k c (map to_spin [q 1%nat; q 2%nat; q 3%nat; q 4%nat]) i1 i2 i3 i4.
Proof.
  rewrite <- (C95_invariant _ (axes_lorentz _ _ PL) (axes_det _ _ PL) k c (map to_spin [p 1%nat; p 2%nat; p 3%nat; p 4%nat])).
  rewrite <- (C95_invariant _ (axes_lorentz _ _ same_plane) (axes_det _ _ same_plane) k c (map to_spin [q 1%nat; q 2%nat; q 3%nat; q 4%nat])).
  cbn [map]. rewrite !same_frame by lia. reflexivity.
Qed.
(** The mass of a system of particles. *)
Lemma minv_sum (a : nat -> mom) (g : list nat) : minv (fold_right KinSpec.vadd vzero (map a g)) = fold_right Rplus 0 (map (fun i => fold_right Rplus 0 (map (fun j => lor (a i) (a j)) g)) g).
Proof.
  set (s := fold_right KinSpec.vadd vzero (map a g)).
  assert (A : forall v h, fold_right Rplus 0 (map (fun j => lor v (a j)) h) = lor v (fold_right KinSpec.vadd vzero (map a h))).
  { intros v h. induction h as [|j h IH]; cbn [map fold_right]; [unfold lor, vzero; cbn [vx vy vz ve]; ring|]. rewrite IH. unfold lor, KinSpec.vadd. cbn [vx vy vz ve]. ring. }
  assert (B : forall h, fold_right Rplus 0 (map (fun i => lor (a i) s) h) = lor (fold_right KinSpec.vadd vzero (map a h)) s).
  { intros h. induction h as [|j h IH]; cbn [map fold_right]; [unfold lor, vzero; cbn [vx vy vz ve]; ring|]. rewrite IH. unfold lor, KinSpec.vadd. cbn [vx vy vz ve]. ring. }
  transitivity (fold_right Rplus 0 (map (fun i => lor (a i) s) g)); [rewrite B; fold s; unfold minv, lor; ring|].
  f_equal. apply map_ext. intro i. symmetry. apply A.
Qed.
Lemma same_minv g : (forall i, In i g -> (1 <= i <= 4)%nat) -> minv (fold_right KinSpec.vadd vzero (map p g)) = minv (fold_right KinSpec.vadd vzero (map q g)).
Proof.
  intro H. rewrite !minv_sum. destruct SE as [L _]. f_equal. apply map_ext_in. intros i Hi. f_equal. apply map_ext_in. intros j Hj. apply L; auto.
Qed.
End Same.
(** Rows of a flat array. *)
Lemma nth_row {A} (rows : list (list A)) stride n row i x : List.Forall (fun r => length r = stride) rows -> nth_error rows n = Some row ->
  nth_error row i = Some x -> nth_error (concat rows) (n * stride + i) = Some x.
Proof.
  revert n. induction rows as [|r rows IH]; intros n F N X; [destruct n; discriminate N|]. apply Forall_cons_iff in F as [L F]. destruct n as [|n]; cbn [nth_error concat] in *.
  - injection N as ->. rewrite nth_error_app1; [exact X|]. apply nth_error_Some. cbn [Nat.mul Nat.add]. rewrite X. discriminate.
  - rewrite nth_error_app2; rewrite L; [|lia]. replace (S n * stride + i - stride)%nat with (n * stride + i)%nat by lia. now apply IH.
Qed.
