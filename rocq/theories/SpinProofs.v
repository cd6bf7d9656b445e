(** Proofs about the spin factors. *)
From Coq Require Import Reals List Lra Lia Psatz Bool.
From Verif Require Import FormulaSpec WaveProofs SpinModel SpinSpec.
From Verif Require LeafGen.
Import ListNotations.
Local Open Scope R_scope.

Notation rdot := (dot R_ops).
Notation radd := (vadd R_ops).
Notation rsub := (vsub R_ops).
Notation rscale := (vscale R_ops).
Notation rlevi := (levi R_ops).

Lemma vec_eq : forall a b : vec4, vX a = vX b -> vY a = vY b -> vZ a = vZ b -> vE a = vE b -> a = b.
Proof. intros [a b c d] [a' b' c' d']. cbn. intros; subst; reflexivity. Qed.
Ltac vunf := cbn [dot vadd vsub vscale levi vX vY vZ vE LeafGen.o_add LeafGen.o_sub LeafGen.o_mul LeafGen.o_div LeafGen.o_opp LeafGen.o_zero LeafGen.o_one R_ops].
Ltac vring := apply vec_eq; vunf; ring.

(** ** Lorentz transformations *)
Lemma Rring_det : forall (L : ix -> ix -> R) a b c d,
  rdot (rlevi (apply L a) (apply L b) (apply L c)) (apply L d) = det4 L * rdot (rlevi a b c) d.
Proof.
  intros L [a0 a1 a2 a3] [b0 b1 b2 b3] [c0 c1 c2 c3] [d0 d1 d2 d3].
  unfold apply, make, det4, perm, order, rank, sum. cbn [comp Nat.compare]. vunf. ring.
Qed.
(** Four vectors with a volume determine a vector by its products with them. *)
Lemma dual_basis : forall a b c d z : vec4,
  rscale z (rdot (rlevi a b c) d) =
  rsub (radd (rsub (rscale (rlevi a b c) (rdot z d)) (rscale (rlevi a b d) (rdot z c))) (rscale (rlevi a c d) (rdot z b))) (rscale (rlevi b c d) (rdot z a)).
Proof. intros [a0 a1 a2 a3] [b0 b1 b2 b3] [c0 c1 c2 c3] [d0 d1 d2 d3] [z0 z1 z2 z3]. vring. Qed.
Definition e_of (i : ix) : vec4 := make (unit4 i).
Lemma volume_unit : rdot (rlevi (e_of ix_x) (e_of ix_y) (e_of ix_z)) (e_of ix_t) = -1.
Proof. unfold e_of, make. cbn [unit4]. vunf. ring. Qed.
Lemma gram : forall L a b (G : ix -> ix -> R), (forall i j, sum (fun k => g k * L k i * L k j) = G i j) ->
  rdot (apply L a) (apply L b) = sum (fun i => sum (fun j => comp a i * comp b j * G i j)).
Proof.
  intros L [a0 a1 a2 a3] [b0 b1 b2 b3] G H. unfold sum at 1 2. rewrite <- !H. unfold apply, make, sum, g. cbn [comp]. vunf. ring.
Qed.
Lemma dot_lorentz : forall L a b, lorentz L -> rdot (apply L a) (apply L b) = rdot a b.
Proof.
  intros L a b H. rewrite (gram L a b metric H). destruct a, b. unfold sum. cbn [metric comp]. vunf. ring.
Qed.
Lemma levi_lorentz : forall L a b c, lorentz L -> det4 L <> 0 ->
  rlevi (apply L a) (apply L b) (apply L c) = rscale (apply L (rlevi a b c)) (det4 L).
Proof.
  intros L a b c H D. set (w := rlevi a b c). set (z := rsub (rlevi (apply L a) (apply L b) (apply L c)) (rscale (apply L w) (det4 L))).
  assert (P : forall d, rdot z (apply L d) = 0).
  { intro d. transitivity (rdot (rlevi (apply L a) (apply L b) (apply L c)) (apply L d) - det4 L * rdot (apply L w) (apply L d)).
    - unfold z. vunf. ring.
    - rewrite Rring_det, dot_lorentz by exact H. fold w. ring. }
  assert (V : rdot (rlevi (apply L (e_of ix_x)) (apply L (e_of ix_y)) (apply L (e_of ix_z))) (apply L (e_of ix_t)) = - det4 L)
    by (rewrite Rring_det, volume_unit; ring).
  pose proof (dual_basis (apply L (e_of ix_x)) (apply L (e_of ix_y)) (apply L (e_of ix_z)) (apply L (e_of ix_t)) z) as E.
  rewrite V, !P in E.
  assert (Z : forall x y, x * - det4 L = y -> y = 0 -> x = 0) by (intros x y A B; subst y; apply Rmult_integral in B as [B|B]; [exact B|lra]).
  pose proof (f_equal vX E) as EX. pose proof (f_equal vY E) as EY. pose proof (f_equal vZ E) as EZ. pose proof (f_equal vE E) as EE.
  apply Z in EX; [|vunf; ring]. apply Z in EY; [|vunf; ring]. apply Z in EZ; [|vunf; ring]. apply Z in EE; [|vunf; ring].
  unfold z, vsub in EX, EY, EZ, EE. cbn [vX vY vZ vE LeafGen.o_sub R_ops] in EX, EY, EZ, EE.
  apply vec_eq; apply Rminus_diag_uniq; assumption.
Qed.

Lemma contract_value : forall q p m v, contract R_ops (ztspin2 R_ops q p m) v =
  let t := ztspin1 R_ops q p m in
  rsub (rscale t (rdot t v)) (rscale (rsub v (rscale p (rdot p v * (1 / (m * m))))) (1 / 3 * mag2 R_ops t)).
Proof.
  intros q p m v. unfold ztspin2. cbv zeta. generalize (mag2 R_ops (ztspin1 R_ops q p m)). generalize (ztspin1 R_ops q p m). intros t k.
  rops. generalize (1 / 3 * k) (1 / (m * m)). intros h w. destruct t, p, v.
  unfold contract, msub, mscale, outer, gmunu. cbn [rX rY rZ rE]. vring.
Qed.
Lemma sumt_scale : forall p m a b c d k, sumt_sandwich R_ops p m a b (rscale c k) d = k * sumt_sandwich R_ops p m a b c d.
Proof.
  intros. unfold sumt_sandwich, sumv_sandwich, sumv_dot. rops.
  replace (rdot p (rscale c k)) with (rdot p c * k) by (vunf; ring). unfold Rdiv. set (h := / (m * m)). vunf. ring.
Qed.
Lemma dot_scale : forall a b k, rdot (rscale a k) b = k * rdot a b.
Proof. intros. vunf. ring. Qed.
(** ** Maps under which the tensors are covariant *)
Section Map.
Variable f : vec4 -> vec4.
Variable delta : R.
Hypothesis Hadd : forall a b, f (radd a b) = radd (f a) (f b).
Hypothesis Hsub : forall a b, f (rsub a b) = rsub (f a) (f b).
Hypothesis Hscale : forall a k, f (rscale a k) = rscale (f a) k.
Hypothesis Hdot : forall a b, rdot (f a) (f b) = rdot a b.
Hypothesis Hlevi : forall a b c, rlevi (f a) (f b) (f c) = rscale (f (rlevi a b c)) delta.

Lemma mag2_map : forall a, mag2 R_ops (f a) = mag2 R_ops a.
Proof. intro a. apply Hdot. Qed.
Lemma mass_map : forall a, mass R_ops (f a) = mass R_ops a.
Proof. intro a. unfold mass. now rewrite mag2_map. Qed.
Lemma zt1_map : forall q p m, ztspin1 R_ops (f q) (f p) m = f (ztspin1 R_ops q p m).
Proof. intros. unfold ztspin1. now rewrite Hdot, Hsub, !Hscale. Qed.
Lemma sumv_map : forall p m r, sumv_dot R_ops (f p) m (f r) = f (sumv_dot R_ops p m r).
Proof. intros. unfold sumv_dot. now rewrite Hdot, Hadd, !Hscale. Qed.
Lemma sandwich_map : forall p m a b, sumv_sandwich R_ops (f p) m (f a) (f b) = sumv_sandwich R_ops p m a b.
Proof. intros. unfold sumv_sandwich. now rewrite sumv_map, Hdot. Qed.
Lemma sumt_map : forall p m a b c d, sumt_sandwich R_ops (f p) m (f a) (f b) (f c) (f d) = sumt_sandwich R_ops p m a b c d.
Proof. intros. unfold sumt_sandwich. now rewrite !sandwich_map. Qed.
Lemma contract_map : forall q p m v, contract R_ops (ztspin2 R_ops (f q) (f p) m) (f v) = f (contract R_ops (ztspin2 R_ops q p m) v).
Proof. intros. rewrite !contract_value. cbv zeta. rewrite zt1_map, !Hdot, mag2_map. rewrite ?Hsub, ?Hscale, ?Hsub, ?Hscale. reflexivity. Qed.
Lemma spin_map : forall k c P1 P2 P3 P4,
  R_spin k c (f P1) (f P2) (f P3) (f P4) = match k with DtoV1V2_P | DtoV1P1 | DtoTP1 => delta | _ => 1 end * R_spin k c P1 P2 P3 P4.
Proof.
  intros k c P1 P2 P3 P4.
  destruct k; cbn [spin_factor];
    unfold d_pp1_pv, d_vv_s, d_vv_p, d_vv_d, d_v1p1, d_vs, d_ap1_sp2, d_ap1_vp2, d_ap1_vp2_d, d_tp1, ff_12_34_L1, ff_12_34_L2, ff_123_4_L1, ff_123_4_L2;
    cbv zeta; rewrite <- ?Hadd, <- ?Hsub, <- ?Hadd, <- ?Hsub, ?mass_map, ?mag2_map, ?zt1_map, ?sumv_map, ?contract_map, ?Hlevi, ?dot_scale, ?sumt_scale, ?Hdot, ?sumt_map;
    rops; try ring.
Qed.
End Map.

Definition gram4 (d : ix -> ix -> R) : R :=
  sum (fun i => sum (fun j => sum (fun k => sum (fun l => perm i j k l * d i ix_x * d j ix_y * d k ix_z * d l ix_t)))).
Definition four (a b c d : vec4) (i : ix) : vec4 := match i with ix_x => a | ix_y => b | ix_z => c | ix_t => d end.
Lemma volume_gram : forall a b c d : vec4,
  rdot (rlevi a b c) d * rdot (rlevi a b c) d = - gram4 (fun i j => rdot (four a b c d i) (four a b c d j)).
Proof.
  intros [a0 a1 a2 a3] [b0 b1 b2 b3] [c0 c1 c2 c3] [d0 d1 d2 d3]. unfold gram4, sum, perm, order, rank. cbn [Nat.compare four]. vunf. ring.
Qed.
Lemma lorentz_det : forall L, lorentz L -> det4 L = 1 \/ det4 L = -1.
Proof.
  intros L H.
  assert (E : det4 L * det4 L = 1).
  { pose proof (volume_gram (apply L (e_of ix_x)) (apply L (e_of ix_y)) (apply L (e_of ix_z)) (apply L (e_of ix_t))) as V.
    rewrite Rring_det, volume_unit in V.
    assert (W : gram4 (fun i j => rdot (four (apply L (e_of ix_x)) (apply L (e_of ix_y)) (apply L (e_of ix_z)) (apply L (e_of ix_t)) i)
                                       (four (apply L (e_of ix_x)) (apply L (e_of ix_y)) (apply L (e_of ix_z)) (apply L (e_of ix_t)) j)) = -1).
    { unfold gram4, sum, perm, order, rank. cbn [Nat.compare four]. rewrite !dot_lorentz by exact H. unfold e_of, make. cbn [unit4]. vunf. ring. }
    rewrite W in V. lra. }
  destruct (Rle_dec 0 (det4 L)); [left|right]; nra.
Qed.
Lemma apply_add : forall L a b, apply L (radd a b) = radd (apply L a) (apply L b).
Proof. intros L [] []. unfold apply, make, sum. cbn [comp]. vring. Qed.
Lemma apply_sub : forall L a b, apply L (rsub a b) = rsub (apply L a) (apply L b).
Proof. intros L [] []. unfold apply, make, sum. cbn [comp]. vring. Qed.
Lemma apply_scale : forall L a k, apply L (rscale a k) = rscale (apply L a) k.
Proof. intros L [] k. unfold apply, make, sum. cbn [comp]. vring. Qed.
Lemma spin_lorentz : forall L, lorentz L -> forall k c P1 P2 P3 P4,
  R_spin k c (apply L P1) (apply L P2) (apply L P3) (apply L P4) =
  match k with DtoV1V2_P | DtoV1P1 | DtoTP1 => det4 L | _ => 1 end * R_spin k c P1 P2 P3 P4.
Proof.
  intros L H. apply spin_map.
  - apply apply_add.
  - apply apply_sub.
  - apply apply_scale.
  - intros. now apply dot_lorentz.
  - intros. apply levi_lorentz; [exact H|]. destruct (lorentz_det L H); lra.
Qed.

(** ** Values *)
Lemma scalar_dot : forall a b, scalar a b = rdot a b.
Proof. intros [] []. unfold scalar, sum. cbn [comp g]. vunf. ring. Qed.
Lemma plus4_add : forall a b, plus4 a b = radd a b.
Proof. intros [] []. reflexivity. Qed.
Lemma minus4_sub : forall a b, minus4 a b = rsub a b.
Proof. intros [] []. reflexivity. Qed.
Lemma mass_square : forall p, 0 < scalar p p -> mass R_ops p * mass R_ops p = rdot p p.
Proof. intros p H. unfold mass, mag2. rops. rewrite scalar_dot in H. apply sqrt_sqrt. lra. Qed.
Lemma orbital1_value : forall q p i, 0 < scalar p p -> comp (ztspin1 R_ops q p (mass R_ops p)) i = orbital1 q p i.
Proof.
  intros q p i H. unfold ztspin1, orbital1. rops. rewrite mass_square, !scalar_dot by exact H. rewrite scalar_dot in H.
  destruct i; cbn [comp vsub vscale vX vY vZ vE LeafGen.o_sub LeafGen.o_mul R_ops]; field; lra.
Qed.
Lemma dot1_value : forall a b (u v : ix -> R), (forall i, comp a i = u i) -> (forall i, comp b i = v i) -> rdot a b = dot1 u v.
Proof. intros [] [] u v A B. unfold dot1, sum. rewrite <- !A, <- !B. cbn [comp g]. vunf. ring. Qed.
Lemma act_sumv : forall p r (v : ix -> R) i, 0 < scalar p p -> (forall i, comp r i = v i) ->
  comp (sumv_dot R_ops p (mass R_ops p) r) i = act (spin1_sum p) v i.
Proof.
  intros p r v i H B. unfold sumv_dot, act, spin1_sum, sum. rewrite <- !B. rops. rewrite mass_square by exact H. rewrite scalar_dot in *.
  destruct p as [p0 p1 p2 p3], r as [r0 r1 r2 r3]. destruct i; cbn [comp g metric]; cbn [vadd vscale vX vY vZ vE LeafGen.o_add LeafGen.o_mul R_ops];
  (replace (rdot (Vec p0 p1 p2 p3) (Vec r0 r1 r2 r3)) with (p3 * r3 - p0 * r0 - p1 * r1 - p2 * r2) by reflexivity); field; lra.
Qed.
Lemma dot2_act : forall a m b, dot2 a m b = dot1 a (act m b).
Proof. intros. unfold dot2, dot1, act, sum. ring. Qed.
Lemma act_orbital2 : forall q p r (v : ix -> R) i, 0 < scalar p p -> (forall i, comp r i = v i) ->
  comp (contract R_ops (ztspin2 R_ops q p (mass R_ops p)) r) i = act (orbital2 q p) v i.
Proof.
  intros q p r v i H B. rewrite contract_value. cbv zeta. rewrite mass_square by exact H. unfold act, orbital2.
  unfold mag2. rewrite !(dot1_value _ _ _ _ (fun i => orbital1_value q p i H) (fun i => orbital1_value q p i H)).
  rewrite !(dot1_value _ _ _ _ (fun i => orbital1_value q p i H) B). unfold dot1.
  set (N := sum (fun k => g k * orbital1 q p k * orbital1 q p k)).
  replace (sum (fun k => g k * orbital1 q p k ^ 2)) with N by (unfold N, sum; ring).
  set (Q := sum (fun k => g k * orbital1 q p k * v k)). pose proof (orbital1_value q p i H) as O.
  replace (comp (rsub (rscale (ztspin1 R_ops q p (mass R_ops p)) Q) (rscale (rsub r (rscale p (rdot p r * (1 / rdot p p)))) (1 / 3 * N))) i)
    with (comp (ztspin1 R_ops q p (mass R_ops p)) i * Q - (comp r i - comp p i * (rdot p r * (1 / rdot p p))) * (1 / 3 * N)) by (destruct i; reflexivity).
  rewrite O, B. rewrite (dot1_value p r (comp p) v (fun _ => eq_refl) B). rewrite scalar_dot in *. unfold Q, dot1, sum.
  destruct i; cbn [metric g]; field; lra.
Qed.
Lemma eps_levi : forall a b c d u v w z, (forall i, comp a i = u i) -> (forall i, comp b i = v i) -> (forall i, comp c i = w i) -> (forall i, comp d i = z i) ->
  rdot (rlevi a b c) d = eps u v w z.
Proof.
  intros [] [] [] [] u v w z A B C D. unfold eps, sum, perm, order, rank. rewrite <- !A, <- !B, <- !C, <- !D. cbn [comp Nat.compare]. vunf. ring.
Qed.
Lemma comp_unit : forall a i, comp a i = g i * rdot a (e_of i).
Proof. intros [] i. unfold e_of, make. destruct i; cbn [comp g unit4]; vunf; ring. Qed.
Lemma eps3_levi : forall a b c u v w i, (forall i, comp a i = u i) -> (forall i, comp b i = v i) -> (forall i, comp c i = w i) ->
  comp (rlevi a b c) i = eps3 u v w i.
Proof.
  intros a b c u v w i A B C. rewrite comp_unit. unfold eps3. f_equal. apply eps_levi; auto. intro j. destruct i, j; reflexivity.
Qed.
