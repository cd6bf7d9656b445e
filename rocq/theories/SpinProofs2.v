(** Proofs about the spin factors: the values as contractions, exchanges of particles. *)
From Coq Require Import Reals List Lra Lia Psatz Bool.
From Verif Require Import AmpModel FormulaSpec WaveSpec WaveProofs LineProofs SpinModel SpinSpec SpinProofs.
From Verif Require LeafGen.
Import ListNotations.
Local Open Scope R_scope.

(** ** Sums of momenta *)
Lemma physical_add : forall a b, physical a -> physical b -> physical (plus4 a b).
Proof.
  intros [a0 a1 a2 a3] [b0 b1 b2 b3] [A EA] [B EB]. rewrite plus4_add. unfold physical in *. rewrite scalar_dot in *. revert A B. vunf. cbn [vE] in *. intros A B.
  split; [|lra].
  assert (C : a0 * b0 + a1 * b1 + a2 * b2 < a3 * b3).
  { set (u := a0 ^ 2 + a1 ^ 2 + a2 ^ 2). set (v := b0 ^ 2 + b1 ^ 2 + b2 ^ 2). set (w := a0 * b0 + a1 * b1 + a2 * b2).
    assert (W : w ^ 2 <= u * v).
    { replace (u * v) with (w ^ 2 + (a0 * b1 - a1 * b0) ^ 2 + (a0 * b2 - a2 * b0) ^ 2 + (a1 * b2 - a2 * b1) ^ 2) by (unfold u, v, w; ring).
      pose proof (pow2_ge_0 (a0 * b1 - a1 * b0)). pose proof (pow2_ge_0 (a0 * b2 - a2 * b0)). pose proof (pow2_ge_0 (a1 * b2 - a2 * b1)). lra. }
    assert (U : 0 <= u < a3 ^ 2) by (unfold u; pose proof (pow2_ge_0 a0); pose proof (pow2_ge_0 a1); pose proof (pow2_ge_0 a2); lra).
    assert (V : 0 <= v < b3 ^ 2) by (unfold v; pose proof (pow2_ge_0 b0); pose proof (pow2_ge_0 b1); pose proof (pow2_ge_0 b2); lra).
    assert (UV : u * v < a3 ^ 2 * b3 ^ 2) by (apply Rmult_le_0_lt_compat; lra).
    assert (P : 0 < a3 * b3) by nra. destruct (Rle_dec w 0); [lra|]. nra. }
  nra.
Qed.

(** ** Spin 2 *)
Lemma sum_lin : forall (F f h k : ix -> R) n w, (forall i, F i = f i - n * (h i - w * k i)) -> sum F = sum f - n * (sum h - w * sum k).
Proof. intros F f h k n w H. unfold sum. rewrite !H. ring. Qed.
Lemma dot4_lin : forall (a b c : ix -> ix -> R) n w m x y,
  dot4 (fun i j => a i j - n * (b i j - w * c i j)) m x y = dot4 a m x y - n * (dot4 b m x y - w * dot4 c m x y).
Proof.
  intros. unfold dot4. apply sum_lin. intro i. apply sum_lin. intro j. apply sum_lin. intro k. apply sum_lin. intro l. ring.
Qed.
Lemma dot4_ext : forall a b m x y x' y', (forall i j, a i j = b i j) -> (forall i, x i = x' i) -> (forall i, y i = y' i) -> dot4 a m x y = dot4 b m x' y'.
Proof. intros a b m x y x' y' H X Y. unfold dot4, sum. rewrite !H, !X, !Y. reflexivity. Qed.
Lemma dot4_metric : forall m x y,
  dot4 metric m x y = sum (fun k => sum (fun l => g k * g l * x k * y l * sum (fun i => g i * m i i k l))).
Proof. intros. unfold dot4, sum. cbn [metric g]. ring. Qed.
Lemma spin2_trace : forall p k l, scalar p p <> 0 -> sum (fun i => g i * spin2_sum p i i k l) = 0.
Proof.
  intros [p0 p1 p2 p3] k l H. rewrite scalar_dot in H. unfold spin2_sum, spin1_sum. rewrite scalar_dot. revert H. vunf. intro H.
  unfold sum. destruct k, l; cbn [g metric comp vX vY vZ vE]; field; exact H.
Qed.
Lemma dot4_traceless : forall p x y, scalar p p <> 0 -> dot4 metric (spin2_sum p) x y = 0.
Proof. intros. rewrite dot4_metric. unfold sum at 1 2. rewrite !spin2_trace by assumption. unfold sum. ring. Qed.
Lemma sum2_mul : forall a b : ix -> ix -> R, sum (fun i => sum (fun k => a i k)) * sum (fun j => sum (fun l => b j l)) =
  sum (fun i => sum (fun j => sum (fun k => sum (fun l => a i k * b j l)))).
Proof. intros. unfold sum. ring. Qed.
Lemma dot4_outer : forall (M : ix -> ix -> R) u v x y,
  dot4 (fun i j => u i * v j) (fun i j k l => / 2 * (M i k * M j l + M i l * M j k) - / 3 * (M i j * M k l)) x y =
  / 2 * (dot2 u M x * dot2 v M y + dot2 u M y * dot2 v M x) - / 3 * (dot2 u M v * dot2 x M y).
Proof. intros. unfold dot4, dot2, sum. cbn [g]. ring. Qed.

(** ** The values *)
Lemma add_comm : forall a b, radd a b = radd b a.
Proof. intros [] []. vring. Qed.
Lemma add_assoc : forall a b c, radd (radd a b) c = radd a (radd b c).
Proof. intros [] [] []. vring. Qed.
Lemma add_left : forall a b c, radd a (radd b c) = radd b (radd a c).
Proof. intros [] [] []. vring. Qed.
Lemma sub_swap : forall a b, rsub a b = rscale (rsub b a) (-1).
Proof. intros [] []. vring. Qed.
Lemma zt1_neg : forall q p m, ztspin1 R_ops (rscale q (-1)) p m = rscale (ztspin1 R_ops q p m) (-1).
Proof.
  intros. unfold ztspin1. rops. generalize (1 / (m * m)). intro w. destruct q, p. vring.
Qed.
Lemma contract_neg : forall q p m v, contract R_ops (ztspin2 R_ops (rscale q (-1)) p m) v = contract R_ops (ztspin2 R_ops q p m) v.
Proof.
  intros. rewrite !contract_value. cbv zeta. rewrite zt1_neg. generalize (ztspin1 R_ops q p m). intro t. unfold mag2. rops.
  generalize (1 / (m * m)). intro w. destruct t as [t0 t1 t2 t3], p as [p0 p1 p2 p3], v as [v0 v1 v2 v3]. apply vec_eq; vunf; field.
Qed.
Lemma dot_neg_l : forall a b, rdot (rscale a (-1)) b = - rdot a b.
Proof. intros [] []. vunf. ring. Qed.
Lemma dot_neg_r : forall a b, rdot a (rscale b (-1)) = - rdot a b.
Proof. intros [] []. vunf. ring. Qed.
Lemma levi_neg_3 : forall a b c, rlevi a b (rscale c (-1)) = rscale (rlevi a b c) (-1).
Proof. intros [] [] []. vring. Qed.
Lemma levi_neg_2 : forall a b c, rlevi a (rscale b (-1)) c = rscale (rlevi a b c) (-1).
Proof. intros [] [] []. vring. Qed.
Lemma vv_s_value : forall P1 P2 P3 P4, 0 < scalar (plus4 P1 P2) (plus4 P1 P2) -> 0 < scalar (plus4 P3 P4) (plus4 P3 P4) ->
  d_vv_s R_ops P1 P2 P3 P4 = rdot (ztspin1 R_ops (rsub P1 P2) (radd P1 P2) (mass R_ops (radd P1 P2)))
                                  (ztspin1 R_ops (rsub P3 P4) (radd P3 P4) (mass R_ops (radd P3 P4))).
Proof.
  intros P1 P2 P3 P4 A B. unfold d_vv_s, ztspin1. cbv zeta. rops. fold (mag2 R_ops (radd P1 P2)) (mag2 R_ops (radd P3 P4)).
  change (sqrt (mag2 R_ops (radd P1 P2))) with (mass R_ops (radd P1 P2)). change (sqrt (mag2 R_ops (radd P3 P4))) with (mass R_ops (radd P3 P4)).
  rewrite plus4_add in A, B. set (p := radd P1 P2) in *. set (r := radd P3 P4) in *. generalize (rsub P1 P2) (rsub P3 P4). intros q s.
  rewrite (Rmult_assoc _ (mass R_ops r) (mass R_ops r)). rewrite !mass_square by assumption. rewrite scalar_dot in A, B.
  generalize (rdot p p) (rdot r r) A B. intros x y X Y. destruct p, r, q, s. vunf. field. lra.
Qed.
Lemma sandwich_value : forall p a b u v, 0 < scalar p p -> (forall i, comp a i = u i) -> (forall i, comp b i = v i) ->
  sumv_sandwich R_ops p (mass R_ops p) a b = dot2 u (spin1_sum p) v.
Proof. intros. unfold sumv_sandwich. rewrite dot2_act. apply dot1_value; [assumption|]. intro i. now apply act_sumv. Qed.
Lemma sumt_value : forall p a b c d u v x y, 0 < scalar p p ->
  (forall i, comp a i = u i) -> (forall i, comp b i = v i) -> (forall i, comp c i = x i) -> (forall i, comp d i = y i) ->
  sumt_sandwich R_ops p (mass R_ops p) a b c d = dot4 (fun i j => u i * v j) (spin2_sum p) x y.
Proof.
  intros. unfold spin2_sum. rewrite dot4_outer. unfold sumt_sandwich. rops.
  rewrite (sandwich_value p a c u x), (sandwich_value p b d v y), (sandwich_value p a d u y), (sandwich_value p b c v x), (sandwich_value p a b u v), (sandwich_value p c d x y) by assumption.
  field.
Qed.
Lemma tensor_value : forall P1 P2 P3 P4, physical P1 -> physical P2 -> physical P3 -> physical P4 ->
  let pT := plus4 P2 (plus4 P3 P4) in let pD := plus4 P1 pT in
  let tD := orbital1 (minus4 pT P1) pD in let tT := orbital1 (minus4 (plus4 P3 P4) P2) pT in
  let w := eps3 tT (comp pT) (act (spin1_sum pT) (orbital1 (minus4 P3 P4) (plus4 P3 P4))) in
  d_tp1 R_ops P1 P2 P3 P4 = covariant DtoTP1 P1 P2 P3 P4 +
    / 3 * dot1 tD tD * (/ scalar pT pT - / scalar pD pD) * dot4 (fun i j => comp pD i * comp pD j) (spin2_sum pT) w tT.
Proof.
  intros P1 P2 P3 P4 H1 H2 H3 H4 pT pD tD tT w.
  assert (A34 : physical (plus4 P3 P4)) by now apply physical_add.
  assert (AT : physical pT) by now apply physical_add. assert (AD : physical pD) by now apply physical_add.
  destruct A34 as [B34 _], AT as [BT _], AD as [BD _].
  unfold covariant. cbv zeta. fold pT. fold pD. fold tT. fold tD. fold w.
  assert (O : dot4 (orbital2 (minus4 pT P1) pD) (spin2_sum pT) w tT =
              dot4 (fun i j => tD i * tD j) (spin2_sum pT) w tT + / 3 * dot1 tD tD / scalar pD pD * dot4 (fun i j => comp pD i * comp pD j) (spin2_sum pT) w tT).
  { rewrite (dot4_ext _ (fun i j => tD i * tD j - / 3 * dot1 tD tD * (metric i j - / scalar pD pD * (comp pD i * comp pD j))) _ w tT w tT).
    - rewrite dot4_lin, dot4_traceless by lra. field. lra.
    - intros i j. unfold orbital2. fold tD. unfold dot1. replace (sum (fun k => g k * tD k ^ 2)) with (sum (fun i0 => g i0 * tD i0 * tD i0)) by (unfold sum; ring).
      field. lra.
    - reflexivity.
    - reflexivity. }
  rewrite O. unfold d_tp1. cbv zeta.
  change (radd P3 P4) with (plus4 P3 P4). change (radd P2 (plus4 P3 P4)) with pT. change (radd P1 pT) with pD.
  change (rsub P3 P4) with (minus4 P3 P4). change (rsub (plus4 P3 P4) P2) with (minus4 (plus4 P3 P4) P2). change (rsub pT P1) with (minus4 pT P1).
  assert (VD : forall i, comp (ztspin1 R_ops (minus4 pT P1) pD (mass R_ops pD)) i = tD i) by (intro i; now apply orbital1_value).
  assert (VT : forall i, comp (ztspin1 R_ops (minus4 (plus4 P3 P4) P2) pT (mass R_ops pT)) i = tT i) by (intro i; now apply orbital1_value).
  assert (VW : forall i, comp (rlevi (ztspin1 R_ops (minus4 (plus4 P3 P4) P2) pT (mass R_ops pT)) pT
     (sumv_dot R_ops pT (mass R_ops pT) (ztspin1 R_ops (minus4 P3 P4) (plus4 P3 P4) (mass R_ops (plus4 P3 P4))))) i = w i).
  { intro i. apply eps3_levi; [exact VT|reflexivity|]. intro j. apply act_sumv; [exact BT|]. intro l. now apply orbital1_value. }
  rewrite (sumt_value pT _ _ _ _ tD tD w tT), (sumt_value pT _ _ _ _ (comp pD) (comp pD) w tT) by (try assumption; reflexivity).
  rewrite (dot1_value _ _ tD tD VD VD). rewrite <- (scalar_dot pT pT). rops. field. lra.
Qed.
Lemma covariant_value : forall k c P1 P2 P3 P4, k <> DtoTP1 -> is_form_factor k = false ->
  physical P1 -> physical P2 -> physical P3 -> physical P4 -> R_spin k c P1 P2 P3 P4 = covariant k P1 P2 P3 P4.
Proof.
  intros k c P1 P2 P3 P4 NT NF H1 H2 H3 H4.
  assert (A12 : physical (radd P1 P2)) by now apply (physical_add _ _). assert (A34 : physical (radd P3 P4)) by now apply (physical_add _ _).
  assert (A234 : physical (radd P2 (radd P3 P4))) by now apply (physical_add _ _).
  assert (AD : physical (radd P1 (radd P2 (radd P3 P4)))) by now apply (physical_add _ _).
  destruct A12 as [B12 _], A34 as [B34 _], A234 as [B234 _], AD as [BD _].
  assert (D : forall q, forall i, comp (ztspin1 R_ops q (radd P1 (radd P2 (radd P3 P4))) (mass R_ops (radd P1 (radd P2 (radd P3 P4))))) i = orbital1 q (radd P1 (radd P2 (radd P3 P4))) i) by (intros; now apply orbital1_value).
  assert (E : forall q, forall i, comp (ztspin1 R_ops q (radd P2 (radd P3 P4)) (mass R_ops (radd P2 (radd P3 P4)))) i = orbital1 q (radd P2 (radd P3 P4)) i) by (intros; now apply orbital1_value).
  assert (F : forall q, forall i, comp (ztspin1 R_ops q (radd P3 P4) (mass R_ops (radd P3 P4))) i = orbital1 q (radd P3 P4) i) by (intros; now apply orbital1_value).
  assert (G : forall q, forall i, comp (ztspin1 R_ops q (radd P1 P2) (mass R_ops (radd P1 P2))) i = orbital1 q (radd P1 P2) i) by (intros; now apply orbital1_value).
  assert (S22 : radd (radd P1 P2) (radd P3 P4) = radd P1 (radd P2 (radd P3 P4))) by apply add_assoc.
  assert (S21 : radd (radd P3 P4) P2 = radd P2 (radd P3 P4)) by apply add_comm.
  assert (S13 : radd (radd P2 (radd P3 P4)) P1 = radd P1 (radd P2 (radd P3 P4))) by apply add_comm.
  assert (S3 : radd (radd P2 P3) P4 = radd P2 (radd P3 P4)) by apply add_assoc.
  destruct k; try discriminate NF; try contradiction; cbn [spin_factor]; unfold covariant; cbv zeta; change plus4 with radd; change minus4 with rsub; try reflexivity.
  - unfold d_pp1_pv. cbv zeta. rewrite S21. apply dot1_value; auto.
  - rewrite vv_s_value by (change plus4 with radd; assumption). apply dot1_value; auto.
  - unfold d_vv_p. cbv zeta. rewrite S22. change (sqrt (rdot (radd P1 P2) (radd P1 P2))) with (mass R_ops (radd P1 P2)).
    change (LeafGen.o_sqrt R_ops (rdot (radd P1 P2) (radd P1 P2))) with (mass R_ops (radd P1 P2)). change (LeafGen.o_sqrt R_ops (rdot (radd P3 P4) (radd P3 P4))) with (mass R_ops (radd P3 P4)).
    rewrite (sub_swap P2 P1), (sub_swap P4 P3), !zt1_neg, levi_neg_3, dot_neg_l, dot_neg_r. rops. f_equal. rewrite Ropp_involutive.
    apply eps_levi; auto.
  - unfold d_vv_d. cbv zeta. rewrite S22. rewrite dot2_act. apply dot1_value; [auto|]. intro i. apply act_orbital2; auto.
  - unfold d_ap1_vp2. cbv zeta. rewrite dot2_act. rops. f_equal. apply dot1_value; [auto|]. intro i. apply act_sumv; auto.
  - unfold d_ap1_vp2_d. cbv zeta. rewrite (sub_swap P2), contract_neg. rewrite dot2_act. apply dot1_value; [auto|]. intro i. apply act_orbital2; auto.
  - unfold d_vs. cbv zeta. rewrite S22. apply dot1_value; auto.
  - unfold d_v1p1. cbv zeta. rewrite S3, S13. rewrite dot2_act. apply dot1_value.
    + intro i. apply eps3_levi; auto.
    + intro i. apply act_sumv; auto.
  - unfold d_ap1_sp2. cbv zeta. rewrite S13. apply dot1_value; auto.
Qed.

(** ** Form factors *)
Lemma z_square_value : forall s m1 m2 r q, 0 < s -> 0 <= m1 -> 0 <= m2 -> breakup (sqrt s) (sqrt m1) (sqrt m2) q -> z_square R_ops s m1 m2 r = (q * r) ^ 2.
Proof.
  intros s m1 m2 r q Ps P1 P2 B. assert (PM : 0 < sqrt s) by now apply sqrt_lt_R0. destruct (p_square_breakup _ _ _ _ PM B) as [E _].
  unfold LineModel.p_square in E. unfold z_square. revert E. rops. rewrite sqrt_sqrt by lra. intro E.
  replace ((q * r) ^ 2) with (q ^ 2 * r * r) by ring. rewrite <- E. do 2 f_equal.
  assert (E1 := sqrt_sqrt m1 P1). assert (E2 := sqrt_sqrt m2 P2). set (a := sqrt m1) in *. set (b := sqrt m2) in *. rewrite <- E1, <- E2. field. lra.
Qed.
Lemma ff_value : forall k r P1 P2 P3 P4 q, is_form_factor k = true -> physical P1 -> physical P2 -> physical P3 -> physical P4 ->
  breakup (mass_of (plus4 P1 (plus4 P2 (plus4 P3 P4)))) (fst (ff_masses k P1 P2 P3 P4)) (snd (ff_masses k P1 P2 P3 P4)) q ->
  R_spin k r P1 P2 P3 P4 = sqrt (LineSpec.weight (ff_spin k) ((q * r) ^ 2)).
Proof.
  intros k r P1 P2 P3 P4 q K H1 H2 H3 H4 B.
  assert (A12 : physical (radd P1 P2)) by now apply (physical_add _ _). assert (A34 : physical (radd P3 P4)) by now apply (physical_add _ _).
  assert (A123 : physical (radd (radd P1 P2) P3)) by now apply (physical_add _ _).
  assert (AD : physical (radd (radd (radd P1 P2) P3) P4)) by now apply (physical_add _ _).
  assert (SD : radd P1 (radd P2 (radd P3 P4)) = radd (radd (radd P1 P2) P3) P4) by now rewrite !add_assoc.
  assert (S3 : radd P1 (radd P2 P3) = radd (radd P1 P2) P3) by now rewrite !add_assoc.
  destruct A12 as [B12 _], A34 as [B34 _], A123 as [B123 _], AD as [BD _], H4 as [B4 _].
  assert (Z : forall a b, 0 <= scalar a a -> 0 <= scalar b b -> breakup (mass_of (radd (radd (radd P1 P2) P3) P4)) (mass_of a) (mass_of b) q ->
    z_square R_ops (mag2 R_ops (radd (radd (radd P1 P2) P3) P4)) (mag2 R_ops a) (mag2 R_ops b) r = (q * r) ^ 2).
  { intros a b Pa Pb X. unfold mag2. rewrite <- !scalar_dot. apply z_square_value; assumption. }
  change plus4 with radd in B. rewrite SD in B.
  destruct k; try discriminate K; cbn [ff_masses fst snd] in B; change plus4 with radd in B; try rewrite S3 in B;
    cbn [spin_factor ff_spin LineSpec.weight]; unfold ff_12_34_L1, ff_12_34_L2, ff_123_4_L1, ff_123_4_L2; cbv zeta;
    rewrite Z by (try assumption; lra); rops; f_equal; f_equal; ring.
Qed.

(** ** Exchanges *)
Lemma sumv_neg : forall p m r, sumv_dot R_ops p m (rscale r (-1)) = rscale (sumv_dot R_ops p m r) (-1).
Proof.
  intros. unfold sumv_dot. rops. unfold Rdiv. generalize (/ (m * m)). intro w. destruct p, r. vring.
Qed.
Lemma contract_neg_r : forall q p m v, contract R_ops (ztspin2 R_ops q p m) (rscale v (-1)) = rscale (contract R_ops (ztspin2 R_ops q p m) v) (-1).
Proof.
  intros. rewrite !contract_value. cbv zeta. generalize (ztspin1 R_ops q p m). intro t. generalize (mag2 R_ops t). intro n. rops.
  generalize (1 / (m * m)) (1 / 3 * n). intros w h. destruct t, p, v. vring.
Qed.
Lemma exchange12 : forall k c P1 P2 P3 P4 s, sign12 k = Some s -> R_spin k c P2 P1 P3 P4 = s * R_spin k c P1 P2 P3 P4.
Proof.
  intros k c P1 P2 P3 P4 s H. destruct k; cbn in H; try discriminate H; injection H as <-; cbn [spin_factor];
    unfold d_vv_s, d_vv_p, d_vv_d, d_vs, ff_12_34_L1, ff_12_34_L2, ff_123_4_L1, ff_123_4_L2; cbv zeta;
    rewrite ?(add_comm P2 P1), ?(sub_swap P2 P1), ?zt1_neg, ?levi_neg_3, ?dot_neg_l, ?dot_neg_r; rops; unfold Rdiv; try ring.
Qed.
Lemma exchange34 : forall k c P1 P2 P3 P4 s, sign34 k = Some s -> R_spin k c P1 P2 P4 P3 = s * R_spin k c P1 P2 P3 P4.
Proof.
  intros k c P1 P2 P3 P4 s H.
  destruct k; cbn in H; try discriminate H; injection H as <-; cbn [spin_factor];
    unfold d_pp1_pv, d_vv_s, d_vv_p, d_vv_d, d_v1p1, d_vs, d_ap1_sp2, d_ap1_vp2, d_ap1_vp2_d, d_tp1, ff_12_34_L1, ff_12_34_L2; cbv zeta;
    rewrite ?add_assoc, ?(add_left P4 P3), ?(add_comm P4 P3), ?(sub_swap P4 P3), ?zt1_neg, ?sumv_neg, ?contract_neg_r, ?levi_neg_3, ?dot_neg_l, ?dot_neg_r, ?sumt_scale; rops; unfold Rdiv; try ring.
Qed.
Lemma dot_sym : forall a b, rdot a b = rdot b a.
Proof. intros [] []. vunf. ring. Qed.
Lemma contract_sym : forall q p m a b, rdot a (contract R_ops (ztspin2 R_ops q p m) b) = rdot b (contract R_ops (ztspin2 R_ops q p m) a).
Proof.
  intros. rewrite !contract_value. cbv zeta. generalize (ztspin1 R_ops q p m). intro t. generalize (mag2 R_ops t). intro n. rops.
  generalize (1 / (m * m)) (1 / 3 * n). intros w h. destruct t, p, a, b. vunf. ring.
Qed.
Lemma levi_swap : forall a b c d, rdot (rlevi a (rscale b (-1)) c) d = rdot (rlevi a b d) c.
Proof. intros [] [] [] []. vunf. ring. Qed.
Lemma exchange_pairs : forall k c P1 P2 P3 P4, pairs k = true -> R_spin k c P3 P4 P1 P2 = R_spin k c P1 P2 P3 P4.
Proof.
  intros k c P1 P2 P3 P4 H. destruct k; try discriminate H; cbn [spin_factor]; unfold d_vv_s, d_vv_p, d_vv_d, ff_12_34_L1, ff_12_34_L2; cbv zeta.
  - generalize (rsub P1 P2) (rsub P3 P4) (radd P1 P2) (radd P3 P4). intros a b c0 d. rops.
    rewrite (dot_sym b a), (dot_sym b d), (dot_sym d a), (dot_sym b c0), (dot_sym c0 a), (dot_sym d c0).
    rewrite (Rmult_assoc _ (sqrt (rdot c0 c0)) (sqrt (rdot c0 c0))), (Rmult_assoc _ (sqrt (rdot d d)) (sqrt (rdot d d))).
    generalize (sqrt (rdot c0 c0) * sqrt (rdot c0 c0)) (sqrt (rdot d d) * sqrt (rdot d d)). intros x y. rewrite (Rmult_comm y x). unfold Rdiv. ring.
  - rewrite (add_comm (radd P3 P4) (radd P1 P2)), (sub_swap (radd P3 P4) (radd P1 P2)), zt1_neg, levi_swap. reflexivity.
  - rewrite (add_comm (radd P3 P4) (radd P1 P2)), (sub_swap (radd P3 P4) (radd P1 P2)), contract_neg. apply contract_sym.
  - replace (radd (radd (radd P3 P4) P1) P2) with (radd (radd (radd P1 P2) P3) P4) by (destruct P1, P2, P3, P4; vring).
    replace (z_square R_ops (mag2 R_ops (radd (radd (radd P1 P2) P3) P4)) (mag2 R_ops (radd P3 P4)) (mag2 R_ops (radd P1 P2)) c)
      with (z_square R_ops (mag2 R_ops (radd (radd (radd P1 P2) P3) P4)) (mag2 R_ops (radd P1 P2)) (mag2 R_ops (radd P3 P4)) c) by (unfold z_square; rops; unfold Rdiv; ring).
    reflexivity.
  - replace (radd (radd (radd P3 P4) P1) P2) with (radd (radd (radd P1 P2) P3) P4) by (destruct P1, P2, P3, P4; vring).
    replace (z_square R_ops (mag2 R_ops (radd (radd (radd P1 P2) P3) P4)) (mag2 R_ops (radd P3 P4)) (mag2 R_ops (radd P1 P2)) c)
      with (z_square R_ops (mag2 R_ops (radd (radd (radd P1 P2) P3) P4)) (mag2 R_ops (radd P1 P2)) (mag2 R_ops (radd P3 P4)) c) by (unfold z_square; rops; unfold Rdiv; ring).
    reflexivity.
  - reflexivity.
Qed.
