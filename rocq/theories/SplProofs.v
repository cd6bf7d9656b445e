(** Proofs about the spline lineshape. *)
From Coq Require Import Reals List ZArith Bool Arith Lra Lia.
From Coquelicot Require Import Coquelicot.
From Verif Require Import AmpModel AmpSpec FormulaSpec WaveModel WaveSpec WaveProofs KmModel LineModel LineSpec LineProofs LineProofs2 SplModel SplSpec.
From Verif Require LeafGen.
Import ListNotations.

Section Any.
Context {T : Type} (Ar : LeafGen.ops T) (L : LeafGen.mlib T) (fmod : T -> T -> T) (to_uint : T -> nat) (inverse : list (list T) -> list (list T)).

Lemma all_written_none : forall A (l : list (option A)), In None l -> all_written l = None.
Proof.
  induction l as [|x l IH]; intro H; [destruct H|]. destruct x as [x|]; [|reflexivity].
  destruct H as [H|H]; [discriminate H|]. cbn [all_written]. rewrite IH by exact H. reflexivity.
Qed.
Lemma first_column : forall (size : nat) l (m : @cells T), (forall i, (0 < i)%nat -> m i 0%nat = None) ->
  forall i, (0 < i)%nat -> fold_left (spline_step Ar size) l m i 0%nat = None.
Proof.
  intros size. induction l as [|a l IH]; intros m H i P; cbn [fold_left]; [now apply H|]. apply IH; [|exact P].
  clear i P. intros i P. unfold spline_step, put.
  destruct (Nat.eqb a (size - 1)) eqn:E.
  - destruct (Nat.eqb i a && Nat.eqb 0 a) eqn:F; [|now apply H]. apply andb_prop in F as [F G]. apply Nat.eqb_eq in F, G. lia.
  - destruct (Nat.eqb i (a + 1) && Nat.eqb 0 1) eqn:F; [apply andb_prop in F as [_ F]; discriminate F|].
    destruct (Nat.eqb i a && Nat.eqb 0 (a + 1)) eqn:G; [apply andb_prop in G as [_ G]; apply Nat.eqb_eq in G; lia|].
    destruct (Nat.eqb i a && Nat.eqb 0 a) eqn:K; [|now apply H]. apply andb_prop in K as [K M]. apply Nat.eqb_eq in K, M. lia.
Qed.
Lemma rows_unwritten : forall size, (2 <= size)%nat -> rows size (spline_matrix Ar size) = None.
Proof.
  intros size H. unfold rows. apply all_written_none. apply in_map_iff. exists 1%nat. split; [|apply in_seq; lia].
  apply all_written_none. apply in_map_iff. exists 0%nat. split; [|apply in_seq; lia].
  unfold spline_matrix. apply first_column; [reflexivity|lia].
Qed.
Lemma gspline_four : forall mpair radius lo hi n vs, (4 <= n)%nat -> List.length vs = n ->
  gspline Ar inverse mpair radius lo hi n vs = Undefined.
Proof.
  intros. unfold gspline. rewrite H0, Nat.eqb_refl. unfold curvatures.
  replace (Nat.ltb n 2) with false by (symmetry; apply Nat.ltb_ge; lia). rewrite rows_unwritten by lia. reflexivity.
Qed.
Lemma gspline_made : forall mpair radius lo hi n vs cs, gspline Ar inverse mpair radius lo hi n vs = Made cs ->
  (n = 2 \/ n = 3)%nat /\ List.length vs = n /\ exists c, cs = [mpair; radius; lo; hi; LeafGen.o_ofZ Ar (Z.of_nat n)] ++ c /\ List.length c = n.
Proof.
  intros mpair radius lo hi n vs cs H. assert (G := H). unfold gspline in H. destruct (Nat.eqb n (List.length vs)) eqn:E; [|discriminate H].
  apply Nat.eqb_eq in E. destruct (curvatures Ar inverse lo hi n vs) as [c|] eqn:C; [|discriminate H]. injection H as <-.
  unfold curvatures in C. destruct (Nat.ltb n 2) eqn:B; [discriminate C|]. apply Nat.ltb_ge in B.
  destruct (le_lt_dec 4 n) as [F|F].
  - rewrite gspline_four in G by auto. discriminate G.
  - split; [lia|]. split; [auto|]. exists c. split; [reflexivity|].
    destruct (rows (n - 2) (spline_matrix Ar (n - 2))); [|discriminate C]. injection C as <-. rewrite map_length, seq_length. auto.
Qed.
Lemma inside_none : forall mpair radius lo hi z c n x b, List.length c = n ->
  LeafGen.o_le Ar x lo = false -> LeafGen.o_le Ar hi x = false ->
  get_spline Ar fmod to_uint ([mpair; radius; lo; hi; z] ++ c) n x b = None.
Proof.
  intros. unfold get_spline. cbn [nth_error app]. rewrite H0, H1.
  match goal with |- context [nth_error ?l (5 + ?bin + n)%nat] => rewrite (proj2 (nth_error_None l (5 + bin + n)%nat)) by (cbn [List.length]; lia) end.
  repeat match goal with |- context [match ?o with Some _ => _ | None => _ end] => destruct o end; reflexivity.
Qed.
Lemma outside_some : forall mpair radius lo hi z c n x, List.length c = n -> (0 < n)%nat ->
  LeafGen.o_le Ar x lo = true \/ LeafGen.o_le Ar hi x = true ->
  (exists y, get_spline Ar fmod to_uint ([mpair; radius; lo; hi; z] ++ c) n x true = Some y) /\
  get_spline Ar fmod to_uint ([mpair; radius; lo; hi; z] ++ c) n x false = Some (LeafGen.o_zero Ar).
Proof.
  intros mpair radius lo hi z c n x H P O. unfold get_spline. cbn [nth_error app].
  destruct c as [|a c]; [cbn in H; lia|].
  assert (B : exists y, nth_error (mpair :: radius :: lo :: hi :: z :: a :: c) (5 + n - 1) = Some y).
  { destruct (nth_error (mpair :: radius :: lo :: hi :: z :: a :: c) (5 + n - 1)) eqn:E; [eexists; reflexivity|].
    apply nth_error_None in E. cbn [List.length] in E, H. lia. }
  destruct B as [b B]. rewrite B.
  destruct (LeafGen.o_le Ar x lo); [split; [eexists|]; reflexivity|]. destruct O as [O|O]; [discriminate O|]. rewrite O. split; [eexists|]; reflexivity.
Qed.
Lemma spline_made_inside : forall mpair0 radius lo hi n vs cs mass width mpair m1 m2,
  gspline Ar inverse mpair0 radius lo hi n vs = Made cs ->
  (LeafGen.o_le Ar (LeafGen.o_mul Ar mpair mpair) lo = false /\ LeafGen.o_le Ar hi (LeafGen.o_mul Ar mpair mpair) = false) \/
  (LeafGen.o_le Ar (LeafGen.o_mul Ar mass mass) lo = false /\ LeafGen.o_le Ar hi (LeafGen.o_mul Ar mass mass) = false) ->
  spline_line Ar L fmod to_uint cs n mass width mpair m1 m2 = None.
Proof.
  intros mpair0 radius lo hi n vs cs mass width mpair m1 m2 H O. apply gspline_made in H as (_ & _ & c & -> & E).
  unfold spline_line. destruct O as [[A B]|[A B]]; rewrite (inside_none _ _ lo hi _ c n _ _ E A B); cbn [nth_error app].
  - reflexivity.
  - destruct (get_spline Ar fmod to_uint _ n (LeafGen.o_mul Ar mpair mpair) true); reflexivity.
Qed.
End Any.

Local Open Scope R_scope.

(** ** Outside the range of the knots *)
Lemma Rleb_true : forall x y, Rleb x y = true <-> x <= y.
Proof. intros. unfold Rleb. destruct (Rle_dec x y); split; intros; auto; discriminate. Qed.
Lemma Rleb_false : forall x y, Rleb x y = false <-> y < x.
Proof. intros. unfold Rleb. destruct (Rle_dec x y); split; intros; auto; try discriminate; lra. Qed.
Lemma momentum_formula : forall s m1 m2, s <> 0 -> spline_q2 R_ops s (m1 * m1) (m2 * m2) = momentum2 s m1 m2.
Proof. intros. unfold spline_q2, momentum2. rops. field. exact H. Qed.
Lemma spline_outside : forall inverse mpair0 radius lo hi n vs cs mass width mpair m1 m2,
  gspline R_ops inverse mpair0 radius lo hi n vs = Made cs -> 0 < mpair ->
  (mpair ^ 2 <= lo \/ hi <= mpair ^ 2) -> (mass ^ 2 <= lo \/ hi <= mass ^ 2) ->
  spline_line R_ops LL R_fmod R_uint cs n mass width mpair m1 m2 = Some (spline_amplitude mass width radius (mpair ^ 2) m1 m2 0).
Proof.
  intros inverse mpair0 radius lo hi n vs cs mass width mpair m1 m2 H Pm O M. apply gspline_made in H as (N & _ & c & -> & E).
  assert (Pn : (0 < n)%nat) by lia.
  assert (F : forall x, (x ^ 2 <= lo \/ hi <= x ^ 2) -> Rleb (x * x) lo = true \/ Rleb hi (x * x) = true).
  { intros x [A|A]; [left|right]; apply Rleb_true; lra. }
  destruct (outside_some R_ops R_fmod R_uint mpair0 radius lo hi (IZR (Z.of_nat n)) c n (mpair * mpair) E Pn (F mpair O)) as [[y A] _].
  destruct (outside_some R_ops R_fmod R_uint mpair0 radius lo hi (IZR (Z.of_nat n)) c n (mass * mass) E Pn (F mass M)) as [_ B].
  unfold spline_line. cbn [nth_error app]. rops. cbn [app] in A, B. rewrite A. setoid_rewrite B.
  cbn [LeafGen.o_zero R_ops].
  rewrite momentum_formula by nra.
  match goal with |- context [if ?b then _ else _] => assert (Z : b = true) end.
  { unfold R_ops. cbn [LeafGen.o_eq]. rewrite Rmult_0_r. unfold Reqb. destruct (Req_EM_T 0 0); [reflexivity|contradiction]. }
  try rewrite Z. f_equal. rewrite div_Cdiv. unfold spline_amplitude, k_factor. rewrite pi_const_value. rops.
  unfold RtoC. rewrite !Rmult_0_r. f_equal; [|f_equal; ring]. f_equal. cbn [LeafGen.m_exp LL R_lib].
  replace (mass * mass) with (mass ^ 2) by ring. replace (width * width) with (width ^ 2) by ring. replace (radius * radius) with (radius ^ 2) by ring.
  replace (mpair * mpair) with (mpair ^ 2) by ring. reflexivity.
Qed.

(** ** The polynomial *)
Lemma Int_part_between : forall (b : Z) x, IZR b <= x < IZR b + 1 -> Int_part x = b.
Proof.
  intros b x H. destruct (base_Int_part x) as [A B]. apply Z.le_antisymm.
  - apply Z.lt_succ_r. apply lt_IZR. rewrite succ_IZR. lra.
  - apply Z.lt_succ_r. apply lt_IZR. rewrite succ_IZR. lra.
Qed.
Lemma spacing_pos : forall lo hi n, lo < hi -> (2 <= n)%nat -> 0 < (hi - lo) / (INR n - 1).
Proof.
  intros. assert (2 <= INR n) by (change 2 with (INR 2); now apply le_INR). apply Rdiv_lt_0_compat; lra.
Qed.
Lemma knot_last : forall lo hi n, (2 <= n)%nat -> knot lo hi n (n - 1) = hi.
Proof.
  intros. assert (2 <= INR n) by (change 2 with (INR 2); now apply le_INR). unfold knot. rewrite minus_INR by lia. change (INR 1) with 1. field. lra.
Qed.
Lemma knot_step : forall lo hi n b, knot lo hi n (S b) = knot lo hi n b + (hi - lo) / (INR n - 1).
Proof. intros. unfold knot. rewrite S_INR. ring. Qed.
Lemma knot_le : forall lo hi n a b, lo < hi -> (2 <= n)%nat -> (a <= b)%nat -> knot lo hi n a <= knot lo hi n b.
Proof.
  intros. pose proof (spacing_pos lo hi n H H0). unfold knot. pose proof (le_INR _ _ H1). nra.
Qed.
Definition piece (h y0 y1 f0 f1 dx : R) : R :=
  y0 + dx * ((y1 - y0) / h - (f1 + 2 * f0) * h / 6) + dx * dx * f0 + dx * dx * dx * (f1 - f0) / (6 * h).
Lemma table_value : forall mpair radius lo hi ys fs b, (b < List.length ys)%nat ->
  nth_error (table mpair radius lo hi ys fs) (5 + b) = Some (nth b ys 0).
Proof.
  intros. unfold table. rewrite nth_error_app2 by (cbn; lia). replace (5 + b - _)%nat with b by (cbn [List.length]; lia).
  rewrite nth_error_app1 by lia. apply nth_error_nth'. exact H.
Qed.
Lemma table_curvature : forall mpair radius lo hi ys fs b, List.length fs = List.length ys -> (b < List.length ys)%nat ->
  nth_error (table mpair radius lo hi ys fs) (5 + b + List.length ys) = Some (nth b fs 0).
Proof.
  intros. unfold table. rewrite nth_error_app2 by (cbn; lia). rewrite nth_error_app2 by (cbn [List.length]; lia).
  replace (5 + b + List.length ys - _ - _)%nat with b by (cbn [List.length]; lia). apply nth_error_nth'. lia.
Qed.
Lemma spline_piece : forall mpair radius lo hi ys fs b x, List.length fs = List.length ys -> lo < hi -> (S b < List.length ys)%nat ->
  knot lo hi (List.length ys) b <= x < knot lo hi (List.length ys) (S b) -> lo < x ->
  R_spline mpair radius lo hi ys fs x =
    Some (piece ((hi - lo) / (INR (List.length ys) - 1)) (nth b ys 0) (nth (S b) ys 0) (nth b fs 0) (nth (S b) fs 0)
            (x - knot lo hi (List.length ys) b)).
Proof.
  intros mpair radius lo hi ys fs b x Lf Lh Hb Hx Lx. set (n := List.length ys) in *. pose proof (spacing_pos lo hi n Lh ltac:(lia)) as Ph.
  pose proof (knot_le lo hi n (S b) (n - 1) Lh ltac:(lia) ltac:(lia)) as Kl. rewrite knot_last in Kl by lia.
  unfold R_spline, get_spline. change (nth_error (table mpair radius lo hi ys fs) 2) with (Some lo). change (nth_error (table mpair radius lo hi ys fs) 3) with (Some hi).
  rops. fold n.
  replace (Rleb x lo) with false by (symmetry; apply Rleb_false; lra). replace (Rleb hi x) with false by (symmetry; apply Rleb_false; lra).
  rewrite <- INR_IZR_INZ. set (h := (hi - lo) / (INR n - 1)) in *.
  assert (I : Int_part ((x - lo) / h) = Z.of_nat b).
  { apply Int_part_between. rewrite <- INR_IZR_INZ. rewrite knot_step in Hx. fold h in Hx. unfold knot in Hx. fold h in Hx.
    replace ((x - lo) / h) with (INR b + (x - lo - INR b * h) / h) by (field; lra).
    assert (0 <= (x - lo - INR b * h) / h) by (apply Rdiv_le_0_compat; lra).
    assert ((x - lo - INR b * h) / h < 1) by (apply (proj2 (Rcomplements.Rlt_div_l _ _ _ Ph)); lra). lra. }
  unfold R_uint, R_fmod. rewrite I, Nat2Z.id, <- INR_IZR_INZ.
  rewrite (table_value _ _ _ _ ys fs b) by (fold n; lia).
  replace (5 + b + 1)%nat with (5 + S b)%nat by lia. rewrite (table_value _ _ _ _ ys fs (S b)) by (fold n; lia).
  replace (5 + b + n + 1)%nat with (5 + S b + n)%nat by lia. unfold n at 1 2. rewrite !table_curvature by (auto; fold n; lia).
  unfold piece. replace (x - lo - h * INR b) with (x - knot lo hi n b) by (unfold knot; fold h; ring). reflexivity.
Qed.
Lemma spline_knots : forall mpair radius lo hi ys fs b, List.length fs = List.length ys -> lo < hi -> (2 <= List.length ys)%nat -> (b < List.length ys)%nat ->
  R_spline mpair radius lo hi ys fs (knot lo hi (List.length ys) b) = Some (nth b ys 0).
Proof.
  intros mpair radius lo hi ys fs b Lf Lh L2 Hb. set (n := List.length ys) in *. pose proof (spacing_pos lo hi n Lh L2) as Ph.
  destruct (Nat.eq_dec b 0) as [->|B0]; [|destruct (Nat.eq_dec b (n - 1)) as [->|B1]].
  - unfold R_spline, get_spline. change (nth_error (table mpair radius lo hi ys fs) 2) with (Some lo). change (nth_error (table mpair radius lo hi ys fs) 3) with (Some hi).
    rops. replace (knot lo hi n 0) with lo by (unfold knot; cbn; ring). replace (Rleb lo lo) with true by (symmetry; apply Rleb_true; lra).
    change 5%nat with (5 + 0)%nat. rewrite (table_value mpair radius lo hi ys fs 0) by (fold n; lia). reflexivity.
  - rewrite knot_last by exact L2. unfold R_spline, get_spline.
    change (nth_error (table mpair radius lo hi ys fs) 2) with (Some lo). change (nth_error (table mpair radius lo hi ys fs) 3) with (Some hi).
    rops. replace (Rleb hi lo) with false by (symmetry; apply Rleb_false; lra). replace (Rleb hi hi) with true by (symmetry; apply Rleb_true; lra).
    fold n. replace (5 + n - 1)%nat with (5 + (n - 1))%nat by lia. rewrite table_value by (fold n; lia). reflexivity.
  - unfold n. rewrite (spline_piece mpair radius lo hi ys fs b); fold n; auto; try lia.
    + unfold piece. do 1 f_equal. replace (knot lo hi n b - knot lo hi n b) with 0 by ring. unfold Rdiv. ring.
    + rewrite knot_step. lra.
    + unfold knot. assert (1 <= INR b) by (change 1 with (INR 1); apply le_INR; lia). nra.
Qed.
Lemma piece_end : forall h y0 y1 f0 f1, h <> 0 -> piece h y0 y1 f0 f1 h = y1 + f0 * h ^ 2 / 2.
Proof. intros. unfold piece. field. exact H. Qed.
Lemma piece_continuous : forall h y0 y1 f0 f1 a x, cont (fun x => piece h y0 y1 f0 f1 (x - a)) x.
Proof.
  intros. unfold piece, Rdiv.
  assert (D : cont (fun x => x - a) x) by (apply k_minus; [apply k_id|apply k_const]).
  repeat first [exact D | apply k_const | apply k_plus | apply k_mult | apply k_minus].
Qed.
Lemma jump_below : forall (h : R -> R) r s, cont h s -> (forall y, r < y < s -> h y = 0) -> r < s -> h s = 0.
Proof.
  intros h r s Hc H L. replace s with (s - r + r) at 1 by ring. apply (jump_left (fun x => h (x + r)) (s - r)); [| |lra].
  - unfold cont. apply (continuous_comp (fun x => x + r) h); [apply k_plus; [apply k_id|apply k_const]|]. replace (s - r + r) with s by ring. exact Hc.
  - intros y Hy. apply H. lra.
Qed.
Lemma spline_jump : forall mpair radius lo hi ys fs b, List.length fs = List.length ys -> lo < hi -> (S b < List.length ys)%nat -> nth b fs 0 <> 0 ->
  ~ continuous (fun x => match R_spline mpair radius lo hi ys fs x with Some y => y | None => 0 end) (knot lo hi (List.length ys) (S b)).
Proof.
  intros mpair radius lo hi ys fs b Lf Lh Hb Nz Hc. set (n := List.length ys) in *. pose proof (spacing_pos lo hi n Lh ltac:(lia)) as Ph.
  set (h := (hi - lo) / (INR n - 1)) in *. set (g := fun x => match R_spline mpair radius lo hi ys fs x with Some y => y | None => 0 end) in Hc.
  set (p := fun x => piece h (nth b ys 0) (nth (S b) ys 0) (nth b fs 0) (nth (S b) fs 0) (x - knot lo hi n b)).
  pose proof (piece_continuous h (nth b ys 0) (nth (S b) ys 0) (nth b fs 0) (nth (S b) fs 0) (knot lo hi n b) (knot lo hi n (S b))) as Pc. fold p in Pc.
  pose proof (jump_below (fun x => g x - p x) (knot lo hi n b) (knot lo hi n (S b)) (k_minus g p _ Hc Pc)) as J.
  assert (E : g (knot lo hi n (S b)) - p (knot lo hi n (S b)) = 0).
  { apply J; [|rewrite knot_step; fold h; lra]. intros y Hy. unfold g, p. unfold n.
    rewrite (spline_piece mpair radius lo hi ys fs b); fold n; auto; try lra; fold h; [ring|].
    assert (knot lo hi n 0 <= knot lo hi n b) by (apply knot_le; auto; lia). unfold knot in H at 1. cbn in H. lra. }
  unfold g, p in E. unfold n in E at 1. rewrite spline_knots in E by (auto; fold n; lia). rewrite knot_step in E. fold h in E.
  replace (knot lo hi n b + h - knot lo hi n b) with h in E by ring. rewrite piece_end in E by lra.
  assert (nth b fs 0 * h ^ 2 = 0) by lra. apply Rmult_integral in H as [H|H]; [contradiction|]. nra.
Qed.
