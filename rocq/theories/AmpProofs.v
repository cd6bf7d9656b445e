(** Proofs about the coherent sum. *)
From Coq Require Import Reals List Lra Lia Arith Bool.
From Coquelicot Require Import Complex.
From Verif Require Import ListAux FormulaSpec AmpModel AmpSpec.
Import ListNotations.
Open Scope R_scope.

(** ** Finite sums *)
Lemma fold_right_Cplus : forall l a, fold_right Cplus a l = Cplus (fold_right Cplus (RtoC 0) l) a.
Proof. induction l as [|x l IH]; intro a; cbn [fold_right]; [|rewrite IH]; ring. Qed.
Lemma Ctotal_S : forall n f, Ctotal (S n) f = Cplus (Ctotal n f) (f n).
Proof.
  intros n f. unfold Ctotal. rewrite seq_S, map_app, fold_right_app. cbn [map fold_right plus]. rewrite fold_right_Cplus. f_equal. ring.
Qed.
Lemma fold_right_Rplus : forall l a, fold_right Rplus a l = fold_right Rplus 0 l + a.
Proof. induction l as [|x l IH]; intro a; cbn [fold_right]; [|rewrite IH]; ring. Qed.
Lemma Rtotal_S : forall n f, Rtotal (S n) f = Rtotal n f + f n.
Proof.
  intros n f. unfold Rtotal. rewrite seq_S, map_app, fold_right_app. cbn [map fold_right plus]. rewrite fold_right_Rplus. f_equal. ring.
Qed.
Lemma Ctotal_ext : forall n f g, (forall i, (i < n)%nat -> f i = g i) -> Ctotal n f = Ctotal n g.
Proof.
  induction n as [|n IH]; intros f g H; [reflexivity|]. rewrite !Ctotal_S. rewrite (IH f g) by (intros i Hi; apply H; lia). now rewrite (H n) by lia.
Qed.
Lemma Rtotal_ext : forall n f g, (forall i, (i < n)%nat -> f i = g i) -> Rtotal n f = Rtotal n g.
Proof.
  induction n as [|n IH]; intros f g H; [reflexivity|]. rewrite !Rtotal_S. rewrite (IH f g) by (intros i Hi; apply H; lia). now rewrite (H n) by lia.
Qed.
Lemma Ctotal_mult_l : forall n f z, Cmult z (Ctotal n f) = Ctotal n (fun i => Cmult z (f i)).
Proof. induction n as [|n IH]; intros f z; [unfold Ctotal; cbn; ring|]. rewrite !Ctotal_S, <- IH. ring. Qed.
Lemma Ctotal_mult_r : forall n f z, Cmult (Ctotal n f) z = Ctotal n (fun i => Cmult (f i) z).
Proof. intros. rewrite Cmult_comm, Ctotal_mult_l. apply Ctotal_ext. intros. ring. Qed.
Lemma Rtotal_mult_r : forall n f z, Rtotal n f * z = Rtotal n (fun i => f i * z).
Proof. induction n as [|n IH]; intros f z; [unfold Rtotal; cbn; ring|]. rewrite !Rtotal_S, <- IH. ring. Qed.
Lemma Ctotal_plus : forall n f g, Ctotal n (fun i => Cplus (f i) (g i)) = Cplus (Ctotal n f) (Ctotal n g).
Proof. induction n as [|n IH]; intros f g; [unfold Ctotal; cbn; ring|]. rewrite !Ctotal_S, IH. ring. Qed.
Lemma Ctotal_zero : forall n, Ctotal n (fun _ => RtoC 0) = RtoC 0.
Proof. induction n as [|n IH]; [reflexivity|]. rewrite Ctotal_S, IH. ring. Qed.
Lemma Ctotal_swap : forall n m f, Ctotal n (fun i => Ctotal m (fun j => f i j)) = Ctotal m (fun j => Ctotal n (fun i => f i j)).
Proof.
  induction n as [|n IH]; intros m f.
  - unfold Ctotal at 1. cbn. symmetry. erewrite Ctotal_ext; [apply Ctotal_zero|]. reflexivity.
  - rewrite Ctotal_S, IH, <- Ctotal_plus. apply Ctotal_ext. intros j _. now rewrite Ctotal_S.
Qed.
Lemma Rtotal_plus : forall n f g, Rtotal n (fun i => f i + g i) = Rtotal n f + Rtotal n g.
Proof. induction n as [|n IH]; intros f g; [unfold Rtotal; cbn; ring|]. rewrite !Rtotal_S, IH. ring. Qed.
Lemma Rtotal_zero : forall n, Rtotal n (fun _ => 0) = 0.
Proof. induction n as [|n IH]; [reflexivity|]. rewrite Rtotal_S, IH. ring. Qed.
Lemma Rtotal_swap : forall n m f, Rtotal n (fun i => Rtotal m (fun j => f i j)) = Rtotal m (fun j => Rtotal n (fun i => f i j)).
Proof.
  induction n as [|n IH]; intros m f.
  - unfold Rtotal at 1. cbn. symmetry. erewrite Rtotal_ext; [apply Rtotal_zero|]. reflexivity.
  - rewrite Rtotal_S, IH, <- Rtotal_plus. apply Rtotal_ext. intros j _. now rewrite Rtotal_S.
Qed.
Lemma Rtotal_nonneg : forall n f, (forall i, (i < n)%nat -> 0 <= f i) -> 0 <= Rtotal n f.
Proof.
  induction n as [|n IH]; intros f H; [unfold Rtotal; cbn; lra|]. rewrite Rtotal_S. specialize (IH f ltac:(intros; apply H; lia)).
  specialize (H n ltac:(lia)). lra.
Qed.
Lemma Rtotal_pos : forall n f k, (forall i, (i < n)%nat -> 0 <= f i) -> (k < n)%nat -> 0 < f k -> 0 < Rtotal n f.
Proof.
  induction n as [|n IH]; intros f k H Hk P; [lia|]. rewrite Rtotal_S. pose proof (Rtotal_nonneg n f ltac:(intros; apply H; lia)).
  pose proof (H n ltac:(lia)). destruct (Nat.eq_dec k n) as [->|N]; [lra|].
  pose proof (IH f k ltac:(intros; apply H; lia) ltac:(lia) P). lra.
Qed.
Lemma Ctotal_conj : forall n f, Cconj (Ctotal n f) = Ctotal n (fun i => Cconj (f i)).
Proof.
  induction n as [|n IH]; intro f; [unfold Ctotal; cbn; unfold Cconj, RtoC; cbn; f_equal; ring|]. rewrite !Ctotal_S, <- IH.
  unfold Cconj, Cplus; cbn. f_equal. ring.
Qed.
Lemma Ctotal_RtoC : forall n f, Ctotal n (fun i => RtoC (f i)) = RtoC (Rtotal n f).
Proof. induction n as [|n IH]; intro f; [reflexivity|]. rewrite Ctotal_S, Rtotal_S, IH. unfold RtoC, Cplus; cbn. f_equal. ring. Qed.
Lemma Ctotal_re : forall n f, fst (Ctotal n f) = Rtotal n (fun i => fst (f i)).
Proof. induction n as [|n IH]; intro f; [reflexivity|]. rewrite Ctotal_S, Rtotal_S, <- IH. reflexivity. Qed.
Lemma mod_sq : forall z : C, Cmult z (Cconj z) = RtoC (Cmod z ^ 2).
Proof.
  intros [a b]. unfold Cmod. cbn [fst snd]. rewrite pow2_sqrt by nra. unfold Cconj, Cmult, RtoC; cbn. f_equal; ring.
Qed.

(** The product of two sums. *)
Lemma product_of_sums : forall n f g,
  Ctotal n (fun i => Ctotal n (fun j => Cmult (f i) (g j))) = Cmult (Ctotal n f) (Ctotal n g).
Proof.
  intros n f g. rewrite Ctotal_mult_r. apply Ctotal_ext. intros i _. symmetry. apply Ctotal_mult_l.
Qed.
(** All bins of a grid, row by row. *)
Lemma grid_sum : forall n m (f : nat -> nat -> R), n <> O ->
  Rtotal (n * m) (fun b => f (b mod n)%nat (b / n)%nat) = Rtotal m (fun l => Rtotal n (fun k => f k l)).
Proof.
  intros n m f Hn. induction m as [|m IH]; [now rewrite Nat.mul_0_r|]. rewrite Rtotal_S, <- IH.
  replace (n * S m)%nat with (n * m + n)%nat by lia.
  assert (G : forall j, (j <= n)%nat -> Rtotal (n * m + j) (fun b => f (b mod n)%nat (b / n)%nat)
                        = Rtotal (n * m) (fun b => f (b mod n)%nat (b / n)%nat) + Rtotal j (fun k => f k m)).
  { induction j as [|j IHj]; intro Hj; [rewrite Nat.add_0_r; unfold Rtotal at 3; cbn; ring|].
    replace (n * m + S j)%nat with (S (n * m + j)) by lia. rewrite !Rtotal_S, IHj by lia.
    replace ((n * m + j) mod n)%nat with j; [replace ((n * m + j) / n)%nat with m; [ring|]|].
    - rewrite Nat.add_comm, Nat.mul_comm, Nat.div_add, Nat.div_small by lia. lia.
    - rewrite Nat.add_comm, Nat.mul_comm, Nat.mod_add, Nat.mod_small by lia. reflexivity. }
  now apply G.
Qed.

(** ** The model's sums *)
Notation c_add := (AmpModel.c_add R_ops).
Notation c_mul := (AmpModel.c_mul R_ops).
Ltac cring := match goal with |- ?a = ?b => change (@eq C a b) end; ring.
Lemma fold_add : forall {A} (f : A -> C) l (s : C), fold_left (fun s i => c_add s (f i)) l s = Cplus s (fold_right Cplus (RtoC 0) (map f l)).
Proof.
  induction l as [|a l IH]; intro s; cbn [fold_left map fold_right]; [cring|]. rewrite IH. change (c_add s (f a)) with (Cplus s (f a)). cring.
Qed.
Lemma sum_total : forall n (f : nat -> C), AmpModel.c_sum R_ops (map f (seq 0 n)) = Ctotal n f.
Proof.
  intros n f. unfold AmpModel.c_sum. transitivity (fold_left (fun s i => c_add s (f i)) (seq 0 n) (AmpModel.c_zero R_ops)).
  - generalize (AmpModel.c_zero R_ops). induction (seq 0 n) as [|a l IH]; intro z; [reflexivity|]. cbn [map fold_left]. apply IH.
  - rewrite fold_add. unfold Ctotal. change (AmpModel.c_zero R_ops) with (RtoC 0). cring.
Qed.
Lemma fold_total : forall n (f : nat -> C) (s : C), fold_left (fun s i => c_add s (f i)) (seq 0 n) s = Cplus s (Ctotal n f).
Proof. intros. apply fold_add. Qed.
Lemma fold_total2 : forall n (f : nat -> nat -> C) l (s : C),
  fold_left (fun s i => fold_left (fun s j => c_add s (f i j)) (seq 0 n) s) l s
  = Cplus s (fold_right Cplus (RtoC 0) (map (fun i => Ctotal n (f i)) l)).
Proof.
  induction l as [|a l IH]; intro s; cbn [fold_left map fold_right]; [cring|]. rewrite IH, fold_total. cring.
Qed.

Definition fresh (c : call (T := R)) (k : kept (T := R)) : Prop :=
  (forall i, k_wave k i = map (wave R_ops c i) (events c)) /\
  (forall i j, k_int k i j = Ctotal (n12 (range c) * n13 (range c)) (integrand R_ops c i j)).

Lemma sum_integral_value : forall c k, fresh c k ->
  sum_integral R_ops c k = RtoC (Rtotal (n12 (range c) * n13 (range c)) (fun b =>
    let '(x, y) := cell R_ops (range c) b in density c x y)).
Proof.
  intros c k [_ FI]. unfold sum_integral. rewrite fold_total2. set (n := nres c). set (M := (_ * _)%nat).
  transitivity (Ctotal n (fun i => Ctotal n (fun j => Ctotal M (fun b => Cmult (c_mul (amp R_ops c i) (c_conj R_ops (amp R_ops c j))) (integrand R_ops c i j b))))).
  { change (AmpModel.c_zero R_ops) with (RtoC 0). unfold Ctotal at 2. rewrite Cplus_0_l. f_equal. apply map_ext. intro i. apply Ctotal_ext. intros j _.
    rewrite FI. change (c_mul ?a ?b) with (Cmult a b) at 1. now rewrite Ctotal_mult_l. }
  rewrite (Ctotal_ext n _ (fun i => Ctotal M (fun b => Ctotal n (fun j => Cmult (c_mul (amp R_ops c i) (c_conj R_ops (amp R_ops c j))) (integrand R_ops c i j b))))) by (intros; apply Ctotal_swap).
  rewrite Ctotal_swap, <- Ctotal_RtoC. apply Ctotal_ext. intros b _.
  unfold integrand. destruct (cell R_ops (range c) b) as [x y]. unfold density. destruct (inside c x y).
  - transitivity (Cmult (Cmult (amplitude c x y) (Cconj (amplitude c x y))) (RtoC (eff c x y))).
    + unfold amplitude. rewrite Ctotal_conj, <- product_of_sums. change (length (amps c)) with n. rewrite Ctotal_mult_r. apply Ctotal_ext. intros i _.
      rewrite Ctotal_mult_r. apply Ctotal_ext. intros j _.
      unfold amp, c_scale, AmpModel.c_mul, AmpModel.c_conj, AmpModel.c_zero, Cmult, Cconj, RtoC.
      cbn [LeafGen.o_add LeafGen.o_sub LeafGen.o_mul LeafGen.o_div LeafGen.o_opp LeafGen.o_zero R_ops fst snd].
      destruct (nth i (amps c) _) as [a1 a2], (nth j (amps c) _) as [d1 d2], (bw c i x y) as [u1 u2], (bw c j x y) as [v1 v2]. cbn [fst snd]. f_equal; ring.
    + rewrite mod_sq. unfold intensity, Cmult, RtoC; cbn. f_equal; ring.
  - erewrite Ctotal_ext; [apply Ctotal_zero|]. intros i _. erewrite Ctotal_ext; [apply Ctotal_zero|]. intros j _.
    unfold c_scale, AmpModel.c_zero, Cmult, RtoC. cbn [LeafGen.o_mul LeafGen.o_zero R_ops fst snd]. f_equal; ring.
Qed.

Lemma refresh_fresh : forall before now k, fresh before k -> announced before now -> fresh now (refresh R_ops now k).
Proof.
  intros before now k [FW FI] A. unfold refresh. split; cbn [k_wave k_int].
  - intro i. destruct (redo now i) eqn:E; [reflexivity|]. unfold redo in E. apply orb_false_iff in E. destruct E as [E1 E2].
    destruct A as [A|(_ & _ & AI & _ & AE & AB)]; [congruence|]. rewrite FW, AE. apply map_ext. intros [x y]. unfold wave. cbn [fst snd]. rewrite AI. now rewrite (AB i E2).
  - intros i j. destruct (negb (redo now i) && negb (redo now j)) eqn:E; [|apply sum_total].
    apply andb_true_iff in E. destruct E as [E1 E2]. apply negb_true_iff in E1, E2. unfold redo in E1, E2. apply orb_false_iff in E1, E2.
    destruct E1 as [E1 E1'], E2 as [_ E2']. destruct A as [A|(_ & AF & AI & AR & _ & AB)]; [congruence|].
    rewrite FI, AR. apply Ctotal_ext. intros b _. unfold integrand. rewrite AR. destruct (cell R_ops (range before) b) as [x y].
    now rewrite AI, AF, (AB i E1'), (AB j E2').
Qed.
Lemma refresh_forced : forall c k, force c = true -> fresh c (refresh R_ops c k).
Proof.
  intros c k F. unfold refresh, redo. rewrite F. split; cbn; [reflexivity|]. intros i j. apply sum_total.
Qed.
Lemma calls_fresh : forall cs c, honest (cs ++ [c]) -> fresh c (fst (calls R_ops (cs ++ [c]))) /\
  snd (calls R_ops (cs ++ [c])) = Some (fst (sum_integral R_ops c (fst (calls R_ops (cs ++ [c])))) * (1 * size12 R_ops (range c) * size13 R_ops (range c))).
Proof.
  assert (STEP : forall cs c, calls R_ops (cs ++ [c]) = let '(k, r) := normalize R_ops c (fst (calls R_ops cs)) in (k, Some r)).
  { intros. unfold calls. now rewrite fold_left_app. }
  assert (HEAD : forall cs c, honest (cs ++ [c]) -> honest cs).
  { intros cs c [H1 H2]. split; [destruct cs; [exact I|exact H1]|]. clear H1. induction cs as [|a cs IH]; [exact I|].
    destruct cs as [|b cs]; [exact I|]. cbn in H2 |- *. destruct H2. split; [assumption|]. now apply IH. }
  assert (LAST : forall cs b c, all_announced (cs ++ [b; c]) -> announced b c).
  { induction cs as [|a cs IH]; intros b c H; cbn in H; [tauto|]. destruct cs as [|d cs]; cbn in H; [tauto|]. apply IH. apply H. }
  intro cs. induction cs as [|b cs IH] using rev_ind; intros c H.
  - rewrite (STEP [] c). cbn [normalize]. unfold normalize. cbn [fst snd]. split; [|reflexivity]. apply refresh_forced. apply H.
  - rewrite (STEP (cs ++ [b]) c). unfold normalize. cbn [fst snd]. split; [|reflexivity].
    apply (refresh_fresh b); [apply IH; now apply HEAD in H|]. destruct H as [_ H]. rewrite <- app_assoc in H. now apply LAST in H.
Qed.

Lemma centre_mid : forall lo up n k, n <> O -> centre R_ops lo up n k = mid lo up n k.
Proof. intros. unfold centre, mid, of_nat. cbn [LeafGen.o_add LeafGen.o_sub LeafGen.o_mul LeafGen.o_div LeafGen.o_half LeafGen.o_ofZ R_ops]. rewrite <- !INR_IZR_INZ. ring. Qed.
Lemma size_R : forall g, size12 R_ops g = (up12 g - lo12 g) / INR (n12 g) /\ size13 R_ops g = (up13 g - lo13 g) / INR (n13 g).
Proof. intro g. unfold size12, size13, of_nat. cbn [LeafGen.o_sub LeafGen.o_div LeafGen.o_ofZ R_ops]. now rewrite <- !INR_IZR_INZ. Qed.

Lemma cells_value : forall c, n12 (range c) = n13 (range c) -> n12 (range c) <> O ->
  Rtotal (n12 (range c) * n13 (range c)) (fun b => let '(x, y) := cell R_ops (range c) b in density c x y)
  * (1 * size12 R_ops (range c) * size13 R_ops (range c)) = cells c.
Proof.
  intros c E N. unfold cells. unfold cell. set (g := range c) in *.
  transitivity (Rtotal (n12 g * n13 g) (fun b => (fun k l => density c (mid (lo12 g) (up12 g) (n12 g) k) (mid (lo13 g) (up13 g) (n13 g) l)) (b mod n12 g)%nat (b / n12 g)%nat) * (1 * size12 R_ops g * size13 R_ops g)).
  { f_equal. apply Rtotal_ext. intros b _. rewrite !centre_mid by assumption. now rewrite <- E. }
  rewrite (grid_sum (n12 g) (n13 g) (fun k l => density c (mid (lo12 g) (up12 g) (n12 g) k) (mid (lo13 g) (up13 g) (n13 g) l)) N).
  rewrite Rtotal_mult_r. apply Rtotal_ext. intros l _. rewrite Rtotal_mult_r. apply Rtotal_ext. intros k _.
  destruct (size_R g) as [-> ->]. ring.
Qed.
Lemma cells_nonneg : forall c, (forall x y, 0 <= eff c x y) -> lo12 (range c) <= up12 (range c) -> lo13 (range c) <= up13 (range c) -> 0 <= cells c.
Proof.
  intros c E H1 H2. unfold cells. apply Rtotal_nonneg. intros l _. apply Rtotal_nonneg. intros k _.
  assert (D : forall a n, 0 <= a -> 0 <= a / INR n).
  { intros a n Ha. destruct n; [cbn; unfold Rdiv; rewrite Rinv_0; lra|]. apply Rmult_le_pos; [exact Ha|]. left. apply Rinv_0_lt_compat. apply lt_0_INR. lia. }
  apply Rmult_le_pos; [|apply Rmult_le_pos; apply D; lra]. unfold density. destruct (inside c _ _); [|lra].
  apply Rmult_le_pos; [apply pow2_ge_0|apply E].
Qed.

(** ** Evaluation from the kept waves *)
Lemma coherent_value : forall c k e x y, fresh c k -> nth_error (events c) e = Some (x, y) -> coherent R_ops c k e x y = density c x y.
Proof.
  intros c k e x y [FW _] E. unfold coherent, density. destruct (inside c x y) eqn:I; [|reflexivity].
  rewrite fold_total. change (AmpModel.c_zero R_ops) with (RtoC 0). rewrite Cplus_0_l. unfold intensity.
  replace (Ctotal (nres c) (fun i => c_mul (amp R_ops c i) (nth e (k_wave k i) (RtoC 0)))) with (amplitude c x y).
  - cbn [LeafGen.o_mul R_ops]. f_equal. destruct (amplitude c x y) as [a b]. unfold c_norm, Cmod. cbn [fst snd LeafGen.o_mul LeafGen.o_add R_ops]. rewrite pow2_sqrt by nra. ring.
  - unfold amplitude. apply Ctotal_ext. intros i _. unfold amp. change (c_mul ?a ?b) with (Cmult a b). f_equal. rewrite FW.
    symmetry. apply nth_error_nth. rewrite nth_error_map, E. cbn [option_map]. unfold wave. cbn [fst snd]. now rewrite I.
Qed.

(** ** Fit fractions *)
Lemma nth_map_seq : forall {A} (f : nat -> A) m i d, (i < m)%nat -> nth i (map f (seq 0 m)) d = f i.
Proof.
  intros A f m i d H. rewrite (nth_indep _ d (f 0%nat)) by (rewrite map_length, seq_length; exact H). rewrite map_nth. now rewrite seq_nth.
Qed.
Section FF.
Variables (coefs : list C) (w : nat -> list C) (N : nat).
Hypothesis LEN : forall i, (i < length coefs)%nat -> length (w i) = N.
Let n := length coefs.
Let a (i : nat) : C := nth i coefs (RtoC 0).
Let v (i e : nat) : C := nth e (w i) (RtoC 0).

Lemma combine_nth_error : forall {A B} (l : list A) (l' : list B) e x y, nth_error l e = Some x -> nth_error l' e = Some y -> nth_error (combine l l') e = Some (x, y).
Proof. induction l as [|p l IH]; intros [|q l'] [|e] x y H1 H2; cbn in *; try discriminate; [congruence|]. now apply IH. Qed.
Lemma r_sum_total : forall (l : list R) m f, length l = m -> (forall e x, nth_error l e = Some x -> x = f e) -> r_sum R_ops l = Rtotal m f.
Proof.
  intros l m f L H. assert (E : l = map f (seq 0 m)).
  { apply nth_error_ext. intro e. destruct (Nat.lt_ge_cases e m) as [He|He].
    - rewrite (nth_error_nth' (map f (seq 0 m)) 0) by (rewrite map_length, seq_length; exact He). rewrite nth_map_seq by exact He.
      destruct (nth_error l e) as [x|] eqn:E; [now rewrite (H e x E)|]. apply nth_error_None in E. lia.
    - rewrite (proj2 (nth_error_None l e)) by lia. symmetry. apply nth_error_None. rewrite map_length, seq_length. lia. }
  subst l. unfold r_sum, Rtotal. cbn [LeafGen.o_add LeafGen.o_zero R_ops]. apply fold_symmetric; intros; ring.
Qed.
Definition re_term (i j e : nat) : R := fst (Cmult (Cmult (a i) (v i e)) (Cconj (Cmult (a j) (v j e)))).
Lemma coef_sum_value : forall ci cj wi wj : C, coef_sum R_ops ci cj wi wj = fst (Cmult (Cmult ci wi) (Cconj (Cmult cj wj))).
Proof.
  intros [a1 a2] [b1 b2] [u1 u2] [z1 z2]. unfold coef_sum, AmpModel.c_mul, AmpModel.c_conj, Cmult, Cconj.
  cbn [LeafGen.o_mul LeafGen.o_add LeafGen.o_sub LeafGen.o_opp R_ops fst snd]. ring.
Qed.
Lemma buffer_value : forall i j, (i < n)%nat -> (j < n)%nat -> buffer R_ops coefs w i j = Rtotal N (re_term i j).
Proof.
  intros i j Hi Hj. unfold buffer. cbn [LeafGen.o_add LeafGen.o_zero R_ops]. rewrite Rplus_0_l. apply r_sum_total.
  - rewrite map_length, combine_length, !LEN by assumption. lia.
  - intros e x H. rewrite nth_error_map in H. match type of H with context [nth_error ?l e] => destruct (nth_error l e) as [[p q]|] eqn:E end; [|discriminate].
    cbn [option_map fst snd] in H; injection H as <-. cbn [fst snd]. assert (He : (e < N)%nat).
    { apply nth_error_Some_lt in E. rewrite combine_length, !LEN in E by assumption. lia. }
    assert (E1 : nth_error (w i) e = Some (v i e)) by (apply nth_error_nth'; rewrite LEN by assumption; exact He).
    assert (E2 : nth_error (w j) e = Some (v j e)) by (apply nth_error_nth'; rewrite LEN by assumption; exact He).
    assert (E3 : Some (p, q) = Some (v i e, v j e)) by (rewrite <- E; exact (combine_nth_error _ _ _ _ _ E1 E2)). injection E3 as -> ->. exact (coef_sum_value (a i) (a j) (v i e) (v j e)).
Qed.
Lemma fold_R2 : forall (f : nat -> nat -> R) m l s,
  fold_left (fun s i => fold_left (fun s j => LeafGen.o_add R_ops s (f i j)) (seq 0 m) s) l s = s + fold_right Rplus 0 (map (fun i => Rtotal m (f i)) l).
Proof.
  assert (G : forall (f : nat -> R) l s, fold_left (fun s j => LeafGen.o_add R_ops s (f j)) l s = s + fold_right Rplus 0 (map f l)).
  { induction l as [|x l IH]; intro s; cbn [fold_left map fold_right]; [ring|]. rewrite IH. cbn [LeafGen.o_add R_ops]. ring. }
  induction l as [|x l IH]; intro s; cbn [fold_left map fold_right]; [ring|]. rewrite IH, G. unfold Rtotal. ring.
Qed.
Lemma all_value : fold_left (fun s i => fold_left (fun s j => LeafGen.o_add R_ops s (buffer R_ops coefs w i j)) (seq 0 n) s) (seq 0 n) 0
  = total_intensity coefs w N.
Proof.
  rewrite fold_R2, Rplus_0_l. fold (Rtotal n (fun i => Rtotal n (buffer R_ops coefs w i))).
  rewrite (Rtotal_ext n _ (fun i => Rtotal n (fun j => Rtotal N (re_term i j)))) by (intros i Hi; apply Rtotal_ext; intros j Hj; now apply buffer_value).
  rewrite (Rtotal_ext n _ (fun i => Rtotal N (fun e => Rtotal n (fun j => re_term i j e)))) by (intros; apply Rtotal_swap).
  rewrite Rtotal_swap. unfold total_intensity. apply Rtotal_ext. intros e _.
  change (Cmod (event_amplitude coefs w e) ^ 2) with (fst (RtoC (Cmod (event_amplitude coefs w e) ^ 2))). rewrite <- mod_sq.
  unfold event_amplitude. rewrite Ctotal_conj, <- product_of_sums, Ctotal_re. fold n. apply Rtotal_ext. intros i _. rewrite Ctotal_re. reflexivity.
Qed.
Lemma entry_value : forall i j, (i < n)%nat -> (j < n)%nat -> (0 < n)%nat -> (0 < N)%nat ->
  entry (fit_fractions R_ops coefs w) i j = Rtotal N (re_term i j) / total_intensity coefs w N.
Proof.
  intros i j Hi Hj Hn HN. 
  change (entry (fit_fractions R_ops coefs w) i j) with
    (nth j (nth i (map (fun i => map (fun j => buffer R_ops coefs w i j / of_nat R_ops (length (w O)) /
      ((fold_left (fun s i => fold_left (fun s j => LeafGen.o_add R_ops s (buffer R_ops coefs w i j)) (seq 0 n) s) (seq 0 n) 0) / of_nat R_ops (length (w O)))) (seq 0 n)) (seq 0 n)) []) 0).
  rewrite nth_map_seq by exact Hi. rewrite nth_map_seq by exact Hj.
  rewrite all_value, buffer_value by assumption. rewrite LEN by exact Hn. unfold of_nat. cbn [LeafGen.o_ofZ R_ops]. rewrite <- INR_IZR_INZ.
  assert (INR N <> 0) by (apply not_0_INR; lia).
  destruct (Req_dec (total_intensity coefs w N) 0) as [Z|Z]; [rewrite Z; unfold Rdiv; rewrite Rmult_0_l, Rinv_0; ring|]. field. tauto.
Qed.
End FF.
