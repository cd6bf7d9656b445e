(** Proofs about DalitzPlotter. *)
From Coq Require Import Reals List Lra Lia ZArith Bool Psatz.
From Coquelicot Require Import Complex.
From Verif Require Import FormulaSpec AmpModel AmpSpec AmpProofs PlotModel.
From Verif Require LeafGen.
Import ListNotations.
Open Scope R_scope.

Lemma at_bin_mid : forall lo up n i, at_bin R_ops lo ((up - lo) / INR n) i = mid lo up n i.
Proof. intros. unfold at_bin, mid, of_nat. cbn [LeafGen.o_add LeafGen.o_mul LeafGen.o_half LeafGen.o_ofZ R_ops]. rewrite <- INR_IZR_INZ. ring. Qed.
Lemma point_mid : forall g ij, point R_ops g ij = (mid (lo12 g) (up12 g) (n12 g) (fst ij), mid (lo13 g) (up13 g) (n13 g) (snd ij)).
Proof. intros g ij. unfold point. destruct (size_R g) as [-> ->]. now rewrite !at_bin_mid. Qed.
Definition at_ (c : call (T := R)) (i j : nat) : R * R := (mid (lo12 (range c)) (up12 (range c)) (n12 (range c)) i, mid (lo13 (range c)) (up13 (range c)) (n13 (range c)) j).
Lemma bins_in : forall c i j, In (i, j) (bins R_ops (inside c) (range c)) <->
  (i < n12 (range c))%nat /\ (j < n13 (range c))%nat /\ inside c (fst (at_ c i j)) (snd (at_ c i j)) = true.
Proof.
  intros c i j. unfold bins. rewrite in_flat_map. split.
  - intros (a & A & H). rewrite in_flat_map in H. destruct H as (b & B & H). rewrite point_mid in H. cbn [fst snd] in H. apply in_seq in A, B.
    match type of H with In _ (if ?x then _ else _) => destruct x eqn:E end; [|destruct H]. destruct H as [H|[]]. injection H as -> ->. unfold at_. cbn [fst snd]. repeat split; [lia|lia|exact E].
  - intros (A & B & H). exists i. split; [apply in_seq; lia|]. rewrite in_flat_map. exists j. split; [apply in_seq; lia|]. rewrite point_mid. cbn [fst snd]. unfold at_ in H. cbn [fst snd] in H. rewrite H. now left.
Qed.
Lemma NoDup_flat : forall {A B} (f : A -> list B) l, NoDup l -> (forall a, In a l -> NoDup (f a)) -> (forall a b x, In x (f a) -> In x (f b) -> a = b) -> NoDup (flat_map f l).
Proof.
  intros A B f l N H D. induction N as [|a l NI N IH]; cbn [flat_map]; [constructor|].
  assert (X : forall l1 l2 : list B, NoDup l1 -> NoDup l2 -> (forall x, In x l1 -> ~ In x l2) -> NoDup (l1 ++ l2)).
  { induction l1 as [|y l1 IH1]; intros l2 N1 N2 DD; cbn [app]; [exact N2|]. inversion N1; subst. constructor.
    - rewrite in_app_iff. intros [Q|Q]; [contradiction|]. apply (DD y); [now left|exact Q].
    - apply IH1; [assumption|exact N2|]. intros x Hx. apply DD. now right. }
  apply X; [apply H; now left|apply IH; intros; apply H; now right|].
  intros x Hx Q. rewrite in_flat_map in Q. destruct Q as (b & Hb & Q). rewrite (D a b x Hx Q) in NI. contradiction.
Qed.
Lemma bins_nodup : forall ins g, NoDup (bins R_ops ins g).
Proof.
  intros ins g. unfold bins. apply NoDup_flat; [apply seq_NoDup| |].
  - intros a _. apply NoDup_flat; [apply seq_NoDup| |].
    + intros b _. destruct (point R_ops g (a, b)) as [x y]. destruct (ins x y); constructor; [tauto|constructor].
    + intros b b' x H H'. destruct (point R_ops g (a, b)) as [x0 y0]. destruct (point R_ops g (a, b')) as [x1 y1].
      destruct (ins x0 y0); [|destruct H]. destruct (ins x1 y1); [|destruct H']. destruct H as [<-|[]], H' as [H'|[]]. congruence.
  - intros a a' x H H'. rewrite in_flat_map in H, H'. destruct H as (b & _ & H), H' as (b' & _ & H'). destruct (point R_ops g (a, b)) as [x0 y0]. destruct (point R_ops g (a', b')) as [x1 y1].
    destruct (ins x0 y0); [|destruct H]. destruct (ins x1 y1); [|destruct H']. destruct H as [<-|[]], H' as [H'|[]]. congruence.
Qed.
(** Filling distinct bins. *)
Lemma fill_out : forall (l : list ((nat * nat) * R)) h a b, ~ In (a, b) (map fst l) ->
  fold_left (fun h bv => set_bin h (1 + fst (fst bv)) (1 + snd (fst bv)) (snd bv)) l h (S a) (S b) = h (S a) (S b).
Proof.
  induction l as [|[[i j] v] l IH]; intros h a b H; cbn [fold_left map fst snd] in *; [reflexivity|]. rewrite IH by (intro Q; apply H; now right).
  unfold set_bin. cbn [Nat.add Nat.eqb]. destruct (Nat.eqb a i && Nat.eqb b j)%bool eqn:E; [|reflexivity]. apply andb_true_iff in E as [E1 E2]. apply Nat.eqb_eq in E1, E2. subst. exfalso. apply H. now left.
Qed.
Lemma fill_edge : forall (l : list ((nat * nat) * R)) h a b, (a = 0 \/ b = 0)%nat ->
  fold_left (fun h bv => set_bin h (1 + fst (fst bv)) (1 + snd (fst bv)) (snd bv)) l h a b = h a b.
Proof.
  induction l as [|[[i j] v] l IH]; intros h a b H; cbn [fold_left]; [reflexivity|]. rewrite IH by exact H. unfold set_bin. cbn [fst snd Nat.add].
  destruct H as [->| ->]; cbn [Nat.eqb andb]; [reflexivity|]. now rewrite andb_false_r.
Qed.
Lemma fill_in : forall (l : list ((nat * nat) * R)) h a b v, NoDup (map fst l) -> In ((a, b), v) l ->
  fold_left (fun h bv => set_bin h (1 + fst (fst bv)) (1 + snd (fst bv)) (snd bv)) l h (S a) (S b) = v.
Proof.
  induction l as [|[[i j] w] l IH]; intros h a b v N H; cbn [fold_left map fst snd] in *; [destruct H|]. inversion N as [|? ? NI N']; subst. destruct H as [H|H].
  - injection H as -> -> ->. rewrite fill_out by exact NI. unfold set_bin. cbn [Nat.add]. now rewrite !Nat.eqb_refl.
  - now apply IH.
Qed.

Lemma nth_error_combine : forall {A B} (l : list A) (l' : list B) e x y, nth_error l e = Some x -> nth_error l' e = Some y -> nth_error (combine l l') e = Some (x, y).
Proof. intros A B l. induction l as [|a l IH]; intros [|b l'] [|e] x y H1 H2; cbn in *; try discriminate; [congruence|now apply IH]. Qed.
Section P.
Variables (c : call (T := R)) (k : kept (T := R)).
Let B := bins R_ops (inside c) (range c).
Let k' := fst (make_plotter R_ops c k).
Let p := snd (make_plotter R_ops c k).
Hypothesis SQ : n12 (range c) = n13 (range c). Hypothesis N0 : n12 (range c) <> 0%nat.
Lemma plot_fresh : fresh (plot_call R_ops c) k'. Proof. unfold k', make_plotter, normalize. cbn [fst]. now apply refresh_forced. Qed.
Lemma density_plot : forall x y, density (plot_call R_ops c) x y = density c x y. Proof. reflexivity. Qed.
Lemma plot_norm : snd (normalize R_ops (plot_call R_ops c) k) = cells c.
Proof.
  unfold normalize. cbv zeta. cbn [snd]. rewrite (sum_integral_value _ _ (refresh_forced (plot_call R_ops c) k eq_refl)). cbn [fst RtoC]. rewrite <- (cells_value c SQ N0). reflexivity.
Qed.
Lemma plot_bins : p_bins p = B. Proof. reflexivity. Qed.
Lemma plot_points : p_points p = map (fun ij => at_ c (fst ij) (snd ij)) B.
Proof. unfold p, make_plotter. destruct (normalize R_ops (plot_call R_ops c) k). cbn [snd p_points plot_call events]. apply map_ext. intro ij. apply point_mid. Qed.
Lemma plot_vals : p_vals p = map (fun ij => density c (fst (at_ c (fst ij) (snd ij))) (snd (at_ c (fst ij) (snd ij))) / cells c) B.
Proof.
  unfold p, make_plotter. pose proof plot_norm as NV. pose proof plot_fresh as F. unfold k', make_plotter in F. destruct (normalize R_ops (plot_call R_ops c) k) as [k1 n]. cbn [snd fst] in NV, F. subst n. cbn [snd p_vals].
  set (l := events (plot_call R_ops c)) in *. 
  assert (L : l = map (fun ij => at_ c (fst ij) (snd ij)) B) by (unfold l; cbn [plot_call events]; apply map_ext; intro; apply point_mid).
  transitivity (map (fun xy => density c (fst xy) (snd xy) / cells c) l).
  2:{ rewrite L, map_map. reflexivity. }
  assert (G : forall pre suf, l = pre ++ suf -> map (fun ep => LeafGen.o_mul R_ops (coherent R_ops (plot_call R_ops c) k1 (fst ep) (fst (snd ep)) (snd (snd ep))) (LeafGen.o_div R_ops (LeafGen.o_one R_ops) (cells c))) (combine (seq (length pre) (length suf)) suf)
     = map (fun xy => density c (fst xy) (snd xy) / cells c) suf).
  { intros pre suf. revert pre. induction suf as [|[x y] suf IH]; intros pre E; [reflexivity|]. cbn [length seq combine map fst snd]. f_equal.
    - rewrite (coherent_value _ _ _ _ _ F) by (fold l; rewrite E, nth_error_app2, Nat.sub_diag by lia; reflexivity). rewrite density_plot. cbn [LeafGen.o_mul LeafGen.o_div LeafGen.o_one R_ops]. unfold Rdiv. ring.
    - specialize (IH (pre ++ [(x, y)])). rewrite app_length in IH. cbn [length] in IH. rewrite Nat.add_1_r in IH. apply IH. rewrite <- app_assoc. exact E. }
  exact (G [] l eq_refl).
Qed.
Lemma plot_2d : forall i j, (i < n12 (range c))%nat -> (j < n13 (range c))%nat ->
  make_2d R_ops p (S i) (S j) = density c (fst (at_ c i j)) (snd (at_ c i j)) / cells c.
Proof.
  intros i j Hi Hj. unfold make_2d. rewrite plot_bins, plot_vals.
  set (f := fun ij : nat * nat => density c (fst (at_ c (fst ij) (snd ij))) (snd (at_ c (fst ij) (snd ij))) / cells c).
  assert (M : forall l, map fst (combine l (map f l)) = l) by (induction l as [|a l IH]; cbn; [reflexivity|now rewrite IH]).
  assert (I : forall l x, In x l -> In (x, f x) (combine l (map f l))) by (induction l as [|a l IH]; intros x H; [destruct H|]; destruct H as [->|H]; cbn; [now left|right; now apply IH]).
  destruct (inside c (fst (at_ c i j)) (snd (at_ c i j))) eqn:E.
  - apply (fill_in _ _ i j (f (i, j))); [rewrite M; apply bins_nodup|]. apply I. apply bins_in. now repeat split.
  - rewrite fill_out by (rewrite M; intro Q; apply bins_in in Q; destruct Q as (_ & _ & Q); congruence).
    unfold density. rewrite E. cbn [LeafGen.o_zero R_ops]. unfold Rdiv. ring.
Qed.
Lemma plot_2d_out : forall a b, (a = 0 \/ b = 0 \/ n12 (range c) < a \/ n13 (range c) < b)%nat -> make_2d R_ops p a b = 0.
Proof.
  intros a b H. destruct a as [|i]; [unfold make_2d; now rewrite fill_edge by tauto|]. destruct b as [|j]; [unfold make_2d; now rewrite fill_edge by tauto|].
  unfold make_2d. rewrite plot_bins, plot_vals. rewrite fill_out; [reflexivity|]. intro Q. rewrite in_map_iff in Q. destruct Q as ([ij v] & Q & I). cbn [fst] in Q. subst ij.
  apply in_combine_l in I. apply bins_in in I. lia.
Qed.
End P.
