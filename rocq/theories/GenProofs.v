(** Proofs about GenerateSig of Amp3Body. *)
From Coq Require Import Reals List Lra Lia ZArith Bool Psatz.
From Coquelicot Require Import Complex.
From Flocq Require Import Core.Raux.
From Verif Require Import FormulaSpec FormulaProofs KinModel KinSpec Dim5Model AmpModel AmpSpec AmpProofs GenModel.
From Verif Require LeafGen.
Import ListNotations.
Open Scope R_scope.

(** ** Strided copies *)
Section Strided.
Context {T : Type}.
Lemma put_length : forall (b : list T) i v, length (put b i v) = length b.
Proof. induction b as [|x b IH]; intros [|i] v; cbn; [reflexivity|reflexivity|reflexivity|now rewrite IH]. Qed.
Lemma put_same : forall (b : list T) i v d, (i < length b)%nat -> nth i (put b i v) d = v.
Proof. induction b as [|x b IH]; intros [|i] v d H; cbn in *; [lia|lia|reflexivity|]. apply IH. lia. Qed.
Lemma put_other : forall (b : list T) i j v d, i <> j -> nth j (put b i v) d = nth j b d.
Proof. induction b as [|x b IH]; intros [|i] [|j] v d H; cbn in *; try reflexivity; [congruence|]. apply IH. lia. Qed.
Definition copy_from (off stride s : nat) (src b : list T) : list T :=
  fold_left (fun b ev => put b (off + stride * fst ev) (snd ev)) (combine (seq s (length src)) src) b.
Lemma copy_from_length : forall off stride src s b, length (copy_from off stride s src b) = length b.
Proof.
  intros off stride src. unfold copy_from. induction src as [|x src IH]; intros s b; cbn [length seq combine fold_left]; [reflexivity|]. rewrite IH. apply put_length.
Qed.
Lemma copy_from_other : forall off stride src s b j d, (forall e, (s <= e < s + length src)%nat -> j <> (off + stride * e)%nat) -> nth j (copy_from off stride s src b) d = nth j b d.
Proof.
  intros off stride src. unfold copy_from. induction src as [|x src IH]; intros s b j d H; cbn [length seq combine fold_left fst snd] in *; [reflexivity|].
  rewrite IH by (intros e He; apply H; lia). apply put_other. intro E. apply (H s); [lia|now symmetry].
Qed.
Lemma copy_from_at : forall off stride src s b e d, (0 < stride)%nat -> (e < length src)%nat -> (off + stride * (s + e) < length b)%nat -> nth (off + stride * (s + e)) (copy_from off stride s src b) d = nth e src d.
Proof.
  intros off stride src. induction src as [|x src IH]; intros s b e d P L B; cbn [length] in L; [lia|]. unfold copy_from. cbn [length seq combine fold_left fst snd]. destruct e as [|e].
  - change (nth (off + stride * (s + 0)) (copy_from off stride (S s) src (put b (off + stride * s) x)) d = x). rewrite Nat.add_0_r in *. rewrite copy_from_other by (intros e He; nia). apply put_same. exact B.
  - change (nth (off + stride * (s + S e)) (copy_from off stride (S s) src (put b (off + stride * s) x)) d = nth e src d).
    replace (s + S e)%nat with (S s + e)%nat in * by lia. apply IH; [exact P|lia|]. rewrite put_length. exact B.
Qed.
End Strided.

Section Array.
Variable ds : list (daughters (T := R)).
Let n := length ds.
Lemma m12_len : length (sg_m12 R_ops ds) = n. Proof. apply map_length. Qed.
Lemma m13_len : length (sg_m13 R_ops ds) = n. Proof. apply map_length. Qed.
Lemma event_array_is : event_array R_ops ds = copy_from 2 3 0 (map (of_nat R_ops) (seq 0 n)) (copy_from 1 3 0 (sg_m13 R_ops ds) (copy_from 0 3 0 (sg_m12 R_ops ds) (repeat 0 (3 * n)))).
Proof. reflexivity. Qed.
Lemma nums_len : length (map (of_nat R_ops) (seq 0 n)) = n. Proof. now rewrite map_length, seq_length. Qed.
Lemma array_num : forall e, (e < n)%nat -> at_event R_ops (event_array R_ops ds) e 2 = INR e.
Proof.
  intros e H. unfold at_event. rewrite event_array_is. replace (e * 3 + 2)%nat with (2 + 3 * (0 + e))%nat by lia.
  rewrite copy_from_at; [|lia|rewrite nums_len; exact H|rewrite !copy_from_length, repeat_length; lia].
  rewrite nth_indep with (d' := of_nat R_ops 0) by (rewrite nums_len; exact H). rewrite map_nth, seq_nth by exact H. unfold of_nat. cbn [LeafGen.o_ofZ R_ops]. now rewrite <- INR_IZR_INZ.
Qed.
Lemma array_m13 : forall e, (e < n)%nat -> at_event R_ops (event_array R_ops ds) e 1 = nth e (sg_m13 R_ops ds) 0.
Proof.
  intros e H. unfold at_event. rewrite event_array_is. rewrite copy_from_other by (intros; lia). replace (e * 3 + 1)%nat with (1 + 3 * (0 + e))%nat by lia.
  rewrite copy_from_at; [reflexivity|lia|rewrite m13_len; exact H|rewrite !copy_from_length, repeat_length; lia].
Qed.
Lemma array_m12 : forall e, (e < n)%nat -> at_event R_ops (event_array R_ops ds) e 0 = nth e (sg_m12 R_ops ds) 0.
Proof.
  intros e H. unfold at_event. rewrite event_array_is. rewrite !copy_from_other by (intros; lia). replace (e * 3 + 0)%nat with (0 + 3 * (0 + e))%nat by lia.
  rewrite copy_from_at; [reflexivity|lia|rewrite m12_len; exact H|rewrite repeat_length; lia].
Qed.
Lemma array_number : forall e, (e < n)%nat -> (Z.of_nat n <= 2147483648)%Z -> event_number R_ops (event_array R_ops ds) e = Some e.
Proof.
  intros e H B. unfold event_number. rewrite array_num by exact H. cbn [LeafGen.o_floor LeafGen.o_half LeafGen.o_add R_ops]. unfold Rfloor_int.
  replace (Zfloor (/ 2 + INR e)) with (Z.of_nat e).
  - cbv zeta. replace (-2147483648 <=? Z.of_nat e)%Z with true by (symmetry; apply Z.leb_le; lia). replace (Z.of_nat e <=? 2147483647)%Z with true by (symmetry; apply Z.leb_le; lia). cbn [andb]. now rewrite Nat2Z.id.
  - symmetry. apply Zfloor_imp. rewrite plus_IZR, <- !INR_IZR_INZ. lra.
Qed.
End Array.

(** ** The squared pair masses *)
Lemma dim2_minv : forall p1 p2 p3, dim2 R_ops (p1, p2, p3) = (minv (vadd p1 p2), minv (vadd p2 p3), minv (vadd p1 p3)).
Proof.
  intros p1 p2 p3. unfold dim2. cbn [fst snd]. unfold v_mass2, v_mul, v_add, minv, vadd. cbn [vx vy vz ve LeafGen.o_sub LeafGen.o_mul LeafGen.o_add R_ops].
  repeat apply f_equal2; ring.
Qed.

(** The pair (m12^2, m13^2) of an event. *)
Definition point2 (d : daughters (T := R)) : R * R := let '(p1, p2, p3) := d in (minv (vadd p1 p2), minv (vadd p1 p3)).
Lemma nth_m12 : forall ds e d, nth_error ds e = Some d -> nth e (sg_m12 R_ops ds) 0 = fst (point2 d).
Proof. intros ds e [[p1 p2] p3] H. apply nth_error_nth. unfold sg_m12. rewrite nth_error_map, H. cbn [option_map]. now rewrite dim2_minv. Qed.
Lemma nth_m13 : forall ds e d, nth_error ds e = Some d -> nth e (sg_m13 R_ops ds) 0 = snd (point2 d).
Proof. intros ds e [[p1 p2] p3] H. apply nth_error_nth. unfold sg_m13. rewrite nth_error_map, H. cbn [option_map]. now rewrite dim2_minv. Qed.
Lemma map_seq_nth : forall {A B} (f : nat -> B) (g : A -> B) (l : list A), (forall e x, nth_error l e = Some x -> f e = g x) -> map f (seq 0 (length l)) = map g l.
Proof.
  intros A B f g l. assert (G : forall s, (forall e x, nth_error l e = Some x -> f (s + e)%nat = g x) -> map f (seq s (length l)) = map g l).
  { induction l as [|x l IH]; intros s H; cbn [length seq map]; [reflexivity|]. f_equal; [rewrite <- (H O x eq_refl); f_equal; lia|].
    apply IH. intros e y E. rewrite <- (H (S e) y E). f_equal. lia. }
  intros H. apply G. exact H.
Qed.
Lemma nth_error_lt : forall {A} (l : list A) e x, nth_error l e = Some x -> (e < length l)%nat.
Proof. intros A l e x H. apply nth_error_Some. congruence. Qed.
Lemma device_events_are : forall ds, device_events R_ops (event_array R_ops ds) (length ds) = map point2 ds.
Proof.
  intros ds. unfold device_events. apply map_seq_nth. intros e d H. pose proof (nth_error_lt _ _ _ H) as L. rewrite array_m12, array_m13 by exact L. rewrite (nth_m12 _ _ _ H), (nth_m13 _ _ _ H). now destruct (point2 d).
Qed.

Lemma all_some_map : forall {A B} (f : A -> option B) (g : A -> B) l, (forall x, In x l -> f x = Some (g x)) -> all_some (map f l) = Some (map g l).
Proof. intros A B f g l. induction l as [|x l IH]; intro H; cbn [map all_some]; [reflexivity|]. rewrite H by now left. rewrite IH by (intros y Hy; apply H; now right). reflexivity. Qed.

Section G.
Variables (c : call (T := R)) (k : kept (T := R)) (ds : list (daughters (T := R))).
Hypothesis BIG : (Z.of_nat (length ds) <= 2147483648)%Z.
Let k' := fst (normalize R_ops (gen_call R_ops c ds) k).
Lemma gen_fresh : fresh (gen_call R_ops c ds) k'. Proof. unfold k', normalize. cbn [fst]. now apply refresh_forced. Qed.
Lemma gen_events : events (gen_call R_ops c ds) = map point2 ds. Proof. apply device_events_are. Qed.
Lemma results_are : forall N, results R_ops c ds k' N = Some (map (fun d => density c (fst (point2 d)) (snd (point2 d)) / N) ds).
Proof.
  intros N. unfold results. cbv zeta.
  rewrite (all_some_map _ (fun e => density c (at_event R_ops (event_array R_ops ds) e 0) (at_event R_ops (event_array R_ops ds) e 1) / N)).
  - f_equal. apply map_seq_nth. intros e d H. pose proof (nth_error_lt _ _ _ H) as L. rewrite array_m12, array_m13 by exact L. now rewrite (nth_m12 _ _ _ H), (nth_m13 _ _ _ H).
  - intros e He. apply in_seq in He. rewrite array_number by (exact BIG || lia). f_equal.
    destruct (nth_error ds e) as [d|] eqn:E; [|apply nth_error_None in E; lia].
    rewrite array_m12, array_m13 by lia. rewrite (nth_m12 _ _ _ E), (nth_m13 _ _ _ E).
    rewrite (coherent_value _ _ e _ _ gen_fresh) by (rewrite gen_events, nth_error_map, E; cbn [option_map]; now destruct (point2 d)).
    cbn [LeafGen.o_mul LeafGen.o_div LeafGen.o_one R_ops]. change (density (gen_call R_ops c ds)) with (density c). unfold Rdiv. ring.
Qed.
End G.

(** The largest element. *)
Lemma max_fold : forall l m, let M := fold_left (fun m v => if LeafGen.o_lt R_ops m v then v else m) l m in m <= M /\ (forall x, In x l -> x <= M) /\ (M = m \/ In M l).
Proof.
  induction l as [|v l IH]; intros m; cbn [fold_left]; cbv zeta; [split; [lra|split; [intros x []|now left]]|].
  destruct (IH (if LeafGen.o_lt R_ops m v then v else m)) as (A & B & C). set (M := fold_left _ l _) in *. cbn [LeafGen.o_lt R_ops] in *.
  destruct (Rltb_spec m v) as [[E E']|[E E']]; rewrite E' in *.
  - split; [lra|]. split; [intros x [->|H]; [exact A|now apply B]|]. destruct C as [C|C]; [right; left; now symmetry|right; now right].
  - split; [exact A|]. split; [intros x [->|H0]; [lra|now apply B]|]. destruct C as [C|C]; [now left|right; now right].
Qed.
Lemma max_is : forall l, l <> [] -> exists M, max_element R_ops l = Some M /\ In M l /\ forall x, In x l -> x <= M.
Proof.
  intros [|v l] H; [congruence|]. destruct (max_fold l v) as (A & B & C). eexists. split; [reflexivity|]. split.
  - destruct C as [C|C]; [left; symmetry; exact C|right; exact C].
  - intros x [->|X]; [exact A|now apply B].
Qed.
