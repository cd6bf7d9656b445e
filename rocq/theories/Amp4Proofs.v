(** Proofs about the amplitude table and the caches of four-body amplitude PDFs. *)
From Coq Require Import Reals List Lra Lia Arith Bool.
From Coquelicot Require Import Complex.
From Verif Require Import FormulaSpec ListAux AmpModel AmpSpec AmpProofs Amp4Model Amp4Spec.
From Verif Require LeafGen.
Import ListNotations.
Open Scope nat_scope.

(** ** Lists *)
Lemma skipn_nth : forall {A} s (l : list A) d, nth 0 (skipn s l) d = nth s l d.
Proof. induction s as [|s IH]; intros [|x l] d; try reflexivity. cbn. apply IH. Qed.
Lemma skipn_S : forall {A} s (l : list A) x t, skipn s l = x :: t -> skipn (S s) l = t.
Proof. induction s as [|s IH]; intros [|y l] x t H; try discriminate; [now injection H|]. cbn in H |- *. now apply IH in H. Qed.
Lemma omap_seq : forall {B} (f : nat -> option B) (g : nat -> B) n s, (forall j, s <= j < s + n -> f j = Some (g j)) -> omap f (seq s n) = Some (map g (seq s n)).
Proof.
  induction n as [|n IH]; intros s H; [reflexivity|]. cbn [seq omap map]. rewrite (H s) by lia. cbn [obind]. rewrite IH; [reflexivity|]. intros j Hj. apply H. lia.
Qed.
Lemma map_part : forall {A B} (v : A -> B) (l : list A) d n s, s + n <= length l -> map (fun j => v (nth j l d)) (seq s n) = map v (firstn n (skipn s l)).
Proof.
  intros A B v l d n s H. revert s H. induction n as [|n IH]; intros s H; [reflexivity|]. cbn [seq map].
  destruct (skipn s l) as [|x t] eqn:E.
  - assert (L : length (skipn s l) = 0) by now rewrite E. rewrite skipn_length in L. lia.
  - cbn [firstn map]. assert (N : nth s l d = x). { pose proof (skipn_nth s l d) as Q. rewrite E in Q. symmetry. exact Q. }
    rewrite N. f_equal. rewrite IH by lia. now rewrite (skipn_S s l x t E).
Qed.
Lemma parts_fit : forall len n j, j < n -> j * (len / n) + len / n <= len.
Proof. intros len n j H. pose proof (Nat.mul_div_le len n ltac:(lia)). nia. Qed.
Lemma in_add_new : forall l k x, In x (add_new l k) <-> In x l \/ x = k.
Proof.
  intros l k x. unfold add_new. destruct (existsb (Nat.eqb k) l) eqn:E.
  - split; [tauto|]. intros [H | -> ]; [exact H|]. apply existsb_exists in E. destruct E as (y & Hy & E). apply Nat.eqb_eq in E. now subst.
  - rewrite in_app_iff. cbn. firstorder.
Qed.
Lemma in_fold_new : forall ks l x, In x (fold_left add_new ks l) <-> In x l \/ In x ks.
Proof. induction ks as [|k ks IH]; intros l x; cbn [fold_left]; [cbn; tauto|]. rewrite IH, in_add_new. cbn. firstorder. Qed.
Lemma shapes_in : forall amps a k, In a amps -> In k (a_ls a) -> In k (line_shapes amps).
Proof. intros. apply in_fold_new. right. apply in_flat_map. eauto. Qed.
Lemma spins_in : forall amps a k, In a amps -> In k (a_sf a) -> In k (spin_factors amps).
Proof. intros. apply in_fold_new. right. apply in_flat_map. eauto. Qed.
Lemma position_nth : forall l k i, position l k = Some i -> nth_error l i = Some k.
Proof.
  induction l as [|a l IH]; intros k i H; [discriminate|]. cbn in H. destruct (Nat.eqb k a) eqn:E.
  - injection H as <-. apply Nat.eqb_eq in E. now subst.
  - destruct (position l k) eqn:E2; [|discriminate]. injection H as <-. cbn. now apply IH.
Qed.
Lemma position_in : forall l k, In k l -> exists i, position l k = Some i.
Proof.
  induction l as [|a l IH]; intros k H; [destruct H|]. cbn. destruct (Nat.eqb k a) eqn:E; [eauto|]. destruct H as [->|H]; [now rewrite Nat.eqb_refl in E|].
  destruct (IH k H) as (i & ->). cbn. eauto.
Qed.
Lemma positions_nth : forall l ks j k, (forall k, In k ks -> In k l) -> nth_error ks j = Some k ->
  exists i, nth_error (positions l ks) j = Some i /\ nth_error l i = Some k.
Proof.
  induction ks as [|k0 ks IH]; intros j k H N; [now destruct j|]. unfold positions. cbn [flat_map].
  destruct (position_in l k0 (H k0 (or_introl eq_refl))) as (i & E). rewrite E. cbn [app]. destruct j as [|j].
  - cbn in N. injection N as <-. exists i. split; [reflexivity|]. now apply position_nth.
  - cbn in N |- *. apply IH; [|exact N]. intros. apply H. now right.
Qed.
Lemma positions_len : forall l ks, (forall k, In k ks -> In k l) -> length (positions l ks) = length ks.
Proof.
  induction ks as [|k ks IH]; intro H; [reflexivity|]. unfold positions. cbn [flat_map]. destruct (position_in l k (H k (or_introl eq_refl))) as (i & ->).
  cbn [app length]. f_equal. apply IH. intros. apply H. now right.
Qed.

(** ** The table *)
Definition good_table (td : bool) (amps : list amp4) (t : list nat) : Prop :=
  (forall i, i < length amps -> nth_error t i = Some (start td amps i)) /\
  forall i a j v, nth_error amps i = Some a -> nth_error (entries td amps a) j = Some v ->
  nth_error t (length amps + start td amps i + j) = Some v.

Lemma write_read : forall t off vals t', write t off vals = Some t' ->
  length t' = length t /\ (forall j v, nth_error vals j = Some v -> nth_error t' (off + j) = Some v) /\
  (forall j, j < off -> nth_error t' j = nth_error t j).
Proof.
  intros t off vals t' H. unfold write in H. destruct (Nat.leb _ _) eqn:E; [|discriminate]. injection H as <-. apply Nat.leb_le in E.
  assert (L : length (firstn off t) = off) by (rewrite firstn_length; lia). split; [|split].
  - rewrite !app_length, L, skipn_length. lia.
  - intros j v N. rewrite nth_error_app2 by lia. rewrite L. replace (off + j - off) with j by lia. rewrite nth_error_app1; [exact N|]. apply nth_error_Some. congruence.
  - intros j Hj. rewrite nth_error_app1 by lia. clear - Hj. revert t j Hj. induction off as [|off IH]; intros t j Hj; [lia|]. destruct t; [now destruct j|]. destruct j; [reflexivity|]. cbn. apply IH. lia.
Qed.
Lemma flat_nth : forall {A} (f : A -> list nat) l i a j v, nth_error l i = Some a -> nth_error (f a) j = Some v ->
  nth_error (flat_map f l) (length (flat_map f (firstn i l)) + j) = Some v.
Proof.
  intros A f l. induction l as [|b l IH]; intros i a j v Hi Hj; [now destruct i|]. destruct i as [|i].
  - cbn in Hi. injection Hi as ->. cbn. rewrite nth_error_app1; [exact Hj|]. apply nth_error_Some. congruence.
  - cbn in Hi |- *. rewrite app_length, <- Nat.add_assoc, nth_error_app2 by lia.
    replace (length (f b) + _ - length (f b)) with (length (flat_map f (firstn i l)) + j) by lia. eapply IH; eassumption.
Qed.
Lemma populate_good : forall td amps t t', (forall i, i < length amps -> nth_error t i = Some (start td amps i)) ->
  populate td t amps = Some t' -> good_table td amps t'.
Proof.
  intros td amps t t' S H. destruct (write_read _ _ _ _ H) as (_ & R & B). split.
  - intros i Hi. rewrite B by exact Hi. now apply S.
  - intros i a j v Ha Hv. rewrite <- Nat.add_assoc. apply R. unfold amp_idx, start. eapply flat_nth; eassumption.
Qed.
Lemma construct_good : forall td amps t t', construct td t amps = Some t' -> good_table td amps t'.
Proof.
  intros td amps t t' H. unfold construct in H. destruct (write t 0 (amp_idx_start td amps)) as [t1|] eqn:E; [|discriminate]. cbn [obind] in H.
  destruct (write_read _ _ _ _ E) as (_ & R & _). apply (populate_good td amps t1); [|exact H].
  intros i Hi. apply (R i). unfold amp_idx_start. rewrite (map_nth_error (start td amps) i (seq 0 (length amps)) (d := i)); [reflexivity|].
  rewrite (nth_error_nth' _ 0) by (rewrite seq_length; exact Hi). f_equal. apply seq_nth. exact Hi.
Qed.

(** ** One amplitude from a row of kept values *)
Section Row.
Variables (td : bool) (amps : list amp4) (t : list nat) (lsv : nat -> option (R * R)) (sfv : nat -> option R) (f : nat -> R * R) (g : nat -> R).
Hypothesis Ht : good_table td amps t.
Hypothesis Hls : forall j k, nth_error (line_shapes amps) j = Some k -> lsv j = Some (f k).
Hypothesis Hsf : forall j k, nth_error (spin_factors amps) j = Some k -> sfv j = Some (g k).

Definition row_amp (a : amp4) : C :=
  Cmult (RtoC (/ sqrt (INR (a_perm a))))
        (Ctotal (a_perm a) (fun j => Cmult (Cproduct (map f (part (a_ls a) (a_perm a) j)))
                                           (Cproduct (map (fun k => RtoC (g k)) (part (a_sf a) (a_perm a) j))))).

Lemma entries_at : forall a, In a amps ->
  nth_error (entries td amps a) 0 = Some (length (a_ls a)) /\ nth_error (entries td amps a) 1 = Some (length (a_sf a)) /\
  nth_error (entries td amps a) 2 = Some (a_perm a) /\
  (forall j k, nth_error (a_ls a) j = Some k -> exists i, nth_error (entries td amps a) (head td + j) = Some i /\ nth_error (line_shapes amps) i = Some k) /\
  (forall j k, nth_error (a_sf a) j = Some k -> exists i, nth_error (entries td amps a) (head td + length (a_ls a) + j) = Some i /\ nth_error (spin_factors amps) i = Some k).
Proof.
  intros a Ha.
  assert (L : forall k, In k (a_ls a) -> In k (line_shapes amps)) by (intros; eapply shapes_in; eassumption).
  assert (S : forall k, In k (a_sf a) -> In k (spin_factors amps)) by (intros; eapply spins_in; eassumption).
  assert (PL := positions_len _ _ L).
  repeat split; try (unfold entries; destruct td; reflexivity).
  - intros j k N. destruct (positions_nth _ _ _ _ L N) as (i & E & F). exists i. split; [|exact F].
    assert (B : j < length (positions (line_shapes amps) (a_ls a))) by (apply nth_error_Some; congruence).
    unfold entries, head. destruct td; cbn [app Nat.add nth_error]; rewrite nth_error_app1 by exact B; exact E.
  - intros j k N. destruct (positions_nth _ _ _ _ S N) as (i & E & F). exists i. split; [|exact F].
    unfold entries, head. destruct td; cbn [app Nat.add nth_error]; rewrite nth_error_app2 by lia; rewrite PL;
      replace (length (a_ls a) + j - length (a_ls a)) with j by lia; exact E.
Qed.

Lemma prod_ls : forall (l : list C) (z : C), fold_left (AmpModel.c_mul R_ops) l z = Cmult z (Cproduct l).
Proof.
  induction l as [|x l IH]; intros z; cbn [fold_left Cproduct fold_right]; [destruct z; unfold Cmult; cbn; f_equal; ring|].
  rewrite IH. unfold Cproduct. cbn [fold_right]. change (AmpModel.c_mul R_ops z x) with (Cmult z x). rewrite Cmult_assoc. reflexivity.
Qed.
Lemma scale_C : forall (z : C) (s : R), c_scale R_ops z s = Cmult z (RtoC s).
Proof. intros [a b] s. unfold c_scale, Cmult. cbn. f_equal; ring. Qed.
Lemma prod_sf : forall b l (z : C), fold_left (mul_sf b R_ops) l z = Cmult z (Cproduct (map RtoC l)).
Proof.
  intros b. induction l as [|x l IH]; intros z; cbn [fold_left map Cproduct fold_right]; [destruct z; unfold Cmult; cbn; f_equal; ring|].
  rewrite IH. unfold Cproduct. cbn [fold_right]. replace (mul_sf b R_ops z x) with (Cmult z (RtoC x)) by (unfold mul_sf; destruct b; [symmetry; apply scale_C|reflexivity]).
  rewrite Cmult_assoc. reflexivity.
Qed.
Lemma prod_scale : forall l (z : C), fold_left (c_scale R_ops) l z = Cmult z (Cproduct (map RtoC l)).
Proof.
  induction l as [|x l IH]; intros z; cbn [fold_left map Cproduct fold_right]; [destruct z; unfold Cmult; cbn; f_equal; ring|].
  rewrite IH. unfold Cproduct. cbn [fold_right]. rewrite scale_C, Cmult_assoc. reflexivity.
Qed.

Lemma read_ls : forall i a j, nth_error amps i = Some a -> j < length (a_ls a) ->
  (id <-- nth_error t (length amps + start td amps i + head td + j) ;; lsv id) = Some (f (nth j (a_ls a) 0)).
Proof.
  intros i a j Ha Hj. destruct (entries_at a (nth_error_In _ _ Ha)) as (_ & _ & _ & E & _).
  destruct (E j (nth j (a_ls a) 0) (nth_error_nth' _ _ Hj)) as (p & E1 & E2).
  rewrite <- (Nat.add_assoc _ (head td) j). rewrite (proj2 Ht i a _ p Ha E1). cbn [obind]. apply (Hls _ _ E2).
Qed.
Lemma read_sf : forall i a j, nth_error amps i = Some a -> j < length (a_sf a) ->
  (id <-- nth_error t (length amps + start td amps i + head td + length (a_ls a) + j) ;; sfv id) = Some (g (nth j (a_sf a) 0)).
Proof.
  intros i a j Ha Hj. destruct (entries_at a (nth_error_In _ _ Ha)) as (_ & _ & _ & _ & E).
  destruct (E j (nth j (a_sf a) 0) (nth_error_nth' _ _ Hj)) as (p & E1 & E2).
  rewrite <- 2(Nat.add_assoc (length amps + start td amps i)). rewrite (proj2 Ht i a _ p Ha E1). cbn [obind]. apply (Hsf _ _ E2).
Qed.

Lemma final_scale : forall (a : amp4) (F : nat -> C), a_perm a <> 0 ->
  c_scale R_ops (c_sum R_ops (map F (seq 0 (a_perm a)))) (LeafGen.o_div R_ops (LeafGen.o_one R_ops) (LeafGen.o_sqrt R_ops (of_nat R_ops (a_perm a)))) =
  Cmult (RtoC (/ sqrt (INR (a_perm a)))) (Ctotal (a_perm a) F).
Proof.
  intros a F Ha. rewrite sum_total, scale_C, Cmult_comm. f_equal. f_equal. unfold of_nat. cbn. rewrite <- INR_IZR_INZ.
  unfold Rdiv. apply Rmult_1_l.
Qed.

Lemma amp_calc_value : forall i a, nth_error amps i = Some a -> a_perm a <> 0 ->
  amp_calc td R_ops t (length amps) (start td amps i) (a_perm a) lsv sfv = Some (row_amp a).
Proof.
  intros i a Ha Hp. destruct (entries_at a (nth_error_In _ _ Ha)) as (E0 & E1 & _). unfold amp_calc.
  rewrite <- (Nat.add_0_r (length amps + start td amps i)) at 1. rewrite (proj2 Ht i a 0 _ Ha E0). cbn [obind].
  rewrite (proj2 Ht i a 1 _ Ha E1). cbn [obind]. destruct (Nat.eqb (a_perm a) 0) eqn:Z; [apply Nat.eqb_eq in Z; lia|].
  rewrite (omap_seq _ (fun j => Cmult (Cproduct (map f (part (a_ls a) (a_perm a) j))) (Cproduct (map (fun k => RtoC (g k)) (part (a_sf a) (a_perm a) j))))).
  - cbn [obind]. rewrite final_scale by exact Hp. reflexivity.
  - intros j Hj. pose proof (parts_fit (length (a_ls a)) (a_perm a) j ltac:(lia)) as F1. pose proof (parts_fit (length (a_sf a)) (a_perm a) j ltac:(lia)) as F2.
    rewrite (omap_seq _ (fun j => f (nth j (a_ls a) 0))) by (intros j' Hj'; apply read_ls; [exact Ha|lia]). cbn [obind].
    rewrite (omap_seq _ (fun j => g (nth j (a_sf a) 0))) by (intros j' Hj'; apply read_sf; [exact Ha|lia]). cbn [obind].
    f_equal. rewrite (map_part f _ 0 _ _ F1), (map_part g _ 0 _ _ F2). rewrite prod_ls, prod_sf, map_map. unfold c_one.
    change (LeafGen.o_one R_ops, LeafGen.o_zero R_ops) with (RtoC 1). rewrite Cmult_1_l. reflexivity.
Qed.
Lemma norm_amp_value : forall i a, td = false -> nth_error amps i = Some a -> a_perm a <> 0 ->
  norm_amp R_ops t (length amps) i lsv sfv = Some (row_amp a).
Proof.
  intros i a Htd Ha Hp. destruct (entries_at a (nth_error_In _ _ Ha)) as (E0 & E1 & E2 & _). unfold norm_amp.
  rewrite (proj1 Ht i) by (apply nth_error_Some; congruence). cbn [obind].
  rewrite <- (Nat.add_0_r (length amps + start td amps i)) at 1. rewrite (proj2 Ht i a 0 _ Ha E0). cbn [obind].
  rewrite (proj2 Ht i a 1 _ Ha E1). cbn [obind]. rewrite (proj2 Ht i a 2 _ Ha E2). cbn [obind].
  destruct (Nat.eqb (a_perm a) 0) eqn:Z; [apply Nat.eqb_eq in Z; lia|].
  assert (H3 : head td = 3) by now rewrite Htd.
  rewrite (omap_seq _ (fun j => Cmult (Cproduct (map f (part (a_ls a) (a_perm a) j))) (Cproduct (map (fun k => RtoC (g k)) (part (a_sf a) (a_perm a) j))))).
  - cbn [obind]. rewrite final_scale by exact Hp. reflexivity.
  - intros j Hj. pose proof (parts_fit (length (a_ls a)) (a_perm a) j ltac:(lia)) as F1. pose proof (parts_fit (length (a_sf a)) (a_perm a) j ltac:(lia)) as F2.
    rewrite (omap_seq _ (fun j => f (nth j (a_ls a) 0))) by (intros j' Hj'; rewrite <- H3; apply read_ls; [exact Ha|lia]). cbn [obind].
    rewrite (omap_seq _ (fun j => g (nth j (a_sf a) 0))) by (intros j' Hj'; rewrite <- H3; apply read_sf; [exact Ha|lia]). cbn [obind].
    f_equal. rewrite (map_part f _ 0 _ _ F1), (map_part g _ 0 _ _ F2). rewrite prod_ls, prod_scale, map_map. unfold c_one.
    change (LeafGen.o_one R_ops, LeafGen.o_zero R_ops) with (RtoC 1). rewrite Cmult_1_l. reflexivity.
Qed.
End Row.

Lemma only_good : forall td amps t, only_object td amps t -> good_table td amps t.
Proof. induction 1 as [t H|t t' _ IH H]; [eapply construct_good; exact H|]. apply (populate_good td amps t t'); [apply IH|exact H]. Qed.

(** ** The caches *)
Section Cache.
Context {P : Type}.
Variables (td : bool) (amps : list amp4) (mc : list P).
Hypothesis Hok : amps_ok amps.
Notation call := (call4 (T := R) (P := P)).
Notation kept := (kept4 (T := R)).

Definition fresh_ls (c : call) (ps : list P) (q : nat -> nat -> R * R) : Prop :=
  forall e p i key, nth_error ps e = Some p -> nth_error (line_shapes amps) i = Some key -> q e i = v_ls c key p.
Definition fresh_sf (c : call) (ps : list P) (q : nat -> nat -> R) : Prop :=
  forall e p i key, nth_error ps e = Some p -> nth_error (spin_factors amps) i = Some key -> q e i = v_sf c key p.
Definition fresh_amp (c : call) (q : nat -> nat -> R * R) : Prop :=
  forall e p i a, nth_error (evts c) e = Some p -> nth_error amps i = Some a -> q e i = amplitude_at c a p.

Lemma perm_ok : forall i a, nth_error amps i = Some a -> a_perm a <> 0.
Proof. intros i a H. unfold amps_ok in Hok. rewrite Forall_forall in Hok. apply Hok. eapply nth_error_In, H. Qed.
Lemma has_some : forall {B} (l : list nat) i k (f : nat -> B), nth_error l i = Some k -> has (length l) f i = Some (f i).
Proof. intros B l i k f H. unfold has. assert (L : i < length l) by (apply nth_error_Some; congruence). apply Nat.ltb_lt in L. now rewrite L. Qed.

Lemma fill_ls_fresh : forall b c ps old,
  force4 c = true \/ ((forall k, changed4 c k = false -> forall p, v_ls c k p = v_ls b k p) /\ fresh_ls b ps old) ->
  fresh_ls c ps (fill_ls amps c ps (shape_redo amps c) old).
Proof.
  intros b c ps old H e p i key Hp Hk. unfold fill_ls, shape_redo, LS. rewrite Hk. unfold at_point. rewrite Hp. destruct H as [->|[H F]]; [reflexivity|].
  destruct (force4 c); [reflexivity|]. cbn [orb]. destruct (changed4 c key) eqn:E; [reflexivity|]. rewrite (F e p i key Hp Hk). symmetry. now apply H.
Qed.
Lemma fill_sf_fresh : forall b c ps old,
  force4 c = true \/ ((forall k p, v_sf c k p = v_sf b k p) /\ fresh_sf b ps old) -> fresh_sf c ps (fill_sf amps c ps old).
Proof.
  intros b c ps old H e p i key Hp Hk. unfold fill_sf, SF. rewrite Hk. unfold at_point. rewrite Hp. destruct H as [->|[H F]]; [reflexivity|].
  destruct (force4 c); [reflexivity|]. rewrite (F e p i key Hp Hk). symmetry. now apply H.
Qed.

Lemma row_is : forall (c : call) a p, row_amp (fun k => v_ls c k p) (fun k => v_sf c k p) a = amplitude_at c a p.
Proof. reflexivity. Qed.
Lemma calc_value : forall t c ls sf e p i a, good_table td amps t -> fresh_ls c (evts c) ls -> fresh_sf c (evts c) sf ->
  nth_error (evts c) e = Some p -> nth_error amps i = Some a -> calc td R_ops amps t ls sf e i = Some (amplitude_at c a p).
Proof.
  intros t c ls sf e p i a G FL FS Hp Ha. unfold calc. rewrite Ha. cbn [obind].
  rewrite (amp_calc_value td amps t _ _ (fun k => v_ls c k p) (fun k => v_sf c k p) G); [reflexivity| | |exact Ha|eapply perm_ok, Ha].
  - intros j k Hk. unfold LS. rewrite (has_some _ _ _ _ Hk). f_equal. now apply (FL e p j k).
  - intros j k Hk. unfold SF. rewrite (has_some _ _ _ _ Hk). f_equal. now apply (FS e p j k).
Qed.
Lemma fill_amp_value : forall t c redo ls sf old, good_table td amps t -> fresh_ls c (evts c) ls -> fresh_sf c (evts c) sf ->
  exists am, fill_amp td R_ops amps t c redo ls sf old = Some am /\
  forall e p i a, nth_error (evts c) e = Some p -> nth_error amps i = Some a -> am e i = if redo i then amplitude_at c a p else old e i.
Proof.
  intros t c redo ls sf old G FL FS.
  destruct (evts c) as [|p0 ps] eqn:Ev.
  { eexists. split; [unfold fill_amp; rewrite Ev; reflexivity|]. intros [|e] p i a H; discriminate. }
  rewrite <- Ev in *.
  set (val := fun (e i : nat) => (if redo i then amplitude_at c (nth i amps (mkAmp4 [] [] 1 0)) (nth e (evts c) p0) else old e i) : R * R).
  assert (V : omap (fun e => omap (fun i => if redo i then calc td R_ops amps t ls sf e i else Some (old e i)) (seq 0 (length amps))) (seq 0 (length (evts c))) =
              Some (map (fun e => map (val e) (seq 0 (length amps))) (seq 0 (length (evts c))))).
  { apply omap_seq. intros e He. apply omap_seq. intros i Hi. unfold val. destruct (redo i); [|reflexivity].
    apply calc_value; try assumption; apply nth_error_nth'; lia. }
  eexists. split; [unfold fill_amp; rewrite V; reflexivity|]. intros e p i a He Ha.
  assert (Le : e < length (evts c)) by (apply nth_error_Some; congruence).
  assert (Li : i < length amps) by (apply nth_error_Some; congruence).
  cbn beta. rewrite (nth_map_seq (fun e => map (val e) (seq 0 (length amps))) (length (evts c)) e [] Le). rewrite (nth_map_seq (val e)) by exact Li.
  unfold val. rewrite (nth_error_nth _ _ _ Ha), (nth_error_nth _ _ _ He). reflexivity.
Qed.

(** *** Normalisation over the events of the object *)
Lemma norm_event_value : forall t c ls sf e p, td = false -> good_table td amps t -> fresh_ls c mc ls -> fresh_sf c mc sf ->
  nth_error mc e = Some p -> length (coef4 c) = length amps ->
  norm_event R_ops t (coef4 c) (has (length (LS amps)) (ls e)) (has (length (SF amps)) (sf e)) = Some (intensity_at amps c p).
Proof.
  intros t c ls sf e p Htd G FL FS Hp Hc. unfold norm_event. rewrite Hc.
  rewrite (omap_seq _ (fun i => Cmult (amplitude_at c (nth i amps (mkAmp4 [] [] 1 0)) p) (nth i (coef4 c) (RtoC 0)))).
  - cbn [obind]. rewrite sum_total. unfold intensity_at. f_equal.
    rewrite (Ctotal_ext _ _ (fun i => Cmult (nth i (coef4 c) (RtoC 0)) (amplitude_at c (nth i amps (mkAmp4 [] [] 1 0)) p))) by (intros; apply Cmult_comm).
    generalize (Ctotal (length amps) (fun i => Cmult (nth i (coef4 c) (RtoC 0)) (amplitude_at c (nth i amps (mkAmp4 [] [] 1 0)) p))). intro z.
    pose proof (mod_sq z) as M. apply (f_equal fst) in M. destruct z as [x y]. unfold Cmult, Cconj in M. cbn [fst snd RtoC] in M. rewrite <- M. unfold c_norm. cbn. ring.
  - intros i Hi. assert (Ha : nth_error amps i = Some (nth i amps (mkAmp4 [] [] 1 0))) by (apply nth_error_nth'; lia).
    assert (L1 : forall j k, nth_error (line_shapes amps) j = Some k -> has (length (LS amps)) (ls e) j = Some (v_ls c k p)).
    { intros j k Hk. unfold LS. rewrite (has_some _ _ _ _ Hk). f_equal. now apply (FL e p j k). }
    assert (L2 : forall j k, nth_error (spin_factors amps) j = Some k -> has (length (SF amps)) (sf e) j = Some (v_sf c k p)).
    { intros j k Hk. unfold SF. rewrite (has_some _ _ _ _ Hk). f_equal. now apply (FS e p j k). }
    rewrite (norm_amp_value td amps t _ _ (fun k => v_ls c k p) (fun k => v_sf c k p) G L1 L2 i _ Htd Ha (perm_ok _ _ Ha)). reflexivity.
Qed.
Lemma norm_value : forall t c ls sf, td = false -> good_table td amps t -> fresh_ls c mc ls -> fresh_sf c mc sf -> length (coef4 c) = length amps ->
  (vs <-- omap (fun e => norm_event R_ops t (coef4 c) (has (length (LS amps)) (ls e)) (has (length (SF amps)) (sf e))) (seq 0 (length mc)) ;;
   Some (LeafGen.o_div R_ops (r_sum R_ops vs) (of_nat R_ops (length mc)))) = Some (mean mc (intensity_at amps c)).
Proof.
  intros t c ls sf Htd G FL FS Hc. destruct mc as [|p0 ps] eqn:Em.
  { cbn [length seq omap obind]. unfold mean, of_nat, r_sum. cbn. reflexivity. }
  rewrite <- Em in *.
  rewrite (omap_seq _ (fun e => intensity_at amps c (nth e mc p0))).
  - cbn [obind]. f_equal. unfold mean. cbn [LeafGen.o_div R_ops]. f_equal.
    + rewrite (r_sum_total [] _ (length mc) (fun e => intensity_at amps c (nth e mc p0))).
      * unfold Rtotal. f_equal. rewrite (map_part (intensity_at amps c) mc p0) by lia. cbn [skipn]. now rewrite firstn_all.
      * now rewrite map_length, seq_length.
      * intros e x H. assert (L : e < length mc). { assert (L : e < length (map (fun e => intensity_at amps c (nth e mc p0)) (seq 0 (length mc)))) by (apply nth_error_Some; congruence). now rewrite map_length, seq_length in L. }
        apply nth_error_nth with (d := 0%R) in H. rewrite nth_map_seq in H by exact L. now symmetry.
    + unfold of_nat. cbn. now rewrite <- INR_IZR_INZ.
  - intros e He. apply norm_event_value; try assumption. apply nth_error_nth'. lia.
Qed.

Lemma part_in : forall {A} (l : list A) n j x, In x (part l n j) -> In x l.
Proof.
  intros A l n j x. unfold part. generalize (length l / n) as m. intro m. generalize (j * m) as s. intros s H.
  rewrite <- (firstn_skipn s l). apply in_or_app. right. rewrite <- (firstn_skipn m (skipn s l)). apply in_or_app. now left.
Qed.

(** *** One call *)
Definition sized (k : kept) : Prop :=
  length (q_redo k) = length amps /\ forall i, length (line_shapes amps) <= i < length amps -> nth i (q_redo k) false = true.
Definition data (c : call) (k : kept) : Prop := fresh_ls c (evts c) (q_ls k) /\ fresh_sf c (evts c) (q_sf k).
Definition sample (c : call) (k : kept) : Prop := q_nonorm k = false -> fresh_ls c mc (q_nls k) /\ fresh_sf c mc (q_nsf k).
Definition ready (Q : call -> kept -> Prop) (b c : call) (k : kept) : Prop := force4 c = true \/ (announced4 b c /\ Q b k).

Lemma ready_data : forall (b c : call) (k : kept), ready data b c k ->
  fresh_ls c (evts c) (fill_ls amps c (evts c) (shape_redo amps c) (q_ls k)) /\ fresh_sf c (evts c) (fill_sf amps c (evts c) (q_sf k)).
Proof.
  intros b c k [F|[[F|(E & S & L)] (B1 & B2)]]; try (split; solve [apply (fill_ls_fresh c); now left | apply (fill_sf_fresh c); now left]).
  rewrite <- E in B1, B2. split; [apply (fill_ls_fresh b)|apply (fill_sf_fresh b)]; right; split; assumption.
Qed.
Lemma ready_sample : forall (b c : call) (k : kept), ready sample b c k -> q_nonorm k = false ->
  fresh_ls c mc (fill_ls amps c mc (shape_redo amps c) (q_nls k)) /\ fresh_sf c mc (fill_sf amps c mc (q_nsf k)).
Proof.
  intros b c k [F|[[F|(E & S & L)] B]] N; try (split; solve [apply (fill_ls_fresh c); now left | apply (fill_sf_fresh c); now left]).
  destruct (B N) as (B1 & B2). split; [apply (fill_ls_fresh b)|apply (fill_sf_fresh b)]; right; split; assumption.
Qed.

Lemma flag_at : forall (c : call) (k : kept) i, sized k -> i < length amps -> length (line_shapes amps) <= length amps ->
  nth i (map (shape_redo amps c) (seq 0 (length (LS amps))) ++ skipn (length (LS amps)) (q_redo k)) false =
  if Nat.ltb i (length (line_shapes amps)) then shape_redo amps c i else true.
Proof.
  intros c k i (S1 & S2) Hi HL. unfold LS. destruct (Nat.ltb i (length (line_shapes amps))) eqn:E.
  - apply Nat.ltb_lt in E. rewrite app_nth1 by (rewrite map_length, seq_length; exact E). now apply nth_map_seq.
  - apply Nat.ltb_ge in E. rewrite app_nth2 by (rewrite map_length, seq_length; lia). rewrite map_length, seq_length.
    rewrite <- (S2 i) by lia. generalize (length (line_shapes amps)) E. intros n. generalize (q_redo k). clear. induction i as [|i IH] in n |- *; intros l Hn.
    + now replace n with 0 by lia.
    + destruct n as [|n]; [now rewrite Nat.sub_0_r|]. destruct l as [|b l]; [cbn; now destruct (i - n)|]. cbn [skipn nth Nat.sub]. apply IH. lia.
Qed.

Lemma step : forall b t c k, td = false -> good_table td amps t -> sized k -> length (line_shapes amps) <= length amps -> ready data b c k -> ready sample b c k ->
  length (coef4 c) = length amps ->
  exists k' r, normalize4 td R_ops amps mc t c k = Some (k', r) /\ sized k' /\ data c k' /\ sample c k' /\ q_nonorm k' = (q_nonorm k || generating c)%bool /\
  r = (if q_nonorm k' then 1%R else mean mc (intensity_at amps c)) /\
  (matched amps c -> ready (fun b k => fresh_amp b (q_amp k)) b c k -> fresh_amp c (q_amp k')) /\
  (forall e p i a key, nth_error (evts c) e = Some p -> nth_error amps i = Some a -> nth_error (line_shapes amps) i = Some key ->
   force4 c = false -> changed4 c key = false -> q_amp k' e i = q_amp k e i).
Proof.
  intros b t c k Htd G S HL HR HS Hc. destruct (ready_data b c k HR) as (D1 & D2). pose proof (ready_sample b c k HS) as D3. destruct S as (S1 & S2). unfold normalize4, flags.
  assert (Lb : Nat.leb (length (LS amps)) (length (q_redo k)) = true) by (apply Nat.leb_le; unfold LS; lia). rewrite Lb. cbn [obind].
  set (fl := map (shape_redo amps c) (seq 0 (length (LS amps))) ++ skipn (length (LS amps)) (q_redo k)).
  destruct (fill_amp_value t c (fun i => nth i fl false) _ _ (q_amp k) G D1 D2) as (am & E & A). rewrite E. cbn [obind].
  assert (SZ : length fl = length amps) by (unfold fl, LS; rewrite app_length, map_length, seq_length, skipn_length; lia).
  assert (SB : forall i, length (line_shapes amps) <= i < length amps -> nth i fl false = true).
  { intros i Hi. unfold fl. rewrite (flag_at c k i (conj S1 S2)) by lia. replace (Nat.ltb i _) with false by (symmetry; apply Nat.ltb_ge; lia). reflexivity. }
  assert (AM : matched amps c -> ready (fun b k => fresh_amp b (q_amp k)) b c k -> fresh_amp c am).
  { intros M Old e p i a He Ha. rewrite (A e p i a He Ha). assert (Li : i < length amps) by (apply nth_error_Some; congruence).
    unfold fl. rewrite (flag_at c k i (conj S1 S2) Li HL). destruct (Nat.ltb i _) eqn:EL; [|reflexivity]. unfold shape_redo, LS.
    destruct (force4 c) eqn:EF; [reflexivity|]. cbn [orb]. destruct M as [M|M]; [congruence|].
    destruct (nth_error (line_shapes amps) i) as [k'|] eqn:EK; [|apply Nat.ltb_lt, nth_error_Some in EL; congruence].
    destruct (changed4 c k') eqn:EC; [reflexivity|]. destruct Old as [?|[[?|(E1 & E2 & E3)] FA]]; try congruence.
    rewrite E1 in He. rewrite (FA e p i a He Ha).
    assert (U : forall k, In k (a_ls a) -> changed4 c k = false).
    { intros k2 Hk2. destruct (changed4 c k2) eqn:EQ; [|reflexivity]. specialize (M i a k2 Ha Hk2 EQ). rewrite EK in M. congruence. }
    unfold amplitude_at. f_equal. apply Ctotal_ext. intros j Hj. f_equal; f_equal; apply map_ext_in.
    - intros k2 Hk2. symmetry. apply E3, U. eapply part_in, Hk2.
    - intros k2 _. now rewrite E2. }
  assert (ST : forall e p i a key, nth_error (evts c) e = Some p -> nth_error amps i = Some a -> nth_error (line_shapes amps) i = Some key ->
    force4 c = false -> changed4 c key = false -> am e i = q_amp k e i).
  { intros e p i a key He Ha Hk F0 C0. rewrite (A e p i a He Ha). assert (Li : i < length amps) by (apply nth_error_Some; congruence).
    unfold fl. rewrite (flag_at c k i (conj S1 S2) Li HL). replace (Nat.ltb i _) with true by (symmetry; apply Nat.ltb_lt, nth_error_Some; congruence).
    unfold shape_redo, LS. now rewrite Hk, F0, C0. }
  destruct (q_nonorm k || generating c)%bool eqn:EN.
  - cbn [obind]. eexists _, _. split; [reflexivity|]. cbn [q_redo q_nonorm q_amp]. split; [split; assumption|].
    split; [split; assumption|]. split; [discriminate|]. split; [reflexivity|]. split; [reflexivity|]. split; [exact AM|exact ST].
  - apply orb_false_iff in EN. destruct (D3 (proj1 EN)) as (N1 & N2). rewrite (norm_value t c _ _ Htd G N1 N2 Hc). cbn [obind].
    eexists _, _. split; [reflexivity|]. cbn [q_redo q_nonorm q_amp q_ls q_sf q_nls q_nsf]. split; [split; assumption|].
    split; [split; assumption|]. split; [intros _; split; assumption|]. split; [reflexivity|]. split; [reflexivity|]. split; [exact AM|exact ST].
Qed.

Lemma step_TD : forall b t c k, good_table td amps t -> ready data b c k -> ready (fun b k => fresh_amp b (q_amp k)) b c k ->
  exists k', normalize4_TD td R_ops amps t c k = Some k' /\ data c k' /\ fresh_amp c (q_amp k').
Proof.
  intros b t c k G HR Old. destruct (ready_data b c k HR) as (D1 & D2). unfold normalize4_TD.
  destruct (fill_amp_value t c (amp_changed amps c) _ _ (q_amp k) G D1 D2) as (am & E & A). rewrite E. cbn [obind].
  eexists. split; [reflexivity|]. cbn [q_amp]. split; [split; assumption|].
  intros e p i a He Ha. rewrite (A e p i a He Ha). unfold amp_changed. rewrite Ha. destruct (force4 c) eqn:EF; [reflexivity|]. cbn [orb].
  destruct (existsb (changed4 c) (a_ls a)) eqn:EX; [reflexivity|]. destruct Old as [?|[[?|(E1 & E2 & E3)] FA]]; try congruence.
  rewrite E1 in He. rewrite (FA e p i a He Ha).
  assert (U : forall k, In k (a_ls a) -> changed4 c k = false).
  { intros k2 Hk2. destruct (changed4 c k2) eqn:EQ; [|reflexivity]. rewrite <- EX. symmetry. apply existsb_exists. eauto. }
  unfold amplitude_at. f_equal. apply Ctotal_ext. intros j Hj. f_equal; f_equal; apply map_ext_in.
  - intros k2 Hk2. symmetry. apply E3, U. eapply part_in, Hk2.
  - intros k2 _. now rewrite E2.
Qed.

(** *** A history *)
Definition fits (tc : list nat * call) : Prop := only_object td amps (fst tc) /\ length (coef4 (snd tc)) = length amps.
Definition amp_kept (c : call) (k : kept) : Prop := fresh_amp c (q_amp k).

Lemma run_all : forall cs t c b k r, td = false -> length (line_shapes amps) <= length amps -> sized k -> ready data b c k -> ready sample b c k ->
  all_announced4 (map snd ((t, c) :: cs)) -> Forall fits ((t, c) :: cs) ->
  exists k' r', calls4 td R_ops amps mc ((t, c) :: cs) k r = Some (k', Some r') /\ sized k' /\ data (last (map snd cs) c) k' /\ sample (last (map snd cs) c) k' /\
  q_nonorm k' = (q_nonorm k || existsb generating (map snd ((t, c) :: cs)))%bool /\
  r' = (if q_nonorm k' then 1%R else mean mc (intensity_at amps (last (map snd cs) c))) /\
  (Forall (matched amps) (map snd ((t, c) :: cs)) -> ready amp_kept b c k -> amp_kept (last (map snd cs) c) k').
Proof.
  induction cs as [|(t2 & c2) cs IH]; intros t c b k r Htd HL S D M A F; inversion F as [|? ? (O & Hc) F']; subst.
  - destruct (step b t c k Htd (only_good _ _ _ O) S HL D M Hc) as (k' & r' & E & S1 & D1 & M1 & N & R & Am & _).
    exists k', r'. cbn [calls4]. rewrite E. cbn [obind fst snd calls4]. split; [reflexivity|]. cbn [map snd existsb last]. rewrite orb_false_r. do 3 (split; [assumption|]).
    split; [exact N|]. split; [exact R|]. intros HM HA. inversion HM; subst. now apply Am.
  - destruct (step b t c k Htd (only_good _ _ _ O) S HL D M Hc) as (k1 & r1 & E & S1 & D1 & M1 & N & R & Am & _).
    cbn [map snd] in A. destruct A as (A1 & A2).
    destruct (IH t2 c2 c k1 (Some r1) Htd HL S1 (or_intror (conj A1 D1)) (or_intror (conj A1 M1)) A2 F') as (k2 & r2 & E2 & S2 & D2 & M2 & N2 & R2 & Am2).
    exists k2, r2. replace (calls4 td R_ops amps mc ((t, c) :: (t2, c2) :: cs) k r) with (calls4 td R_ops amps mc ((t2, c2) :: cs) k1 (Some r1))
      by (symmetry; cbn [calls4]; rewrite E; reflexivity).
    split; [exact E2|]. replace (last (map snd ((t2, c2) :: cs)) c) with (last (map snd cs) c2).
    2: { cbn [map snd]. clear. generalize (map snd cs). intros l. destruct l as [|x l]; [reflexivity|]. revert x. induction l as [|y l IH]; intro x; [reflexivity|]. cbn [last] in *. apply (IH y). }
    do 3 (split; [assumption|]). split; [|split; [exact R2|]].
    + rewrite N2, N. cbn [map snd existsb]. now rewrite !orb_assoc.
    + intros HM HA. inversion HM; subst. apply Am2; [assumption|]. right. split; [exact A1|]. apply Am; assumption.
Qed.
Lemma run_all_TD : forall cs t c b k, ready data b c k -> ready amp_kept b c k -> all_announced4 (map snd ((t, c) :: cs)) -> Forall fits ((t, c) :: cs) ->
  exists k', calls4_TD td R_ops amps ((t, c) :: cs) k = Some k' /\ amp_kept (last (map snd cs) c) k'.
Proof.
  induction cs as [|(t2 & c2) cs IH]; intros t c b k D Am A F; inversion F as [|? ? (O & Hc) F']; subst.
  - destruct (step_TD b t c k (only_good _ _ _ O) D Am) as (k' & E & _ & Am'). exists k'. cbn [calls4_TD]. rewrite E. cbn [obind]. split; [reflexivity|]. exact Am'.
  - destruct (step_TD b t c k (only_good _ _ _ O) D Am) as (k1 & E & D1 & Am1). cbn [map snd] in A. destruct A as (A1 & A2).
    destruct (IH t2 c2 c k1 (or_intror (conj A1 D1)) (or_intror (conj A1 Am1)) A2 F') as (k2 & E2 & Am2).
    exists k2. cbn [calls4_TD] in E2 |- *. rewrite E. cbn [obind]. split; [exact E2|]. replace (last (map snd ((t2, c2) :: cs)) c) with (last (map snd cs) c2); [exact Am2|].
    cbn [map snd]. clear. generalize (map snd cs). intros l. destruct l as [|x l]; [reflexivity|]. revert x. induction l as [|y l IH]; intro x; [reflexivity|]. cbn [last] in *. apply (IH y).
Qed.
Lemma sized0 : sized (kept40 R_ops amps).
Proof.
  split; [apply repeat_length|]. intros i Hi. unfold kept40. cbn [q_redo]. assert (G : forall n, i < n -> nth i (repeat true n) false = true); [|apply G; lia].
  clear. induction i as [|i IH]; intros [|n] H; try lia; [reflexivity|]. cbn. apply IH. lia.
Qed.

Lemma history_run : forall cs t c, td = false -> length (line_shapes amps) <= length amps -> history td amps (cs ++ [(t, c)]) ->
  exists k r, calls4 td R_ops amps mc (cs ++ [(t, c)]) (kept40 R_ops amps) None = Some (k, Some r) /\ sized k /\ data c k /\ sample c k /\
  r = (if existsb generating (map snd (cs ++ [(t, c)])) then 1%R else mean mc (intensity_at amps c)) /\
  (Forall (matched amps) (map snd (cs ++ [(t, c)])) -> fresh_amp c (q_amp k)).
Proof.
  intros cs t c Htd HL ((F & A) & H). destruct (cs ++ [(t, c)]) as [|(t0 & c0) l] eqn:E; [now destruct cs|]. cbn [map snd] in F.
  assert (LA : last (map snd l) c0 = c).
  { assert (LA : last (map snd ((t0, c0) :: l)) c0 = c) by (rewrite <- E, map_app; apply last_last). cbn [map snd] in LA. destruct (map snd l); exact LA. }
  destruct (run_all l t0 c0 c0 (kept40 R_ops amps) None Htd HL sized0 (or_introl F) (or_introl F) A H) as (k & r & E1 & S1 & D1 & M1 & N & R & Am).
  exists k, r. split; [exact E1|]. rewrite LA in R, Am, D1, M1. do 3 (split; [assumption|]). cbn [kept40 q_nonorm orb] in N. rewrite N in R. split; [exact R|]. intro M. apply Am; [exact M|now left].
Qed.
Lemma calls4_app : forall l1 l2 k r, calls4 td R_ops amps mc (l1 ++ l2) k r = (kr <-- calls4 td R_ops amps mc l1 k r ;; calls4 td R_ops amps mc l2 (fst kr) (snd kr)).
Proof. induction l1 as [|(t & c) l1 IH]; intros l2 k r; [reflexivity|]. cbn [app calls4]. destruct (normalize4 td R_ops amps mc t c k) as [(k1 & r1)|]; [|reflexivity]. cbn [obind fst snd]. apply IH. Qed.
Lemma announced_last : forall (l : list call) x y, all_announced4 (l ++ [x; y]) -> announced4 x y.
Proof. induction l as [|z l IH]; intros x y H; [exact (proj1 H)|]. apply IH. destruct l; exact (proj2 H). Qed.
Lemma announced_app : forall (l1 l2 : list call), all_announced4 (l1 ++ l2) -> all_announced4 l1.
Proof. induction l1 as [|x [|y l1] IH]; intros l2 H; [exact I|exact I|]. cbn [app all_announced4] in *. split; [apply H|]. apply (IH l2). apply H. Qed.
Lemma history_app : forall (cs : list (list nat * call)) tc, cs <> [] -> history td amps (cs ++ [tc]) -> history td amps cs.
Proof.
  intros cs tc N ((F & A) & H). rewrite map_app in F, A. split; [split|].
  - destruct cs; [congruence|exact F].
  - eapply announced_app, A.
  - apply Forall_app in H. apply H.
Qed.
Lemma stale : forall cs t1 c1 t2 c2 i key, td = false -> length (line_shapes amps) <= length amps -> history td amps ((cs ++ [(t1, c1)]) ++ [(t2, c2)]) ->
  Forall (matched amps) (map snd (cs ++ [(t1, c1)])) -> force4 c2 = false -> nth_error (line_shapes amps) i = Some key -> changed4 c2 key = false ->
  exists k r, calls4 td R_ops amps mc ((cs ++ [(t1, c1)]) ++ [(t2, c2)]) (kept40 R_ops amps) None = Some (k, Some r) /\
  forall e p a, nth_error (evts c2) e = Some p -> nth_error amps i = Some a -> q_amp k e i = amplitude_at c1 a p.
Proof.
  intros cs t1 c1 t2 c2 i key Htd HL H HM HF HK HC.
  assert (N : cs ++ [(t1, c1)] <> []) by (intro Z; apply app_eq_nil in Z; destruct Z; discriminate).
  destruct (history_run cs t1 c1 Htd HL (history_app _ _ N H)) as (k & r & E & S & D & M & R & Am).
  destruct H as ((_ & A) & Fi). rewrite !map_app, <- app_assoc in A. cbn [map snd app] in A. apply announced_last in A.
  apply Forall_app in Fi. destruct Fi as (_ & Fi). inversion Fi as [|? ? (O & Hc) _]; subst x l. cbn [fst snd] in O, Hc.
  destruct (step c1 t2 c2 k Htd (only_good _ _ _ O) S HL (or_intror (conj A D)) (or_intror (conj A M)) Hc) as (k2 & r2 & E2 & _ & _ & _ & _ & _ & _ & ST).
  exists k2, r2. split; [rewrite calls4_app, E; cbn [obind fst snd calls4]; rewrite E2; reflexivity|].
  intros e p a He Ha. rewrite (ST e p i a key He Ha HK HF HC). apply (Am HM); [|exact Ha]. destruct A as [A|(A & _)]; [congruence|]. now rewrite <- A.
Qed.
Lemma history_TD : forall cs t c, history td amps (cs ++ [(t, c)]) ->
  exists k, calls4_TD td R_ops amps (cs ++ [(t, c)]) (kept40 R_ops amps) = Some k /\ fresh_amp c (q_amp k).
Proof.
  intros cs t c ((F & A) & H). destruct (cs ++ [(t, c)]) as [|(t0 & c0) l] eqn:E; [now destruct cs|]. cbn [map snd] in F.
  assert (LA : last (map snd l) c0 = c).
  { assert (LA : last (map snd ((t0, c0) :: l)) c0 = c) by (rewrite <- E, map_app; apply last_last). cbn [map snd] in LA. destruct (map snd l); exact LA. }
  destruct (run_all_TD l t0 c0 c0 (kept40 R_ops amps) (or_introl F) (or_introl F) A H) as (k & E1 & Am). exists k. split; [exact E1|]. now rewrite LA in Am.
Qed.

Lemma value_is : forall c k e p, fresh_amp c (q_amp k) -> nth_error (evts c) e = Some p -> length (coef4 c) = length amps ->
  value4 R_ops c k e p = (intensity_at amps c p * eff4 c p)%R.
Proof.
  intros c k e p Am He Hc. unfold value4. cbn [LeafGen.o_mul R_ops]. f_equal. rewrite Hc.
  rewrite (map_ext_in _ (fun i => Cmult (nth i (coef4 c) (RtoC 0)) (amplitude_at c (nth i amps (mkAmp4 [] [] 1 0)) p))).
  - rewrite sum_total. unfold intensity_at.
    generalize (Ctotal (length amps) (fun i => Cmult (nth i (coef4 c) (RtoC 0)) (amplitude_at c (nth i amps (mkAmp4 [] [] 1 0)) p))). intro z.
    pose proof (mod_sq z) as M. apply (f_equal fst) in M. destruct z as [x y]. unfold Cmult, Cconj in M. cbn [fst snd RtoC] in M. rewrite <- M. unfold c_norm. cbn. ring.
  - intros i Hi. apply in_seq in Hi. rewrite (Am e p i (nth i amps (mkAmp4 [] [] 1 0)) He) by (apply nth_error_nth'; lia). apply Cmult_comm.
Qed.
End Cache.
