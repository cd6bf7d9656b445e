(** The smoothing loop visits exactly the neighbours. *)
From Coq Require Import List ZArith Bool Lia.
From Coq Require FinFun.
From Verif Require Import F64 ListAux BinSpec BinProofs SmoothModel SmoothSpec.
From Verif Require LeafGen.
Import ListNotations.
Open Scope Z_scope.

Lemma powi3_pos : forall v, 0 < powi3 v. Proof. induction v; cbn; lia. Qed.
(** Offsets along the axes, from the base-3 digits of i. *)
Fixpoint offs (n : nat) (j : Z) : list Z := match n with O => [] | S n' => (j mod 3 - 1) :: offs n' (j / 3) end.
Fixpoint enc (o : list Z) : Z := match o with [] => 0 | a :: t => (a + 1) + 3 * enc t end.
Definition digit (a : Z) : Prop := -1 <= a <= 1.
Lemma offs_digits : forall n j, Forall digit (offs n j).
Proof. induction n; intro j; cbn; constructor; [|apply IHn]. unfold digit. pose proof (Z.mod_pos_bound j 3). lia. Qed.
Lemma offs_length : forall n j, length (offs n j) = n. Proof. induction n; intro j; cbn; [reflexivity|]. now rewrite IHn. Qed.
Lemma offs_enc : forall o, Forall digit o -> offs (length o) (enc o) = o.
Proof.
  induction 1 as [|a t Ha Ht IH]; [reflexivity|]. cbn [length offs enc]. unfold digit in Ha.
  assert (E1 : (a + 1 + 3 * enc t) mod 3 = a + 1) by (symmetry; apply (Z.mod_unique_pos _ _ (enc t)); lia).
  assert (E2 : (a + 1 + 3 * enc t) / 3 = enc t) by (symmetry; apply (Z.div_unique_pos _ _ _ (a + 1)); lia).
  rewrite E1, E2, IH. f_equal. lia.
Qed.
Lemma enc_range : forall o, Forall digit o -> 0 <= enc o < powi3 (length o).
Proof. induction 1 as [|a t Ha Ht IH]; cbn [enc powi3 length]; [lia|]. unfold digit in Ha. lia. Qed.
Lemma enc_offs : forall n j, 0 <= j < powi3 n -> enc (offs n j) = j.
Proof.
  induction n as [|n IH]; intros j H; cbn [enc offs powi3] in *; [lia|]. rewrite IH by (split; [apply Z.div_pos|apply Z.div_lt_upper_bound]; lia).
  pose proof (Z.div_mod j 3). lia.
Qed.

(** Linear part of the bin number. *)
Fixpoint lin (sizes o : list Z) : Z := match sizes, o with n :: s, a :: t => a + n * lin s t | _, _ => 0 end.
Fixpoint shift (c o : list Z) : list Z := match c, o with x :: c', a :: t => (x + a) :: shift c' t | _, _ => [] end.
Fixpoint outside (sizes c o : list Z) : bool :=
  match sizes, c, o with n :: s, x :: c', a :: t => (x + a <? 0) || (n <=? x + a) || outside s c' t | _, _, _ => false end.

Lemma axes_ok : forall sizes c v i cur prev off, cell sizes c -> 0 <= i ->
  smooth_axes sizes v i cur prev (global_of sizes c) off =
  Some (cur + prev * lin sizes (offs (length sizes) (i / powi3 v)), off || outside sizes c (offs (length sizes) (i / powi3 v))).
Proof.
  intros sizes c v i cur prev off HC Hi. revert v cur prev off.
  induction HC as [|n x sizes c Hx HC IH]; intros v cur prev off; cbn [smooth_axes length offs lin outside].
  - f_equal. f_equal; [lia|now rewrite orb_false_r].
  - destruct (Z.eqb_spec n 0); [lia|]. rewrite global_of_cons.
    assert (Hg : 0 <= global_of sizes c).
    { assert (F : Forall2 (fun l s => 0 <= l < s) c sizes) by (clear - HC; induction HC; constructor; auto).
      destruct (global_of_range _ _ F); lia. }
    pose proof (powi3_pos v) as HP.
    rewrite (Z.quot_div_nonneg i) by lia. assert (Hd : 0 <= i / powi3 v) by (apply Z.div_pos; lia).
    rewrite (Z.rem_mod_nonneg (i / powi3 v)) by lia. rewrite (Z.rem_mod_nonneg (x + _)), (Z.quot_div_nonneg (x + _)) by nia.
    assert (E1 : (x + n * global_of sizes c) mod n = x) by (symmetry; apply (Z.mod_unique_pos _ _ (global_of sizes c)); lia).
    assert (E2 : (x + n * global_of sizes c) / n = global_of sizes c) by (symmetry; apply (Z.div_unique_pos _ _ _ x); lia).
    rewrite E1, E2, IH. cbn [powi3]. rewrite Z.div_div by lia.
    f_equal. f_equal; [ring|]. rewrite !orb_assoc. reflexivity.
Qed.

Lemma shift_length : forall c o, length o = length c -> length (shift c o) = length c.
Proof. induction c as [|x c IH]; intros [|a o] H; cbn in *; try lia. now rewrite IH by lia. Qed.
Lemma global_shift : forall sizes c o, cell sizes c -> length o = length c ->
  global_of sizes (shift c o) = global_of sizes c + lin sizes o.
Proof.
  intros sizes c o HC. revert o. induction HC as [|n x sizes c Hx HC IH]; intros [|a o] H; try discriminate H; cbn [shift lin].
  - reflexivity.
  - rewrite !global_of_cons, IH by (cbn in H; lia). ring.
Qed.
Lemma outside_cell : forall sizes c o, cell sizes c -> length o = length c -> (outside sizes c o = false <-> cell sizes (shift c o)).
Proof.
  intros sizes c o HC. revert o. induction HC as [|n x sizes c Hx HC IH]; intros [|a o] H; try discriminate H; cbn [shift outside].
  - split; [constructor|reflexivity].
  - injection H as H. specialize (IH o H). destruct (Z.ltb_spec (x + a) 0); cbn [orb]; [split; [discriminate|intro F; inversion F; lia]|].
    destruct (Z.leb_spec n (x + a)); cbn [orb]; [split; [discriminate|intro F; inversion F; lia]|].
    rewrite IH. split; [intro; constructor; [lia|assumption]|intro F; now inversion F].
Qed.
Lemma global_inj : forall sizes c d, cell sizes c -> cell sizes d -> global_of sizes c = global_of sizes d -> c = d.
Proof.
  intros sizes c d HC. revert d. induction HC as [|n x sizes c Hx HC IH]; intros d HD E; inversion HD; subst; [reflexivity|].
  rewrite !global_of_cons in E. assert (x = y /\ global_of sizes c = global_of sizes l') as [-> E2].
  { match goal with H : 0 <= y < n |- _ => pose proof H end. assert (x - y = n * (global_of sizes l' - global_of sizes c)) by lia.
    assert (global_of sizes l' - global_of sizes c = 0) by nia. lia. }
  f_equal. now apply IH.
Qed.
Lemma shift_self : forall c o, length o = length c -> shift c o = c -> Forall (fun a => a = 0) o.
Proof. induction c as [|x c IH]; intros [|a o] H E; try discriminate H; constructor; cbn in E; injection E as E1 E2; [lia|]. apply (IH o); [cbn in H; lia|exact E2]. Qed.
Lemma lin_zero : forall sizes o, Forall (fun a => a = 0) o -> lin sizes o = 0.
Proof. intros sizes o H. revert sizes. induction H; intros [|n s]; cbn; try reflexivity. rewrite IHForall. subst. lia. Qed.
Lemma shift_inj : forall c o o', length o = length c -> length o' = length c -> shift c o = shift c o' -> o = o'.
Proof.
  induction c as [|x c IH]; intros [|a o] [|b o'] H H' E; try discriminate; [reflexivity|]. cbn in E. injection E as E1 E2.
  f_equal; [lia|]. apply IH; cbn in *; try lia. exact E2.
Qed.
Lemma shift_close : forall c d, Forall2 (fun a b => Z.abs (a - b) <= 1) c d <->
  exists o, Forall digit o /\ length o = length c /\ d = shift c o.
Proof.
  intros c d. split.
  - induction 1 as [|a b c d H1 H2 (o & A1 & A2 & A3)]; [exists []; repeat constructor|].
    exists ((b - a) :: o). split; [constructor; [unfold digit; lia|exact A1]|]. split; [cbn; lia|]. cbn. rewrite A3. f_equal. lia.
  - intros (o & A1 & A2 & ->). revert c A2. induction A1 as [|a o Ha Ho IH]; intros [|x c] H; try discriminate H; [constructor|].
    cbn. constructor; [unfold digit in Ha; lia|]. apply IH. cbn in H; lia.
Qed.
Lemma cell_length : forall sizes c, cell sizes c -> length c = length sizes.
Proof. induction 1; cbn; lia. Qed.
Lemma cell_range : forall sizes c, cell sizes c -> 0 <= global_of sizes c < zproduct sizes.
Proof. intros sizes c H. assert (F : Forall2 (fun l s => 0 <= l < s) c sizes) by (induction H; constructor; auto). destruct (global_of_range _ _ F). lia. Qed.

Section Loop.
Context {T : Type} (Ar : LeafGen.ops T).
Variables (hist : list T) (sizes c : list Z).
Hypothesis HC : cell sizes c.
Hypothesis HL : Z.of_nat (length hist) = zproduct sizes.
Let n := length sizes.
Let g := global_of sizes c.
Definition keeps (i : Z) : bool := negb (outside sizes c (offs n i)) && negb (lin sizes (offs n i) =? 0).
Definition the_neighbours (is : list Z) : list (list Z) := map (fun i => shift c (offs n i)) (filter keeps is).

Lemma zread_cell : forall d, cell sizes d -> zread hist (global_of sizes d) = Some (content (LeafGen.o_zero Ar) hist sizes d).
Proof.
  intros d Hd. destruct (cell_range _ _ Hd). unfold zread. destruct (Z.ltb_spec (global_of sizes d) 0); [lia|].
  apply nth_error_nth'. lia.
Qed.
Lemma loop_ok : forall is total count, Forall (fun i => 0 <= i) is ->
  smooth_loop Ar hist sizes g is total count =
  Some (fold_left (LeafGen.o_add Ar) (map (content (LeafGen.o_zero Ar) hist sizes) (the_neighbours is)) total,
        count + Z.of_nat (length (the_neighbours is))).
Proof.
  unfold the_neighbours. induction is as [|i is IH]; intros total count HI; cbn [smooth_loop filter map length fold_left]; [do 2 f_equal; lia|].
  inversion HI as [|? ? Hi HI']; subst. unfold g. rewrite (axes_ok sizes c 0 i _ 1 false HC Hi). fold g. cbn [powi3].
  rewrite Z.div_1_r, Z.mul_1_l. fold n. cbn [orb].
  assert (KE : keeps i = negb (outside sizes c (offs n i)) && negb (lin sizes (offs n i) =? 0)) by reflexivity. rewrite KE.
  assert (E : (g + lin sizes (offs n i) =? g) = (lin sizes (offs n i) =? 0)).
  { destruct (Z.eqb_spec (g + lin sizes (offs n i)) g), (Z.eqb_spec (lin sizes (offs n i)) 0); lia. }
  rewrite E. assert (LO : length (offs n i) = length c) by (rewrite offs_length; symmetry; now apply cell_length).
  destruct (lin sizes (offs n i) =? 0) eqn:E0; cbn [negb]; [rewrite andb_false_r; now apply IH|]. rewrite andb_true_r.
  destruct (outside sizes c (offs n i)) eqn:EO; cbn [negb]; [now apply IH|].
  apply (outside_cell sizes c _ HC LO) in EO. cbn [map length fold_left].
  replace (g + lin sizes (offs n i)) with (global_of sizes (shift c (offs n i))) by (now apply global_shift).
  rewrite zread_cell by exact EO. rewrite IH by exact HI'. do 2 f_equal. lia.
Qed.
Definition all_i : list Z := map Z.of_nat (seq 0 (Z.to_nat (powi3 n))).
Lemma in_all_i : forall i, In i all_i <-> 0 <= i < powi3 n.
Proof.
  intro i. unfold all_i. rewrite in_map_iff. pose proof (powi3_pos n). split.
  - intros (k & <- & Hk). apply in_seq in Hk. lia.
  - intro H1. exists (Z.to_nat i). split; [lia|]. apply in_seq. lia.
Qed.
Lemma neighbours_In : forall d, In d (the_neighbours all_i) <-> neighbour sizes c d.
Proof.
  intro d. unfold the_neighbours. rewrite in_map_iff. unfold neighbour. pose proof (cell_length _ _ HC) as LC. split.
  - intros (i & <- & Hi). apply filter_In in Hi. destruct Hi as [_ K]. unfold keeps in K. apply andb_prop in K. destruct K as [K1 K2].
    apply negb_true_iff in K1, K2. assert (LO : length (offs n i) = length c) by (rewrite offs_length; symmetry; exact LC).
    split; [now apply outside_cell|]. split.
    + intro E. apply shift_self in E; [|exact LO]. apply (lin_zero sizes) in E. apply Z.eqb_neq in K2. contradiction.
    + apply shift_close. exists (offs n i). split; [apply offs_digits|]. split; [exact LO|reflexivity].
  - intros (Hd & Hne & Hc). apply shift_close in Hc. destruct Hc as (o & A1 & A2 & ->).
    assert (EL : length o = n) by (unfold n; lia). exists (enc o). rewrite <- EL, offs_enc by exact A1. split; [reflexivity|].
    apply filter_In. split; [apply in_all_i; rewrite <- EL; now apply enc_range|]. unfold keeps. rewrite <- EL, offs_enc by exact A1.
    apply andb_true_intro. split; apply negb_true_iff; [now apply outside_cell|]. apply Z.eqb_neq. intro E. apply Hne.
    apply (global_inj sizes); [exact Hd|exact HC|]. rewrite global_shift by assumption. lia.
Qed.
Lemma neighbours_NoDup : NoDup (the_neighbours all_i).
Proof.
  unfold the_neighbours. assert (N : NoDup all_i).
  { unfold all_i. apply FinFun.Injective_map_NoDup; [intros a b E; lia|apply seq_NoDup]. }
  assert (M : forall l, NoDup l -> incl l all_i -> NoDup (map (fun i => shift c (offs n i)) l)).
  { induction 1 as [|i l Hi Hl IH]; intro Hinc; cbn; constructor; [|apply IH; intros x Hx; apply Hinc; now right].
    intro HI. apply in_map_iff in HI. destruct HI as (j & E & Hj). pose proof (cell_length _ _ HC) as LC.
    apply shift_inj in E; [|rewrite offs_length; unfold n; lia|rewrite offs_length; unfold n; lia].
    apply (f_equal enc) in E. rewrite !enc_offs in E; [subst; contradiction| |]; apply in_all_i, Hinc; [now left|now right]. }
  apply M; [now apply NoDup_filter|]. intros x Hx. apply filter_In in Hx. apply Hx.
Qed.
Theorem smooth_bin_ok : forall s, exists ns, NoDup ns /\ (forall d, In d ns <-> neighbour sizes c d) /\
  smooth_bin Ar hist sizes s (global_of sizes c) =
  Some (weighted_mean Ar (content (LeafGen.o_zero Ar) hist sizes c) (map (content (LeafGen.o_zero Ar) hist sizes) ns) s).
Proof.
  intro s. exists (the_neighbours all_i). split; [apply neighbours_NoDup|]. split; [apply neighbours_In|].
  unfold smooth_bin. rewrite zread_cell by exact HC. fold n. fold all_i. fold g. rewrite loop_ok.
  - unfold weighted_mean. rewrite map_length, Z.add_0_l. reflexivity.
  - apply Forall_forall. intros i Hi. apply in_all_i in Hi. lia.
Qed.
End Loop.

(** The table of histograms. *)
Section TableProofs.
Context {T : Type} (full : list T -> bool).
Definition lg_step (p : nat) (st : nat * option (list T)) (o : top (T:=T)) : nat * option (list T) :=
  match o with
  | TNew h => (S (fst st), if Nat.eqb (fst st) p then Some h else snd st)
  | TCopy q h => (fst st, if Nat.eqb q p && Nat.ltb p (fst st) then Some h else snd st)
  end.
Lemma at_once_inv : forall m ops, at_once full 0 m ops -> (m <= 100)%nat ->
  let t := t_run full ops in
  h_next t = m /\ h_index t = seq 0 m /\ h_ub t = false /\ (forall p, (m <= p)%nat -> h_slots t p = None) /\
  length (h_own t) = m /\
  (forall p, fst (fold_left (lg_step p) ops (0%nat, None)) = m) /\
  (forall p, h_slots t p = snd (fold_left (lg_step p) ops (0%nat, None))) /\
  (forall p, (p < m)%nat -> nth_error (h_own t) p = Some (h_slots t p) /\ h_slots t p <> None).
Proof.
  intros m ops H. induction H as [|m h ops H IH F|m h h' ops H IH F]; intro Hm; cbv zeta in *.
  - repeat split; try reflexivity; intros; lia.
  - destruct (IH ltac:(lia)) as (A1 & A2 & A3 & A4 & A5 & A6 & A7 & A8). clear IH.
    unfold t_run in *. rewrite fold_left_app. cbn [fold_left t_step]. rewrite F. unfold t_copy. cbn [h_next h_slots h_index h_own h_ub].
    set (t := fold_left (t_step full) ops t_init) in *. rewrite A1, A3, A5.
    split; [reflexivity|]. split; [now rewrite A2, seq_S|]. split; [cbn [orb]; apply Nat.leb_gt; lia|].
    split; [intros p Hp; destruct (Nat.eqb_spec p m); [lia|apply A4; lia]|].
    split; [rewrite upd_length, app_length, A5; cbn; lia|].
    split; [intro p; rewrite fold_left_app; cbn [fold_left lg_step fst]; now rewrite A6|].
    split; [intro p; rewrite fold_left_app; cbn [fold_left lg_step snd]; rewrite A6, (Nat.eqb_sym m); destruct (Nat.eqb p m); [reflexivity|apply A7]|].
    intros p Hp. destruct (Nat.eqb_spec p m) as [->|N].
    + split; [|discriminate]. rewrite nth_error_upd_same; [reflexivity|]. rewrite app_length, A5. cbn. lia.
    + rewrite nth_error_upd_other by lia. rewrite nth_error_app1 by (rewrite A5; lia). apply A8. lia.
  - destruct (IH ltac:(lia)) as (A1 & A2 & A3 & A4 & A5 & A6 & A7 & A8). clear IH.
    unfold t_run in *. rewrite fold_left_app. cbn [fold_left].
    set (t := fold_left (t_step full) ops t_init) in *. cbv zeta.
    assert (ES : t_step full (t_step full t (TNew h)) (TCopy m h') =
                 t_copy (mkT (h_next t) (h_slots t) (h_index t ++ [h_next t]) (h_own t ++ [None]) (h_ub t)) m h').
    { cbn [t_step]. rewrite F. cbn [h_index]. rewrite app_length, A2, seq_length.
      destruct (Nat.ltb_spec m (m + length [h_next t])%nat) as [L|L]; [reflexivity|cbn in L; lia]. }
    rewrite ES. unfold t_copy. cbn [h_next h_slots h_index h_own h_ub]. rewrite A1, A3.
    split; [reflexivity|]. split; [now rewrite A2, seq_S|]. split; [cbn [orb]; apply Nat.leb_gt; lia|].
    split; [intros p Hp; destruct (Nat.eqb_spec p m); [lia|apply A4; lia]|].
    split; [rewrite upd_length, app_length, A5; cbn; lia|].
    split; [intro p; rewrite fold_left_app; cbn [fold_left lg_step fst]; now rewrite A6|].
    split; [intro p; rewrite fold_left_app; cbn [fold_left lg_step snd fst]; rewrite A6, (Nat.eqb_sym m)|].
    { destruct (Nat.eqb_spec p m) as [->|N]; cbn [andb]; [|apply A7].
      destruct (Nat.ltb_spec m (S m)); [reflexivity|lia]. }
    intros p Hp. destruct (Nat.eqb_spec p m) as [->|N].
    + split; [|discriminate]. rewrite nth_error_upd_same; [reflexivity|]. rewrite app_length, A5. cbn. lia.
    + rewrite nth_error_upd_other by lia. rewrite nth_error_app1 by (rewrite A5; lia). apply A8. lia.
Qed.
Theorem table_ok : forall m ops p, at_once full 0 m ops -> (m <= 100)%nat -> (p < m)%nat ->
  let t := t_run full ops in
  h_ub t = false /\ last_given ops p <> None /\ t_read t p = last_given ops p /\ nth_error (h_own t) p = Some (last_given ops p).
Proof.
  intros m ops p H Hm Hp t. destruct (at_once_inv m ops H Hm) as (A1 & A2 & A3 & A4 & A5 & A6 & A7 & A8). fold t in A1, A2, A3, A4, A5, A7, A8.
  assert (E : last_given ops p = h_slots t p) by (symmetry; apply A7). rewrite E. destruct (A8 p Hp) as [B1 B2].
  split; [exact A3|]. split; [exact B2|]. split; [|exact B1].
  unfold t_read. rewrite A2. assert (N : nth_error (seq 0 m) p = Some p).
  { rewrite (nth_error_nth' _ 0%nat) by (rewrite seq_length; exact Hp). now rewrite seq_nth. }
  now rewrite N.
Qed.
End TableProofs.
