(** Proofs about the K-matrix (KmModel.v, KmSpec.v). *)
From Coq Require Import Reals List Lra Lia Arith Bool ZArith.
From Coquelicot Require Import Coquelicot.
From Verif Require Import FormulaSpec AmpModel WaveModel KmModel KmSpec.
Import ListNotations.
Local Open Scope R_scope.

(** ** The arithmetic *)
Lemma add_C : forall a b : C, c_add R_ops a b = (a + b)%C.
Proof. reflexivity. Qed.
Lemma mul_C : forall a b : C, c_mul R_ops a b = (a * b)%C.
Proof. reflexivity. Qed.
Lemma sub_C : forall a b : C, c_sub R_ops a b = (a - b)%C.
Proof. reflexivity. Qed.
Lemma div_C : forall a b : C, c_div R_ops a b = (a / b)%C.
Proof.
  intros [a1 a2] [b1 b2]. unfold c_div, c_norm, Cdiv, Cinv, Cmult. cbn [fst snd LeafGen.o_add LeafGen.o_sub LeafGen.o_mul LeafGen.o_div R_ops].
  replace (b1 ^ 2 + b2 ^ 2) with (b1 * b1 + b2 * b2) by ring. unfold Rdiv. f_equal; ring.
Qed.
Lemma rsub_C : forall (x : R) (a : C), c_rsub R_ops x a = (RtoC x - a)%C.
Proof. intros x [a1 a2]. unfold c_rsub, Cminus, Cplus, Copp, RtoC. cbn [fst snd LeafGen.o_sub LeafGen.o_opp R_ops]. f_equal; ring. Qed.
Lemma scale_C : forall (a : C) (x : R), c_scale R_ops a x = (a * RtoC x)%C.
Proof. intros [a1 a2] x. unfold c_scale, Cmult, RtoC. cbn [fst snd LeafGen.o_mul R_ops]. f_equal; ring. Qed.
Lemma rdiv_C : forall (a : C) (x : R), c_rdiv R_ops a x = (a * RtoC (/ x))%C.
Proof. intros [a1 a2] x. unfold c_rdiv, Cmult, RtoC. cbn [fst snd LeafGen.o_div R_ops]. unfold Rdiv. f_equal; ring. Qed.
Lemma zero_C : c_zero R_ops = RtoC 0.
Proof. reflexivity. Qed.

Ltac cring := match goal with |- @eq _ ?a ?b => change (@eq C a b); ring end.
Ltac cfield := match goal with |- @eq _ ?a ?b => change (@eq C a b); field end.

(** ** Sums *)
Lemma csum_S : forall n f, csum (S n) f = (csum n f + f n)%C.
Proof. reflexivity. Qed.
Lemma csum_ext : forall n f g, (forall i, (i < n)%nat -> f i = g i) -> csum n f = csum n g.
Proof. induction n as [|n IH]; intros f g H; [reflexivity|]. cbn [csum]. rewrite (IH f g), (H n); [reflexivity|lia|]. intros. apply H. lia. Qed.
Lemma csum_zero : forall n f, (forall i, (i < n)%nat -> f i = RtoC 0) -> csum n f = RtoC 0.
Proof. induction n as [|n IH]; intros f H; [reflexivity|]. cbn [csum]. rewrite IH, (H n) by (intros; try apply H; lia). ring. Qed.
Lemma csum_plus : forall n f g, csum n (fun i => (f i + g i)%C) = (csum n f + csum n g)%C.
Proof. induction n as [|n IH]; intros; cbn [csum]; [ring|]. rewrite IH. ring. Qed.
Lemma csum_scal : forall n a f, csum n (fun i => (a * f i)%C) = (a * csum n f)%C.
Proof. induction n as [|n IH]; intros; cbn [csum]; [ring|]. rewrite IH. ring. Qed.
Lemma csum_scal_r : forall n a f, csum n (fun i => (f i * a)%C) = (csum n f * a)%C.
Proof. induction n as [|n IH]; intros; cbn [csum]; [ring|]. rewrite IH. ring. Qed.
Lemma csum_minus : forall n f g, csum n (fun i => (f i - g i)%C) = (csum n f - csum n g)%C.
Proof. induction n as [|n IH]; intros; cbn [csum]; [ring|]. rewrite IH. ring. Qed.
Lemma csum_swap : forall n m (f : nat -> nat -> C),
  csum n (fun i => csum m (fun j => f i j)) = csum m (fun j => csum n (fun i => f i j)).
Proof.
  induction n as [|n IH]; intros m f; cbn [csum].
  - symmetry. apply csum_zero. reflexivity.
  - rewrite IH. rewrite <- csum_plus. reflexivity.
Qed.
Lemma csum_unit_l : forall n i f, (i < n)%nat -> csum n (fun j => (unit_matrix i j * f j)%C) = f i.
Proof.
  induction n as [|n IH]; intros i f H; [lia|]. cbn [csum]. destruct (Nat.eq_dec i n) as [E|E].
  - subst i. rewrite csum_zero.
    + unfold unit_matrix. rewrite Nat.eqb_refl. ring.
    + intros j Hj. unfold unit_matrix. destruct (Nat.eqb_spec n j); [lia|]. ring.
  - rewrite IH by lia. unfold unit_matrix. destruct (Nat.eqb_spec i n); [lia|]. ring.
Qed.
Lemma csum_unit_r : forall n i f, (i < n)%nat -> csum n (fun j => (f j * unit_matrix j i)%C) = f i.
Proof.
  intros. rewrite <- (csum_unit_l n i f) by assumption. apply csum_ext. intros j _. unfold unit_matrix.
  rewrite (Nat.eqb_sym j i). ring.
Qed.
(** A sum whose terms vanish from [m] on *)
Lemma csum_trunc : forall n m f, (m <= n)%nat -> (forall i, (m <= i < n)%nat -> f i = RtoC 0) -> csum n f = csum m f.
Proof.
  induction n as [|n IH]; intros m f H Z; [replace m with O by lia; reflexivity|].
  destruct (Nat.eq_dec m (S n)) as [->|E]; [reflexivity|]. cbn [csum]. rewrite (IH m), (Z n); [ring|lia|lia|]. intros. apply Z. lia.
Qed.
(** The sum without the term [r] *)
Lemma csum_but : forall n r f, (r < n)%nat ->
  csum n f = (csum n (fun i => if (i =? r)%nat then RtoC 0 else f i) + f r)%C.
Proof.
  induction n as [|n IH]; intros r f H; [lia|]. cbn [csum]. destruct (Nat.eq_dec r n) as [->|E].
  - rewrite Nat.eqb_refl. rewrite (csum_ext n (fun i => if (i =? n)%nat then RtoC 0 else f i) f); [ring|].
    intros i Hi. destruct (Nat.eqb_spec i n); [lia|reflexivity].
  - rewrite (IH r) by lia. destruct (Nat.eqb_spec n r); [lia|]. ring.
Qed.
Lemma acc_csum : forall n f, acc R_ops (seq 0 n) f = csum n f.
Proof.
  intros n f. unfold acc. induction n as [|n IH]; [reflexivity|]. rewrite seq_S, fold_left_app. cbn [fold_left csum].
  rewrite IH, add_C. reflexivity.
Qed.
Lemma but_csum : forall n r f,
  fold_left (fun s i => if (i =? r)%nat then s else c_add R_ops s (f i)) (seq 0 n) (c_zero R_ops)
  = csum n (fun i => if (i =? r)%nat then RtoC 0 else f i).
Proof.
  intros n r f. induction n as [|n IH]; [reflexivity|]. rewrite seq_S, fold_left_app. cbn [fold_left csum]. rewrite Nat.add_0_l.
  rewrite IH. destruct (n =? r)%nat; rewrite ?add_C; cring.
Qed.

(** ** The decomposition *)
Lemma upper_spec : forall n A Lo i U r k,
  lu_upper R_ops n A Lo i U r k
  = if (r =? i)%nat && (i <=? k)%nat && (k <? n)%nat then (A i k - csum i (fun j => (Lo i j * U j k)%C))%C else U r k.
Proof.
  intros n A Lo i U.
  assert (G : forall m r k,
    fold_left (fun U k => upd U i k (c_sub R_ops (A i k) (acc R_ops (seq 0 i) (fun j => c_mul R_ops (Lo i j) (U j k))))) (seq i m) U r k
    = if (r =? i)%nat && (i <=? k)%nat && (k <? i + m)%nat then (A i k - csum i (fun j => (Lo i j * U j k)%C))%C else U r k).
  { induction m as [|m IH]; intros r k.
    - cbn [seq fold_left]. destruct (Nat.leb_spec i k); destruct (Nat.ltb_spec k (i + 0)); try lia; rewrite ?andb_false_r; reflexivity.
    - rewrite seq_S, fold_left_app. cbn [fold_left]. unfold upd. rewrite acc_csum, sub_C.
      destruct (Nat.eqb_spec r i) as [->|E]; cbn [andb].
      + destruct (Nat.eqb_spec k (i + m)) as [->|E]; cbn [andb].
        * destruct (Nat.leb_spec i (i + m)); [|lia]. destruct (Nat.ltb_spec (i + m) (i + S m)); [|lia]. cbn [andb].
          f_equal. apply csum_ext. intros j Hj. rewrite mul_C, IH. destruct (Nat.eqb_spec j i); [lia|]. reflexivity.
        * rewrite IH. rewrite Nat.eqb_refl. cbn [andb].
          destruct (Nat.leb_spec i k); cbn [andb]; [|reflexivity].
          destruct (Nat.ltb_spec k (i + m)); destruct (Nat.ltb_spec k (i + S m)); try lia; reflexivity.
      + rewrite IH. destruct (Nat.eqb_spec r i); [lia|]. reflexivity. }
  intros r k. unfold lu_upper. rewrite G.
  destruct (Nat.eqb_spec r i) as [->|]; cbn [andb]; [|reflexivity]. destruct (Nat.leb_spec i k); cbn [andb]; [|reflexivity].
  destruct (Nat.ltb_spec k (i + (n - i))); destruct (Nat.ltb_spec k n); try lia; reflexivity.
Qed.
Lemma lower_spec : forall n A U i Lo r k,
  lu_lower R_ops n A U i Lo r k
  = if (k =? i)%nat && (i <=? r)%nat && (r <? n)%nat
    then if (r =? i)%nat then RtoC 1 else ((A r i - csum i (fun j => (Lo r j * U j i)%C)) / U i i)%C else Lo r k.
Proof.
  intros n A U i Lo.
  assert (G : forall m r k,
    fold_left
      (fun Lo k => if (i =? k)%nat then upd Lo i i (1, 0)
                   else upd Lo k i (c_div R_ops (c_sub R_ops (A k i) (acc R_ops (seq 0 i) (fun j => c_mul R_ops (Lo k j) (U j i)))) (U i i)))
      (seq i m) Lo r k
    = if (k =? i)%nat && (i <=? r)%nat && (r <? i + m)%nat
      then if (r =? i)%nat then RtoC 1 else ((A r i - csum i (fun j => (Lo r j * U j i)%C)) / U i i)%C else Lo r k).
  { induction m as [|m IH]; intros r k.
    - cbn [seq fold_left]. destruct (Nat.leb_spec i r); destruct (Nat.ltb_spec r (i + 0)); try lia; rewrite ?andb_false_r; reflexivity.
    - rewrite seq_S, fold_left_app. cbn [fold_left]. destruct (Nat.eqb_spec i (i + m)) as [E|E].
      + replace m with O by lia. unfold upd. cbn [seq fold_left].
        destruct (Nat.eqb_spec k i) as [->|]; cbn [andb]; rewrite ?andb_false_r; [|reflexivity].
        destruct (Nat.eqb_spec r i) as [->|]; cbn [andb].
        * rewrite Nat.leb_refl. destruct (Nat.ltb_spec i (i + 1)); [|lia]. reflexivity.
        * destruct (Nat.leb_spec i r); cbn [andb]; [|reflexivity]. destruct (Nat.ltb_spec r (i + 1)); [lia|reflexivity].
      + unfold upd. rewrite acc_csum, sub_C, div_C. destruct (Nat.eqb_spec k i) as [->|]; cbn [andb]; rewrite ?andb_false_r.
        * rewrite !andb_true_r. destruct (Nat.eqb_spec r (i + m)) as [->|E2].
          -- destruct (Nat.leb_spec i (i + m)); [|lia]. destruct (Nat.ltb_spec (i + m) (i + S m)); [|lia]. cbn [andb].
             destruct (Nat.eqb_spec (i + m) i); [lia|]. f_equal. f_equal. apply csum_ext. intros j Hj. rewrite mul_C, IH.
             destruct (Nat.eqb_spec j i); [lia|]. reflexivity.
          -- rewrite IH. rewrite Nat.eqb_refl. cbn [andb]. destruct (Nat.leb_spec i r); cbn [andb]; [|reflexivity].
             destruct (Nat.ltb_spec r (i + m)); destruct (Nat.ltb_spec r (i + S m)); try lia; reflexivity.
        * rewrite IH. destruct (Nat.eqb_spec k i); [lia|]. reflexivity. }
  intros r k. unfold lu_lower. rewrite G.
  destruct (Nat.eqb_spec k i) as [->|]; cbn [andb]; [|reflexivity]. destruct (Nat.leb_spec i r); cbn [andb]; [|reflexivity].
  destruct (Nat.ltb_spec r (i + (n - i))); destruct (Nat.ltb_spec r n); try lia; reflexivity.
Qed.

(** What U and L satisfy after [i] steps *)
Definition decomposed (n : nat) (A : nat -> nat -> C) (i : nat) (U Lo : nat -> nat -> C) : Prop :=
  (forall r k, (r < i)%nat -> (r <= k < n)%nat -> U r k = (A r k - csum r (fun j => (Lo r j * U j k)%C))%C) /\
  (forall r k, (k < r \/ i <= r)%nat -> U r k = RtoC 0) /\
  (forall r k, (k < i)%nat -> (k < r < n)%nat -> Lo r k = ((A r k - csum k (fun j => (Lo r j * U j k)%C)) / U k k)%C) /\
  (forall r, (r < i)%nat -> Lo r r = RtoC 1) /\
  (forall r k, (r < k \/ i <= k)%nat -> Lo r k = RtoC 0).
Lemma lu_steps : forall n A i, (i <= n)%nat ->
  let UL := fold_left (lu_step R_ops n A) (seq 0 i) (zeros R_ops, zeros R_ops) in decomposed n A i (fst UL) (snd UL).
Proof.
  intros n A. induction i as [|i IH]; intros Hi.
  - cbn. unfold zeros, decomposed. rewrite zero_C. repeat split; intros; try lia; reflexivity.
  - rewrite seq_S, fold_left_app, Nat.add_0_l. cbn [fold_left]. specialize (IH ltac:(lia)).
    destruct (fold_left _ _ _) as [U Lo]. cbn [fst snd] in IH. destruct IH as (P1 & P2 & P3 & P4 & P5).
    unfold lu_step. cbn [fst snd]. set (U' := lu_upper _ _ _ _ _ _). set (L' := lu_lower _ _ _ _ _ _).
    assert (HU : forall r k, r <> i -> U' r k = U r k).
    { intros r k E. unfold U'. rewrite upper_spec. destruct (Nat.eqb_spec r i); [lia|]. reflexivity. }
    assert (HL : forall r k, k <> i -> L' r k = Lo r k).
    { intros r k E. unfold L'. rewrite lower_spec. destruct (Nat.eqb_spec k i); [lia|]. reflexivity. }
    unfold decomposed. cbn [fst snd].
    assert (S : forall r k m, (m <= i)%nat -> csum m (fun j => (L' r j * U' j k)%C) = csum m (fun j => (Lo r j * U j k)%C)).
    { intros r k m Hm. apply csum_ext. intros j Hj. rewrite HU, HL by lia. reflexivity. }
    repeat split.
    + intros r k Hr Hk. rewrite S by lia. destruct (Nat.eq_dec r i) as [->|E].
      * unfold U'. rewrite upper_spec. rewrite Nat.eqb_refl. destruct (Nat.leb_spec i k); [|lia]. destruct (Nat.ltb_spec k n); [|lia].
        reflexivity.
      * rewrite HU by lia. apply P1; lia.
    + intros r k H. destruct (Nat.eq_dec r i) as [->|E].
      * unfold U'. rewrite upper_spec, Nat.eqb_refl. destruct (Nat.leb_spec i k); [lia|]. cbn [andb]. apply P2. lia.
      * rewrite HU by lia. apply P2. lia.
    + intros r k Hk Hr. rewrite S by lia. destruct (Nat.eq_dec k i) as [->|E].
      * unfold L'. rewrite lower_spec, Nat.eqb_refl. destruct (Nat.leb_spec i r); [|lia]. destruct (Nat.ltb_spec r n); [|lia].
        cbn [andb]. destruct (Nat.eqb_spec r i); [lia|]. f_equal. f_equal. apply csum_ext. intros j Hj. rewrite HU by lia. reflexivity.
      * rewrite HL, HU by lia. apply P3; lia.
    + intros r Hr. destruct (Nat.eq_dec r i) as [->|E].
      * unfold L'. rewrite lower_spec, Nat.eqb_refl, Nat.leb_refl. destruct (Nat.ltb_spec i n); [|lia]. reflexivity.
      * rewrite HL by lia. apply P4. lia.
    + intros r k H. destruct (Nat.eq_dec k i) as [->|E].
      * unfold L'. rewrite lower_spec, Nat.eqb_refl. destruct (Nat.leb_spec i r); [lia|]. cbn [andb]. apply P5. lia.
      * rewrite HL by lia. apply P5. lia.
Qed.
Lemma lu_decomposed : forall n A, decomposed n A n (fst (lu R_ops n A)) (snd (lu R_ops n A)).
Proof. intros. unfold lu. apply (lu_steps n A n). lia. Qed.

(** The product of the triangular matrices: the elements left of the first vanishing pivot and all above the diagonal *)
Lemma lu_product : forall n A U Lo, decomposed n A n U Lo -> forall m, (m <= n)%nat ->
  (forall j, (S j < m)%nat -> U j j <> RtoC 0) -> forall r k, (r < m)%nat -> (k < m)%nat ->
  A r k = csum m (fun j => (Lo r j * U j k)%C).
Proof.
  intros n A U Lo (P1 & P2 & P3 & P4 & P5) m Hm Piv r k Hr Hk.
  destruct (le_lt_dec r k) as [Q|Q].
  - rewrite (csum_trunc m (S r)) by (try lia; intros i Hi; rewrite (P5 r i) by lia; ring).
    cbn [csum]. rewrite (P1 r k), (P4 r) by lia.
    (* the value of U r k *) ring.
  - rewrite (csum_trunc m (S k)) by (try lia; intros i Hi; rewrite (P2 i k) by lia; ring).
    cbn [csum]. rewrite (P3 r k) by lia. field. apply Piv. lia.
Qed.

(** A triangular system has a solution. *)
Lemma upper_solution : forall m (U : nat -> nat -> C) (b : nat -> C),
  (forall r k, (k < r)%nat -> U r k = RtoC 0) -> (forall j, (j < m)%nat -> U j j <> RtoC 0) ->
  exists w, forall r, (r < m)%nat -> csum m (fun k => (U r k * w k)%C) = b r.
Proof.
  induction m as [|m IH]; intros U b T0 D.
  - exists (fun _ => RtoC 0). intros. lia.
  - destruct (IH U (fun r => b r - U r m * (b m / U m m))%C T0) as [w Hw]; [intros; apply D; lia|].
    exists (fun k => if (k =? m)%nat then (b m / U m m)%C else w k). intros r Hr. cbn [csum]. rewrite Nat.eqb_refl.
    rewrite (csum_ext m _ (fun k => (U r k * w k)%C)) by (intros i Hi; destruct (Nat.eqb_spec i m); [lia|reflexivity]).
    destruct (Nat.eq_dec r m) as [->|E].
    + rewrite csum_zero by (intros i Hi; rewrite T0 by lia; ring). field. apply D. lia.
    + rewrite Hw by lia. ring.
Qed.
(** No pivot vanishes if the blocks are regular. *)
Lemma pivots : forall n A U Lo, decomposed n A n U Lo -> (forall m, (m <= n)%nat -> regular m A) ->
  forall i, (i < n)%nat -> U i i <> RtoC 0.
Proof.
  intros n A U Lo D Reg i. induction i as [i IH] using (well_founded_induction lt_wf). intros Hi Z.
  assert (D' := D). destruct D' as (P1 & P2 & P3 & P4 & P5).
  destruct (upper_solution i U (fun r => - U r i)%C) as [w Hw]; [intros r k Hk; apply P2; lia|intros j Hj; apply IH; lia|].
  set (v := fun k => if (k =? i)%nat then RtoC 1 else w k).
  assert (UV : forall r, (r < S i)%nat -> csum (S i) (fun k => (U r k * v k)%C) = RtoC 0).
  { intros r Hr. cbn [csum]. unfold v. rewrite Nat.eqb_refl.
    rewrite (csum_ext i _ (fun k => (U r k * w k)%C)) by (intros k Hk; destruct (Nat.eqb_spec k i); [lia|reflexivity]).
    destruct (Nat.eq_dec r i) as [->|E].
    - rewrite csum_zero by (intros k Hk; rewrite P2 by lia; ring). rewrite Z. ring.
    - rewrite Hw by lia. ring. }
  assert (V : v i = RtoC 0).
  { apply (Reg (S i) ltac:(lia) v); [|lia]. intros r Hr.
    transitivity (csum (S i) (fun j => csum (S i) (fun l => (Lo r l * (U l j * v j))%C))).
    - apply csum_ext. intros j Hj. rewrite (lu_product n A U Lo D (S i)) by (try lia; intros; apply IH; lia).
      rewrite <- csum_scal_r. apply csum_ext. intros. ring.
    - rewrite csum_swap. apply csum_zero. intros l Hl. rewrite csum_scal, UV by lia. ring. }
  unfold v in V. rewrite Nat.eqb_refl in V. apply RtoC_inj in V. lra.
Qed.

(** ** Substitution *)
Lemma substitution : forall n (M : nat -> nat -> C) (b : nat -> C) (col : nat) (step : (nat -> nat -> C) -> nat -> nat -> nat -> C),
  (forall Y row, (row < n)%nat -> step Y row = upd Y row col ((b row - csum n (fun i => if (i =? row)%nat then RtoC 0 else (M row i * Y i col)%C)) / M row row)%C) ->
  forall ord post Y, NoDup (ord ++ post) -> (forall i, In i (ord ++ post) <-> (i < n)%nat) ->
  (forall pre r suf, ord ++ post = pre ++ r :: suf -> forall i, In i suf -> M r i = RtoC 0) ->
  (forall r, (r < n)%nat -> M r r <> RtoC 0) ->
  (forall r, In r ord -> csum n (fun i => (M r i * fold_left step ord Y i col)%C) = b r) /\
  (forall r c, c <> col \/ ~ In r ord -> fold_left step ord Y r c = Y r c).
Proof.
  intros n M b col step St ord. induction ord as [|r ord IH] using rev_ind; intros post Y ND Mem Tri Dia.
  - cbn [fold_left]. split; [intros r []|reflexivity].
  - rewrite fold_left_app. cbn [fold_left]. rewrite <- app_assoc in ND, Mem, Tri. cbn [app] in ND, Mem, Tri.
    destruct (IH (r :: post) Y ND Mem Tri Dia) as [Sol Out]. set (Y1 := fold_left step ord Y) in *.
    assert (Hr : (r < n)%nat) by (apply Mem; apply in_or_app; right; left; reflexivity).
    rewrite St by assumption.
    assert (Nr : ~ In r ord).
    { intros H. apply NoDup_remove_2 in ND. apply ND. apply in_or_app. left. exact H. }
    split.
    + intros r' Hr'. apply in_app_or in Hr'. destruct Hr' as [Hr'|[<-|[]]].
      * rewrite <- (Sol r' Hr'). apply csum_ext. intros i Hi. unfold upd. rewrite Nat.eqb_refl, andb_true_r.
        destruct (Nat.eqb_spec i r) as [->|]; [|reflexivity].
        destruct (in_split _ _ Hr') as (l1 & l2 & E).
        rewrite (Tri l1 r' (l2 ++ r :: post)); [ring| |apply in_or_app; right; left; reflexivity].
        rewrite E, <- app_assoc. reflexivity.
      * rewrite (csum_but n r) by assumption. unfold upd. rewrite !Nat.eqb_refl. cbn [andb].
        rewrite (csum_ext n _ (fun i => if (i =? r)%nat then RtoC 0 else (M r i * Y1 i col)%C)).
        -- field. apply Dia. assumption.
        -- intros i Hi. destruct (Nat.eqb_spec i r); reflexivity.
    + intros r' c H. unfold upd. destruct (Nat.eqb_spec r' r) as [->|E]; cbn [andb].
      * destruct (Nat.eqb_spec c col) as [->|E2]; [|apply Out; left; assumption].
        destruct H as [H|H]; [congruence|]. exfalso. apply H. apply in_or_app. right. left. reflexivity.
      * apply Out. destruct H as [H|H]; [left; assumption|]. right. intros F. apply H. apply in_or_app. left. exact F.
Qed.
(** One column after another *)
Lemma columns : forall n (M : nat -> nat -> C) (B : nat -> nat -> C) (step : nat -> (nat -> nat -> C) -> nat -> nat -> nat -> C) ord Y,
  (forall col Y row, (row < n)%nat -> step col Y row = upd Y row col ((B row col - csum n (fun i => if (i =? row)%nat then RtoC 0 else (M row i * Y i col)%C)) / M row row)%C) ->
  NoDup ord -> (forall i, In i ord <-> (i < n)%nat) ->
  (forall pre r suf, ord = pre ++ r :: suf -> forall i, In i suf -> M r i = RtoC 0) ->
  (forall r, (r < n)%nat -> M r r <> RtoC 0) ->
  let Z := fold_left (fun Y col => fold_left (step col) ord Y) (seq 0 n) Y in
  forall r c, (r < n)%nat -> (c < n)%nat -> csum n (fun i => (M r i * Z i c)%C) = B r c.
Proof.
  intros n M B step ord Y St ND Mem Tri Dia.
  assert (One : forall col Y,
    (forall r, (r < n)%nat -> csum n (fun i => (M r i * fold_left (step col) ord Y i col)%C) = B r col) /\
    (forall r c, c <> col -> fold_left (step col) ord Y r c = Y r c)).
  { intros col Y0. destruct (substitution n M (fun r => B r col) col (step col) (St col) ord [] Y0) as [H1 H2].
    - rewrite app_nil_r. assumption.
    - intros i. rewrite app_nil_r. apply Mem.
    - rewrite app_nil_r. assumption.
    - assumption.
    - split; [intros r Hr; apply H1; apply Mem; assumption|intros r c Hc; apply H2; left; assumption]. }
  assert (G : forall m, (m <= n)%nat -> forall r c, (r < n)%nat -> (c < m)%nat ->
    csum n (fun i => (M r i * fold_left (fun Y col => fold_left (step col) ord Y) (seq 0 m) Y i c)%C) = B r c).
  { induction m as [|m IH]; intros Hm r c Hr Hc; [lia|]. rewrite seq_S, fold_left_app, Nat.add_0_l. cbn [fold_left].
    destruct (Nat.eq_dec c m) as [->|E].
    - apply One. assumption.
    - rewrite <- (IH ltac:(lia) r c) by lia. apply csum_ext. intros i Hi. f_equal. apply One. assumption. }
  intros Z r c Hr Hc. apply G; lia.
Qed.
Lemma split_seq : forall n pre r suf, seq 0 n = pre ++ r :: suf -> forall i, In i suf -> (r < i)%nat.
Proof.
  intros n pre r suf E i Hi.
  assert (G : forall l1 a (l2 : list nat) m k, seq k m = l1 ++ a :: l2 -> forall j, In j l2 -> (a < j)%nat).
  { induction l1 as [|x l1 IH]; intros a l2 m k E' j Hj; destruct m; try discriminate; cbn [seq app] in E'; injection E' as <- E'.
    - rewrite <- E' in Hj. apply in_seq in Hj. lia.
    - apply (IH a l2 m (S k) E' j Hj). }
  exact (G pre r suf n 0%nat E i Hi).
Qed.
Lemma split_rev : forall n pre r suf, rev (seq 0 n) = pre ++ r :: suf -> forall i, In i suf -> (i < r)%nat.
Proof.
  intros n pre r suf E i Hi. apply (f_equal (@rev nat)) in E. rewrite rev_involutive, rev_app_distr in E. cbn [rev] in E.
  rewrite <- app_assoc in E. apply in_split in Hi. destruct Hi as (l1 & l2 & ->). rewrite rev_app_distr in E. cbn [rev] in E.
  rewrite <- !app_assoc in E. cbn [app] in E. apply (split_seq n (rev l2) i (rev l1 ++ r :: rev pre)); [exact E|].
  apply in_or_app. right. left. reflexivity.
Qed.

(** ** The inverse *)
Lemma right_inverse : forall n A F0, (forall m, (m <= n)%nat -> regular m A) ->
  forall i j, (i < n)%nat -> (j < n)%nat -> product n A (R_inverse n A F0) i j = unit_matrix i j.
Proof.
  intros n A F0 Reg i j Hi Hj. unfold lu_inverse. destruct (lu R_ops n A) as [U Lo] eqn:E. cbn [fst snd].
  assert (D := lu_decomposed n A). rewrite E in D. cbn [fst snd] in D.
  assert (Piv := pivots n A U Lo D Reg). assert (D' := D). destruct D' as (P1 & P2 & P3 & P4 & P5).
  set (X := fold_left _ (seq 0 n) (zeros R_ops)). set (Y := fold_left _ (seq 0 n) F0).
  assert (HX : forall r c, (r < n)%nat -> (c < n)%nat -> csum n (fun i => (Lo r i * X i c)%C) = unit_matrix r c).
  { apply (columns n Lo unit_matrix (solve_unit R_ops n Lo) (seq 0 n) (zeros R_ops)).
    - intros col Y0 row Hr. unfold solve_unit. rewrite but_csum, rsub_C, div_C. unfold unit_matrix.
      f_equal. f_equal. f_equal. destruct (row =? col)%nat; reflexivity.
    - apply seq_NoDup.
    - intros k. rewrite in_seq. lia.
    - intros pre r suf Es k Hk. apply P5. left. apply (split_seq n pre r suf Es k Hk).
    - intros r Hr Z. rewrite P4 in Z by lia. apply RtoC_inj in Z. lra. }
  assert (HY : forall r c, (r < n)%nat -> (c < n)%nat -> csum n (fun i => (U r i * Y i c)%C) = X r c).
  { apply (columns n U X (solve_row R_ops n U X) (rev (seq 0 n)) F0).
    - intros col Y0 row Hr. unfold solve_row. rewrite but_csum, sub_C, div_C. reflexivity.
    - apply NoDup_rev. apply seq_NoDup.
    - intros k. rewrite <- in_rev, in_seq. lia.
    - intros pre r suf Es k Hk. apply P2. left. apply (split_rev n pre r suf Es k Hk).
    - assumption. }
  rewrite <- (HX i j Hi Hj). unfold product.
  transitivity (csum n (fun k => csum n (fun l => (Lo i l * (U l k * Y k j))%C))).
  - apply csum_ext. intros k Hk. rewrite (lu_product n A U Lo D n) by (try lia; intros; apply Piv; lia).
    rewrite <- csum_scal_r. apply csum_ext. intros. ring.
  - rewrite csum_swap. apply csum_ext. intros l Hl. rewrite csum_scal, HY by lia. reflexivity.
Qed.
Lemma left_from_right : forall n A F, regular n A ->
  (forall i j, (i < n)%nat -> (j < n)%nat -> product n A F i j = unit_matrix i j) ->
  forall i j, (i < n)%nat -> (j < n)%nat -> product n F A i j = unit_matrix i j.
Proof.
  intros n A F Reg H i j Hi Hj.
  assert (E : (product n F A i j - unit_matrix i j)%C = RtoC 0).
  { apply (Reg (fun k => product n F A k j - unit_matrix k j)%C); [|assumption]. intros r Hr.
    rewrite (csum_ext n _ (fun k => (A r k * product n F A k j - A r k * unit_matrix k j)%C)) by (intros; ring).
    rewrite csum_minus, csum_unit_r by assumption.
    replace (csum n (fun k => (A r k * product n F A k j)%C)) with (A r j); [ring|].
    unfold product. transitivity (csum n (fun k => csum n (fun l => (A r k * F k l * A l j)%C))).
    - rewrite csum_swap. rewrite <- (csum_unit_l n r (fun l => A l j)) by assumption. apply csum_ext. intros l Hl.
      rewrite csum_scal_r. rewrite <- (H r l) by assumption. reflexivity.
    - apply csum_ext. intros k Hk. rewrite <- csum_scal. apply csum_ext. intros. ring. }
  transitivity ((product n F A i j - unit_matrix i j) + unit_matrix i j)%C; [ring|]. rewrite E. ring.
Qed.
Lemma inverse_regular : forall n A F0, (forall m, (m <= n)%nat -> regular m A) -> inverse_of n A (R_inverse n A F0).
Proof.
  intros n A F0 Reg i j Hi Hj. split; [apply right_inverse; assumption|].
  apply left_from_right; try assumption; [apply Reg; lia|]. intros. apply right_inverse; assumption.
Qed.

(** ** When the blocks are regular *)
Lemma rsum_ext : forall n f g, (forall i, (i < n)%nat -> f i = g i) -> rsum n f = rsum n g.
Proof. induction n as [|n IH]; intros f g H; [reflexivity|]. cbn [rsum]. rewrite (IH f g), (H n); [reflexivity|lia|]. intros. apply H. lia. Qed.
Lemma rsum_plus : forall n f g, rsum n (fun i => f i + g i) = rsum n f + rsum n g.
Proof. induction n as [|n IH]; intros; cbn [rsum]; [ring|]. rewrite IH. ring. Qed.
Lemma rsum_scal : forall n a f, rsum n (fun i => a * f i) = a * rsum n f.
Proof. induction n as [|n IH]; intros; cbn [rsum]; [ring|]. rewrite IH. ring. Qed.
Lemma rsum_zero : forall n f, (forall i, (i < n)%nat -> f i = 0) -> rsum n f = 0.
Proof. induction n as [|n IH]; intros f H; [reflexivity|]. cbn [rsum]. rewrite IH, (H n) by (intros; try apply H; lia). ring. Qed.
Lemma rsum_swap : forall n m (f : nat -> nat -> R),
  rsum n (fun i => rsum m (fun j => f i j)) = rsum m (fun j => rsum n (fun i => f i j)).
Proof.
  induction n as [|n IH]; intros m f; cbn [rsum].
  - symmetry. apply rsum_zero. reflexivity.
  - rewrite IH. rewrite <- rsum_plus. reflexivity.
Qed.
Lemma rsum_nonneg : forall n f, (forall i, (i < n)%nat -> 0 <= f i) -> 0 <= rsum n f.
Proof. induction n as [|n IH]; intros f H; cbn [rsum]; [lra|]. assert (0 <= f n) by (apply H; lia). assert (0 <= rsum n f) by (apply IH; intros; apply H; lia). lra. Qed.
Lemma rsum_nonneg_zero : forall n f, (forall i, (i < n)%nat -> 0 <= f i) -> rsum n f = 0 -> forall i, (i < n)%nat -> f i = 0.
Proof.
  induction n as [|n IH]; intros f H Z i Hi; [lia|]. cbn [rsum] in Z. assert (0 <= f n) by (apply H; lia).
  assert (0 <= rsum n f) by (apply rsum_nonneg; intros; apply H; lia).
  destruct (Nat.eq_dec i n) as [->|E]; [lra|]. apply IH; [|lra|lia]. intros. apply H. lia.
Qed.
Lemma csum_pair : forall n (f : nat -> C), csum n f = (rsum n (fun i => fst (f i)), rsum n (fun i => snd (f i))).
Proof. induction n as [|n IH]; intros f; cbn [csum rsum]; [reflexivity|]. rewrite IH. reflexivity. Qed.
(** A form of n variables that takes no negative value, of fewer variables *)
Lemma rsum_trunc : forall n m f, (m <= n)%nat -> (forall i, (m <= i < n)%nat -> f i = 0) -> rsum n f = rsum m f.
Proof.
  induction n as [|n IH]; intros m f H Z; [replace m with O by lia; reflexivity|].
  destruct (Nat.eq_dec m (S n)) as [->|E]; [reflexivity|]. cbn [rsum]. rewrite (IH m), (Z n); [ring|lia|lia|]. intros. apply Z. lia.
Qed.
Lemma form_block : forall n m K, (m <= n)%nat -> nonnegative_form n K -> nonnegative_form m K.
Proof.
  intros n m K H P x. specialize (P (fun i => if (i <? m)%nat then x i else 0)). cbv beta in P.
  rewrite (rsum_trunc n m) in P by (lia || (intros i Hi; apply rsum_zero; intros j Hj; destruct (Nat.ltb_spec i m); [lia|ring])).
  rewrite (rsum_ext m _ (fun i => rsum m (fun j => x i * K i j * x j))) in P; [exact P|].
  intros i Hi. destruct (Nat.ltb_spec i m); [|lia].
  rewrite (rsum_trunc n m) by (lia || (intros j Hj; destruct (Nat.ltb_spec j m); [lia|ring])).
  apply rsum_ext. intros j Hj. destruct (Nat.ltb_spec j m); [reflexivity|lia].
Qed.
(** The kernel: rho_j v_j vanishes. *)
Lemma regular_system : forall m (K : nat -> nat -> R) (rho : nat -> C), symmetric m K ->
  (forall j, (j < m)%nat -> 0 <= fst (rho j) /\ 0 <= snd (rho j)) ->
  (nonnegative_form m K \/ forall j, (j < m)%nat -> snd (rho j) = 0) -> regular m (system K rho).
Proof.
  intros m K rho Sym Pos Q v Hv.
  set (u := fun j => (rho j * v j)%C).
  set (a := fun j => fst (u j)). set (b := fun j => snd (u j)).
  assert (E : forall i, (i < m)%nat -> v i = (- rsum m (fun j => K i j * b j), rsum m (fun j => K i j * a j)) :> C).
  { intros i Hi. specialize (Hv i Hi). unfold system in Hv.
    rewrite (csum_ext m _ (fun j => (unit_matrix i j * v j - Ci * (RtoC (K i j) * u j))%C)) in Hv by (intros; unfold u; ring).
    rewrite csum_minus, csum_unit_l, csum_scal in Hv by assumption.
    assert (G : v i = (Ci * csum m (fun j => RtoC (K i j) * u j))%C).
    { transitivity ((v i - Ci * csum m (fun j => RtoC (K i j) * u j)) + Ci * csum m (fun j => RtoC (K i j) * u j))%C; [ring|]. rewrite Hv. ring. }
    rewrite G, csum_pair. unfold Ci, Cmult. cbn [fst snd].
    rewrite (rsum_ext m (fun j => fst (RtoC (K i j)) * fst (u j) - snd (RtoC (K i j)) * snd (u j)) (fun j => K i j * a j))
      by (intros; unfold a, RtoC; cbn [fst snd]; ring).
    rewrite (rsum_ext m (fun j => fst (RtoC (K i j)) * snd (u j) + snd (RtoC (K i j)) * fst (u j)) (fun j => K i j * b j))
      by (intros; unfold b, RtoC; cbn [fst snd]; ring).
    f_equal; ring. }
  set (N := fun j => fst (v j) ^ 2 + snd (v j) ^ 2).
  assert (NN : forall j, 0 <= N j) by (intros; unfold N; assert (H1 := pow2_ge_0 (fst (v j))); assert (H2 := pow2_ge_0 (snd (v j))); lra).
  set (q := rsum m (fun i => rsum m (fun j => a i * K i j * a j)) + rsum m (fun i => rsum m (fun j => b i * K i j * b j))).
  (* conj(u).v *)
  assert (Re : rsum m (fun j => fst (rho j) * N j) = 0).
  { rewrite (rsum_ext m _ (fun i => a i * fst (v i) + b i * snd (v i))).
    2:{ intros i Hi. unfold N, a, b, u, Cmult. cbn [fst snd]. ring. }
    rewrite (rsum_ext m _ (fun i => rsum m (fun j => a i * - (K i j * b j)) + rsum m (fun j => b i * (K i j * a j)))).
    2:{ intros i Hi. rewrite !rsum_scal. rewrite (E i Hi). cbn [fst snd]. f_equal. f_equal.
        rewrite <- (Rmult_1_l (rsum m (fun j => K i j * b j))) at 1. rewrite Ropp_mult_distr_l, <- rsum_scal. apply rsum_ext. intros; ring. }
    rewrite rsum_plus. rewrite (rsum_swap m m (fun i j => b i * (K i j * a j))).
    rewrite <- rsum_plus. apply rsum_zero. intros i Hi. rewrite <- rsum_plus. apply rsum_zero. intros j Hj.
    rewrite (Sym j i) by assumption. ring. }
  assert (Im : - rsum m (fun j => snd (rho j) * N j) = q).
  { rewrite <- (Rmult_1_l (rsum m _)), Ropp_mult_distr_l, <- rsum_scal.
    rewrite (rsum_ext m _ (fun i => a i * snd (v i) + (- b i) * fst (v i))).
    2:{ intros i Hi. unfold N, a, b, u, Cmult. cbn [fst snd]. ring. }
    rewrite rsum_plus. unfold q. f_equal; apply rsum_ext; intros i Hi; rewrite (E i Hi); cbn [fst snd].
    - rewrite <- rsum_scal. apply rsum_ext. intros; ring.
    - rewrite <- (Rmult_1_l (rsum m (fun j => K i j * b j))). rewrite Ropp_mult_distr_l, <- !rsum_scal. apply rsum_ext. intros; ring. }
  assert (Z2 : forall j, (j < m)%nat -> snd (rho j) * N j = 0).
  { destruct Q as [Q|Q].
    - apply rsum_nonneg_zero.
      + intros j Hj. apply Rmult_le_pos; [apply Pos; assumption|apply NN].
      + assert (0 <= q) by (unfold q; assert (Q1 := Q a); assert (Q2 := Q b); lra).
        assert (0 <= rsum m (fun j => snd (rho j) * N j)) by (apply rsum_nonneg; intros j Hj; apply Rmult_le_pos; [apply Pos; assumption|apply NN]).
        lra.
    - intros j Hj. rewrite Q by assumption. ring. }
  assert (Z1 : forall j, (j < m)%nat -> fst (rho j) * N j = 0).
  { apply rsum_nonneg_zero; [|exact Re]. intros j Hj. apply Rmult_le_pos; [apply Pos; assumption|apply NN]. }
  assert (UZ : forall j, (j < m)%nat -> u j = RtoC 0).
  { intros j Hj. destruct (Rmult_integral _ _ (Z1 j Hj)) as [H1|H1].
    - destruct (Rmult_integral _ _ (Z2 j Hj)) as [H2|H2].
      + unfold u. destruct (rho j) as [x y]. cbn [fst snd] in H1, H2. subst x y. unfold Cmult, RtoC. cbn [fst snd]. f_equal; ring.
      + unfold u. unfold N in H2. assert (fst (v j) = 0) by nra. assert (snd (v j) = 0) by nra. destruct (v j) as [x y].
        cbn [fst snd] in *. subst x y. unfold Cmult, RtoC. cbn [fst snd]. f_equal; ring.
    - unfold u. unfold N in H1. assert (fst (v j) = 0) by nra. assert (snd (v j) = 0) by nra. destruct (v j) as [x y].
      cbn [fst snd] in *. subst x y. unfold Cmult, RtoC. cbn [fst snd]. f_equal; ring. }
  intros j Hj. rewrite (E j Hj). rewrite !rsum_zero.
  - unfold RtoC. f_equal. ring.
  - intros i Hi. unfold a. rewrite (UZ i Hi). cbn [fst RtoC]. ring.
  - intros i Hi. unfold b. rewrite (UZ i Hi). cbn [snd RtoC]. ring.
Qed.
Lemma t_matrix_system : forall K rho ad i j,
  t_matrix R_ops K rho ad i j = system (fun i j => ad * K i j) rho i j.
Proof.
  intros K rho ad i j. unfold t_matrix, system. rewrite rsub_C, mul_C, scale_C. unfold unit_matrix.
  replace (RtoC (if (i =? j)%nat then LeafGen.o_one R_ops else LeafGen.o_zero R_ops)) with (if (i =? j)%nat then RtoC 1 else RtoC 0)
    by (destruct (i =? j)%nat; reflexivity).
  replace ((LeafGen.o_zero R_ops, ad) : C) with (Ci * RtoC ad)%C.
  - rewrite RtoC_mult. cring.
  - unfold Ci, Cmult, RtoC. cbn [fst snd LeafGen.o_zero R_ops]. f_equal; ring.
Qed.
Lemma regular_ext : forall m A B, (forall i j, (i < m)%nat -> (j < m)%nat -> A i j = B i j) -> regular m A -> regular m B.
Proof.
  intros m A B H Reg v Hv. apply Reg. intros i Hi. rewrite <- (Hv i Hi). apply csum_ext. intros j Hj. rewrite H by assumption. reflexivity.
Qed.
Lemma inverse_ext : forall n A B F, (forall i j, (i < n)%nat -> (j < n)%nat -> A i j = B i j) -> inverse_of n A F -> inverse_of n B F.
Proof.
  intros n A B F H I i j Hi Hj. destruct (I i j Hi Hj) as [I1 I2]. unfold product in *. split.
  - rewrite <- I1. apply csum_ext. intros. rewrite H by assumption. reflexivity.
  - rewrite <- I2. apply csum_ext. intros. rewrite H by assumption. reflexivity.
Qed.

(** ** The parameters *)
Lemma interleaved : forall n (a b l : list R), interleave n a b = Some l ->
  length l = (2 * n)%nat /\ forall i, (i < n)%nat -> nth (2 * i) l 0 = nth i a 0 /\ nth (2 * i + 1) l 0 = nth i b 0.
Proof.
  induction n as [|n IH]; intros a b l H; cbn [interleave] in H.
  - injection H as <-. split; [reflexivity|]. intros. lia.
  - destruct a as [|x a]; [discriminate|]. destruct b as [|y b]; [discriminate|].
    destruct (interleave n a b) as [l'|] eqn:E; [|discriminate]. injection H as <-. destruct (IH a b l' E) as [Len Nth].
    split; [cbn [length]; lia|]. intros [|i] Hi.
    + split; reflexivity.
    + destruct (Nth i ltac:(lia)) as [N1 N2]. replace (2 * S i)%nat with (S (S (2 * i))) by lia.
      replace (S (S (2 * i)) + 1)%nat with (S (S (2 * i + 1))) by lia. cbn [nth]. split; assumption.
Qed.
Lemma constructed : forall c l, construct c = Some l ->
  nth 0 l 0 = k_sA0 c /\ nth 1 l 0 = k_sA c /\ nth 2 l 0 = k_s0_prod c /\ nth 3 l 0 = k_s0_scatt c /\
  (forall i, (i < 5)%nat -> nth (4 + i) l 0 = nth i (k_fscat c) 0) /\
  (forall i, (i < 5)%nat -> nth (9 + 2 * i) l 0 = nth i (k_beta_r c) 0 /\ nth (9 + 2 * i + 1) l 0 = nth i (k_beta_i c) 0) /\
  (forall i, (i < 5)%nat -> nth (19 + 2 * i) l 0 = nth i (k_fprod_r c) 0 /\ nth (19 + 2 * i + 1) l 0 = nth i (k_fprod_i c) 0) /\
  (forall i, nth (29 + i) l 0 = nth i (k_poles c) 0).
Proof.
  intros c l H. unfold construct in H.
  destruct (Nat.eqb_spec (length (k_fscat c)) 5) as [Lf|]; [|discriminate]. cbn [negb] in H.
  destruct (Nat.eqb_spec (length (k_poles c)) 30) as [Lp|]; [|discriminate]. cbn [negb] in H.
  destruct (interleave 5 (k_beta_r c) (k_beta_i c)) as [b|] eqn:Eb; [|discriminate].
  destruct (interleave 5 (k_fprod_r c) (k_fprod_i c)) as [f|] eqn:Ef; [|discriminate].
  injection H as <-. destruct (interleaved _ _ _ _ Eb) as [Lb Nb]. destruct (interleaved _ _ _ _ Ef) as [Lff Nf].
  assert (Sb : forall i, nth (9 + i) ([k_sA0 c; k_sA c; k_s0_prod c; k_s0_scatt c] ++ k_fscat c ++ b ++ f ++ k_poles c) 0
                         = nth i (b ++ f ++ k_poles c) 0).
  { intros i. replace (9 + i)%nat with (S (S (S (S (length (k_fscat c) + i))))) by lia. cbn [app nth].
    rewrite app_nth2_plus. reflexivity. }
  assert (Sf : forall i, nth (19 + i) ([k_sA0 c; k_sA c; k_s0_prod c; k_s0_scatt c] ++ k_fscat c ++ b ++ f ++ k_poles c) 0
                         = nth i (f ++ k_poles c) 0).
  { intros i. replace (19 + i)%nat with (9 + (length b + i))%nat by lia. rewrite Sb. apply app_nth2_plus. }
  repeat match goal with |- _ /\ _ => split end; try reflexivity.
  - intros i Hi. cbn [app Nat.add nth]. apply app_nth1. lia.
  - intros i Hi. replace (9 + 2 * i + 1)%nat with (9 + (2 * i + 1))%nat by lia. rewrite !Sb, !app_nth1 by lia. apply Nb. assumption.
  - intros i Hi. replace (19 + 2 * i + 1)%nat with (19 + (2 * i + 1))%nat by lia. rewrite !Sf, !app_nth1 by lia. apply Nf. assumption.
  - intros i. replace (29 + i)%nat with (19 + (length f + i))%nat by lia. rewrite Sf. apply app_nth2_plus.
Qed.

(** ** The phase spaces *)
Lemma mass_pos : 0 < m_pi R_ops /\ 0 < m_k R_ops /\ 0 < m_eta R_ops /\ 0 < m_etap R_ops.
Proof.
  unfold m_pi, m_k, m_eta, m_etap. cbn [LeafGen.o_lit R_ops].
  repeat split; apply Rmult_lt_0_compat; try (apply IZR_lt; reflexivity); apply powerRZ_lt; lra.
Qed.
Lemma phsp_two_spec : forall s m1 m2, 0 < s -> phsp_two R_ops s m1 m2 = two_body_phase_space s m1 m2.
Proof.
  intros s m1 m2 Hs. unfold phsp_two, two_body_phase_space, sq.
  cbn [LeafGen.o_lt LeafGen.o_zero LeafGen.o_one LeafGen.o_sub LeafGen.o_div LeafGen.o_mul LeafGen.o_add LeafGen.o_sqrt LeafGen.o_opp R_ops].
  replace ((m1 + m2) * (m1 + m2)) with ((m1 + m2) ^ 2) by ring.
  unfold Rltb. destruct (Rlt_dec 0 (1 - (m1 + m2) ^ 2 / s)) as [H|H]; destruct (Rle_dec s ((m1 + m2) ^ 2)) as [Q|Q].
  - exfalso. assert (1 <= (m1 + m2) ^ 2 / s) by (apply Rmult_le_reg_r with s; [assumption|]; unfold Rdiv; rewrite Rmult_assoc, Rinv_l by lra; lra). lra.
  - reflexivity.
  - f_equal. f_equal. ring.
  - exfalso. apply H. assert ((m1 + m2) ^ 2 / s < 1) by (apply Rmult_lt_reg_r with s; [assumption|]; unfold Rdiv; rewrite Rmult_assoc, Rinv_l by lra; lra). lra.
Qed.
Lemma phase_spaces_spec : forall s i, 0 < s -> phase_spaces R_ops s i = rho_of s i.
Proof.
  intros s i Hs. unfold phase_spaces, rho_of. destruct i as [|[|[|[|i]]]]; try (apply phsp_two_spec; assumption).
  unfold phsp_four_pi. cbn [LeafGen.o_lt LeafGen.o_le LeafGen.o_one LeafGen.o_zero LeafGen.o_ofZ LeafGen.o_mul R_ops]. unfold Rltb, Rleb.
  destruct (Rlt_dec 1 s) as [H|H]; destruct (Rle_dec s 1) as [Q|Q]; try lra; [apply phsp_two_spec; assumption|].
  destruct (Rle_dec 0 (four_pi_poly R_ops s)); reflexivity.
Qed.

(** ** The amplitude *)
Lemma k_matrix_spec : forall c l s i j, construct c = Some l -> (i < 5)%nat -> (j < 5)%nat ->
  k_matrix R_ops (fun i => nth (4 + i) l 0) (fun a i => nth (29 + 6 * a + i) l 0) (fun a => nth (29 + 6 * a + 5) l 0) (nth 3 l 0) s i j
  = K_of c s i j.
Proof.
  intros c l s i j H Hi Hj. destruct (constructed c l H) as (_ & _ & _ & E3 & Ef & _ & _ & Ep).
  unfold k_matrix, K_of.
  assert (Sum : forall n, fold_left (fun k a => LeafGen.o_add R_ops k (LeafGen.o_div R_ops (LeafGen.o_mul R_ops (nth (29 + 6 * a + i) l 0) (nth (29 + 6 * a + j) l 0)) (LeafGen.o_sub R_ops (sq R_ops (nth (29 + 6 * a + 5) l 0)) s))) (seq 0 n) 0
                = rsum n (fun a => coupling c a i * coupling c a j / (pole_mass c a ^ 2 - s))).
  { induction n as [|n IH]; [reflexivity|]. rewrite seq_S, fold_left_app, Nat.add_0_l. cbn [fold_left rsum].
    rewrite IH. unfold coupling, pole_mass, sq. cbn [LeafGen.o_add LeafGen.o_div LeafGen.o_mul LeafGen.o_sub R_ops].
    rewrite <- !Nat.add_assoc, !Ep. f_equal. f_equal. ring. }
  change (LeafGen.o_zero R_ops) with 0 in *. rewrite Sum.
  destruct i as [|i]; [|destruct j as [|j]]; cbn [Nat.eqb orb scattering].
  - rewrite Ef by lia. rewrite E3. cbn [LeafGen.o_add LeafGen.o_div LeafGen.o_mul LeafGen.o_sub LeafGen.o_one R_ops Nat.add]. unfold Rdiv. ring.
  - rewrite Nat.add_0_r, Ef by lia. rewrite E3. cbn [LeafGen.o_add LeafGen.o_div LeafGen.o_mul LeafGen.o_sub LeafGen.o_one R_ops]. unfold Rdiv. ring.
  - ring.
Qed.
Lemma output_spec : forall c l s F, construct c = Some l ->
  k_output R_ops F (fun a i => nth (29 + 6 * a + i) l 0) (fun a => nth (29 + 6 * a + 5) l 0)
    (fun i => (nth (9 + 2 * i) l 0, nth (9 + 2 * i + 1) l 0)) (fun i => (nth (19 + 2 * i) l 0, nth (19 + 2 * i + 1) l 0)) (nth 2 l 0) s
  = csum 5 (fun i => (F O i * P_of c s i)%C).
Proof.
  intros c l s F H. destruct (constructed c l H) as (_ & _ & E2 & _ & _ & Eb & Epr & Ep).
  set (beta := fun a => (nth a (k_beta_r c) 0, nth a (k_beta_i c) 0) : C).
  set (fprod := fun a => (nth a (k_fprod_r c) 0, nth a (k_fprod_i c) 0) : C).
  set (kap := (1 - k_s0_prod c) / (s - k_s0_prod c)).
  transitivity (csum 5 (fun a => (beta a * csum 5 (fun i => F O i * RtoC (coupling c a i / (pole_mass c a ^ 2 - s))) + fprod a * (F O a * RtoC kap))%C)).
  - unfold k_output.
    assert (G : forall n, (n <= 5)%nat ->
      fold_left (fun ret a =>
        let M := acc R_ops (seq 0 5) (fun i => c_scale R_ops (F O i) (nth (29 + 6 * a + i) l 0)) in
        let pole := c_rdiv R_ops M (LeafGen.o_sub R_ops (sq R_ops (nth (29 + 6 * a + 5) l 0)) s) in
        let ret := c_add R_ops ret (c_mul R_ops (nth (9 + 2 * a) l 0, nth (9 + 2 * a + 1) l 0) pole) in
        let prod := c_rdiv R_ops (c_scale R_ops (F O a) (LeafGen.o_sub R_ops (LeafGen.o_one R_ops) (nth 2 l 0))) (LeafGen.o_sub R_ops s (nth 2 l 0)) in
        c_add R_ops ret (c_mul R_ops (nth (19 + 2 * a) l 0, nth (19 + 2 * a + 1) l 0) prod)) (seq 0 n) (c_zero R_ops)
      = csum n (fun a => (beta a * csum 5 (fun i => F O i * RtoC (coupling c a i / (pole_mass c a ^ 2 - s))) + fprod a * (F O a * RtoC kap))%C)).
    { induction n as [|n IH]; intros Hn; [reflexivity|]. rewrite (seq_S n 0), fold_left_app, Nat.add_0_l.
      specialize (IH ltac:(lia)). rewrite (csum_S n), <- IH. cbn [fold_left]. cbv zeta. rewrite acc_csum.
      destruct (Eb n ltac:(lia)) as [B1 B2]. destruct (Epr n ltac:(lia)) as [Q1 Q2]. rewrite B1, B2, Q1, Q2, E2.
      change (nth n (k_beta_r c) 0, nth n (k_beta_i c) 0) with (beta n). change (nth n (k_fprod_r c) 0, nth n (k_fprod_i c) 0) with (fprod n).
      match goal with |- context [c_add R_ops ?x (c_mul R_ops (beta n) _)] => generalize x; intros acc0 end.
      rewrite !rdiv_C, !scale_C. change (c_add R_ops) with Cplus. change (c_mul R_ops) with Cmult.
      replace (csum 5 (fun i => F O i * RtoC (coupling c n i / (pole_mass c n ^ 2 - s)))%C)
        with (csum 5 (fun i => c_scale R_ops (F 0%nat i) (nth (29 + 6 * n + i) l 0)) * RtoC (/ LeafGen.o_sub R_ops (sq R_ops (nth (29 + 6 * n + 5) l 0)) s))%C.
      + unfold kap, Rdiv. rewrite RtoC_mult. cbn [LeafGen.o_sub LeafGen.o_one R_ops]. cring.
      + rewrite <- csum_scal_r. apply csum_ext. intros i Hi. rewrite scale_C. unfold coupling, pole_mass, Rdiv. rewrite RtoC_mult.
        rewrite <- !Nat.add_assoc, !Ep. unfold sq. cbn [LeafGen.o_sub LeafGen.o_mul R_ops].
        replace (nth (6 * n + 5) (k_poles c) 0 * nth (6 * n + 5) (k_poles c) 0) with (nth (6 * n + 5) (k_poles c) 0 ^ 2) by ring. ring. }
    apply (G 5%nat). lia.
  - rewrite csum_plus. rewrite (csum_ext 5 (fun a => (beta a * csum 5 _)%C) (fun a => csum 5 (fun i => (F O i * (beta a * RtoC (coupling c a i / (pole_mass c a ^ 2 - s))))%C))).
    2:{ intros a Ha. rewrite <- csum_scal. apply csum_ext. intros. ring. }
    rewrite csum_swap, <- csum_plus. apply csum_ext. intros i Hi. unfold P_of. rewrite csum_scal. fold kap.
    change (nth i (k_fprod_r c) 0, nth i (k_fprod_i c) 0) with (fprod i).
    change (csum 5 (fun a => ((nth a (k_beta_r c) 0%R, nth a (k_beta_i c) 0%R) : C) * RtoC (coupling c a i / (pole_mass c a ^ 2 - s)))%C)
      with (csum 5 (fun a => (beta a * RtoC (coupling c a i / (pole_mass c a ^ 2 - s)))%C)). ring.
Qed.
Lemma amplitude_value : forall c l s, construct c = Some l -> 0 < s -> (forall m, (m <= 5)%nat -> regular m (equations c s)) ->
  exists x, solves 5 (equations c s) x (P_of c s) /\
    (forall x', solves 5 (equations c s) x' (P_of c s) -> forall i, (i < 5)%nat -> x' i = x i) /\
    k_amplitude R_ops (fun i => nth i l 0) s = x O.
Proof.
  intros c l s H Hs Reg.
  set (K := k_matrix R_ops (fun i => nth (4 + i) l 0) (fun a i => nth (29 + 6 * a + i) l 0) (fun a => nth (29 + 6 * a + 5) l 0) (nth 3 l 0) s).
  set (ad := adler_term R_ops (nth 0 l 0) (nth 1 l 0) s).
  assert (EA : forall i j, (i < 5)%nat -> (j < 5)%nat -> equations c s i j = t_matrix R_ops K (phase_spaces R_ops s) ad i j).
  { intros i j Hi Hj. rewrite t_matrix_system. unfold equations, system. rewrite phase_spaces_spec by assumption. do 3 f_equal. f_equal.
    unfold K. rewrite (k_matrix_spec c l s i j H Hi Hj). f_equal. unfold ad, adler, adler_term.
    destruct (constructed c l H) as (E0 & E1 & _). rewrite E0, E1. cbn [LeafGen.o_sub LeafGen.o_one LeafGen.o_mul LeafGen.o_div LeafGen.o_ofZ R_ops].
    unfold Rdiv. ring. }
  assert (Reg' : forall m, (m <= 5)%nat -> regular m (t_matrix R_ops K (phase_spaces R_ops s) ad)).
  { intros m Hm. apply (regular_ext m (equations c s)); [|apply Reg; assumption]. intros i j Hi Hj. apply EA; lia. }
  set (F := R_propagator 5 K (phase_spaces R_ops s) (zeros R_ops) ad).
  assert (I : inverse_of 5 (equations c s) F).
  { apply (inverse_ext 5 (t_matrix R_ops K (phase_spaces R_ops s) ad)); [intros; symmetry; apply EA; assumption|].
    unfold F, propagator. apply inverse_regular. exact Reg'. }
  set (x := fun i => csum 5 (fun j => (F i j * P_of c s j)%C)).
  assert (Sol : solves 5 (equations c s) x (P_of c s)).
  { intros i Hi. unfold x. transitivity (csum 5 (fun k => csum 5 (fun j => (equations c s i k * F k j * P_of c s j)%C))).
    - apply csum_ext. intros k Hk. rewrite <- csum_scal. apply csum_ext. intros; ring.
    - rewrite csum_swap. rewrite <- (csum_unit_l 5 i (P_of c s)) by assumption. apply csum_ext. intros j Hj. rewrite csum_scal_r.
      destruct (I i j Hi Hj) as [I1 _]. rewrite <- I1. reflexivity. }
  exists x. split; [exact Sol|]. split.
  - intros x' Sol' i Hi. assert (D : (x' i - x i)%C = RtoC 0).
    { apply (Reg 5%nat ltac:(lia) (fun k => x' k - x k)%C); [|assumption]. intros r Hr.
      rewrite (csum_ext 5 _ (fun j => (equations c s r j * x' j - equations c s r j * x j)%C)) by (intros; ring).
      rewrite csum_minus, (Sol r Hr), (Sol' r Hr). ring. }
    transitivity ((x' i - x i) + x i)%C; [ring|]. rewrite D. ring.
  - unfold x. rewrite <- (output_spec c l s F H). reflexivity.
Qed.
Lemma K_symmetric : forall c s n, symmetric n (K_of c s).
Proof.
  intros c s n i j _ _. unfold K_of. f_equal.
  - apply rsum_ext. intros. f_equal. ring.
  - f_equal. destruct i, j; reflexivity.
Qed.

(** ** Above all thresholds *)
Lemma p55 : powerRZ 2 (-55) = / 36028797018963968.
Proof. change (powerRZ 2 (-55)) with (/ 2 ^ 55). lra. Qed.
Lemma p54 : powerRZ 2 (-54) = / 18014398509481984.
Proof. change (powerRZ 2 (-54)) with (/ 2 ^ 54). lra. Qed.
Lemma p53 : powerRZ 2 (-53) = / 9007199254740992.
Proof. change (powerRZ 2 (-53)) with (/ 2 ^ 53). lra. Qed.
Lemma mass_bounds : 0.139 < m_pi R_ops < 0.1396 /\ 0.493 < m_k R_ops < 0.494 /\ 0.547 < m_eta R_ops < 0.548 /\ 0.967 < m_etap R_ops < 0.968.
Proof.
  unfold m_pi, m_k, m_eta, m_etap. cbn [LeafGen.o_lit R_ops]. rewrite p55, p54, p53. lra.
Qed.
Lemma two_body_open : forall s m1 m2, (m1 + m2) ^ 2 < s -> 0 <= fst (two_body_phase_space s m1 m2) /\ snd (two_body_phase_space s m1 m2) = 0.
Proof.
  intros s m1 m2 H. unfold two_body_phase_space. destruct (Rle_dec s ((m1 + m2) ^ 2)); [lra|]. cbn [fst snd]. split; [apply sqrt_pos|reflexivity].
Qed.
Lemma all_open : forall s, (m_eta R_ops + m_etap R_ops) ^ 2 < s -> forall i, 0 <= fst (rho_of s i) /\ snd (rho_of s i) = 0.
Proof.
  intros s Hs i. destruct mass_bounds as (B1 & B2 & B3 & B4).
  assert (1 < s) by nra.
  destruct i as [|[|[|[|i]]]]; unfold rho_of; try (apply two_body_open; nra).
  destruct (Rle_dec s 1); [lra|]. apply two_body_open. nra.
Qed.
Lemma open_regular : forall c s, (m_eta R_ops + m_etap R_ops) ^ 2 < s -> forall m, (m <= 5)%nat -> regular m (equations c s).
Proof.
  intros c s Hs m Hm. apply (regular_system m (fun i j => adler c (m_pi R_ops) s * K_of c s i j) (rho_of s)).
  - intros i j Hi Hj. f_equal. apply (K_symmetric c s m); assumption.
  - intros j _. destruct (all_open s Hs j) as [H1 H2]. lra.
  - right. intros j _. apply all_open. assumption.
Qed.
Lemma propagator_inverse : forall n K rho F0 ad, (forall m, (m <= n)%nat -> regular m (system (fun i j => ad * K i j) rho)) ->
  inverse_of n (system (fun i j => ad * K i j) rho) (R_propagator n K rho F0 ad).
Proof.
  intros n K rho F0 ad Reg. apply (inverse_ext n (t_matrix R_ops K rho ad)); [intros; apply t_matrix_system|].
  unfold propagator. apply inverse_regular. intros m Hm. apply (regular_ext m (system (fun i j => ad * K i j) rho)); [|apply Reg; assumption].
  intros. symmetry. apply t_matrix_system.
Qed.
(** Below all poles, without the slowly varying part *)
Lemma K_form : forall c s n, (forall a, (a < 5)%nat -> s < pole_mass c a ^ 2) -> (forall i j, scattering c i j = 0) -> nonnegative_form n (K_of c s).
Proof.
  intros c s n Ps Sc x.
  assert (E : rsum n (fun i => rsum n (fun j => x i * K_of c s i j * x j))
              = rsum 5 (fun a => / (pole_mass c a ^ 2 - s) * (rsum n (fun i => x i * coupling c a i)) ^ 2)).
  { transitivity (rsum n (fun i => rsum n (fun j => rsum 5 (fun a => / (pole_mass c a ^ 2 - s) * ((x i * coupling c a i) * (x j * coupling c a j)))))).
    - apply rsum_ext. intros i Hi. apply rsum_ext. intros j Hj. unfold K_of. rewrite Sc, Rmult_0_l, Rplus_0_r.
      rewrite (Rmult_comm (x i)), Rmult_assoc, (Rmult_comm (rsum _ _)), <- rsum_scal. apply rsum_ext. intros. unfold Rdiv. ring.
    - rewrite (rsum_ext n _ (fun i => rsum 5 (fun a => rsum n (fun j => / (pole_mass c a ^ 2 - s) * ((x i * coupling c a i) * (x j * coupling c a j)))))).
      2:{ intros. apply rsum_swap. }
      rewrite rsum_swap. apply rsum_ext. intros a Ha.
      rewrite (rsum_ext n _ (fun i => (/ (pole_mass c a ^ 2 - s) * rsum n (fun j => x j * coupling c a j)) * (x i * coupling c a i))).
      2:{ intros i Hi. rewrite !rsum_scal. ring. }
      rewrite rsum_scal. ring. }
  rewrite E. apply rsum_nonneg. intros a Ha. apply Rmult_le_pos; [|apply pow2_ge_0]. left. apply Rinv_0_lt_compat. specialize (Ps a Ha). lra.
Qed.
Lemma rho_nonneg : forall s, 0 < s -> 0 <= four_pi_poly R_ops s -> forall i, 0 <= fst (rho_of s i) /\ 0 <= snd (rho_of s i).
Proof.
  intros s Hs Hp i.
  assert (T : forall m1 m2, 0 <= fst (two_body_phase_space s m1 m2) /\ 0 <= snd (two_body_phase_space s m1 m2)).
  { intros m1 m2. unfold two_body_phase_space. destruct (Rle_dec s ((m1 + m2) ^ 2)); cbn [fst snd]; split; try apply sqrt_pos; lra. }
  destruct i as [|[|[|[|i]]]]; unfold rho_of; try apply T.
  destruct (Rle_dec s 1); [|apply T]. destruct (Rle_dec 0 (four_pi_poly R_ops s)); [|lra]. cbn [fst snd]. lra.
Qed.

(** ** Continuity *)
Lemma two_body_fst : forall s m1 m2, 0 < s -> fst (two_body_phase_space s m1 m2) = sqrt (1 - (m1 + m2) ^ 2 / s).
Proof.
  intros s m1 m2 Hs. unfold two_body_phase_space. destruct (Rle_dec s ((m1 + m2) ^ 2)) as [H|H]; cbn [fst]; [|reflexivity].
  symmetry. apply sqrt_neg_0. assert (1 <= (m1 + m2) ^ 2 / s) by (apply Rmult_le_reg_r with s; [assumption|]; unfold Rdiv; rewrite Rmult_assoc, Rinv_l by lra; lra). lra.
Qed.
Lemma two_body_snd : forall s m1 m2, 0 < s -> snd (two_body_phase_space s m1 m2) = sqrt ((m1 + m2) ^ 2 / s - 1).
Proof.
  intros s m1 m2 Hs. unfold two_body_phase_space. destruct (Rle_dec s ((m1 + m2) ^ 2)) as [H|H]; cbn [snd]; [reflexivity|].
  symmetry. apply sqrt_neg_0. assert ((m1 + m2) ^ 2 / s < 1) by (apply Rmult_lt_reg_r with s; [assumption|]; unfold Rdiv; rewrite Rmult_assoc, Rinv_l by lra; lra). lra.
Qed.
Lemma quotient_continuous : forall t s, 0 < s -> continuous (fun s => t / s) s.
Proof. intros t s Hs. apply (continuous_mult (fun _ : R => t) (fun x : R => / x)); [apply continuous_const|]. apply continuous_Rinv. lra. Qed.
Lemma near_positive : forall s, 0 < s -> locally s (fun y => 0 < y).
Proof.
  intros s Hs. exists (mkposreal s Hs). intros y Hy. unfold ball in Hy. cbn in Hy. unfold AbsRing_ball, abs, minus, plus, opp in Hy. cbn in Hy.
  apply Rabs_def2 in Hy. lra.
Qed.
Lemma two_body_continuous : forall s m1 m2, 0 < s ->
  continuous (fun s => fst (two_body_phase_space s m1 m2)) s /\ continuous (fun s => snd (two_body_phase_space s m1 m2)) s.
Proof.
  intros s m1 m2 Hs. split.
  - apply (continuous_ext_loc _ (fun s => sqrt (1 - (m1 + m2) ^ 2 / s))).
    + generalize (near_positive s Hs). apply filter_imp. intros y Hy. symmetry. apply two_body_fst. assumption.
    + apply (continuous_comp (fun x => 1 - (m1 + m2) ^ 2 / x) sqrt); [|apply continuous_sqrt].
      apply (continuous_minus (fun _ => 1) (fun x => (m1 + m2) ^ 2 / x)); [apply continuous_const|apply quotient_continuous; assumption].
  - apply (continuous_ext_loc _ (fun s => sqrt ((m1 + m2) ^ 2 / s - 1))).
    + generalize (near_positive s Hs). apply filter_imp. intros y Hy. symmetry. apply two_body_snd. assumption.
    + apply (continuous_comp (fun x => (m1 + m2) ^ 2 / x - 1) sqrt); [|apply continuous_sqrt].
      apply (continuous_minus (fun x => (m1 + m2) ^ 2 / x) (fun _ => 1)); [apply quotient_continuous; assumption|apply continuous_const].
Qed.

(** ** The jump at s = 1 *)
Definition jump_kmat : kmat := mkKmat 0 0 0 0 [0;0;0;0;0] [0;0;0;0;0] [0;0;1;0;0] [0;0;0;0;0] [0;0;1;0;0]
  [0;0;0;0;0;10; 0;0;0;0;0;10; 0;0;0;0;0;10; 0;0;0;0;0;10; 0;0;0;0;0;10].
Lemma jump_K : forall s i j, (i < 5)%nat -> (j < 5)%nat ->
  K_of jump_kmat s i j = if ((i =? 0) && (j =? 2) || (i =? 2) && (j =? 0))%nat then / s else 0.
Proof.
  intros s i j Hi Hj. unfold K_of, coupling, pole_mass, scattering, jump_kmat. cbn [k_poles k_fscat k_s0_scatt rsum].
  destruct i as [|[|[|[|[|i]]]]]; try lia; destruct j as [|[|[|[|[|j]]]]]; try lia; cbn [Nat.mul Nat.add nth Nat.eqb andb orb]; unfold Rdiv; rewrite ?Rminus_0_r; ring.
Qed.
Lemma jump_adler : forall s, 0 < s -> adler jump_kmat (m_pi R_ops) s = 1.
Proof. intros s Hs. unfold adler, jump_kmat. cbn [k_sA0 k_sA]. field. lra. Qed.
Lemma jump_P : forall s i, (i < 5)%nat -> P_of jump_kmat s i = if (i =? 2)%nat then RtoC (/ s) else RtoC 0.
Proof.
  intros s i Hi. unfold P_of, coupling, pole_mass, jump_kmat. cbn [k_poles k_beta_r k_beta_i k_fprod_r k_fprod_i k_s0_prod csum].
  destruct i as [|[|[|[|[|i]]]]]; try lia; cbn [Nat.mul Nat.add nth Nat.eqb]; unfold Cmult, Cplus, RtoC; cbn [fst snd]; unfold Rdiv; rewrite ?Rminus_0_r; f_equal; ring.
Qed.
Lemma rho0_value : forall s, 1/2 < s -> fst (rho_of s 0) = sqrt (1 - (m_pi R_ops + m_pi R_ops) ^ 2 / s) /\ snd (rho_of s 0) = 0.
Proof.
  intros s Hs. destruct mass_bounds as (B1 & _). unfold rho_of. split; [apply two_body_fst; lra|].
  apply two_body_open. nra.
Qed.
(** The value where the phase space of four pions is real *)
Lemma jump_value : forall m, 1 <= m -> 0 <= fst (rho_of (m ^ 2) 2) -> snd (rho_of (m ^ 2) 2) = 0 ->
  k_lineshape R_ops jump_kmat m = Some ((0, fst (rho_of (m ^ 2) 2) / ((m ^ 2) ^ 2 + fst (rho_of (m ^ 2) 0) * fst (rho_of (m ^ 2) 2))) : C).
Proof.
  intros m Hm R1 R2. assert (Hs : 1 <= m ^ 2) by nra. unfold k_lineshape.
  destruct (construct jump_kmat) as [l|] eqn:Ec; [|discriminate Ec]. f_equal.
  replace (sq R_ops m) with (m ^ 2) by (unfold sq; cbn [LeafGen.o_mul R_ops]; ring).
  set (s := m ^ 2) in *. assert (Ps : 0 < s) by lra.
  destruct (rho0_value s ltac:(lra)) as [Z1 Z2]. assert (R0 : 0 <= fst (rho_of s 0)) by (rewrite Z1; apply sqrt_pos).
  assert (EA : forall i j, (i < 5)%nat -> (j < 5)%nat -> equations jump_kmat s i j
     = system (fun i j => if ((i =? 0) && (j =? 2) || (i =? 2) && (j =? 0))%nat then / s else 0)
         (fun j => match j with O => RtoC (fst (rho_of s 0)) | 2%nat => RtoC (fst (rho_of s 2)) | _ => RtoC 0 end) i j).
  { intros i j Hi Hj. unfold equations, system. rewrite (jump_K s i j Hi Hj), (jump_adler s Ps), Rmult_1_l.
    destruct (rho_of s 0) as [x0 y0] eqn:E0. destruct (rho_of s 2) as [x2 y2] eqn:E2. cbn [fst snd] in *. subst y0 y2.
    destruct i as [|[|[|[|[|i]]]]]; try lia; destruct j as [|[|[|[|[|j]]]]]; try lia; cbn [Nat.eqb andb orb]; rewrite ?E0, ?E2; try reflexivity; ring. }
  assert (Reg : forall k, (k <= 5)%nat -> regular k (equations jump_kmat s)).
  { intros k Hk. eapply regular_ext; [intros i j Hi Hj; symmetry; apply EA; lia|]. apply regular_system.
    - intros i j Hi Hj. rewrite (orb_comm ((i =? 0) && _)%nat). rewrite (andb_comm (i =? 2)%nat), (andb_comm (i =? 0)%nat). reflexivity.
    - intros j Hj. destruct j as [|[|[|j]]]; cbn [fst snd RtoC]; lra.
    - right. intros j Hj. destruct j as [|[|[|j]]]; reflexivity. }
  destruct (amplitude_value jump_kmat l s Ec Ps Reg) as (x & _ & Uni & V). refine (eq_trans V _). clear V.
  set (D := s ^ 2 + fst (rho_of s 0) * fst (rho_of s 2)).
  assert (PD : 0 < D) by (unfold D; assert (0 <= fst (rho_of s 0) * fst (rho_of s 2)) by (apply Rmult_le_pos; assumption); nra).
  symmetry.
  set (xs := fun i : nat => match i return C with O => (0, fst (rho_of s 2) / D) | 2%nat => RtoC (s / D) | _ => RtoC 0 end).
  change (xs O = x O). apply Uni; [|lia].
  intros i Hi. rewrite (csum_ext 5 _ (fun j => (system (fun i j => if ((i =? 0) && (j =? 2) || (i =? 2) && (j =? 0))%nat then (/ s)%R else 0%R)
         (fun j => match j with O => RtoC (fst (rho_of s 0)) | 2%nat => RtoC (fst (rho_of s 2)) | _ => RtoC 0 end) i j
         * xs j)%C))
    by (intros j Hj; rewrite EA by assumption; reflexivity).
  rewrite (jump_P s i Hi). cbn [csum]. unfold system, unit_matrix, xs. clear xs.
  assert (ED : D = s ^ 2 + fst (rho_of s 0) * fst (rho_of s 2)) by reflexivity. clearbody D.
  set (x0 := fst (rho_of s 0)) in *. set (x2 := fst (rho_of s 2)) in *. clearbody x0 x2.
  destruct i as [|[|[|[|[|i]]]]]; try lia; cbn [Nat.eqb andb orb]; unfold Cminus, Copp, Cmult, Cplus, Ci, RtoC; cbn [fst snd]; f_equal;
    try ring; try (field; lra); try (rewrite ED; field; rewrite <- ED; lra).
Qed.
Lemma poly_one : 0.829 < four_pi_poly R_ops 1 < 0.8293.
Proof.
  unfold four_pi_poly. cbn [LeafGen.o_lit LeafGen.o_add LeafGen.o_mul LeafGen.o_opp R_ops].
  rewrite p55, p54. change (powerRZ 2 (-58)) with (/ 2 ^ 58). change (powerRZ 2 (-56)) with (/ 2 ^ 56). change (powerRZ 2 (-50)) with (/ 2 ^ 50). lra.
Qed.
Lemma no_jump_right : forall h : R -> R, continuous h 1 -> (forall m, 1 < m -> h m = 0) -> h 1 = 0.
Proof.
  intros h Hc H. destruct (Req_dec (h 1) 0) as [E|E]; [exact E|exfalso].
  assert (P : 0 < Rabs (h 1)) by (apply Rabs_pos_lt; exact E).
  apply continuity_pt_filterlim in Hc. destruct (Hc (Rabs (h 1)) P) as (d & Pd & Hd).
  specialize (Hd (1 + d / 2)). cbn in Hd. unfold R_dist in Hd. rewrite (H (1 + d / 2)) in Hd by lra.
  rewrite Rminus_0_l, Rabs_Ropp in Hd.
  apply (Rlt_irrefl (Rabs (h 1))). apply Hd. split; [split; [exact I|lra]|]. replace (1 + d / 2 - 1) with (d / 2) by ring. rewrite Rabs_right; lra.
Qed.
Lemma jump_proof : ~ continuous (fun m => match k_lineshape R_ops jump_kmat m with Some z => snd z | None => 0 end) 1.
Proof.
  intros Hc. set (f := fun m => match k_lineshape R_ops jump_kmat m with Some z => snd z | None => 0 end) in Hc.
  destruct mass_bounds as (B1 & _). assert (PB := poly_one).
  set (r0 := fun s => sqrt (1 - (m_pi R_ops + m_pi R_ops) ^ 2 / s)). set (r2 := fun s => sqrt (1 - (2 * m_pi R_ops + 2 * m_pi R_ops) ^ 2 / s)).
  set (g := fun m => r2 (m ^ 2) / ((m ^ 2) ^ 2 + r0 (m ^ 2) * r2 (m ^ 2))).
  assert (F1 : f 1 = four_pi_poly R_ops 1 / (1 + r0 1 * four_pi_poly R_ops 1)).
  { unfold f. assert (E2 : rho_of (1 ^ 2) 2 = (four_pi_poly R_ops 1, 0)).
    { replace (1 ^ 2) with 1 by ring. unfold rho_of. destruct (Rle_dec 1 1); [|lra]. destruct (Rle_dec 0 (four_pi_poly R_ops 1)); [reflexivity|lra]. }
    rewrite jump_value; rewrite ?E2; cbn [fst snd]; try lra.
    destruct (rho0_value (1 ^ 2) ltac:(lra)) as [-> _]. unfold r0. replace (1 ^ 2) with 1 by ring. f_equal. ring. }
  assert (FG : forall m, 1 < m -> f m = g m).
  { intros m Hm. assert (Hs : 1 < m ^ 2) by nra. unfold f.
    assert (O : 0 <= fst (rho_of (m ^ 2) 2) /\ snd (rho_of (m ^ 2) 2) = 0).
    { unfold rho_of. destruct (Rle_dec (m ^ 2) 1); [lra|]. apply two_body_open. nra. }
    rewrite jump_value by (try lra; apply O). cbn [snd]. destruct (rho0_value (m ^ 2) ltac:(lra)) as [-> _].
    assert (E : fst (rho_of (m ^ 2) 2) = r2 (m ^ 2)) by (unfold rho_of; destruct (Rle_dec (m ^ 2) 1); [lra|]; apply two_body_fst; lra).
    rewrite E. reflexivity. }
  assert (R0 : 0 <= r0 1) by apply sqrt_pos. assert (R2 : 0 <= r2 1) by apply sqrt_pos.
  assert (Gc : continuous g 1).
  { assert (Sq : continuous (fun m => m ^ 2) 1) by (apply continuity_pt_filterlim; apply derivable_continuous_pt; apply derivable_pt_pow).
    assert (Q : forall t, continuous (fun m => sqrt (1 - t / m ^ 2)) 1).
    { intros t. apply (continuous_comp (fun m => 1 - t / m ^ 2) sqrt); [|apply continuous_sqrt].
      apply (continuous_minus (fun _ => 1) (fun m => t / m ^ 2)); [apply continuous_const|].
      apply (continuous_comp (fun m => m ^ 2) (fun x => t / x)); [exact Sq|]. apply quotient_continuous. lra. }
    unfold g, r0, r2. apply (continuous_mult (fun m => sqrt (1 - (2 * m_pi R_ops + 2 * m_pi R_ops) ^ 2 / m ^ 2))
      (fun m => / ((m ^ 2) ^ 2 + sqrt (1 - (m_pi R_ops + m_pi R_ops) ^ 2 / m ^ 2) * sqrt (1 - (2 * m_pi R_ops + 2 * m_pi R_ops) ^ 2 / m ^ 2)))).
    - apply Q.
    - apply (continuous_comp (fun m => (m ^ 2) ^ 2 + sqrt (1 - (m_pi R_ops + m_pi R_ops) ^ 2 / m ^ 2) * sqrt (1 - (2 * m_pi R_ops + 2 * m_pi R_ops) ^ 2 / m ^ 2)) Rinv).
      + apply (continuous_plus (fun m => (m ^ 2) ^ 2) (fun m => sqrt (1 - (m_pi R_ops + m_pi R_ops) ^ 2 / m ^ 2) * sqrt (1 - (2 * m_pi R_ops + 2 * m_pi R_ops) ^ 2 / m ^ 2))).
        * apply (continuous_comp (fun m => m ^ 2) (fun x => x ^ 2)); [exact Sq|]. apply continuity_pt_filterlim. apply derivable_continuous_pt. apply derivable_pt_pow.
        * apply (continuous_mult (fun m => sqrt (1 - (m_pi R_ops + m_pi R_ops) ^ 2 / m ^ 2)) (fun m => sqrt (1 - (2 * m_pi R_ops + 2 * m_pi R_ops) ^ 2 / m ^ 2))); apply Q.
      + apply continuous_Rinv. replace (1 ^ 2) with 1 by ring. fold (r0 1). fold (r2 1). nra. }
  assert (Z : f 1 - g 1 = 0).
  { apply (no_jump_right (fun m => f m - g m)).
    - apply (continuous_minus f g); assumption.
    - intros m Hm. rewrite FG by assumption. ring. }
  rewrite F1 in Z. unfold g in Z. replace (1 ^ 2) with 1 in Z by ring. set (p := four_pi_poly R_ops 1) in *.
  assert (E : p = r2 1).
  { assert (N1 : 0 < 1 + r0 1 * p) by nra. assert (N2 : 0 < 1 + r0 1 * r2 1) by nra.
    assert (X : p / (1 + r0 1 * p) = r2 1 / (1 + r0 1 * r2 1)).
    { replace (1 ^ 2) with 1 in Z by ring. lra. }
    assert (Y : p * (1 + r0 1 * r2 1) = r2 1 * (1 + r0 1 * p)).
    { transitivity (p / (1 + r0 1 * p) * ((1 + r0 1 * p) * (1 + r0 1 * r2 1))); [field; lra|]. rewrite X. field. lra. }
    nra. }
  assert (S2 : p * p = 1 - (2 * m_pi R_ops + 2 * m_pi R_ops) ^ 2 / 1).
  { rewrite E. unfold r2. apply sqrt_sqrt. nra. }
  unfold m_pi in S2. cbn [LeafGen.o_lit R_ops] in S2. rewrite p55 in S2. nra.
Qed.
