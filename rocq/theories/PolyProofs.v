(** The multi-dimensional polynomial: the boxes PolynomialPdf visits are the monomials of bounded degree in order. *)
From Coq Require Import List ZArith Reals Bool Lia Lra Permutation.
From Verif Require Import F64 PdfModel FormulaSpec FormulaProofs.
From Verif Require LeafGen.
Import ListNotations.
Local Open Scope nat_scope.

Definition upto (N : nat) (e : list nat) : bool := list_sum e <=? N.
Lemma filter_flat_map : forall {A B} (f : B -> bool) (g : A -> list B) l,
  filter f (flat_map g l) = flat_map (fun a => filter f (g a)) l.
Proof. intros. induction l as [|a l IH]; [reflexivity|]. cbn [flat_map]. rewrite filter_app, IH. reflexivity. Qed.
Lemma filter_map_swap : forall {A B} (f : B -> bool) (g : A -> B) l, filter f (map g l) = map g (filter (fun a => f (g a)) l).
Proof. intros. induction l as [|a l IH]; [reflexivity|]. cbn. destruct (f (g a)); cbn; rewrite IH; reflexivity. Qed.
Lemma flat_map_filter : forall {A B} (f : A -> bool) (g : A -> list B) l,
  (forall a, In a l -> f a = false -> g a = []) -> flat_map g (filter f l) = flat_map g l.
Proof.
  intros A B f g l. induction l as [|a l IH]; intro H; [reflexivity|]. cbn. destruct (f a) eqn:E; cbn.
  - rewrite IH; [reflexivity|]. intros b Hb. apply H. now right.
  - rewrite (H a (or_introl eq_refl) E). apply IH. intros b Hb. apply H. now right.
Qed.
Lemma flat_map_eq : forall {A B} (g h : A -> list B) l, (forall a, In a l -> g a = h a) -> flat_map g l = flat_map h l.
Proof.
  intros A B g h l. induction l as [|a l IH]; intro H; [reflexivity|]. cbn. rewrite (H a (or_introl eq_refl)), IH; [reflexivity|].
  intros b Hb. apply H. now right.
Qed.
Lemma filter_none : forall {A} (f : A -> bool) l, (forall a, In a l -> f a = false) -> filter f l = [].
Proof.
  intros A f l. induction l as [|a l IH]; intro H; [reflexivity|]. cbn. rewrite (H a (or_introl eq_refl)). apply IH. intros b Hb. apply H. now right.
Qed.
Lemma filter_all : forall {A} (f : A -> bool) l, (forall a, In a l -> f a = true) -> filter f l = l.
Proof.
  intros A f l. induction l as [|a l IH]; intro H; [reflexivity|]. cbn. rewrite (H a (or_introl eq_refl)). f_equal. apply IH. intros b Hb. apply H. now right.
Qed.
Lemma filter_seq : forall N s m, S N - s <= m -> filter (fun p => p + s <=? N) (seq 0 m) = seq 0 (S N - s).
Proof.
  intros N s m H. replace m with ((S N - s) + (m - (S N - s))) by lia. rewrite seq_app, filter_app.
  rewrite filter_all, filter_none; [apply app_nil_r| |].
  - intros a Ha. apply in_seq in Ha. apply Nat.leb_gt. lia.
  - intros a Ha. apply in_seq in Ha. apply Nat.leb_le. lia.
Qed.

Lemma sum_cons : forall p (e : list nat), list_sum (p :: e) = p + list_sum e.
Proof. reflexivity. Qed.
(** The monomials are the exponent vectors of the right length and degree, each once. *)
Lemma monomials_In : forall n N e, In e (monomials n N) <-> length e = n /\ list_sum e <= N.
Proof.
  induction n as [|n IH]; intros N e; cbn [monomials].
  - split.
    + intros [<-|[]]. cbn. lia.
    + intros [H _]. destruct e; [now left|discriminate].
  - rewrite in_flat_map. split.
    + intros (e' & H1 & H2). apply in_map_iff in H2. destruct H2 as (p & <- & H2). apply in_seq in H2. apply IH in H1.
      rewrite sum_cons. cbn [length]. split; lia.
    + intros [H1 H2]. destruct e as [|p e]; [discriminate|]. rewrite sum_cons in H2. cbn [length] in H1. exists e. split; [apply IH; lia|].
      apply in_map_iff. exists p. split; [reflexivity|]. apply in_seq. lia.
Qed.
Lemma NoDup_flat_map : forall {A B} (g : A -> list B) (key : B -> A) l, NoDup l -> (forall a, In a l -> NoDup (g a)) ->
  (forall a b, In b (g a) -> key b = a) -> NoDup (flat_map g l).
Proof.
  intros A B g key l H. induction H as [|a l Ha Hl IH]; intros H1 H2; cbn; [constructor|].
  assert (HA : NoDup (g a)) by (apply H1; now left).
  assert (HB : NoDup (flat_map g l)) by (apply IH; [intros b Hb; apply H1; now right|exact H2]).
  assert (HD : forall b, In b (g a) -> ~ In b (flat_map g l)).
  { intros b Hb Hc. apply in_flat_map in Hc. destruct Hc as (c & Hc & Hd). apply H2 in Hb. apply H2 in Hd. congruence. }
  clear - HA HB HD. induction HA as [|b m Hb Hm IH]; cbn; [exact HB|]. constructor.
  - intro Hc. apply in_app_or in Hc. destruct Hc; [contradiction|]. apply (HD b); [now left|assumption].
  - apply IH. intros c Hc. apply HD. now right.
Qed.
Lemma monomials_NoDup : forall n N, NoDup (monomials n N).
Proof.
  induction n as [|n IH]; intro N; cbn [monomials]; [constructor; [intros []|constructor]|].
  apply (NoDup_flat_map _ (@tl nat)); [apply IH| |].
  - intros e _. apply FinFun.Injective_map_NoDup; [|apply seq_NoDup]. intros p q E. congruence.
  - intros e b Hb. apply in_map_iff in Hb. destruct Hb as (p & <- & _). reflexivity.
Qed.
(** The monomials of smaller degree are among those of larger degree, in the same order. *)
Lemma monomials_filter : forall n N M, N <= M -> filter (upto N) (monomials n M) = monomials n N.
Proof.
  induction n as [|n IH]; intros N M H; cbn [monomials]; [reflexivity|].
  rewrite filter_flat_map, <- (IH N M H), flat_map_filter.
  - apply flat_map_eq. intros e _. rewrite filter_map_swap. f_equal. unfold upto.
    apply filter_seq. lia.
  - intros e _ He. unfold upto in He. apply Nat.leb_gt in He. replace (S N - list_sum e) with 0 by lia. reflexivity.
Qed.

(** ** Counting *)
Definition rising (n N : nat) : nat := fold_left (fun a i => a * (N + 1 + i)) (seq 0 n) 1.
Lemma rising_S : forall n N, rising (S n) N = rising n N * (N + 1 + n).
Proof. intros. unfold rising. rewrite seq_S, fold_left_app. reflexivity. Qed.
Lemma rising_shift : forall n N, rising (S n) N = (N + 1) * rising n (S N).
Proof.
  induction n as [|n IH]; intro N; [cbn; lia|]. rewrite rising_S, IH, (rising_S n (S N)). lia.
Qed.
Lemma flat_map_len : forall {A B} (g : A -> list B) l, length (flat_map g l) = list_sum (map (fun a => length (g a)) l).
Proof. intros. induction l as [|a l IH]; [reflexivity|]. cbn. rewrite app_length, IH. reflexivity. Qed.
Lemma sum_shift : forall (N : nat) (l : list (list nat)), (forall e, In e l -> list_sum e <= S N) ->
  list_sum (map (fun e => S (S N) - list_sum e) l) = length l + list_sum (map (fun e => S N - list_sum e) (filter (upto N) l)).
Proof.
  intros N l. induction l as [|e l IH]; intro H; [reflexivity|].
  cbn [map length filter]. unfold upto at 1. pose proof (H e (or_introl eq_refl)) as He.
  assert (IH' := IH (fun x Hx => H x (or_intror Hx))). rewrite ?sum_cons.
  destruct (Nat.leb_spec (list_sum e) N); cbn [map]; rewrite ?sum_cons; lia.
Qed.
Lemma monomials_pascal : forall n N, length (monomials (S n) (S N)) = length (monomials n (S N)) + length (monomials (S n) N).
Proof.
  intros n N. cbn [monomials]. rewrite !flat_map_len.
  rewrite (map_ext (fun a => length (map (fun p => p :: a) (seq 0 (S (S N) - list_sum a)))) (fun e => S (S N) - list_sum e)) by (intro; rewrite map_length, seq_length; reflexivity).
  rewrite (map_ext (fun a => length (map (fun p => p :: a) (seq 0 (S N - list_sum a)))) (fun e => S N - list_sum e)) by (intro; rewrite map_length, seq_length; reflexivity).
  rewrite sum_shift; [|intros e He; apply monomials_In in He; lia]. rewrite (monomials_filter n N (S N)) by lia. reflexivity.
Qed.
Lemma monomials_0 : forall n, length (monomials n 0) = 1.
Proof.
  induction n as [|n IH]; [reflexivity|]. cbn [monomials].
  assert (E : forall l : list (list nat), (forall e, In e l -> list_sum e <= 0) -> length (flat_map (fun e => map (fun p => p :: e) (seq 0 (1 - list_sum e))) l) = length l).
  { induction l as [|e l IHl]; intro H; [reflexivity|]. cbn [flat_map]. rewrite app_length, map_length, seq_length, IHl by (intros x Hx; apply H; now right).
    pose proof (H e (or_introl eq_refl)). cbn [length]. lia. }
  rewrite E; [exact IH|]. intros e He. apply monomials_In in He. lia.
Qed.
Lemma rising_count : forall n N, rising n N = fact n * length (monomials n N).
Proof.
  induction n as [|n IH]; intro N; [reflexivity|]. induction N as [|N IHN].
  - rewrite monomials_0, rising_S, IH, monomials_0. cbn [fact]. lia.
  - rewrite monomials_pascal, Nat.mul_add_distr_l, <- IHN. change (fact (S n)) with (S n * fact n).
    rewrite <- Nat.mul_assoc, <- IH, (rising_shift n N), (rising_S n (S N)). lia.
Qed.
Lemma divide_down : forall n L, fold_left (fun a i => a / i) (rev (seq 2 (n - 1))) (fact n * L) = L.
Proof.
  induction n as [|n IH]; intro L; [cbn; lia|]. destruct n as [|n]; [cbn; lia|].
  replace (S (S n) - 1) with (S n) by lia. rewrite seq_S, rev_app_distr. cbn [rev app fold_left].
  replace (fact (S (S n)) * L / (2 + n)) with (fact (S n) * L).
  - rewrite <- (IH L) at 2. replace (S n - 1) with n by lia. reflexivity.
  - change (fact (S (S n))) with (S (S n) * fact (S n)). replace (S (S n) * fact (S n) * L) with (fact (S n) * L * (2 + n)) by lia. symmetry. apply Nat.div_mul. lia.
Qed.
(** In unsigned int the product is exact while it stays below 2^32. *)
Lemma rising_pos : forall n N, 1 <= rising n N.
Proof. induction n as [|n IH]; intro N; [reflexivity|]. rewrite rising_S. specialize (IH N). nia. Qed.
Lemma z_product : forall n N, (Z.of_nat (rising n N) < 2 ^ 32)%Z ->
  fold_left (fun n i => (n * ((Z.of_nat N + 1 + Z.of_nat i) mod 2 ^ 32)) mod 2 ^ 32)%Z (seq 0 n) 1%Z = Z.of_nat (rising n N).
Proof.
  induction n as [|n IH]; intros N H; [reflexivity|]. rewrite seq_S, fold_left_app. cbn [fold_left Nat.add].
  rewrite rising_S in *. pose proof (rising_pos n N). rewrite IH by nia.
  rewrite (Z.mod_small (Z.of_nat N + 1 + Z.of_nat n)) by nia. rewrite Z.mod_small; nia.
Qed.
Lemma z_divide : forall l a, (forall i, In i l -> 0 < i) ->
  fold_left (fun n i => n / Z.of_nat i)%Z l (Z.of_nat a) = Z.of_nat (fold_left (fun n i => n / i) l a).
Proof.
  induction l as [|i l IH]; intros a H; [reflexivity|]. cbn [fold_left]. rewrite <- Nat2Z.inj_div. apply IH. intros; apply H; now right.
Qed.
Lemma demanded_terms_count : forall n N, (Z.of_nat (rising n N) < 2 ^ 32)%Z ->
  demanded_terms n N = Z.of_nat (length (monomials n N)).
Proof.
  intros n N H. unfold demanded_terms. rewrite z_product by exact H. rewrite z_divide.
  - f_equal. rewrite rising_count. apply divide_down.
  - intros i Hi. apply in_rev, in_seq in Hi. lia.
Qed.

(** ** Boxes *)
Fixpoint digits (md n i : nat) : list nat :=
  match n with O => [] | S n' => i mod md :: digits md n' (i / md) end.
Fixpoint tuples (md n : nat) : list (list nat) :=
  match n with O => [[]] | S n' => flat_map (fun e => map (fun p => p :: e) (seq 0 md)) (tuples md n') end.
Lemma seq_mul : forall k m, seq 0 (k * m) = flat_map (fun q => map (fun p => q * m + p) (seq 0 m)) (seq 0 k).
Proof.
  induction k as [|k IH]; intro m; [reflexivity|]. rewrite seq_S, flat_map_app. cbn [flat_map]. rewrite app_nil_r, <- IH.
  replace (S k * m) with (k * m + m) by lia. rewrite seq_app. f_equal. cbn [Nat.add].
  clear IH. generalize (k * m) as s. induction m as [|m IHm]; intro s; [reflexivity|].
  rewrite !seq_S, map_app, <- IHm. reflexivity.
Qed.
Lemma digits_all : forall md n, 0 < md -> map (digits md n) (seq 0 (md ^ n)) = tuples md n.
Proof.
  intros md n H. induction n as [|n IH]; [reflexivity|]. cbn [tuples]. rewrite <- IH.
  replace (md ^ S n) with (md ^ n * md) by (cbn; lia). rewrite seq_mul.
  generalize (seq 0 (md ^ n)) as l. induction l as [|q l IHl]; [reflexivity|]. cbn [flat_map map]. rewrite map_app, IHl. f_equal.
  rewrite map_map. apply map_ext_in. intros p Hp. apply in_seq in Hp. cbn [digits]. f_equal.
  - rewrite Nat.add_comm, Nat.mod_add by lia. apply Nat.mod_small. lia.
  - f_equal. rewrite Nat.div_add_l by lia. rewrite Nat.div_small by lia. lia.
Qed.
Lemma tuples_filter : forall N n, filter (upto N) (tuples (S N) n) = monomials n N.
Proof.
  intros N. induction n as [|n IH]; [reflexivity|]. cbn [tuples monomials]. rewrite filter_flat_map, <- IH, flat_map_filter.
  - apply flat_map_eq. intros e _. rewrite filter_map_swap. f_equal. unfold upto. apply filter_seq. lia.
  - intros e _ He. unfold upto in He. apply Nat.leb_gt in He. replace (S N - list_sum e) with 0 by lia. reflexivity.
Qed.

Definition diffs (xs offs : list R) : list R := map (fun p => (fst p - snd p)%R) (combine xs offs).
Lemma box_term_R : forall W md xs offs i term sum, 0 < md -> length offs = length xs ->
  LeafGen.box_term R_ops (R_lib W) (Z.of_nat md) (Z.of_nat i) xs offs term sum
  = ((term * monomial (diffs xs offs) (digits md (length xs) i))%R, (sum + Z.of_nat (list_sum (digits md (length xs) i)))%Z).
Proof.
  intros W md xs. induction xs as [|x xs IH]; intros offs i term sum H HL; destruct offs as [|o offs]; try discriminate HL;
    cbn [LeafGen.box_term diffs combine map length digits monomial]; rewrite ?sum_cons.
  - rewrite Rmult_1_r, Z.add_0_r. reflexivity.
  - rewrite <- Nat2Z.inj_mod, <- Nat2Z.inj_div, powi_nat, IH by (assumption || (injection HL; auto)).
    cbn [fst snd]. f_equal; [|lia].
    unfold diffs. change (LeafGen.o_mul R_ops) with Rmult. change (LeafGen.o_sub R_ops) with Rminus. ring.
Qed.
Lemma boxes_R : forall W N xs offs is cs ret, length offs = length xs ->
  length (filter (upto N) (map (digits (S N) (length xs)) is)) <= length cs ->
  LeafGen.boxes R_ops (R_lib W) (Z.of_nat (S N)) (map Z.of_nat is) xs offs cs ret
  = Some (ret + poly_sum (diffs xs offs) (filter (upto N) (map (digits (S N) (length xs)) is)) cs)%R.
Proof.
  intros W N xs offs is. induction is as [|i is IH]; intros cs ret HL HC.
  - cbn [LeafGen.boxes map filter poly_sum]. f_equal. ring.
  - cbn [LeafGen.boxes map]. rewrite box_term_R by (lia || assumption). cbn [filter map] in *. unfold upto at 1. unfold upto at 1 in HC.
    rewrite Z.add_0_l. destruct (Nat.leb_spec (list_sum (digits (S N) (length xs) i)) N) as [Hs|Hs].
    + destruct (Z.leb_spec (Z.of_nat (S N)) (Z.of_nat (list_sum (digits (S N) (length xs) i)))); [lia|].
      destruct cs as [|c cs]; [cbn in HC; lia|]. rewrite IH by (assumption || (cbn in HC; lia)). cbn [poly_sum]. f_equal.
      change (LeafGen.o_mul R_ops) with Rmult. change (LeafGen.o_add R_ops) with Rplus. change (LeafGen.o_one R_ops) with 1%R. ring.
    + destruct (Z.leb_spec (Z.of_nat (S N)) (Z.of_nat (list_sum (digits (S N) (length xs) i)))); [|lia].
      apply IH; assumption.
Qed.
Lemma digits_0 : forall md n, 0 < md -> digits md n 0 = repeat 0 n.
Proof.
  intros md n H. induction n as [|n IH]; [reflexivity|]. cbn [digits repeat]. rewrite Nat.mod_0_l, Nat.div_0_l by lia. now rewrite IH.
Qed.
Lemma monomial_0 : forall xs n, monomial xs (repeat 0 n) = 1%R.
Proof. induction xs as [|x xs IH]; intros [|n]; try reflexivity. cbn [repeat monomial pow]. rewrite IH. ring. Qed.
Lemma multi_polynomial_R : forall W N xs offs cs, length offs = length xs -> length (monomials (length xs) N) <= length cs ->
  LeafGen.multi_polynomial R_ops (R_lib W) N xs offs cs = Some (poly_sum (diffs xs offs) (monomials (length xs) N) cs).
Proof.
  intros W N xs offs cs HL HC. unfold LeafGen.multi_polynomial.
  assert (E : monomials (length xs) N = filter (upto N) (map (digits (S N) (length xs)) (seq 0 (S N ^ length xs)))).
  { rewrite digits_all by lia. symmetry. apply tuples_filter. }
  assert (HP : S N ^ length xs <> 0) by (apply Nat.pow_nonzero; lia).
  assert (HS : seq 0 (S N ^ length xs) = 0 :: seq 1 (S N ^ length xs - 1)).
  { destruct (S N ^ length xs) as [|k]; [contradiction|]. cbn [seq]. rewrite Nat.sub_succ, Nat.sub_0_r. reflexivity. }
  rewrite HS in E. cbn [map filter] in E. rewrite digits_0 in E by lia.
  assert (HZ : upto N (repeat 0 (length xs)) = true).
  { unfold upto. apply Nat.leb_le. assert (Z0 : forall n, list_sum (repeat 0 n) = 0) by (induction n as [|n IHn]; [reflexivity|]; cbn [repeat]; rewrite sum_cons; lia).
    rewrite Z0. lia. }
  rewrite HZ in E. rewrite E in HC |- *.
  destruct cs as [|c cs]; [cbn in HC; lia|]. rewrite boxes_R; [|assumption|cbn in HC; lia]. cbn [poly_sum]. rewrite monomial_0. f_equal. ring.
Qed.
