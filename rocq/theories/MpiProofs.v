(** Proofs for MpiModel. *)
From Coq Require Import List ZArith Bool Reals Lra Lia Psatz Permutation.
From Flocq Require Import Core BinarySingleNaN.
From Verif Require Import F64 F64Lemmas F64Err ListAux PdfModel NormModel RunModel Reduce MpiModel.
Import ListNotations.
Local Open Scope nat_scope.
Local Notation len := List.length.

(** ** perTask *)
Lemma per_task_unbinned : forall n p, 0 < p -> (Z.of_nat n < 2 ^ 31)%Z -> (Z.of_nat p < 2 ^ 31)%Z -> per_task (f_of_Z (Z.of_nat n)) p = n / p.
Proof.
  intros n p Hp Hn Hp2. unfold per_task. destruct (f_of_Z_exact (Z.of_nat n) ltac:(lia)) as [En Fn]. destruct (f_of_Z_exact (Z.of_nat p) ltac:(lia)) as [Ep Fp].
  rewrite ftruncZ_spec. set (N := Z.of_nat n) in *. set (P := Z.of_nat p) in *. assert (HP : (1 <= P)%Z) by lia. assert (HN : (0 <= N)%Z) by lia.
  assert (PR : (1 <= IZR P)%R) by (now apply IZR_le). assert (NR : (0 <= IZR N)%R) by (now apply IZR_le).
  assert (NB : (IZR N <= 2147483648)%R) by (apply IZR_le; lia).
  assert (QB : (0 <= IZR N / IZR P <= IZR N)%R).
  { split; [unfold Rdiv; apply Rmult_le_pos; [lra|left; apply Rinv_0_lt_compat; lra]|]. apply Rmult_le_reg_r with (IZR P); [lra|]. unfold Rdiv. rewrite Rmult_assoc, Rinv_l by lra. nra. }
  assert (B1023 : (2147483648 <= bpow radix2 1023)%R) by (change 2147483648%R with (bpow radix2 31); apply bpow_le; lia).
  destruct (fdiv_rnd (f_of_Z N) (f_of_Z P) Fn) as [_ ED]; [rewrite Ep; lra|rewrite En, Ep, Rabs_pos_eq by apply QB; lra|]. rewrite ED, En, Ep.
  set (q := (N / P)%Z). assert (Dm : (N = P * q + N mod P)%Z) by (apply Z.div_mod; lia). pose proof (Z.mod_pos_bound N P ltac:(lia)) as MB.
  assert (q0 : (0 <= q)%Z) by (apply Z.div_pos; lia). assert (qN : (q <= N)%Z) by (unfold q; apply Z.div_le_upper_bound; nia).
  assert (Elo : (IZR q <= IZR N / IZR P)%R). { apply Rmult_le_reg_r with (IZR P); [lra|]. unfold Rdiv. rewrite Rmult_assoc, Rinv_l, Rmult_1_r by lra. rewrite <- mult_IZR. apply IZR_le. lia. }
  assert (Ehi : (IZR N / IZR P <= IZR (q + 1) - / IZR P)%R).
  { apply Rmult_le_reg_r with (IZR P); [lra|]. unfold Rdiv. rewrite Rmult_minus_distr_r, Rmult_assoc, Rinv_l, Rmult_1_r by lra. rewrite <- mult_IZR. replace 1%R with (IZR 1) by reflexivity. rewrite <- minus_IZR. apply IZR_le. lia. }
  assert (L : (IZR q <= rnd (IZR N / IZR P))%R). { rewrite <- (rnd_format (IZR q)) at 1; [now apply rnd_le|]. apply generic_format_Z. lia. }
  assert (H : (rnd (IZR N / IZR P) < IZR (q + 1))%R).
  { destruct (Req_dec (IZR N) 0) as [Z0|NZ].
    - replace (IZR N / IZR P)%R with 0%R by (rewrite Z0; field; lra). rewrite rnd_0. apply IZR_lt. lia.
    - destruct (rnd_rel (IZR N / IZR P)) as (d & Hd & Er).
      + rewrite Rabs_pos_eq by apply QB. assert (N1 : (1 <= IZR N)%R) by (assert (0 < N)%Z by (destruct (Z.eq_dec N 0) as [->|]; [now elim NZ|lia]); apply IZR_le; lia).
        assert (P31 : (IZR P <= 2147483648)%R) by (apply IZR_le; lia). assert (I : (/ 2147483648 <= IZR N / IZR P)%R).
        { unfold Rdiv. apply Rle_trans with (/ IZR P)%R; [apply Rinv_le; lra|]. assert (0 < / IZR P)%R by (apply Rinv_0_lt_compat; lra). nra. }
        assert (bpow radix2 (-1022) <= / 2147483648)%R; [|lra]. replace (/ 2147483648)%R with (bpow radix2 (-31)) by (cbn; lra). apply bpow_le. lia.
      + rewrite Er. assert (A : (Rabs (IZR N / IZR P * d) <= IZR N / IZR P * uro)%R) by (rewrite Rabs_mult, (Rabs_pos_eq (IZR N / IZR P)) by apply QB; apply Rmult_le_compat_l; [apply QB|exact Hd]).
        apply Rabs_le_inv in A. assert (U : (IZR N * uro < 1)%R). { pose proof uro_small. pose proof uro_pos. apply Rle_lt_trans with (2147483648 * / 1000000000000000)%R; [apply Rmult_le_compat; lra|lra]. }
        assert (I : (0 < / IZR P)%R) by (apply Rinv_0_lt_compat; lra). assert (IZR N / IZR P * uro < / IZR P)%R by (unfold Rdiv; nra). nra. }
  assert (T : Ztrunc (rnd (IZR N / IZR P)) = q).
  { rewrite Ztrunc_floor by (apply Rle_trans with (IZR q); [now apply IZR_le|exact L]). apply Zfloor_imp. now split. }
  rewrite T. unfold q, N, P. rewrite <- Nat2Z.inj_div. apply Nat2Z.id.
Qed.
Lemma per_task_zero : forall p, 0 < p -> (Z.of_nat p < 2 ^ 31)%Z -> per_task fzero p = 0.
Proof. intros p H B. change fzero with (f_of_Z (Z.of_nat 0)). rewrite per_task_unbinned by (try exact H; try exact B; cbn; lia). apply Nat.div_0_l. lia. Qed.

(** ** Counts and displacements *)
Lemma displs_nth : forall cs d r c, nth_error cs r = Some c -> nth_error (displs d cs) r = Some (d + fold_right Nat.add 0 (firstn r cs)).
Proof. induction cs as [|a cs IH]; intros d [|r] c H; try discriminate; cbn [displs nth_error firstn fold_right]; [f_equal; lia|]. rewrite (IH _ _ _ H). f_equal. lia. Qed.
Lemma sum_repeat : forall n p, fold_right Nat.add 0 (repeat p n) = n * p.
Proof. induction n; intro p; cbn; [reflexivity|]. now rewrite IHn. Qed.
Lemma counts_nth : forall n per p r, 0 < p -> r < p -> nth_error (counts n per p) r = Some (if r =? p - 1 then n - per * (p - 1) else per).
Proof.
  intros n per p r Hp Hr. unfold counts. destruct (Nat.eqb_spec r (p - 1)) as [->|N].
  - rewrite nth_error_app2 by (rewrite repeat_length; lia). rewrite repeat_length, Nat.sub_diag. reflexivity.
  - rewrite nth_error_app1 by (rewrite repeat_length; lia). apply nth_error_repeat. lia.
Qed.
Lemma firstn_repeat : forall {A} n k (x : A), n <= k -> firstn n (repeat x k) = repeat x n.
Proof. induction n; intros [|k] x H; cbn; [reflexivity|reflexivity|lia|]. f_equal. apply IHn. lia. Qed.
Lemma counts_displ : forall n per p r, 0 < p -> r < p -> nth_error (displs 0 (counts n per p)) r = Some (r * per).
Proof.
  intros n per p r Hp Hr. rewrite (displs_nth _ _ _ _ (counts_nth n per p r Hp Hr)). f_equal. cbn [Nat.add]. unfold counts. rewrite firstn_app, repeat_length. replace (r - (p - 1)) with 0 by lia. cbn [firstn]. rewrite app_nil_r, firstn_repeat by lia. apply sum_repeat.
Qed.
Definition cnt (n per p r : nat) : nat := if r =? p - 1 then n - per * (p - 1) else per.
Definition block (n per p r : nat) : list nat := seq (r * per) (cnt n per p r).
Lemma map_seq_shift : forall {A} (f : nat -> A) n, map f (seq 1 n) = map (fun i => f (S i)) (seq 0 n).
Proof. intros. rewrite <- seq_shift, map_map. reflexivity. Qed.
Lemma blocks_concat_aux : forall per k, concat (map (fun r => seq (r * per) per) (seq 0 k)) = seq 0 (k * per).
Proof.
  intros per k. induction k as [|k IH]; [reflexivity|]. rewrite seq_S, map_app, concat_app, IH. cbn [map concat]. rewrite app_nil_r. cbn [Nat.add]. replace (S k * per) with (k * per + per) by lia. now rewrite seq_app.
Qed.
Lemma blocks_concat : forall n per p, 0 < p -> per * (p - 1) <= n -> concat (map (block n per p) (seq 0 p)) = seq 0 n.
Proof.
  intros n per p Hp H. replace (seq 0 p) with (seq 0 (p - 1) ++ [p - 1]) by (replace p with (S (p - 1)) at 3 by lia; rewrite seq_S; reflexivity).
  rewrite map_app, concat_app. cbn [map concat]. rewrite app_nil_r.
  assert (E : map (block n per p) (seq 0 (p - 1)) = map (fun r => seq (r * per) per) (seq 0 (p - 1))).
  { apply map_ext_in. intros r Hr. apply in_seq in Hr. unfold block, cnt. destruct (Nat.eqb_spec r (p - 1)); [lia|reflexivity]. }
  rewrite E, blocks_concat_aux. unfold block, cnt. rewrite Nat.eqb_refl. rewrite (Nat.mul_comm per). replace n with ((p - 1) * per + (n - (p - 1) * per)) at 2 by lia. rewrite seq_app. reflexivity.
Qed.

(** ** Renumbering *)
Lemma nfold_app : forall {S A} (f : S -> A -> nres S) a b s, nfold f (a ++ b) s = (s' <~ nfold f a s ;; nfold f b s').
Proof. induction a as [|x a IH]; intros b s; cbn [app nfold nbind]; [reflexivity|]. destruct (f s x); cbn [nbind]; try reflexivity. apply IH. Qed.
Lemma store_ok : forall b i x, i < len b -> store b (Z.of_nat i) x = NOk (upd b i (Some x)).
Proof. intros b i x H. unfold store. rewrite (proj2 (Z.leb_le 0 (Z.of_nat i)) ltac:(lia)), (proj2 (Z.ltb_lt (Z.of_nat i) (Z.of_nat (len b))) ltac:(lia)). cbn [andb]. now rewrite Nat2Z.id. Qed.
Lemma addr_inj : forall D e k e' k', k < D -> k' < D -> e * D + k = e' * D + k' -> e = e' /\ k = k'.
Proof. intros D e k e' k' H H' E. assert (e = e'). { rewrite (Nat.mul_comm e), (Nat.mul_comm e') in E. rewrite (Nat.div_unique (D * e + k) D e k H eq_refl), E. symmetry. now apply (Nat.div_unique _ D e' k'). } subst. lia. Qed.
Section Renumber.
Variable fixme : list bool.
Local Notation dims := (len fixme).
Variable ds : list nat.
Definition fixed (k : nat) : bool := match nth_error fixme k with Some f => f | None => false end.
Lemma row_prefix : forall i j d b m, m <= dims -> nth_error ds i = Some d -> (j + d) * dims + dims <= len b ->
  exists b', nfold (fun b k => match nth_error fixme k, nth_error ds i with Some fx, Some d => if fx then store b (Z.of_nat ((j + d) * dims + k)) (float_of j) else NOk b | _, _ => NUB end) (seq 0 m) b = NOk b' /\ len b' = len b /\
    forall e k, k < dims -> nth_error b' (e * dims + k) = if (e =? j + d) && (k <? m) && fixed k then Some (Some (float_of j)) else nth_error b (e * dims + k).
Proof.
  intros i j d b m. revert b. induction m as [|m IH]; intros b Hm Hi Hb.
  - exists b. repeat split. intros e k _. cbn [Nat.ltb Nat.leb]. rewrite andb_false_r. reflexivity.
  - rewrite seq_S, nfold_app. destruct (IH b ltac:(lia) Hi Hb) as (b' & E & L & C). rewrite E. cbn [nbind Nat.add nfold]. rewrite Hi.
    destruct (nth_error fixme m) as [fx|] eqn:F; [|apply nth_error_None in F; lia]. destruct fx.
    + rewrite store_ok by (rewrite L; lia). cbn [nbind]. eexists. split; [reflexivity|]. split; [now rewrite upd_length|]. intros e k Hk.
      destruct (Nat.eq_dec (e * dims + k) ((j + d) * dims + m)) as [X|X].
      * destruct (addr_inj _ _ _ _ _ Hk Hm X) as [-> ->]. rewrite nth_error_upd_same by (rewrite L; lia). rewrite Nat.eqb_refl. unfold fixed. rewrite F. rewrite (proj2 (Nat.ltb_lt m (S m)) ltac:(lia)). reflexivity.
      * rewrite nth_error_upd_other by lia. rewrite (C e k Hk). destruct (Nat.eqb_spec e (j + d)) as [->|]; [|reflexivity]. cbn [andb]. assert (k <> m) by (intros ->; now apply X). destruct (Nat.ltb_spec k m), (Nat.ltb_spec k (S m)); try lia; reflexivity.
    + cbn [nbind]. exists b'. split; [reflexivity|]. split; [exact L|]. intros e k Hk. rewrite (C e k Hk). destruct (Nat.eq_dec k m) as [->|].
      * unfold fixed. rewrite F. now rewrite !andb_false_r.
      * destruct (Nat.ltb_spec k m), (Nat.ltb_spec k (S m)); try lia; reflexivity.
Qed.
Lemma row_ok : forall i j d b, nth_error ds i = Some d -> (j + d) * dims + dims <= len b ->
  exists b', renumber_row fixme dims ds i j b = NOk b' /\ len b' = len b /\
    forall e k, k < dims -> nth_error b' (e * dims + k) = if (e =? j + d) && fixed k then Some (Some (float_of j)) else nth_error b (e * dims + k).
Proof.
  intros i j d b Hi Hb. destruct (row_prefix i j d b dims (le_n _) Hi Hb) as (b' & E & L & C). exists b'. split; [exact E|]. split; [exact L|]. intros e k Hk. rewrite (C e k Hk), (proj2 (Nat.ltb_lt k dims) Hk), andb_true_r. reflexivity.
Qed.
Lemma rank_ok : forall i d c b, nth_error ds i = Some d -> (d + c) * dims <= len b ->
  exists b', nfold (fun b j => renumber_row fixme dims ds i j b) (seq 0 c) b = NOk b' /\ len b' = len b /\
    forall e k, k < dims -> nth_error b' (e * dims + k) = if (d <=? e) && (e <? d + c) && fixed k then Some (Some (float_of (e - d))) else nth_error b (e * dims + k).
Proof.
  intros i d c. induction c as [|c IH]; intros b Hi Hb.
  - exists b. repeat split. intros e k _. destruct (Nat.leb_spec d e), (Nat.ltb_spec e (d + 0)); try lia; reflexivity.
  - rewrite seq_S, nfold_app. destruct (IH b Hi ltac:(nia)) as (b' & E & L & C). rewrite E. cbn [nbind Nat.add nfold].
    destruct (row_ok i c d b' Hi ltac:(rewrite L; nia)) as (b'' & E2 & L2 & C2). rewrite E2. cbn [nbind]. exists b''. split; [reflexivity|]. split; [lia|]. intros e k Hk. rewrite (C2 e k Hk), (C e k Hk).
    destruct (Nat.eqb_spec e (c + d)) as [->|N].
    + replace (c + d - d) with c by lia. destruct (Nat.leb_spec d (c + d)), (Nat.ltb_spec (c + d) (d + S c)), (Nat.ltb_spec (c + d) (d + c)); try lia. cbn [andb]. destruct (fixed k); reflexivity.
    + cbn [andb]. destruct (Nat.leb_spec d e), (Nat.ltb_spec e (d + c)), (Nat.ltb_spec e (d + S c)); try lia; reflexivity.
Qed.
End Renumber.

Lemma renumber_ok : forall fixme n per p b, 0 < p -> per * (p - 1) <= n -> len b = n * len fixme -> forall m, m <= p - 1 ->
  exists b', nfold (fun b i => match nth_error (counts n per p) i with Some c => nfold (fun b j => renumber_row fixme (len fixme) (displs 0 (counts n per p)) i j b) (seq 0 c) b | None => NUB end) (seq 1 m) b = NOk b' /\ len b' = len b /\
    forall r j k, r < p -> j < cnt n per p r -> k < len fixme -> nth_error b' ((r * per + j) * len fixme + k) = if (0 <? r) && (r <=? m) && fixed fixme k then Some (Some (float_of j)) else nth_error b ((r * per + j) * len fixme + k).
Proof.
  intros fixme n per p b Hp Hper Hb m. induction m as [|m IH]; intro Hm.
  - exists b. repeat split. intros r j k _ _ _. destruct (Nat.ltb_spec 0 r), (Nat.leb_spec r 0); try lia; reflexivity.
  - rewrite seq_S, nfold_app. destruct (IH ltac:(lia)) as (b' & E & L & C). rewrite E. cbn [nbind Nat.add nfold]. change (1 + m) with (S m).
    rewrite (counts_nth n per p (S m) Hp ltac:(lia)). fold (cnt n per p (S m)).
    assert (SZ : S m * per + cnt n per p (S m) <= n). { unfold cnt. destruct (Nat.eqb_spec (S m) (p - 1)) as [->|]; nia. }
    destruct (rank_ok fixme (displs 0 (counts n per p)) (S m) (S m * per) (cnt n per p (S m)) b' (counts_displ n per p (S m) Hp ltac:(lia)) ltac:(rewrite L, Hb; apply Nat.mul_le_mono_r; exact SZ)) as (b'' & E2 & L2 & C2).
    rewrite E2. cbn [nbind]. exists b''. split; [reflexivity|]. split; [lia|]. intros r j k Hr Hj Hk. rewrite (C2 _ _ Hk), (C r j k Hr Hj Hk).
    destruct (Nat.eq_dec r (S m)) as [->|N].
    + replace (S m * per + j - S m * per) with j by lia. destruct (Nat.leb_spec (S m * per) (S m * per + j)), (Nat.ltb_spec (S m * per + j) (S m * per + cnt n per p (S m))), (Nat.ltb_spec 0 (S m)), (Nat.leb_spec (S m) (S m)), (Nat.leb_spec (S m) m); try lia. cbn [andb]. reflexivity.
    + assert (X : (S m * per <=? r * per + j) && (r * per + j <? S m * per + cnt n per p (S m)) = false).
      { apply andb_false_iff. destruct (Nat.lt_ge_cases r (S m)) as [lt|ge].
        - left. apply Nat.leb_gt. unfold cnt in Hj. destruct (Nat.eqb_spec r (p - 1)); [lia|]. nia.
        - right. apply Nat.ltb_ge. unfold cnt. destruct (Nat.eqb_spec (S m) (p - 1)); [lia|]. nia. }
      rewrite X. cbn [andb]. destruct (Nat.leb_spec r m), (Nat.leb_spec r (S m)); try lia; reflexivity.
Qed.

(** ** What a rank holds *)
Lemma nth_firstn : forall {A} n (l : list A) i, i < n -> nth_error (firstn n l) i = nth_error l i.
Proof. induction n; intros [|a l] [|i] H; try reflexivity; try lia. cbn. apply IHn. lia. Qed.
Lemma nth_skipn : forall {A} n (l : list A) i, nth_error (skipn n l) i = nth_error l (n + i).
Proof. induction n; intros [|a l] i; try reflexivity. - destruct i; reflexivity. - cbn. apply IHn. Qed.
Lemma split_unbinned_ok : forall n fixme host p r, 0 < p -> (Z.of_nat n < 2 ^ 31)%Z -> (Z.of_nat p < 2 ^ 31)%Z -> len host = n * len fixme -> r < p ->
  exists k, split_unbinned n fixme host p r = NOk k /\ k_per_task k = cnt n (n / p) p r /\ len (k_buf k) = cnt n (n / p) p r * len fixme /\
    forall j c, j < cnt n (n / p) p r -> c < len fixme -> nth_error (k_buf k) (j * len fixme + c) = if (0 <? r) && fixed fixme c then Some (Some (float_of j)) else nth_error host ((r * (n / p) + j) * len fixme + c).
Proof.
  intros n fixme host p r Hp Hn Hp2 Hh Hr. unfold split_unbinned. rewrite (per_task_unbinned n p Hp Hn Hp2). set (per := n / p).
  assert (Hper : per * (p - 1) <= n) by (unfold per; pose proof (Nat.div_mod n p ltac:(lia)); nia).
  unfold renumber. destruct (renumber_ok fixme n per p host Hp Hper Hh (p - 1) (le_n _)) as (b & E & L & C). rewrite E. cbn [nbind]. unfold my_part. rewrite (counts_displ n per p r Hp Hr), (counts_nth n per p r Hp Hr). fold (cnt n per p r).
  assert (SZ : r * per + cnt n per p r <= n). { unfold cnt. destruct (Nat.eqb_spec r (p - 1)) as [->|]; nia. }
  eexists. split; [reflexivity|]. cbn [k_per_task k_buf]. split; [reflexivity|]. split.
  - rewrite firstn_length, skipn_length, L, Hh. nia.
  - intros j c Hj Hc. rewrite nth_firstn by nia. rewrite nth_skipn. replace (r * per * len fixme + (j * len fixme + c)) with ((r * per + j) * len fixme + c) by lia. rewrite (C r j c Hr Hj Hc). destruct (Nat.leb_spec r (p - 1)); [|lia]. now rewrite andb_true_r.
Qed.
Lemma while_stop : forall fixme dims cs ds i fuel b, nth_error cs 0 = Some 0 -> renumber_while fixme dims cs ds i (S fuel) 0 b = NOk b.
Proof. intros. cbn [renumber_while]. rewrite H. reflexivity. Qed.
Lemma renumber_bins_none : forall fixme dims p n ds b, renumber_bins fixme dims p n (counts n 0 p) ds b = NOk b.
Proof.
  intros fixme dims p n ds b. unfold renumber_bins. destruct p as [|[|p]]; [reflexivity|reflexivity|]. cbn [Nat.sub].
  assert (G : forall l, nfold (fun b i => renumber_while fixme dims (counts n 0 (S (S p))) ds i (S n) 0 b) l b = NOk b) by (induction l as [|i l IH]; [reflexivity|]; cbn [nfold]; rewrite while_stop by reflexivity; cbn [nbind]; exact IH).
  apply G.
Qed.
Lemma split_binned_ok : forall n fixme host p r, 0 < p -> (Z.of_nat p < 2 ^ 31)%Z -> len host = n * (2 + len fixme) -> r < p ->
  split_binned n fixme host p r = NOk (if r =? p - 1 then mkRank host n else mkRank [] 0).
Proof.
  intros n fixme host p r Hp Hp2 Hh Hr. unfold split_binned. rewrite (per_task_zero p Hp Hp2), renumber_bins_none. cbn [nbind]. unfold my_part. rewrite (counts_displ n 0 p r Hp Hr), (counts_nth n 0 p r Hp Hr).
  rewrite Nat.mul_0_r. cbn [Nat.mul]. rewrite Nat.sub_0_r. change (0 * (2 + len fixme)) with 0. cbn [skipn]. destruct (r =? p - 1).
  - rewrite firstn_all2 by lia. reflexivity.
  - rewrite Nat.mul_0_r. reflexivity.
Qed.

(** ** Sums and gathered values *)
Lemma reduces_concat : forall red ls, schedule red -> forall all m, reduces m (map red ls) all -> exists n, reduces n (concat ls) all.
Proof.
  intros red ls S. assert (G : forall m l a, reduces m l a -> forall ls, l = map red ls -> exists n, reduces n (concat ls) a).
  { intros m l a H. induction H as [|x|n m l1 l2 a b H1 IH1 H2 IH2|n l l' a P H IH]; intros ls' E.
    - destruct ls' as [|? ?]; [|discriminate]. exists 0. constructor.
    - destruct ls' as [|x1 [|? ?]]; try discriminate. injection E as ->. cbn [concat]. rewrite app_nil_r. apply S.
    - symmetry in E. apply map_eq_app in E. destruct E as (a1 & a2 & -> & E1 & E2). destruct (IH1 a1 (eq_sym E1)) as [n1 R1]. destruct (IH2 a2 (eq_sym E2)) as [n2 R2]. exists (Datatypes.S (n1 + n2)). rewrite concat_app. now constructor.
    - subst l'. destruct (Permutation_map_inv _ _ P) as (l3 & -> & P3). destruct (IH l3 eq_refl) as [n3 R3]. exists n3. eapply red_order; [|exact R3]. apply Permutation_sym in P3. clear - P3. induction P3; cbn [concat]; [constructor|now apply Permutation_app_head|rewrite !app_assoc; apply Permutation_app_tail; apply Permutation_app_comm|eapply perm_trans; eassumption]. }
  intros all m H. exact (G m _ all H ls eq_refl).
Qed.
Lemma event_row_ext : forall (b1 b2 : list (option f64)) dims i j, (forall c, c < dims -> nth_error b1 (i * dims + c) = nth_error b2 (j * dims + c)) -> firstn dims (skipn (i * dims) b1) = firstn dims (skipn (j * dims) b2).
Proof.
  intros b1 b2 dims i j H. apply nth_error_ext. intro c. destruct (Nat.lt_ge_cases c dims) as [lt|ge].
  - rewrite !nth_firstn, !nth_skipn by exact lt. now apply H.
  - rewrite !(proj2 (nth_error_None _ _)); [reflexivity| |]; rewrite firstn_length; lia.
Qed.
