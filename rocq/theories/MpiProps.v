(** Property theorems for the MPI builds (C30, C31). *)
From Coq Require Import List ZArith Bool Reals Lra Lia Psatz Permutation.
From Flocq Require Import Core BinarySingleNaN.
From Verif Require Import F64 F64Lemmas F64Err ListAux PdfModel NormModel RunModel Reduce MpiModel MpiProofs.
Import ListNotations.
Local Open Scope nat_scope.
Local Notation len := List.length.

(** Numbers below 2^31, as the int and unsigned int of the program. *)
Definition is_int (n : nat) : Prop := (Z.of_nat n < 2 ^ 31)%Z.
(** The numbers of entry [e] in an array with [dims] numbers for each entry. *)
Definition entry (dims e : nat) (b : list (option f64)) : list (option f64) := firstn dims (skipn (e * dims) b).
(** [blocks]: which entries each of the [procs] ranks processes: consecutive, in order, each exactly once. *)
Definition splits (entries procs : nat) (blocks : list (list nat)) : Prop := len blocks = procs /\ concat blocks = seq 0 entries.

(** ** C30 *)
(** Unbinned data: the blocks of the ranks are consecutive and cover every event once; a rank holds the events of its block,
    with the event numbers counted from 0 within the block on every rank but the first, and processes exactly these. *)
Theorem C30_split : forall entries fixme host procs, 0 < procs -> is_int entries -> is_int procs -> len host = entries * len fixme ->
  exists blocks, splits entries procs blocks /\
    (forall r, r < procs - 1 -> option_map (@len nat) (nth_error blocks r) = Some (entries / procs)) /\
    forall r block, nth_error blocks r = Some block ->
      exists k, split_unbinned entries fixme host procs r = NOk k /\ k_per_task k = len block /\ len (k_buf k) = len block * len fixme /\
        forall j e c fx, nth_error block j = Some e -> nth_error fixme c = Some fx ->
          nth_error (entry (len fixme) j (k_buf k)) c = if fx && negb (r =? 0) then Some (Some (float_of j)) else nth_error (entry (len fixme) e host) c.
Proof.
  intros n fixme host p Hp Hn Hp2 Hh. set (per := n / p). assert (Hper : per * (p - 1) <= n) by (unfold per; pose proof (Nat.div_mod n p ltac:(lia)); nia).
  assert (NB : forall r, nth_error (map (block n per p) (seq 0 p)) r = if r <? p then Some (block n per p r) else None).
  { intro r. destruct (Nat.ltb_spec r p) as [lt|ge]; [|apply nth_error_None; rewrite map_length, seq_length; lia]. rewrite nth_error_map. rewrite (nth_error_nth' (seq 0 p) 0) by (rewrite seq_length; lia). cbn [option_map]. now rewrite seq_nth by exact lt. }
  exists (map (block n per p) (seq 0 p)). split; [|split].
  - split; [now rewrite map_length, seq_length|]. now apply blocks_concat.
  - intros r Hr. rewrite NB. destruct (Nat.ltb_spec r p); [|lia]. cbn [option_map]. unfold block. rewrite seq_length. unfold cnt. destruct (Nat.eqb_spec r (p - 1)); [lia|reflexivity].
  - intros r bl Hb. rewrite NB in Hb. destruct (Nat.ltb_spec r p) as [lt|]; [|discriminate]. injection Hb as <-. unfold block. rewrite seq_length.
    destruct (split_unbinned_ok n fixme host p r Hp Hn Hp2 Hh lt) as (k & E & K1 & K2 & K3). fold per in K1, K2, K3. exists k. split; [exact E|]. split; [exact K1|]. split; [exact K2|].
    intros j e c fx Hj Hc. assert (Lj : j < cnt n per p r) by (apply nth_error_Some_lt in Hj; now rewrite seq_length in Hj). assert (Lc : c < len fixme) by (now apply nth_error_Some_lt in Hc).
    rewrite (nth_error_nth' _ 0) in Hj by (now rewrite seq_length). rewrite seq_nth in Hj by exact Lj. injection Hj as <-. unfold entry. rewrite !nth_firstn, !nth_skipn by exact Lc. rewrite (K3 j c Lj Lc). unfold fixed. rewrite Hc. destruct r; cbn [Nat.ltb Nat.leb Nat.eqb negb andb]; [now rewrite andb_false_r|]. now rewrite andb_true_r.
Qed.
Print Assumptions C30_split.

Lemma ranks_of : forall entries fixme host procs, 0 < procs -> is_int entries -> is_int procs -> len host = entries * len fixme ->
  forall (T : Type) (f : list (option f64) -> T), (forall a b, len a = len fixme -> (forall c, nth_error fixme c = Some false -> nth_error a c = nth_error b c) -> f a = f b) ->
  forall ks, (forall r, r < procs -> split_unbinned entries fixme host procs r = nth r ks NUB) -> len ks = procs ->
  exists rs, ks = map NOk rs /\ concat (map (fun k => map (fun i => f (entry (len fixme) i (k_buf k))) (seq 0 (k_per_task k))) rs) = map (fun e => f (entry (len fixme) e host)) (seq 0 entries).
Proof.
  intros n fixme host p Hp Hn Hp2 Hh T f Hf ks Hk Lk. destruct (C30_split n fixme host p Hp Hn Hp2 Hh) as (bs & [LB CB] & _ & HB).
  assert (G : forall m, m <= p -> exists rs, firstn m ks = map NOk rs /\ concat (map (fun k => map (fun i => f (entry (len fixme) i (k_buf k))) (seq 0 (k_per_task k))) rs) = map (fun e => f (entry (len fixme) e host)) (concat (firstn m bs))).
  { induction m as [|m IH]; intro Hm; [exists []; split; reflexivity|]. destruct (IH ltac:(lia)) as (rs & E1 & E2). destruct (nth_error bs m) as [bl|] eqn:Eb; [|apply nth_error_None in Eb; lia].
    destruct (HB m bl Eb) as (k & S1 & S2 & S3 & S4). assert (Ek : nth_error ks m = Some (NOk k)) by (rewrite (nth_error_nth' ks NUB) by lia; f_equal; rewrite <- Hk by lia; exact S1).
    exists (rs ++ [k]). assert (FS : forall {A} (l : list A) i x, nth_error l i = Some x -> firstn (S i) l = firstn i l ++ [x]).
    { induction l as [|a l IHl]; intros [|i] x H; try discriminate; cbn in *; [now injection H as ->|]. now rewrite (IHl i x H). }
    rewrite (FS _ _ _ _ Ek), (FS _ _ _ _ Eb), E1, !map_app, !concat_app, map_app, E2. split; [reflexivity|]. f_equal. cbn [map concat]. rewrite !app_nil_r, S2.
    apply nth_error_ext. intro j. rewrite !nth_error_map. destruct (nth_error bl j) as [e|] eqn:Ej.
    - assert (Lj : j < len bl) by (now apply nth_error_Some_lt in Ej). rewrite (nth_error_nth' (seq 0 (len bl)) 0) by (now rewrite seq_length). rewrite seq_nth by exact Lj. cbn [option_map Nat.add]. f_equal. apply Hf.
      + unfold entry. rewrite firstn_length, skipn_length, S3. nia.
      + intros c Hc. rewrite (S4 j e c false Ej Hc). reflexivity.
    - rewrite (proj2 (nth_error_None (seq 0 (len bl)) j)) by (rewrite seq_length; now apply nth_error_None). reflexivity. }
  destruct (G p (le_n _)) as (rs & E1 & E2). exists rs. rewrite firstn_all2 in E1 by lia. rewrite (firstn_all2 bs) in E2 by lia. rewrite CB in E2. now split.
Qed.
(** The likelihood: for every schedule of the ranks' reductions and of the reduction over the ranks, the result is a sum, in
    some order and bracketing, of the terms of all events of the data set, each once.  [term] may depend on everything but event
    numbers. *)
Theorem C30_nll : forall entries fixme host procs term red all ks, 0 < procs -> is_int entries -> is_int procs -> len host = entries * len fixme ->
  (forall a b, len a = len fixme -> (forall c, nth_error fixme c = Some false -> nth_error a c = nth_error b c) -> term a = term b) ->
  schedule red -> schedule all -> len ks = procs -> (forall r k, nth_error ks r = Some k -> split_unbinned entries fixme host procs r = NOk k) ->
  exists n, reduces n (map (fun e => term (entry (len fixme) e host)) (seq 0 entries)) (mpi_reduce red all term (len fixme) ks).
Proof.
  intros n fixme host p term red all ks Hp Hn Hp2 Hh Ht Sr Sa Lk Hk.
  destruct (ranks_of n fixme host p Hp Hn Hp2 Hh f64 term Ht (map NOk ks)) as (rs & E1 & E2).
  - intros r Hr. destruct (nth_error ks r) as [k|] eqn:E; [|apply nth_error_None in E; lia]. rewrite (Hk r k E). erewrite nth_error_nth; [reflexivity|]. rewrite nth_error_map, E. reflexivity.
  - now rewrite map_length.
  - assert (rs = ks). { clear - E1. revert rs E1. induction ks as [|k ks IH]; intros [|r rs] E; try discriminate; [reflexivity|]. cbn [map] in E. f_equal; [now injection E|]. apply IH. now injection E. }
    subst rs. rewrite <- E2. unfold mpi_reduce. destruct (Sa (map (rank_sum red term (len fixme)) ks)) as [m R].
    apply (reduces_concat red (map (fun k => map (fun i => term (entry (len fixme) i (k_buf k))) (seq 0 (k_per_task k))) ks) Sr _ m).
    rewrite map_map. exact R.
Qed.
Print Assumptions C30_nll.
(** Up to the rounding of the additions it is the sum of the terms of the whole data set. *)
Theorem C30_nll_error : forall entries fixme host procs term red all ks, 0 < procs -> is_int entries -> is_int procs -> len host = entries * len fixme ->
  (forall a b, len a = len fixme -> (forall c, nth_error fixme c = Some false -> nth_error a c = nth_error b c) -> term a = term b) ->
  schedule red -> schedule all -> len ks = procs -> (forall r k, nth_error ks r = Some k -> split_unbinned entries fixme host procs r = NOk k) ->
  is_finite (mpi_reduce red all term (len fixme) ks) = true ->
  let terms := map B2R (map (fun e => term (entry (len fixme) e host)) (seq 0 entries)) in
  exists n, (Rabs (B2R (mpi_reduce red all term (len fixme) ks) - Rsum terms) <= ((1 + uro) ^ n - 1) * Rsum (map Rabs terms))%R.
Proof.
  intros n fixme host p term red all ks Hp Hn Hp2 Hh Ht Sr Sa Lk Hk F terms. destruct (C30_nll n fixme host p term red all ks Hp Hn Hp2 Hh Ht Sr Sa Lk Hk) as [m R]. exists m. exact (proj2 (reduces_error m _ _ R F)).
Qed.
Print Assumptions C30_nll_error.
(** The values of all events, gathered: exactly those of the whole data set, in its order. *)
Theorem C30_values : forall entries fixme host procs value ks, 0 < procs -> is_int entries -> is_int procs -> len host = entries * len fixme ->
  (forall a b, len a = len fixme -> (forall c, nth_error fixme c = Some false -> nth_error a c = nth_error b c) -> value a = value b) ->
  len ks = procs -> (forall r k, nth_error ks r = Some k -> split_unbinned entries fixme host procs r = NOk k) ->
  mpi_gather entries value (len fixme) ks = NOk (map (fun e => value (entry (len fixme) e host)) (seq 0 entries)).
Proof.
  intros n fixme host p value ks Hp Hn Hp2 Hh Ht Lk Hk.
  destruct (ranks_of n fixme host p Hp Hn Hp2 Hh f64 value Ht (map NOk ks)) as (rs & E1 & E2).
  - intros r Hr. destruct (nth_error ks r) as [k|] eqn:E; [|apply nth_error_None in E; lia]. rewrite (Hk r k E). erewrite nth_error_nth; [reflexivity|]. rewrite nth_error_map, E. reflexivity.
  - now rewrite map_length.
  - assert (rs = ks). { clear - E1. revert rs E1. induction ks as [|k ks IH]; intros [|r rs] E; try discriminate; [reflexivity|]. cbn [map] in E. f_equal; [now injection E|]. apply IH. now injection E. }
    subst rs. unfold mpi_gather. fold (entry (len fixme)) in *. unfold entry in E2 at 1. cbv zeta. rewrite E2, map_length, seq_length, Nat.leb_refl, Nat.sub_diag. cbn [repeat]. now rewrite app_nil_r.
Qed.
Print Assumptions C30_values.
(** The event numbers: exact up to 2^24 ... *)
Lemma f32_Z_exact : forall z, (0 <= z <= 2 ^ 24)%Z -> B2R (f32_of_Z z) = IZR z /\ is_finite (f32_of_Z z) = true.
Proof.
  intros z Hz. pose proof (binary_normalize_correct 24 128 eq_refl eq_refl mode_NE z 0 false) as H. fold (f32_of_Z z) in H. replace (F2R {| Fnum := z; Fexp := 0 |}) with (IZR z) in H by (unfold F2R; simpl; lra). cbv zeta in H.
  assert (G : generic_format radix2 (SpecFloat.fexp 24 128) (IZR z)).
  { change (SpecFloat.fexp 24 128) with (FLT_exp (-149) 24). destruct (Z.eq_dec z (2 ^ 24)) as [->|].
    - change (IZR (2 ^ 24)) with (bpow radix2 24). apply generic_format_bpow. unfold FLT_exp. lia.
    - apply generic_format_FLT. apply FLT_spec with (Float radix2 z 0); [unfold F2R; simpl; lra| |simpl; lia]. simpl. change (Z.pow_pos 2 24) with (2^24)%Z. lia. }
  rewrite round_generic in H; [|apply valid_rnd_round_mode|exact G].
  assert (B : (Rabs (IZR z) < bpow radix2 128)%R). { rewrite <- abs_IZR. apply Rle_lt_trans with (IZR (2^24)); [apply IZR_le; lia|]. change (IZR (2^24)) with (bpow radix2 24). apply bpow_lt. lia. }
  rewrite Rlt_bool_true in H by exact B. destruct H as [H1 [H2 _]]. now split.
Qed.
Theorem C30_event_number : forall j, (Z.of_nat j <= 2 ^ 24)%Z -> B2R (float_of j) = IZR (Z.of_nat j).
Proof.
  intros j Hj. unfold float_of. destruct (f32_Z_exact (Z.of_nat j) ltac:(lia)) as [E F]. destruct (f32_of_Z (Z.of_nat j)) as [s|s| |s m e p]; try discriminate.
  - exact E.
  - cbn [f64_of_f32]. pose proof (binary_normalize_correct 53 1024 f64_prec_gt f64_prec_lt mode_NE (cond_Zopp s (Z.pos m)) e s) as H. cbn [B2R] in E. rewrite E in H. cbv zeta in H. rewrite round_Z in H by lia. rewrite Rlt_bool_true in H by (apply bpow_1024_big; lia). apply H.
Qed.
Print Assumptions C30_event_number.
(** ... but float(j) gives the events 16777216 and 16777217 of a rank the same number. *)
Theorem C30_event_number_refuted : exists i j, i <> j /\ is_int i /\ is_int j /\ float_of i = float_of j.
Proof.
  exists (Z.to_nat 16777216), (Z.to_nat 16777217). unfold is_int. rewrite !Z2Nat.id by lia. split; [intro E; apply (f_equal Z.of_nat) in E; rewrite !Z2Nat.id in E by lia; discriminate|]. split; [lia|]. split; [lia|].
  unfold float_of. rewrite !Z2Nat.id by lia. apply fsame_eq. vm_compute. reflexivity.
Qed.
Print Assumptions C30_event_number_refuted.
(** Seven events with an event number and one observable, three ranks. *)
Definition seven : list (option f64) := flat_map (fun i => [Some (f_of_Z (Z.of_nat i)); Some (f_of_Z (Z.of_nat (10 + i)))]) (seq 0 7).
Example C30_example : is_int 7 /\ is_int 3 /\ len seven = 7 * len [true; false] /\ match split_unbinned 7 [true; false] seven 3 2 with NOk k => k_per_task k =? 3 | _ => false end = true.
Proof. split; [unfold is_int; cbn; lia|]. split; [unfold is_int; cbn; lia|]. split; [reflexivity|]. vm_compute. reflexivity. Qed.
Example C30_term_example : forall a b : list (option f64), len a = len [true; false] -> (forall c, nth_error [true; false] c = Some false -> nth_error a c = nth_error b c) ->
  match nth_error a 1 with Some (Some x) => x | _ => fzero end = match nth_error b 1 with Some (Some x) => x | _ => fzero end.
Proof. intros a b _ H. now rewrite (H 1 eq_refl). Qed.

(** ** C31 *)
(** Binned data: every bin is processed by exactly one rank, unchanged: all of them by the last one (numEvents is 0 when the bins are
    distributed). *)
Theorem C31_split : forall entries fixme host procs, 0 < procs -> is_int procs -> len host = entries * (2 + len fixme) ->
  exists blocks, splits entries procs blocks /\
    forall r block, nth_error blocks r = Some block ->
      exists k, split_binned entries fixme host procs r = NOk k /\ k_per_task k = len block /\ len (k_buf k) = len block * (2 + len fixme) /\
        forall j e, nth_error block j = Some e -> entry (2 + len fixme) j (k_buf k) = entry (2 + len fixme) e host.
Proof.
  intros n fixme host p Hp Hp2 Hh. exists (repeat [] (p - 1) ++ [seq 0 n]). split.
  - split; [rewrite app_length, repeat_length; cbn; lia|]. rewrite concat_app. cbn [concat]. rewrite app_nil_r. replace (concat (repeat [] (p - 1))) with (@nil nat); [reflexivity|]. symmetry. induction (p - 1) as [|q IH]; [reflexivity|exact IH].
  - intros r bl Hb. assert (Lr : r < p) by (apply nth_error_Some_lt in Hb; rewrite app_length, repeat_length in Hb; cbn in Hb; lia). rewrite (split_binned_ok n fixme host p r Hp Hp2 Hh Lr). eexists. split; [reflexivity|].
    destruct (Nat.eqb_spec r (p - 1)) as [->|N].
    + rewrite nth_error_app2 in Hb by (rewrite repeat_length; lia). rewrite repeat_length, Nat.sub_diag in Hb. injection Hb as <-. cbn [k_per_task k_buf]. rewrite seq_length. split; [reflexivity|]. split; [exact Hh|]. intros j e Hj.
      assert (Lj : j < n) by (apply nth_error_Some_lt in Hj; now rewrite seq_length in Hj). rewrite (nth_error_nth' _ 0) in Hj by (now rewrite seq_length). rewrite seq_nth in Hj by exact Lj. now injection Hj as <-.
    + rewrite nth_error_app1 in Hb by (rewrite repeat_length; lia). rewrite nth_error_repeat in Hb by lia. injection Hb as <-. split; [reflexivity|]. split; [reflexivity|]. intros [|j] e H; discriminate H.
Qed.
Print Assumptions C31_split.
(** The sum over the bins: a sum of the terms of all bins, each once. *)
Theorem C31_sum : forall entries fixme host procs term red all ks, 0 < procs -> is_int procs -> len host = entries * (2 + len fixme) ->
  schedule red -> schedule all -> len ks = procs -> (forall r k, nth_error ks r = Some k -> split_binned entries fixme host procs r = NOk k) ->
  exists n, reduces n (map (fun e => term (entry (2 + len fixme) e host)) (seq 0 entries)) (mpi_reduce red all term (2 + len fixme) ks).
Proof.
  intros n fixme host p term red all ks Hp Hp2 Hh Sr Sa Lk Hk. set (dims := 2 + len fixme) in *.
  assert (E : ks = repeat (mkRank [] 0) (p - 1) ++ [mkRank host n]).
  { apply nth_error_ext. intro r. destruct (Nat.lt_ge_cases r p) as [lt|ge].
    - destruct (nth_error ks r) as [k|] eqn:Ek; [|apply nth_error_None in Ek; lia]. pose proof (Hk r k Ek) as S. rewrite (split_binned_ok n fixme host p r Hp Hp2 Hh lt) in S. injection S as <-. destruct (Nat.eqb_spec r (p - 1)) as [->|N].
      + rewrite nth_error_app2 by (rewrite repeat_length; lia). now rewrite repeat_length, Nat.sub_diag.
      + rewrite nth_error_app1 by (rewrite repeat_length; lia). now rewrite nth_error_repeat by lia.
    - rewrite !(proj2 (nth_error_None _ _)); [reflexivity| |lia]. rewrite app_length, repeat_length. cbn. lia. }
  unfold mpi_reduce. destruct (Sa (map (rank_sum red term dims) ks)) as [m R].
  assert (R' : reduces m (map red (map (fun k => map (fun i => term (entry dims i (k_buf k))) (seq 0 (k_per_task k))) ks)) (all (map (rank_sum red term dims) ks))) by (rewrite map_map; exact R).
  destruct (reduces_concat red _ Sr _ m R') as [q Q]. exists q. revert Q. rewrite E at 1. rewrite map_app, concat_app. cbn [map concat k_buf k_per_task]. rewrite app_nil_r.
  replace (concat (map (fun k => map (fun i => term (entry dims i (k_buf k))) (seq 0 (k_per_task k))) (repeat (mkRank [] 0) (p - 1)))) with (@nil f64); [intro Q; exact Q|]. symmetry. clear. induction (p - 1) as [|q IH]; [reflexivity|exact IH].
Qed.
Print Assumptions C31_sum.
(** There is no speed-up: all but the last rank have nothing to do. *)
Theorem C31_last_rank_has_all : forall entries fixme host procs r k, 0 < procs -> is_int procs -> len host = entries * (2 + len fixme) -> r < procs - 1 -> split_binned entries fixme host procs r = NOk k -> k_per_task k = 0.
Proof.
  intros n fixme host p r k Hp Hp2 Hh Hr E. rewrite (split_binned_ok n fixme host p r Hp Hp2 Hh ltac:(lia)) in E. destruct (Nat.eqb_spec r (p - 1)); [lia|]. now injection E as <-.
Qed.
Print Assumptions C31_last_rank_has_all.
Example C31_example : is_int 3 /\ len (repeat (Some fone) 12) = 4 * (2 + len [false]) /\ match split_binned 4 [false] (repeat (Some fone) 12) 3 2 with NOk k => k_per_task k =? 4 | _ => false end = true.
Proof. split; [unfold is_int; cbn; lia|]. split; [reflexivity|]. vm_compute. reflexivity. Qed.
