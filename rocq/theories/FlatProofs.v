(** The flattened encoding: a list of blocks in the arrays, and the device functions of the leaves on their blocks. *)
From Coq Require Import List ZArith String Bool Lia.
From Flocq Require Import BinarySingleNaN Core.
From Verif Require Import F64 F64Lemmas F64Err ListAux VariableModel LeafFormulas DeviceModel PdfModel PdfSpec.
Import ListNotations.
Local Open Scope nat_scope.
Local Notation len := List.length.

(** ** Numbers stored as doubles *)
Lemma f2int_Z : forall z, int_ok z -> f2int (f_of_Z z) = Some z.
Proof.
  intros z H. unfold int_ok in H. unfold f2int. destruct (f_of_Z_exact z ltac:(lia)) as [E F].
  change (f_isfinite (f_of_Z z)) with (is_finite (f_of_Z z)). rewrite F. cbv zeta.
  rewrite ftruncZ_spec, E, Ztrunc_IZR.
  replace ((-2147483648 <=? z)%Z && (z <=? 2147483647)%Z) with true; [reflexivity|].
  symmetry. apply andb_true_intro. split; apply Z.leb_le; lia.
Qed.
Lemma to_index_nat : forall n, small n -> to_index (f_of_nat n) = DOk n.
Proof.
  intros n H. unfold small in H. unfold to_index, f_of_nat. rewrite f2int_Z by (unfold int_ok; lia).
  replace (Z.ltb (Z.of_nat n) 0) with false by (symmetry; apply Z.ltb_ge; lia). now rewrite Nat2Z.id.
Qed.
Lemma to_index_Z : forall z, (0 <= z < 2^31)%Z -> to_index (f_of_Z z) = DOk (Z.to_nat z).
Proof.
  intros z H. unfold to_index. rewrite f2int_Z by (unfold int_ok; lia).
  replace (Z.ltb z 0) with false by (symmetry; apply Z.ltb_ge; lia). reflexivity.
Qed.
Lemma fone_Z : fone = f_of_Z 1.
Proof. apply fsame_eq. vm_compute. reflexivity. Qed.
Lemma fadd_Z_zero : forall a, (0 <= a <= 2^53)%Z -> fadd (f_of_Z a) (f_of_Z 0) = f_of_Z a.
Proof.
  intros a Ha. destruct (Z.eq_dec a 0) as [->|Na]; [apply fsame_eq; vm_compute; reflexivity|].
  replace (f_of_Z 0) with (B754_zero false : f64) by (apply fsame_eq; vm_compute; reflexivity).
  destruct (f_of_Z_exact a ltac:(lia)) as [E F]. destruct (f_of_Z a) as [s|s| |s m e0 B] eqn:Ef; try discriminate F.
  - exfalso. cbn in E. apply RIneq.eq_IZR in E. lia.
  - reflexivity.
Qed.
Lemma fadd_nat : forall a b, small (a + b) -> fadd (f_of_nat a) (f_of_nat b) = f_of_nat (a + b).
Proof.
  intros a b H. unfold small in H. unfold f_of_nat. destruct b as [|b].
  - rewrite Nat.add_0_r in *. apply fadd_Z_zero. lia.
  - rewrite fadd_Z by lia. now rewrite Nat2Z.inj_add.
Qed.

(** ** Blocks *)
Record block : Type := mkBlock {
  b_kind : kind; b_pars : list f64; b_cons : list f64; b_obs : list f64; b_norm : f64 }.
Definition pref (l : list f64) : list f64 := f_of_nat (len l) :: l.
Definition enc_fun (bs : list block) : list fentry := map (fun b => FPdf (b_kind b)) bs.
Definition enc_par (bs : list block) : list f64 := flat_map (fun b => pref (b_pars b)) bs.
Definition enc_con (bs : list block) : list f64 := flat_map (fun b => pref (b_cons b)) bs.
Definition enc_obs (bs : list block) : list f64 := flat_map (fun b => pref (b_obs b)) bs.
Definition enc_nor (bs : list block) : list f64 := flat_map (fun b => [fone; b_norm b]) bs.
Definition bsmall (b : block) : Prop := small (len (b_pars b)) /\ small (len (b_cons b)) /\ small (len (b_obs b)).

(** The cursor past a list of blocks. *)
Definition adv1 (c : cursor) (b : block) : cursor :=
  incrementIndex5 c 1 (len (b_pars b)) (len (b_cons b)) (len (b_obs b)) 1.
Definition adv (c : cursor) (bs : list block) : cursor := fold_left adv1 bs c.

(** The blocks [bs] stand at cursor [c] of the arrays. *)
Definition part {T} (l : list T) (at_ : nat) (x : list T) : Prop := exists p q, l = p ++ x ++ q /\ len p = at_.
Definition stand (A : arrays) (c : cursor) (bs : list block) : Prop :=
  part (a_fun A) (c_fun c) (enc_fun bs) /\ part (a_par A) (c_par c) (enc_par bs) /\
  part (a_con A) (c_con c) (enc_con bs) /\ part (a_obs A) (c_obs c) (enc_obs bs) /\
  part (a_nor A) (c_nor c) (enc_nor bs).

Lemma part_app : forall {T} (l : list T) n x y, part l n (x ++ y) -> part l n x /\ part l (n + len x) y.
Proof.
  intros T l n x y (p & q & E & Hn). split.
  - exists p, (y ++ q). now rewrite E, <- app_assoc.
  - exists (p ++ x), q. rewrite E, app_length, <- !app_assoc. split; [reflexivity|lia].
Qed.
Lemma part_nth : forall {T} (l : list T) n x i v, part l n x -> nth_error x i = Some v -> nth_error l (n + i) = Some v.
Proof.
  intros T l n x i v (p & q & E & Hn) H. rewrite E, nth_error_app2 by lia. replace (n + i - len p) with i by lia.
  rewrite nth_error_app1; [assumption|]. apply nth_error_Some. congruence.
Qed.

Lemma enc_lengths : forall b, len (enc_fun [b]) = 1 /\ len (enc_par [b]) = len (b_pars b) + 1 /\
  len (enc_con [b]) = len (b_cons b) + 1 /\ len (enc_obs [b]) = len (b_obs b) + 1 /\ len (enc_nor [b]) = 2.
Proof. intro b. cbn. rewrite !app_nil_r. repeat split; lia. Qed.

Lemma stand_cons : forall A c b bs, stand A c (b :: bs) -> stand A c [b] /\ stand A (adv1 c b) bs.
Proof.
  intros A c b bs (F & P & C & O & N). change (b :: bs) with ([b] ++ bs) in *.
  unfold enc_fun, enc_par, enc_con, enc_obs, enc_nor in *. rewrite map_app in F. rewrite flat_map_app in P, C, O, N.
  apply part_app in F. apply part_app in P. apply part_app in C. apply part_app in O. apply part_app in N.
  destruct (enc_lengths b) as (LF & LP & LC & LO & LN).
  unfold enc_fun, enc_par, enc_con, enc_obs, enc_nor in LF, LP, LC, LO, LN. rewrite LF in F. rewrite LP in P.
  rewrite LC in C. rewrite LO in O. rewrite LN in N.
  split; [repeat split; tauto|]. unfold adv1, incrementIndex5, stand. cbn [c_fun c_par c_con c_obs c_nor].
  repeat split; tauto.
Qed.
Lemma stand_app : forall A bs1 c bs2, stand A c (bs1 ++ bs2) -> stand A c bs1 /\ stand A (adv c bs1) bs2.
Proof.
  intros A bs1. induction bs1 as [|b bs1 IH]; intros c bs2 H.
  - split; [|exact H]. destruct H as (F & P & C & O & N).
    repeat split; match goal with |- part ?l ?n _ => match goal with X : part l n _ |- _ =>
      destruct X as (p & q & E & Hn); exists p; eexists; split; [rewrite E; reflexivity|exact Hn] end end.
  - cbn [app] in H. pose proof H as H0. apply stand_cons in H. destruct H as [Hb Ht]. destruct (IH _ _ Ht) as [H1 H2].
    split; [|exact H2]. destruct H0 as (F & P & C & O & N).
    assert (X : forall {T} (l : list T) n x y, part l n (x ++ y) -> part l n x) by (intros; eapply part_app; eauto).
    change (b :: bs1 ++ bs2) with ((b :: bs1) ++ bs2) in *.
    unfold stand, enc_fun, enc_par, enc_con, enc_obs, enc_nor in *. rewrite map_app in F. rewrite flat_map_app in P, C, O, N.
    repeat split; eapply X; eassumption.
Qed.
Lemma adv_app : forall bs1 c bs2, adv c (bs1 ++ bs2) = adv (adv c bs1) bs2.
Proof. intros. unfold adv. apply fold_left_app. Qed.
Lemma adv_fun : forall bs c, c_fun (adv c bs) = c_fun c + len bs.
Proof.
  unfold adv. induction bs as [|b bs IH]; intro c; cbn [fold_left len]; [lia|]. rewrite IH. unfold adv1, incrementIndex5.
  cbn [c_fun]. lia.
Qed.

(** ** Reads *)
Section Reads.
Variables (A : arrays) (c : cursor) (b : block).
Hypothesis H : stand A c [b].

Lemma stand_kind : nth_error (a_fun A) (c_fun c) = Some (FPdf (b_kind b)).
Proof. destruct H as (F & _). pose proof (part_nth _ _ _ 0 _ F eq_refl) as X. now rewrite Nat.add_0_r in X. Qed.
Lemma rd_par : forall i v, nth_error (b_pars b) i = Some v -> getParameter A c i = DOk v.
Proof.
  intros i v E. destruct H as (_ & P & _). unfold getParameter, rd. unfold enc_par in P. cbn [flat_map] in P.
  rewrite app_nil_r in P. replace (c_par c + i + 1) with (c_par c + S i) by lia.
  rewrite (part_nth _ _ _ (S i) v P E). reflexivity.
Qed.
Lemma rd_con : forall i v, nth_error (b_cons b) i = Some v -> getConstant A c i = DOk v.
Proof.
  intros i v E. destruct H as (_ & _ & P & _). unfold getConstant, rd. unfold enc_con in P. cbn [flat_map] in P.
  rewrite app_nil_r in P. replace (c_con c + i + 1) with (c_con c + S i) by lia.
  rewrite (part_nth _ _ _ (S i) v P E). reflexivity.
Qed.
Lemma rd_obs : forall i v, nth_error (b_obs b) i = Some v -> getObservable A c i = DOk v.
Proof.
  intros i v E. destruct H as (_ & _ & _ & P & _). unfold getObservable, rd. unfold enc_obs in P. cbn [flat_map] in P.
  rewrite app_nil_r in P. replace (c_obs c + i + 1) with (c_obs c + S i) by lia.
  rewrite (part_nth _ _ _ (S i) v P E). reflexivity.
Qed.
Lemma rd_nor : getNormalization A c 0 = DOk (b_norm b).
Proof.
  destruct H as (_ & _ & _ & _ & P). unfold getNormalization, rd. replace (c_nor c + 0 + 1) with (c_nor c + 1) by lia.
  rewrite (part_nth _ _ _ 1 (b_norm b) P); reflexivity.
Qed.
Hypothesis S_ : bsmall b.
Lemma rd_npar : getNumParameters A c = DOk (len (b_pars b)).
Proof.
  destruct H as (_ & P & _). unfold getNumParameters, rd. replace (c_par c) with (c_par c + 0) by lia.
  rewrite (part_nth _ _ _ 0 (f_of_nat (len (b_pars b))) P) by reflexivity. apply to_index_nat, S_.
Qed.
Lemma rd_ncon : getNumConstants A c = DOk (len (b_cons b)).
Proof.
  destruct H as (_ & _ & P & _). unfold getNumConstants, rd. replace (c_con c) with (c_con c + 0) by lia.
  rewrite (part_nth _ _ _ 0 (f_of_nat (len (b_cons b))) P) by reflexivity. apply to_index_nat, S_.
Qed.
Lemma rd_nobs : getNumObservables A c = DOk (len (b_obs b)).
Proof.
  destruct H as (_ & _ & _ & P & _). unfold getNumObservables, rd. replace (c_obs c) with (c_obs c + 0) by lia.
  rewrite (part_nth _ _ _ 0 (f_of_nat (len (b_obs b))) P) by reflexivity. apply to_index_nat, S_.
Qed.
Lemma rd_nnor : getNumNormalizations A c = DOk 1.
Proof.
  destruct H as (_ & _ & _ & _ & P). unfold getNumNormalizations, rd. replace (c_nor c) with (c_nor c + 0) by lia.
  rewrite (part_nth _ _ _ 0 fone P) by reflexivity. cbn [of_option dbind]. rewrite fone_Z.
  apply (to_index_nat 1). unfold small. lia.
Qed.
Lemma rd_inc : incrementIndex A c = DOk (adv1 c b).
Proof. unfold incrementIndex. rewrite rd_npar, rd_ncon, rd_nobs, rd_nnor. reflexivity. Qed.

(** Several parameters at once. *)
Lemma rd_pars_from : forall n i l, (forall j, j < n -> nth_error (b_pars b) (i + j) = nth_error l j) -> len l = n ->
  getParams A c i n = DOk l.
Proof.
  induction n as [|n IH]; intros i l Hl Hn; unfold getParams.
  - destruct l; [reflexivity|discriminate].
  - destruct l as [|v l]; [discriminate|]. cbn [seq dmap]. pose proof (Hl 0 ltac:(lia)) as E. rewrite Nat.add_0_r in E.
    rewrite (rd_par i v E). cbn [dbind]. unfold getParams in IH. rewrite (IH (S i) l).
    + reflexivity.
    + intros j Hj. pose proof (Hl (S j) ltac:(lia)) as X. replace (S i + j) with (i + S j) by lia. exact X.
    + cbn in Hn. lia.
Qed.
Lemma rd_pars_all : getParams A c 0 (len (b_pars b)) = DOk (b_pars b).
Proof. apply rd_pars_from; [intros j Hj; reflexivity|reflexivity]. Qed.
End Reads.

Lemma nth_error_skipn : forall {T} (l : list T) n i, nth_error (skipn n l) i = nth_error l (n + i).
Proof. intros T l n. revert l. induction n as [|n IH]; intros [|a l] i; cbn; try reflexivity; [now destruct i|apply IH]. Qed.

Lemma skip_blocks : forall A bs c, stand A c bs -> Forall bsmall bs -> skip A c (len bs) = DOk (adv c bs).
Proof.
  intros A bs. induction bs as [|b bs IH]; intros c H S_; [reflexivity|].
  apply stand_cons in H. destruct H as [Hb Ht]. inversion S_; subst. cbn [len skip]. rewrite (rd_inc _ _ _ Hb) by assumption.
  cbn [dbind]. rewrite IH by assumption. reflexivity.
Qed.

Lemma dmap_ok : forall {T U} (f : T -> dres U) (g : T -> option U) l us,
  (forall a u, In a l -> g a = Some u -> f a = DOk u) -> omap g l = Some us -> dmap f l = DOk us.
Proof.
  intros T U f g l. induction l as [|a l IH]; intros us Hf E; cbn [omap dmap] in *; [injection E as <-; reflexivity|].
  destruct (g a) as [u|] eqn:Ea; [|discriminate]. destruct (omap g l) as [us'|] eqn:El; [|discriminate]. injection E as <-.
  rewrite (Hf a u (or_introl eq_refl) Ea). cbn [dbind]. rewrite (IH us'); [reflexivity| |reflexivity].
  intros; apply Hf; [now right|assumption].
Qed.
(** Reading by position 0..n-1 what a function gives on the elements of a list. *)
Lemma dmap_seq : forall {T U} (f : nat -> dres U) (g : T -> option U) l i us,
  (forall j a u, nth_error l j = Some a -> g a = Some u -> f (i + j) = DOk u) -> omap g l = Some us ->
  dmap f (seq i (len l)) = DOk us.
Proof.
  intros T U f g l. induction l as [|a l IH]; intros i us Hf E; cbn [omap dmap seq len] in *; [injection E as <-; reflexivity|].
  destruct (g a) as [u|] eqn:Ea; [|discriminate]. destruct (omap g l) as [us'|] eqn:El; [|discriminate]. injection E as <-.
  pose proof (Hf 0 a u eq_refl Ea) as X. rewrite Nat.add_0_r in X. rewrite X. cbn [dbind]. rewrite (IH (S i) us'); [reflexivity| |reflexivity].
  intros j a' u' Hj Hg. replace (S i + j) with (i + S j) by lia. apply (Hf (S j) a' u'); assumption.
Qed.

(** ** Leaves *)
Definition vals (hp : heap) (hs : list handle) : list f64 := map (fun h => get_f hp h FValue) hs.
Definition idxs (hp : heap) (hs : list handle) : list f64 := map (fun h => f_of_Z (get_i hp h)) hs.
(** Handles made by the constructors: the index cell is the fourth one. *)
Definition wfh (h : handle) : Prop := h_index h = h_value h + 3.
(** The event agrees with the environment wherever the environment is defined. *)
Definition agrees (hp : heap) (e : event) (en : env) : Prop :=
  forall h v, wfh h -> en h = Some v -> event_env hp e h = Some v.

Definition leaf_block (hp hp0 : heap) (l : leaf handle) (nrm : f64) : block :=
  mkBlock (leaf_kind l) (vals hp (leaf_pars l)) (leaf_cons hp0 l) (idxs hp (leaf_obs l)) nrm.

Lemma rd_event : forall A c b hp e h i v, stand A c [b] -> nth_error (b_obs b) i = Some (f_of_Z (get_i hp h)) ->
  event_env hp e h = Some v -> obs_value A c e i = DOk v.
Proof.
  intros A c b hp e h i v H Hi E. unfold obs_value. rewrite (rd_obs _ _ _ H i _ Hi). cbn [dbind]. unfold event_env in E. cbv zeta in E.
  destruct ((0 <=? get_i hp h)%Z && (get_i hp h <? 2 ^ 31)%Z) eqn:R; [|discriminate].
  apply andb_prop in R. destruct R as [R1 R2]. apply Z.leb_le in R1. apply Z.ltb_lt in R2.
  rewrite to_index_Z by lia. cbn [dbind]. unfold ev. destruct (nth_error e (Z.to_nat (get_i hp h))) as [[w|]|]; congruence.
Qed.

Lemma obind_some : forall {T U} (x : option T) (k : T -> option U) u, obind x k = Some u -> exists t, x = Some t /\ k t = Some u.
Proof. intros T U [t|] k u E; [now exists t|discriminate]. Qed.

Lemma vals_length : forall hp hs, len (vals hp hs) = len hs.
Proof. intros. apply map_length. Qed.
Lemma idxs_length : forall hp hs, len (idxs hp hs) = len hs.
Proof. intros. apply map_length. Qed.
Lemma idxs_nth : forall hp hs i h, nth_error hs i = Some h -> nth_error (idxs hp hs) i = Some (f_of_Z (get_i hp h)).
Proof. intros. unfold idxs. now apply (map_nth_error (fun h => f_of_Z (get_i hp h))). Qed.

Lemma flat3 : forall {T} (f g h : T -> f64) (l : list T) i a, nth_error l i = Some a ->
  nth_error (flat_map (fun a => [f a; g a; h a]) l) (i * 3) = Some (f a) /\
  nth_error (flat_map (fun a => [f a; g a; h a]) l) (i * 3 + 1) = Some (g a) /\
  nth_error (flat_map (fun a => [f a; g a; h a]) l) (i * 3 + 2) = Some (h a).
Proof.
  intros T f g h l. induction l as [|b l IH]; intros [|i] a E; cbn in E; try discriminate.
  - injection E as ->. repeat split; reflexivity.
  - apply IH. exact E.
Qed.
Lemma flat2 : forall {T} (f g : T -> f64) (l : list T) i a, nth_error l i = Some a ->
  nth_error (flat_map (fun a => [f a; g a]) l) (i * 2) = Some (f a) /\
  nth_error (flat_map (fun a => [f a; g a]) l) (i * 2 + 1) = Some (g a).
Proof.
  intros T f g l. induction l as [|b l IH]; intros [|i] a E; cbn in E; try discriminate.
  - injection E as ->. split; reflexivity.
  - apply IH. exact E.
Qed.
Lemma flat_map_map : forall {T U W} (f : T -> U) (g : U -> list W) l, flat_map g (map f l) = flat_map (fun a => g (f a)) l.
Proof. intros. induction l as [|a l IH]; [reflexivity|]. cbn. now rewrite IH. Qed.
Lemma map_flat_map : forall {T U W} (f : U -> W) (g : T -> list U) l, map f (flat_map g l) = flat_map (fun a => map f (g a)) l.
Proof. intros. induction l as [|a l IH]; [reflexivity|]. cbn. now rewrite map_app, IH. Qed.
Lemma omap_len : forall {T U} (f : T -> option U) l us, omap f l = Some us -> len us = len l.
Proof.
  intros T U f l. induction l as [|a l IH]; intros us E; cbn in E; [injection E as <-; reflexivity|].
  destruct (f a), (omap f l); try discriminate. injection E as <-. cbn. now rewrite (IH l0).
Qed.

(** [leaf_value] with the formulas named in LeafFormulas.v. *)
Definition leaf_value64 (L : libm) (hp hp0 : heap) (en : env) (l : leaf handle) : option f64 :=
  match l with
  | LArgus x m0 slope up power =>
      obind (en x) (fun x => Some ((if up then argus_upper L else argus_lower L) x (val hp m0) (val hp slope) (val hp power)))
  | LBW x m w => obind (en x) (fun x => Some (breit_wigner L x (val hp m) (val hp w)))
  | LBernstein x cs d =>
      obind (en x) (fun v => Some (bernstein L v (get_f hp0 x FLower) (get_f hp0 x FUpper) d (map (val hp) cs)))
  | LBifurGauss x m sl sr => obind (en x) (fun x => Some (bifur_gauss L x (val hp m) (val hp sl) (val hp sr)))
  | LBinTransform axes =>
      obind (omap (fun a => obind (en (fst (fst (fst a)))) (fun x => Some (x, snd (fst (fst a)), snd (fst a), snd a))) axes)
            (fun l => obind (bin_number l 0 1) (fun b => Some (f_of_Z b)))
  | LCorrGaussian x y m1 s1 m2 s2 c =>
      obind (en x) (fun x => obind (en y) (fun y => Some (corr_gauss L x y (val hp m1) (val hp s1) (val hp m2) (val hp s2) (val hp c))))
  | LCrystalBall x m s a p => obind (en x) (fun x => Some (crystal_ball L x (val hp m) (val hp s) (val hp a) (val hp p)))
  | LExpGaus x m s t => obind (en x) (fun x => Some (exp_gaus L x (val hp m) (val hp s) (val hp t)))
  | LExp x a => obind (en x) (fun x => Some (exponential L x (val hp a)))
  | LExpOffset x a o => obind (en x) (fun x => Some (exponential L (fsub x (val hp o)) (val hp a)))
  | LExpPoly x ws => obind (en x) (fun x => Some (exp_poly L x 0 (map (val hp) ws)))
  | LExpPolyOffset x ws o => obind (en x) (fun x => Some (exp_poly L (fsub x (val hp o)) 1 (map (val hp) ws)))
  | LGaussian x m s => obind (en x) (fun x => Some (gauss L x (val hp m) (val hp s)))
  | LJohnsonSU x m s g d => obind (en x) (fun x => Some (johnson_su L x (val hp m) (val hp s) (val hp g) (val hp d)))
  | LKinLimitBW x m w b s => obind (en x) (fun x => Some (kin_limit_bw x (val hp m) (val hp w) b s))
  | LLandau x m s => obind (en x) (fun x => Some (landau L x (val hp m) (val hp s)))
  | LNovosibirsk x m s t => obind (en x) (fun x => Some (novosibirsk L x (val hp m) (val hp s) (val hp t)))
  | LPolynomial x ws lowest => obind (en x) (fun x => Some (polynomial L x (Z.of_nat lowest) (map (val hp) ws)))
  | LOffsetPolynomial x ws x0 lowest =>
      obind (en x) (fun x => Some (polynomial L x (Z.of_nat lowest) (skipn 2 (map (val hp) (ws ++ [x0])))))
  | LMultiPolynomial obses cs offs d =>
      obind (omap en obses) (fun xs => multi_polynomial L d xs (map (val hp) offs) (map (val hp) cs))
  | LScaledGaussian x m s d e => obind (en x) (fun x => Some (scaled_gauss L x (val hp m) (val hp s) (val hp d) (val hp e)))
  | LStep x x0 up => obind (en x) (fun x => Some (step x (val hp x0) up))
  | LTrig x t c l up =>
      obind (en x) (fun x => Some ((if up then trig_upper L else trig_lower L) x (val hp t) (val hp c) (val hp l)))
  | LTrig2 x y t c l m up =>
      obind (en x) (fun x => obind (en y) (fun y =>
        Some ((if up then trig_upper2 L else trig_lower2 L) x y (val hp t) (val hp c) (val hp l) (val hp m))))
  | LVoigtian x m s w => obind (en x) (fun x => Some (voigt L x (val hp m) (val hp s) (val hp w)))
  | LVarBin x ls => obind (en x) (fun x => Some (var_bin x ls))
  | LDalitzVeto x y m d1 d2 d3 vs =>
      obind (en x) (fun x => obind (en y) (fun y =>
        Some (dalitz_veto x y (val hp m) (val hp d1) (val hp d2) (val hp d3)
                          (map (fun v => (snd v, val hp (fst (fst v)), val hp (snd (fst v)))) vs))))
  | LSquareDalitz x y c0 c1 c2 c3 c4 c5 c6 c7 =>
      obind (en x) (fun x => obind (en y) (fun y =>
        Some (square_dalitz x y (val hp c0) (val hp c1) (val hp c2) (val hp c3) (val hp c4) (val hp c5) (val hp c6) (val hp c7))))
  end.
Lemma leaf_value64_eq : forall L hp hp0 en l, leaf_value L hp hp0 en l = leaf_value64 L hp hp0 en l.
Proof.
  intros L hp hp0 en l. destruct l; try reflexivity.
  unfold leaf_value, leaf_value_in, leaf_value64. rewrite map_id. reflexivity.
Qed.
Local Opaque argus_upper argus_lower breit_wigner gauss bifur_gauss scaled_gauss corr_gauss crystal_ball exp_gaus exponential
  johnson_su kin_limit_bw landau novosibirsk step trig_upper trig_lower trig_upper2 trig_lower2 voigt exp_poly polynomial
  multi_polynomial bernstein_from bin_number var_bin dalitz_veto square_dalitz f_of_Z fadd fsub get_f get_i f2int to_index.
Lemma leaf_correct : forall L rec A c hp hp0 nrm l e en v,
  stand A c [leaf_block hp hp0 l nrm] -> bsmall (leaf_block hp hp0 l nrm) -> leaf_ok l ->
  Forall wfh (leaf_obs l) -> agrees hp e en ->
  leaf_value L hp hp0 en l = Some v ->
  body L A rec (leaf_kind l) e c = DOk (v, adv1 c (leaf_block hp hp0 l nrm)).
Proof.
  intros L rec A c hp hp0 nrm l e en v HS HB [HD HO] HW HA HV. rewrite leaf_value64_eq in HV.
  assert (RE : forall i h x, nth_error (leaf_obs l) i = Some h -> en h = Some x -> obs_value A c e i = DOk x).
  { intros i h x Hi Hx. eapply rd_event; [exact HS| |apply HA; [|exact Hx]]; [apply idxs_nth; exact Hi|].
    eapply Forall_forall in HW; [exact HW|]. eapply nth_error_In; eauto. }
  clear HW.
  pose proof (rd_par _ _ _ HS) as RP. pose proof (rd_con _ _ _ HS) as RC.
  pose proof (rd_npar _ _ _ HS HB) as NP. pose proof (rd_ncon _ _ _ HS HB) as NC.
  pose proof (rd_nobs _ _ _ HS HB) as NO. pose proof (rd_inc _ _ _ HS HB) as NI.
  cbn [leaf_block b_pars b_cons b_obs] in RP, RC, NP, NC, NO. rewrite vals_length in NP. rewrite idxs_length in NO.
  destruct l; cbn [leaf_kind leaf_value64 body leaf_pars leaf_obs leaf_cons] in *;
  repeat match type of HV with obind _ _ = Some _ =>
    let t := fresh "v" in let E := fresh "E" in apply obind_some in HV; destruct HV as (t & E & HV) end;
  match type of HV with Some ?t = Some _ => apply (f_equal (fun o => match o with Some x => x | None => t end)) in HV;
    cbv beta iota in HV; subst v | _ => idtac end;
  (* fixed numbers of reads *)
  try (unfold dev_bw, dev_bifur, dev_corr, dev_crystal, dev_expgaus, dev_exp, dev_expoffset, dev_gaussian, dev_johnson,
              dev_kinlimit, dev_landau, dev_novosibirsk, dev_scaled, dev_voigtian, dev_square_dalitz;
       repeat (first [rewrite (RE 0 _ _ eq_refl ltac:(eassumption)) | rewrite (RE 1 _ _ eq_refl ltac:(eassumption))
                     | rewrite (RP 0 _ eq_refl) | rewrite (RP 1 _ eq_refl) | rewrite (RP 2 _ eq_refl)
                     | rewrite (RP 3 _ eq_refl) | rewrite (RP 4 _ eq_refl) | rewrite (RP 5 _ eq_refl)
                     | rewrite (RP 6 _ eq_refl) | rewrite (RP 7 _ eq_refl)
                     | rewrite (RC 0 _ eq_refl) | rewrite (RC 1 _ eq_refl)]; cbn [dbind]);
       reflexivity).
  - (* Argus *)
    destruct upper; cbn [body]; unfold dev_argus; rewrite (RE 0 _ _ eq_refl E), (RP 0 _ eq_refl), (RP 1 _ eq_refl), (RP 2 _ eq_refl);
    reflexivity.
  - (* Bernstein *)
    unfold dev_bernstein. rewrite NP, NC, (RE 0 _ _ eq_refl E), (RC 1 _ eq_refl), (RC 2 _ eq_refl), (RC 3 _ eq_refl). cbn [dbind].
    rewrite to_index_nat by (unfold small in *; lia). cbn [dbind]. rewrite (RC 0 _ eq_refl). cbn [dbind].
    change (f_of_Z (Z.of_nat mindeg)) with (f_of_nat mindeg).
    rewrite fadd_nat by assumption. rewrite to_index_nat by assumption. cbn [dbind].
    replace (len coeffs + mindeg - mindeg) with (len coeffs) by lia.
    pose proof (rd_pars_all _ _ _ HS) as X. cbn [leaf_block b_pars leaf_pars] in X. rewrite vals_length in X. rewrite X. cbn [dbind].
    change (bernstein L) with (fun x lo up mindeg cs => bernstein_from L (fdiv (fsub x lo) (fsub up lo)) (fsub up lo) (len cs + mindeg - 1) 0 cs fzero).
    cbv beta. rewrite map_length. change (map (val hp) coeffs) with (vals hp coeffs).
    unfold adv1. cbn [leaf_block b_pars b_cons b_obs leaf_pars leaf_cons leaf_obs]. rewrite vals_length, idxs_length. reflexivity.
  - (* BinTransform *)
    unfold dev_bintransform. rewrite NC, NO. cbn [dbind].
    assert (X : dmap (fun i => x <- obs_value A c e i ;; lo <- getConstant A c (i * 3) ;;
                         size <- getConstant A c (i * 3 + 1) ;; n <- getConstant A c (i * 3 + 2) ;;
                         nb <- of_option (f2int n) ;; DOk (x, lo, size, nb)) (seq 0 (len axes)) = DOk v0).
    { eapply dmap_seq; [|exact E]. intros j a u Hj Hu. cbn beta in Hu. apply obind_some in Hu. destruct Hu as (x & Ex & Hu).
      injection Hu as <-. cbn [Nat.add]. rewrite (RE j (fst (fst (fst a))) x).
      2:{ now apply (map_nth_error (fun a => fst (fst (fst a)))). } 2:{ exact Ex. }
      cbn [dbind]. destruct (flat3 (fun a => snd (fst (fst a))) (fun a => snd (fst a)) (fun a => f_of_Z (snd a)) axes j a Hj) as (R0 & R1 & R2).
      rewrite (RC _ _ R0), (RC _ _ R1), (RC _ _ R2). cbn [dbind].
      rewrite f2int_Z. { cbn [of_option dbind]. reflexivity. }
      eapply Forall_forall in HO; [exact HO|]. eapply nth_error_In; eauto. }
    rewrite map_length. rewrite X. cbn [dbind]. rewrite E0. cbn [of_option dbind]. unfold adv1.
    cbn [leaf_block b_pars b_cons b_obs leaf_pars leaf_cons leaf_obs]. rewrite idxs_length, map_length. reflexivity.
  - (* ExpPoly *)
    unfold dev_exppoly. rewrite (RE 0 _ _ eq_refl E), NP. cbn [dbind].
    pose proof (rd_pars_all _ _ _ HS) as X. cbn [leaf_block b_pars leaf_pars] in X. rewrite vals_length in X. rewrite X. cbn [dbind].
    unfold adv1. cbn [leaf_block b_pars b_cons b_obs leaf_pars leaf_cons leaf_obs]. rewrite vals_length. reflexivity.
  - (* ExpPolyOffset *)
    unfold dev_exppolyoffset. rewrite (RE 0 _ _ eq_refl E), (RP 0 _ eq_refl), NP. cbn [dbind len].
    rewrite Nat.sub_succ, Nat.sub_0_r.
    rewrite (rd_pars_from _ _ _ HS (len weights) 1 (vals hp weights)); [| intros j Hj; reflexivity | apply vals_length]. cbn [dbind].
    unfold adv1. cbn [leaf_block b_pars b_cons b_obs leaf_pars leaf_cons leaf_obs]. rewrite vals_length. reflexivity.
  - (* Polynomial *)
    unfold dev_polynomial. rewrite NP, (RC 0 _ eq_refl). cbn [dbind]. unfold f_of_nat. rewrite f2int_Z by (unfold small, int_ok in *; lia).
    cbn [of_option dbind]. rewrite (RE 0 _ _ eq_refl E). cbn [dbind].
    pose proof (rd_pars_all _ _ _ HS) as X. cbn [leaf_block b_pars leaf_pars] in X. rewrite vals_length in X. rewrite X. cbn [dbind].
    unfold adv1. cbn [leaf_block b_pars b_cons b_obs leaf_pars leaf_cons leaf_obs]. rewrite vals_length. reflexivity.
  - (* OffsetPolynomial *)
    unfold dev_offsetpolynomial. rewrite NP, (RC 0 _ eq_refl). cbn [dbind]. unfold f_of_nat. rewrite f2int_Z by (unfold small, int_ok in *; lia).
    cbn [of_option dbind]. rewrite (RE 0 _ _ eq_refl E). cbn [dbind].
    rewrite (rd_pars_from _ _ _ HS _ 2 (skipn 2 (map (val hp) (weights ++ [x0])))).
    + cbn [dbind]. unfold adv1. cbn [leaf_block b_pars b_cons b_obs leaf_pars leaf_cons leaf_obs]. rewrite vals_length. reflexivity.
    + intros j Hj. rewrite nth_error_skipn. reflexivity.
    + rewrite skipn_length, map_length. reflexivity.
  - (* MultiPolynomial *)
    destruct HO as [HO1 HO2].
    unfold dev_multipolynomial. rewrite NC, NP, NO, (RC 0 _ eq_refl). cbn [dbind]. rewrite fone_Z.
    change (f_of_Z 1) with (f_of_nat 1). rewrite fadd_nat by assumption. rewrite to_index_nat by assumption. cbn [dbind].
    erewrite dmap_seq; [| |exact E]. 2:{ intros j a u Hj Hu. cbn [Nat.add]. eapply RE; eassumption. }
    cbn [dbind].
    rewrite (rd_pars_from _ _ _ HS (len obses) 0 (vals hp offsets)).
    2:{ intros j Hj. cbn [leaf_block b_pars leaf_pars Nat.add]. unfold vals. rewrite map_app, nth_error_app1; [reflexivity|].
        rewrite map_length. lia. } 2:{ rewrite vals_length. assumption. }
    cbn [dbind]. rewrite app_length. replace (len offsets + len coeffs - len obses) with (len coeffs) by lia.
    rewrite (rd_pars_from _ _ _ HS (len coeffs) (len obses) (vals hp coeffs)).
    2:{ intros j Hj. cbn [leaf_block b_pars leaf_pars]. unfold vals. rewrite map_app, nth_error_app2; rewrite map_length; [|lia].
        f_equal. lia. } 2:{ apply vals_length. }
    cbn [dbind]. replace (maxDegree + 1 - 1) with maxDegree by lia.
    change (vals hp offsets) with (map (val hp) offsets). change (vals hp coeffs) with (map (val hp) coeffs). rewrite HV. cbn [of_option dbind].
    unfold adv1. cbn [leaf_block b_pars b_cons b_obs leaf_pars leaf_cons leaf_obs]. rewrite vals_length, idxs_length, app_length. reflexivity.
  - (* Step *)
    unfold dev_step. rewrite (RE 0 _ _ eq_refl E), (RP 0 _ eq_refl), (RC 0 _ eq_refl). cbn [dbind]. rewrite f2int_Z by assumption.
    cbn [of_option dbind]. rewrite NI. reflexivity.
  - (* Trig *)
    destruct upper; cbn [body]; unfold dev_trig; rewrite (RE 0 _ _ eq_refl E), (RP 0 _ eq_refl), (RP 1 _ eq_refl), (RP 2 _ eq_refl);
    reflexivity.
  - (* Trig2 *)
    destruct upper; cbn [body]; unfold dev_trig2; rewrite (RE 0 _ _ eq_refl E), (RE 1 _ _ eq_refl E0), (RP 0 _ eq_refl), (RP 1 _ eq_refl), (RP 2 _ eq_refl), (RP 3 _ eq_refl);
    reflexivity.
  - (* VarBin *) destruct HO.
  - (* DalitzVeto *)
    unfold dev_dalitzveto. rewrite (RP 0 _ eq_refl), (RP 1 _ eq_refl), (RP 2 _ eq_refl), (RP 3 _ eq_refl), (RE 0 _ _ eq_refl E), (RE 1 _ _ eq_refl E0), (RC 0 _ eq_refl).
    cbn [dbind]. rewrite to_index_nat. 2:{ destruct HB as (_ & HB & _). cbn [leaf_block b_cons leaf_cons len] in HB. rewrite map_length in HB. unfold small in *. lia. }
    cbn [dbind].
    erewrite (dmap_seq _ (fun v => Some (snd v, val hp (fst (fst v)), val hp (snd (fst v))))).
    + cbn [dbind]. rewrite NI. reflexivity.
    + intros j a u Hj Hu. injection Hu as <-. cbn [Nat.add].
      rewrite (RC (S j) (f_of_Z (snd a))). 2:{ cbn [nth_error]. now apply (map_nth_error (fun v => f_of_Z (snd v))). }
      cbn [dbind]. rewrite f2int_Z. 2:{ eapply Forall_forall in HO; [exact HO|]. eapply nth_error_In; eauto. }
      cbn [of_option dbind].
      destruct (flat2 (fun v => val hp (fst (fst v))) (fun v => val hp (snd (fst v))) vetos j a Hj) as [R0 R1].
      assert (EQ : vals hp ([motherM; d1; d2; d3] ++ flat_map (fun v => [fst (fst v); snd (fst v)]) vetos)
                 = [val hp motherM; val hp d1; val hp d2; val hp d3] ++ flat_map (fun a => [val hp (fst (fst a)); val hp (snd (fst a))]) vetos).
      { unfold vals. rewrite map_app, map_flat_map. reflexivity. }
      rewrite EQ in RP.
      rewrite (RP _ (val hp (fst (fst a)))). 2:{ change (S (S (S (S (j * 2))))) with (4 + j * 2). exact R0. }
      cbn [dbind]. rewrite (RP _ (val hp (snd (fst a)))). 2:{ change (S (S (S (S (j * 2 + 1))))) with (4 + (j * 2 + 1)). exact R1. }
      reflexivity.
    + clear. induction vetos as [|a l IH]; [reflexivity|]. cbn [omap map]. rewrite IH. reflexivity.
Qed.
