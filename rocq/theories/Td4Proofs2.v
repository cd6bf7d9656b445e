(** Proofs about Amp4Body_TD: value and normalisation along a history. *)
From Coq Require Import Reals List ZArith Lra Lia Bool Arith.
From Coquelicot Require Import Complex.
From Flocq Require Import Core.
From Verif Require Import FormulaSpec AmpModel AmpSpec AmpProofs CombineSpec UtilModel Amp4Model Amp4Spec Amp4Proofs Td4Model Td4Spec Td4Proofs.
From Verif Require LeafGen.
Import ListNotations.
Local Open Scope nat_scope.

Lemma r_sum_Rsum : forall l, r_sum R_ops l = Rsum l.
Proof.
  intro l. unfold r_sum, Rsum. cbn [LeafGen.o_add LeafGen.o_zero R_ops]. apply fold_symmetric; intros; ring.
Qed.
Lemma neumaier_R : forall l, neumaier (as_arith R_ops) (ge_abs R_ops) l = Rsum l.
Proof.
  intro l. assert (G : forall l s c, (let '(a, b) := fold_left (neumaier_step (as_arith R_ops) (ge_abs R_ops)) l (s, c) in (a + b = s + c + Rsum l)%R)).
  { induction l0 as [|x l0 IH]; intros s c; cbn [fold_left Rsum fold_right]; [ring|].
    unfold neumaier_step at 2. specialize (IH (s + x)%R (if ge_abs R_ops s x then c + (s - (s + x) + x) else c + (x - (s + x) + s))%R).
    cbn [as_arith add sub R_ops LeafGen.o_add LeafGen.o_sub] in *. destruct (fold_left _ l0 _) as (a, b). rewrite IH. unfold Rsum. cbn [fold_right]. destruct (ge_abs R_ops s x); ring. }
  assert (N : (let '(a, b) := fold_left (neumaier_step (as_arith R_ops) (ge_abs R_ops)) l (0, 0)%R in a + b)%R = Rsum l).
  { specialize (G l 0%R 0%R). destruct (fold_left _ l _) as (a, b). rewrite G. ring. }
  unfold neumaier. destruct l as [|x [|y l]]; [exact N| |exact N]. unfold Rsum. cbn [fold_right]. ring.
Qed.
Lemma norm_Cmod : forall z : C, c_norm R_ops z = (Cmod z ^ 2)%R.
Proof. intros z. pose proof (mod_sq z) as M. apply (f_equal fst) in M. destruct z as [x y]. unfold Cmult, Cconj in M. cbn [fst snd RtoC] in M. rewrite <- M. unfold c_norm. cbn. ring. Qed.
Lemma omap_length : forall {X Y} (f : X -> option Y) l l', omap f l = Some l' -> length l' = length l.
Proof. induction l as [|x l IH]; intros l' H; cbn [omap] in H; [now injection H as <-|]. destruct (f x); [|discriminate]. cbn [obind] in H. destruct (omap f l); [|discriminate]. injection H as <-. cbn. f_equal. now apply IH. Qed.

Section Hist.
Context {P : Type}.
Variables (A B : list amplitude).
Let amps := td_amps A B.
Variables (res : R -> R -> R -> R -> R -> R -> R -> R -> R -> R) (nrm : R -> R -> R -> R -> R -> R -> R -> R).
Hypothesis Hok : td_ok A B.
Notation call := (call (T := R) (P := P)).
Notation batch := (batch (T := R) (P := P)).
Notation kept := (kept (T := R)).

Lemma amps_perm : amps_ok amps.
Proof.
  destruct Hok as (H1 & H2 & _). unfold amps_ok, amps, td_amps. apply Forall_forall. intros x Hx. apply in_map_iff in Hx. destruct Hx as (y & <- & Hy).
  unfold built in Hy. apply in_app_or in Hy. rewrite Forall_forall in H1, H2. destruct Hy as [Hy|Hy].
  - apply in_map_iff in Hy. destruct Hy as (a & <- & Ha). unfold of_A. destruct (find (same a) B); cbn; now apply H1.
  - apply in_flat_map in Hy. destruct Hy as (a & Ha & Hy). unfold of_B in Hy. destruct (find (same a) A); [easy|]. destruct Hy as [<-|[]]. cbn. now apply H2.
Qed.

Definition row (c : call) (p : P) (a : amp4) : C := amplitude_at (as4 R_ops A B c) a p.
Lemma both_value : forall (c : call) t p amp, good_table true amps t -> (forall i a, nth_error amps i = Some a -> amp i = Some (row c p a)) ->
  both R_ops A B c t amp = Some (first c A p, second c B p).
Proof.
  intros c t p amp G Ha. destruct Hok as (_ & _ & NA & NB). unfold both.
  pose proof (decays_value A B t G [u_tau c; u_x c; u_y c; u_rate c] (u_var c) (row c p) eq_refl amp Ha (built A B) [] (AmpModel.c_zero R_ops) (AmpModel.c_zero R_ops) eq_refl) as D.
  cbn [length doubles filter] in D. unfold doubles in D. cbn [filter length] in D.
  replace (length (built A B)) with (length amps) in D by (unfold amps, td_amps; apply map_length).
  unfold amps in D. unfold pars. rewrite D. clear D. cbn [obind nth_error app fst snd]. f_equal. f_equal.
  - rewrite scale_C, Cmult_comm. unfold first. f_equal. change (AmpModel.c_zero R_ops) with (RtoC 0). rewrite Cplus_0_l, sum_A by reflexivity. reflexivity.
  - change (AmpModel.c_zero R_ops) with (RtoC 0). rewrite Cplus_0_l, sum_B by (exact NA || exact NB || reflexivity). reflexivity.
Qed.
Lemma smeared_value : forall (c : call) a b time sigma, smeared R_ops res c (a, b) time sigma = smear res c a b time sigma.
Proof. intros c a b time sigma. unfold smeared, smear. rewrite !norm_Cmod. reflexivity. Qed.

(** *** The functions of the resolution and the efficiency are found *)
Lemma total_fold : forall l n, fold_left (fun n a => n + length (a_ls a) + length (a_sf a)) l n = n + length (flat_map (fun a => map FnLs (a_ls a) ++ map FnSf (a_sf a)) l).
Proof. induction l as [|a l IH]; intro n; cbn [fold_left flat_map length]; [lia|]. rewrite IH, app_length, app_length, !map_length. lia. Qed.
Lemma functions : forall l, nth_error (fn_table l) (1 + total_ls_sf l) = Some FnResolution /\ nth_error (fn_table l) (2 + total_ls_sf l) = Some FnEfficiency.
Proof.
  intro l. unfold total_ls_sf. rewrite total_fold. unfold fn_table. set (m := flat_map _ l).
  change (nth_error (m ++ [FnResolution; FnEfficiency]) (length m) = Some FnResolution /\ nth_error (m ++ [FnResolution; FnEfficiency]) (S (length m)) = Some FnEfficiency). split.
  - rewrite nth_error_app2 by lia. now rewrite Nat.sub_diag.
  - rewrite nth_error_app2 by lia. replace (S (length m) - length m) with 1 by lia. reflexivity.
Qed.
Lemma value_at : forall t (c : call) k e p time sigma, good_table true amps t -> fresh_amp amps (as4 R_ops A B c) (q_amp k) ->
  nth_error (u_data c) e = Some (p, time, sigma) ->
  value R_ops A B res t c k e (p, time, sigma) = Some (smear res c (first c A p) (second c B p) time sigma * u_eff c (p, time, sigma))%R.
Proof.
  intros t c k e p time sigma G Am He. unfold value. rewrite (both_value c t p _ G).
  - cbn [obind]. destruct (functions (td_amps A B)) as (-> & ->). rewrite smeared_value. reflexivity.
  - intros i a Hi. f_equal. apply Am; [|exact Hi]. cbn [as4 evts]. now apply (map_nth_error (fun d : P * R * R => fst (fst d)) _ _ He).
Qed.

(** *** One batch *)
Definition batch_fresh (c : call) (b : batch) (k : kept) : Prop :=
  let n := length (b_points b) in
  (length (n_sf k) = n * length (SF amps) /\
   forall i key e p, nth_error (SF amps) i = Some key -> nth_error (b_points b) e = Some p -> nth_error (n_sf k) (i * n + e) = Some (u_sf c key p)) /\
  (length (n_ls k) = n * length (LS amps) /\
   forall i key e p, nth_error (LS amps) i = Some key -> nth_error (b_points b) e = Some p -> nth_error (n_ls k) (i * n + e) = Some (u_ls c key p)).

Lemma norm_amp_TD_value : forall t (c : call) b k e p i a, good_table true amps t -> batch_fresh c b k -> nth_error (b_points b) e = Some p -> nth_error amps i = Some a ->
  norm_amp_TD R_ops t (length amps) i (fun id => nth_error (n_ls k) (id * length (b_points b) + e)) (fun id => nth_error (n_sf k) (id * length (b_points b) + e)) = Some (row c p a).
Proof.
  intros t c b k e p i a G ((_ & FS) & (_ & FL)) Hp Ha. pose proof (perm_ok amps amps_perm i a Ha) as Hn.
  destruct (entries_at true amps t G a (nth_error_In _ _ Ha)) as (E0 & E1 & E2 & _). unfold norm_amp_TD.
  rewrite (proj1 G i) by (apply nth_error_Some; congruence). cbn [obind].
  rewrite (proj2 G i a 2 _ Ha E2). cbn [obind].
  rewrite <- (Nat.add_0_r (length amps + start true amps i)) at 1. rewrite (proj2 G i a 0 _ Ha E0). cbn [obind].
  rewrite (proj2 G i a 1 _ Ha E1). cbn [obind].
  destruct (Nat.eqb (a_perm a) 0) eqn:Z; [apply Nat.eqb_eq in Z; lia|].
  set (lsv := fun id => nth_error (n_ls k) (id * length (b_points b) + e)). set (sfv := fun id => nth_error (n_sf k) (id * length (b_points b) + e)).
  assert (Hls : forall j key, nth_error (line_shapes amps) j = Some key -> lsv j = Some (u_ls c key p)) by (intros; now apply FL).
  assert (Hsf : forall j key, nth_error (spin_factors amps) j = Some key -> sfv j = Some (u_sf c key p)) by (intros; now apply FS).
  set (f := fun key => u_ls c key p). set (g := fun key => u_sf c key p).
  rewrite (omap_seq _ (fun j => Cmult (Cproduct (map f (part (a_ls a) (a_perm a) j))) (Cproduct (map (fun k => RtoC (g k)) (part (a_sf a) (a_perm a) j))))).
  - cbn [obind]. rewrite final_scale by exact Hn. reflexivity.
  - intros j Hj. pose proof (parts_fit (length (a_ls a)) (a_perm a) j ltac:(lia)) as F1. pose proof (parts_fit (length (a_sf a)) (a_perm a) j ltac:(lia)) as F2.
    rewrite (omap_seq _ (fun j => f (nth j (a_ls a) 0))) by (intros j' Hj'; apply (read_ls true amps t lsv f G Hls i a j' Ha); lia). cbn [obind].
    rewrite (omap_seq _ (fun j => g (nth j (a_sf a) 0))) by (intros j' Hj'; apply (read_sf true amps t sfv g G Hsf i a j' Ha); lia). cbn [obind].
    f_equal. rewrite (map_part f _ 0 _ _ F1), (map_part g _ 0 _ _ F2). rewrite prod_ls, prod_scale, map_map. unfold c_one.
    change (LeafGen.o_one R_ops, LeafGen.o_zero R_ops) with (RtoC 1). rewrite Cmult_1_l. reflexivity.
Qed.
Lemma norm_both_value : forall t (c : call) b k e p, good_table true amps t -> batch_fresh c b k -> nth_error (b_points b) e = Some p ->
  norm_both R_ops A B c t k (length (b_points b)) e = Some (first c A p, second c B p).
Proof. intros t c b k e p G F Hp. unfold norm_both. apply both_value; [exact G|]. intros i a Ha. now apply norm_amp_TD_value. Qed.
Lemma omap_points : forall {X Y} (f : nat -> option Y) (g : X -> Y) (l : list X), (forall e p, nth_error l e = Some p -> f e = Some (g p)) -> omap f (seq 0 (length l)) = Some (map g l).
Proof.
  intros X Y f g l. assert (G : forall l s, (forall e p, nth_error l e = Some p -> f (s + e) = Some (g p)) -> omap f (seq s (length l)) = Some (map g l)).
  { induction l0 as [|p l0 IH]; intros s H; [reflexivity|]. cbn [length seq omap map]. rewrite <- (Nat.add_0_r s) at 1. rewrite (H 0 p eq_refl). cbn [obind]. rewrite IH; [reflexivity|].
    intros e q Hq. rewrite <- (H (S e) q Hq). f_equal. lia. }
  intro H. now apply G.
Qed.
Definition fits_batch (b : batch) : Prop := unweighted b \/ weighted b.
Lemma integral_value : forall t (c : call) b k, good_table true amps t -> batch_fresh c b k -> fits_batch b ->
  integral R_ops A B res nrm c t b k = Some (batch_integral res nrm A B c b).
Proof.
  intros t c b k G F [U|(ex & U & L)]; unfold integral, batch_integral; rewrite U.
  - rewrite (omap_points _ (fun p => (first c A p, second c B p))) by (intros e p Hp; now apply norm_both_value).
    cbn [obind]. f_equal. rewrite !map_map, !r_sum_Rsum. cbn [fst snd].
    f_equal; f_equal; apply map_ext; intro p; try apply norm_Cmod; reflexivity.
  - unfold events. rewrite U.
    rewrite (omap_points _ (fun e => let '(p, (time, sigma, w)) := e in (smear res c (first c A p) (second c B p) time sigma * w)%R) (List.combine (b_points b) ex)
      : omap _ (seq 0 (length (List.combine (b_points b) ex))) = _) || replace (length ex) with (length (List.combine (b_points b) ex)) by (rewrite combine_length; lia).
    rewrite (omap_points _ (fun e => let '(p, (time, sigma, w)) := e in (smear res c (first c A p) (second c B p) time sigma * w)%R) (List.combine (b_points b) ex)).
    + cbn [obind]. now rewrite r_sum_Rsum.
    + intros e (p & ((time & sigma) & w)) He.
      assert (N : nth_error (b_points b) e = Some p /\ nth_error ex e = Some (time, sigma, w)).
      { clear - He. revert e ex He. induction (b_points b) as [|q l IH]; intros [|e] [|x ex] He; cbn in *; try discriminate; [now injection He as <- <-|]. now apply IH. }
      rewrite (norm_both_value t c b k e p G F (proj1 N)). cbn [obind]. rewrite (proj2 N). cbn [obind fst snd]. rewrite smeared_value. reflexivity.
Qed.

Definition ready_batch (before c : call) (b : batch) (k : kept) : Prop := u_force c = true \/ (told before c /\ batch_fresh before b k).
Let changed (c : call) : nat -> bool := shape_redo amps (as4 R_ops A B c).
Let idle (c : call) : bool := (negb (u_force c) && forallb (fun i => negb (changed c i)) (seq 0 (length (LS amps))))%bool.
(** The arrays after the recalculation. *)
Lemma renew : forall (before c : call) b k, ready_batch before c b k -> idle c = false ->
  exists sf ls, new_sf A B c (negb (u_force c)) (b_points b) (resize 0%R (length (b_points b) * length (SF amps)) (n_sf k)) = Some sf /\
  new_ls A B c (changed c) (b_points b) (resize (AmpModel.c_zero R_ops) (length (b_points b) * length (LS amps)) (n_ls k)) = Some ls /\
  batch_fresh c b (mkKept (snd sf) (snd ls)).
Proof.
  intros before c b k R I. unfold new_sf, new_ls. fold amps. set (n := length (b_points b)).
  destruct (put_all_read (fun _ => negb (negb (u_force c))) (u_sf c) (b_points b) (SF amps) 0 (resize 0%R (n * length (SF amps)) (n_sf k))) as (l1 & E1 & L1 & N1).
  { rewrite resize_length. fold n. lia. }
  destruct (put_all_read (changed c) (u_ls c) (b_points b) (LS amps) 0 (resize (AmpModel.c_zero R_ops) (n * length (LS amps)) (n_ls k))) as (l2 & E2 & L2 & N2).
  { rewrite resize_length. fold n. lia. }
  rewrite E1, E2. cbn [obind]. eexists _, _. split; [reflexivity|]. split; [reflexivity|]. assert (M1 : length l1 = n * length (SF amps)) by (rewrite L1; apply resize_length). assert (M2 : length l2 = n * length (LS amps)) by (rewrite L2; apply resize_length). fold n in N1, N2.
  unfold batch_fresh. cbn [snd n_sf n_ls]. fold n. split; (split; [assumption|]).
  - intros i key e p Hi Hp. rewrite (N1 i e p Hp). cbn [Nat.leb andb]. rewrite Nat.sub_0_r, Hi. destruct (u_force c) eqn:EF; [reflexivity|]. cbn [negb].
    destruct R as [R|([R|(_ & R & _)] & ((LS1 & F) & _))]; try congruence. rewrite resize_same by exact LS1. unfold n. rewrite (F i key e p Hi Hp). now rewrite R.
  - intros i key e p Hi Hp. rewrite (N2 i e p Hp). cbn [Nat.leb andb]. rewrite Nat.sub_0_r, Hi. unfold changed, shape_redo. unfold LS in *. rewrite Hi. cbn [as4 force4 changed4].
    destruct (u_force c) eqn:EF; [reflexivity|]. cbn [orb]. destruct (u_changed c key) eqn:EC; [reflexivity|].
    destruct R as [R|([R|(_ & _ & R)] & (_ & (LS1 & F)))]; try congruence. rewrite resize_same by exact LS1. unfold n. rewrite (F i key e p Hi Hp). now rewrite (R key EC).
Qed.
(** When nothing is recalculated. *)
Lemma unchanged : forall (before c : call) b k, ready_batch before c b k -> idle c = true -> batch_fresh c b k.
Proof.
  intros before c b k R I. unfold idle in I. apply andb_true_iff in I. destruct I as (I1 & I2). apply negb_true_iff in I1. rewrite forallb_forall in I2.
  destruct R as [R|([R|(_ & R1 & R2)] & ((L1 & F1) & (L2 & F2)))]; try congruence. split; (split; [assumption|]).
  - intros i key e p Hi Hp. rewrite (F1 i key e p Hi Hp). now rewrite R1.
  - intros i key e p Hi Hp. rewrite (F2 i key e p Hi Hp). rewrite (R2 key); [reflexivity|]. specialize (I2 i). rewrite in_seq in I2.
    assert (Li : i < length (LS amps)) by (apply nth_error_Some; congruence). specialize (I2 ltac:(lia)). apply negb_true_iff in I2. unfold changed, shape_redo in I2. unfold LS in Hi, I2.
    rewrite Hi in I2. cbn [as4 force4 changed4] in I2. apply orb_false_iff in I2. apply I2.
Qed.
Lemma norm_device_step : forall t (before c : call) b k, good_table true amps t -> ready_batch before c b k -> fits_batch b ->
  exists k', norm_device R_ops A B res nrm t c (idle c) (negb (u_force c)) (changed c) b k = Some (k', batch_integral res nrm A B c b) /\ batch_fresh c b k'.
Proof.
  intros t before c b k G R Fb. unfold norm_device. destruct (idle c) eqn:I.
  - cbn [obind]. pose proof (unchanged before c b k R I) as F. rewrite (integral_value t c b k G F Fb). cbn [obind]. eauto.
  - destruct (renew before c b k R I) as (sf & ls & E1 & E2 & F). unfold amps in E1, E2. cbn [LeafGen.o_zero R_ops]. rewrite E1. cbn [obind]. rewrite E2. cbn [obind].
    rewrite (integral_value t c b _ G F Fb). cbn [obind]. eauto.
Qed.
End Hist.

(** ** Host and device: the same arrays and the same result, in any arithmetic and any history *)
Section Same.
Context {T : Type} (Ar : LeafGen.ops T) {P : Type}.
Variables (A B : list amplitude).
Lemma put_none : forall {X} redo (f : nat -> P -> X) ps keys i l, (forall j, i <= j < i + length keys -> redo j = false) -> put_all redo f ps keys i l = Some l.
Proof. induction keys as [|k keys IH]; intros i l H; [reflexivity|]. cbn [put_all]. rewrite H by (cbn; lia). cbn [obind]. apply IH. intros j Hj. apply H. cbn. lia. Qed.
Variables (res : T -> T -> T -> T -> T -> T -> T -> T -> T -> T) (nrm : T -> T -> T -> T -> T -> T -> T -> T).
Lemma host_device : forall t (c : call (T := T) (P := P)) idle spins changed b k,
  norm_host Ar A B res nrm t c idle spins changed b k = norm_device Ar A B res nrm t c idle spins changed b k.
Proof.
  intros t c idle spins changed b k. unfold norm_host, norm_device. destruct idle; [reflexivity|]. cbn [n_sf n_ls].
  generalize (resize (LeafGen.o_zero Ar) (length (b_points b) * length (SF (td_amps A B))) (n_sf k)) as l1. generalize (resize (AmpModel.c_zero Ar) (length (b_points b) * length (LS (td_amps A B))) (n_ls k)) as l2. intros l2 l1.
  unfold new_sf, new_ls. destruct (put_all (fun _ => negb spins) (u_sf c) (b_points b) _ 0 l1) as [l1'|] eqn:E1; [|reflexivity]. cbn [obind fst snd].
  destruct (put_all changed (u_ls c) (b_points b) _ 0 l2) as [l2'|] eqn:E2; [|reflexivity]. cbn [obind fst snd].
  assert (X1 : (if (negb spins && negb (Nat.eqb (length (SF (td_amps A B))) 0))%bool then l1' else l1) = l1').
  { destruct (negb spins) eqn:Es; cbn [andb].
    - destruct (SF (td_amps A B)) as [|s0 sl] eqn:ES; cbn [length Nat.eqb negb]; [|reflexivity]. cbn in E1. now injection E1.
    - rewrite put_none in E1 by reflexivity. now injection E1. }
  assert (X2 : (if existsb changed (seq 0 (length (LS (td_amps A B)))) then l2' else l2) = l2').
  { destruct (existsb changed _) eqn:Ex; [reflexivity|]. rewrite put_none in E2; [now injection E2|]. intros j Hj. destruct (changed j) eqn:Ec; [|reflexivity].
    rewrite <- Ex. symmetry. apply existsb_exists. exists j. split; [|exact Ec]. apply in_seq. lia. }
  rewrite X1, X2. destruct (integral Ar A B res nrm c t b (mkKept l1' l2')); reflexivity.
Qed.
Lemma batch_device : forall t (c : call (T := T) (P := P)) idle spins changed b k,
  norm_batch Ar A B res nrm t c idle spins changed b k = norm_device Ar A B res nrm t c idle spins changed b k.
Proof. intros. unfold norm_batch. destruct (b_host b); [apply host_device|reflexivity]. Qed.
End Same.

(** ** The sum of the weights *)
Lemma whole_int : forall w z, whole_part w z -> (Rabs w <= 2147483647)%R -> to_int R_ops w = Some z.
Proof.
  intros w z W L. unfold to_int. cbn [LeafGen.o_lt LeafGen.o_zero LeafGen.o_opp LeafGen.o_floor R_ops]. unfold Rltb.
  assert (FL : forall v y, (IZR y <= v < IZR y + 1)%R -> (0 <= v <= 2147483647)%R -> Rfloor_int v = Some y /\ (0 <= y <= 2147483647)%Z).
  { intros v y Y V. assert (Yz : (0 <= y <= 2147483647)%Z).
    { split; [apply Z.lt_succ_r, lt_IZR; rewrite succ_IZR; lra|apply le_IZR; lra]. }
    split; [|exact Yz]. unfold Rfloor_int. assert (U : Zfloor v = y) by (apply Zfloor_imp; rewrite plus_IZR; exact Y).
    rewrite U. destruct (Z.leb (-2147483648) y) eqn:E1; [|apply Z.leb_gt in E1; lia]. destruct (Z.leb y 2147483647) eqn:E2; [|apply Z.leb_gt in E2; lia]. reflexivity. }
  destruct W as [(P0 & W)|(P0 & W)].
  - destruct (Rlt_dec w 0); [lra|]. rewrite Rabs_pos_eq in L by exact P0. destruct (FL w z W ltac:(lra)) as (-> & Z1). cbn [obind].
    destruct (Z.leb (-2147483648) z) eqn:E1; [|apply Z.leb_gt in E1; lia]. destruct (Z.leb z 2147483647) eqn:E2; [|apply Z.leb_gt in E2; lia]. reflexivity.
  - destruct (Rlt_dec w 0); [|lra]. rewrite Rabs_left in L by exact P0.
    destruct (FL (- w)%R (- z)%Z) as (-> & Z1); [rewrite opp_IZR; lra|lra|]. cbn [obind option_map]. rewrite Z.opp_involutive.
    destruct (Z.leb (-2147483648) z) eqn:E1; [|apply Z.leb_gt in E1; lia]. destruct (Z.leb z 2147483647) eqn:E2; [|apply Z.leb_gt in E2; lia]. reflexivity.
Qed.
Lemma whole_abs : forall w z, whole_part w z -> (Rabs (IZR z) <= Rabs w)%R.
Proof.
  intros w z [(P0 & W)|(P0 & W)].
  - assert (0 <= IZR z)%R by (apply IZR_le, Z.lt_succ_r, lt_IZR; rewrite succ_IZR; lra). rewrite !Rabs_pos_eq; lra.
  - assert (IZR z <= 0)%R by (apply IZR_le, Z.lt_succ_r; replace (Z.succ 0) with 1%Z by reflexivity; apply lt_IZR; lra).
    rewrite (Rabs_left w), Rabs_left1 by lra. lra.
Qed.
Lemma int_reduce_sum : forall ws zs s, Forall2 whole_part ws zs -> (Rabs (IZR s) + Rsum (map Rabs ws) <= 2147483647)%R ->
  int_reduce R_ops ws s = Some (s + fold_right Z.add 0%Z zs)%Z.
Proof.
  intros ws zs s F. revert s. induction F as [|w z ws zs W F IH]; intros s H; cbn [int_reduce fold_right map] in *; [now rewrite Z.add_0_r|].
  unfold Rsum in H. cbn [fold_right] in H. fold (Rsum (map Rabs ws)) in H.
  assert (N : (0 <= Rsum (map Rabs ws))%R). { clear. induction ws as [|w ws IH]; unfold Rsum in *; cbn [map fold_right]; [lra|]. pose proof (Rabs_pos w). lra. }
  pose proof (Rabs_pos (IZR s)). pose proof (whole_abs w z W) as Q. pose proof (Rabs_triang (IZR s) (IZR z)) as Tr. rewrite <- plus_IZR in Tr.
  rewrite (whole_int w z W) by lra. cbn [obind]. unfold in_int.
  assert (B : (Rabs (IZR (s + z)) <= 2147483647)%R) by lra. rewrite Rabs_Zabs in B. apply le_IZR in B.
  destruct (Z.leb (-2147483648) (s + z)) eqn:E1; [|apply Z.leb_gt in E1; lia]. destruct (Z.leb (s + z) 2147483647) eqn:E2; [|apply Z.leb_gt in E2; lia]. cbn [andb obind].
  rewrite IH by lra. f_equal. lia.
Qed.
Lemma combine_snd : forall {X Y} (l : list X) (l' : list Y), length l' = length l -> map snd (List.combine l l') = l'.
Proof. induction l as [|x l IH]; intros [|y l'] L; try discriminate; [reflexivity|]. cbn. f_equal. apply IH. now injection L. Qed.
Lemma init_counts : forall {P} (b : batch (T := R) (P := P)) n, batch_ok b -> counts b n -> init_weights R_ops b = Some n.
Proof.
  intros P b n (F & S0) C. unfold counts in C. unfold init_weights. destruct F as [U|(ex & U & L)].
  - rewrite U in C |- *. rewrite C. f_equal. symmetry. apply INR_IZR_INZ.
  - rewrite U in C |- *. destruct C as (zs & W & ->). rewrite (int_reduce_sum _ zs).
    + cbn [obind LeafGen.o_ofZ R_ops]. rewrite Z.add_0_l. reflexivity.
    + exact W.
    + rewrite Rabs_R0, Rplus_0_l. unfold events in S0. rewrite U in S0. rewrite <- (combine_snd (b_points b) ex L), !map_map. exact S0.
Qed.

(** ** Histories *)
Section Run.
Context {P : Type}.
Variables (A B : list amplitude) (res : R -> R -> R -> R -> R -> R -> R -> R -> R -> R) (nrm : R -> R -> R -> R -> R -> R -> R -> R).
Variables (bs : list (batch (T := R) (P := P))) (ns : list R).
Hypothesis Hok : td_ok A B.
Hypothesis Hbs : Forall batch_ok bs.
Hypothesis Hns : Forall2 counts bs ns.
Let amps := td_amps A B.
Notation call := (call (T := R) (P := P)).
Notation state := (kept4 (T := R) * list (kept (T := R)))%type.

Lemma all_counts : omap (init_weights R_ops) bs = Some ns.
Proof.
  clear Hok. revert Hbs. clear amps. revert Hns. intro F. induction F as [|b n bs' ns' C _ IH]; intro Hb; [reflexivity|]. inversion Hb as [|? ? H1 H2]; subst. cbn [omap]. rewrite (init_counts b n H1 C). cbn [obind].
  rewrite IH by exact H2. reflexivity.
Qed.
Definition inv (c : call) (k : state) : Prop :=
  data amps (as4 R_ops A B c) (fst k) /\ fresh_amp amps (as4 R_ops A B c) (q_amp (fst k)) /\
  (q_nonorm (fst k) = false -> Forall2 (batch_fresh A B c) bs (snd k)).
Definition norm_of (c : call) : R := (Rsum (map (batch_integral res nrm A B c) bs) / Rsum ns)%R.

Lemma batches_step : forall t (before c : call), good_table true amps t ->
  forall l ks, Forall batch_ok l -> Forall2 (ready_batch A B before c) l ks ->
  exists ks', norm_batches R_ops A B res nrm t c (negb (u_force c) && forallb (fun i => negb (shape_redo amps (as4 R_ops A B c) i)) (seq 0 (length (LS amps))))%bool
    (negb (u_force c)) (shape_redo amps (as4 R_ops A B c)) l ks = Some (ks', map (batch_integral res nrm A B c) l) /\ Forall2 (batch_fresh A B c) l ks'.
Proof.
  intros t before c G l ks Hl F. induction F as [|b k l ks R0 _ IH].
  - exists []. split; [reflexivity|constructor].
  - inversion Hl as [|? ? H1 H2]; subst. destruct (IH H2) as (ks' & E & F').
    destruct (norm_device_step A B res nrm Hok t before c b k G R0 (proj1 H1)) as (k' & Ek & Fk).
    exists (k' :: ks'). split; [|now constructor]. cbn [norm_batches]. rewrite batch_device.
    cbv beta in Ek. fold amps in Ek. rewrite Ek. cbn [obind]. rewrite E. reflexivity.
Qed.
Lemma told4 : forall before c : call, told before c -> announced4 (as4 R_ops A B before) (as4 R_ops A B c).
Proof. intros before c [F|(E1 & E2 & E3)]; [now left|]. right. cbn [as4 evts v_sf v_ls changed4]. rewrite E1. auto. Qed.
Lemma step : forall t (before c : call) (k : state), good_table true amps t -> length (snd k) = length bs ->
  u_force c = true \/ (told before c /\ inv before k) ->
  exists k' r, normalize R_ops A B res nrm bs t c k = Some (k', r) /\ inv c k' /\ length (snd k') = length bs /\
  q_nonorm (fst k') = (q_nonorm (fst k) || u_generating c)%bool /\ r = (if q_nonorm (fst k') then 1%R else norm_of c).
Proof.
  intros t before c (kd & ks) G L H. cbn [fst snd] in *.
  assert (R1 : ready (data amps) (as4 R_ops A B before) (as4 R_ops A B c) kd).
  { destruct H as [F|(H & I & _)]; [left; exact F|right]. split; [now apply told4|exact I]. }
  assert (R2 : ready (fun b k => fresh_amp amps b (q_amp k)) (as4 R_ops A B before) (as4 R_ops A B c) kd).
  { destruct H as [F|(H & _ & I & _)]; [left; exact F|right]. split; [now apply told4|exact I]. }
  destruct (step_TD true amps (amps_perm A B Hok) _ t _ kd G R1 R2) as (kd' & E & D & Am).
  assert (Q : q_nonorm kd' = (q_nonorm kd || u_generating c)%bool).
  { unfold normalize4_TD in E. destruct (fill_amp _ _ _ _ _ _ _ _ _); [|discriminate]. cbn [obind] in E. injection E as <-. reflexivity. }
  unfold normalize. fold amps. cbn [fst snd]. rewrite E. cbn [obind fst snd]. destruct (q_nonorm kd') eqn:N.
  - exists (kd', ks), 1%R. split; [reflexivity|]. cbn [fst snd]. rewrite N. split; [|auto]. split; [exact D|]. split; [exact Am|]. cbn [fst]. congruence.
  - symmetry in Q. apply orb_false_iff in Q. destruct Q as (Q1 & Q2).
    assert (RB : Forall2 (ready_batch A B before c) bs ks).
    { destruct H as [F|(H & _ & _ & I)].
      - clear - F L. revert ks L. induction bs as [|b l IH]; intros [|k ks] L; try discriminate; constructor; [left; exact F|]. apply IH. now injection L.
      - specialize (I Q1). cbn [snd] in I. clear - H I. induction I as [|b k l ks I _ IH]; constructor; [right; auto|exact IH]. }
    destruct (batches_step t before c G bs ks Hbs RB) as (ks' & EB & FB). rewrite EB. cbn [obind]. rewrite all_counts. cbn [obind fst snd].
    exists (kd', ks'). eexists. split; [reflexivity|]. cbn [fst snd]. rewrite N, Q1, Q2. split; [split; [exact D|split; [exact Am|intros _; exact FB]]|].
    split; [clear - FB; induction FB as [|? ? ? ? _ _ IHF]; cbn; congruence|]. split; [reflexivity|].
    rewrite neumaier_R, r_sum_Rsum. reflexivity.
Qed.
Lemma run : forall cs t (before c : call) (k : state) r0, length (snd k) = length bs ->
  u_force c = true \/ (told before c /\ inv before k) -> all_told (c :: map snd cs) ->
  Forall (fun tc => only_object true amps (fst tc)) ((t, c) :: cs) ->
  exists k' r, calls R_ops A B res nrm bs ((t, c) :: cs) k r0 = Some (k', Some r) /\ inv (last (map snd cs) c) k' /\
  q_nonorm (fst k') = (q_nonorm (fst k) || existsb (fun tc => u_generating (snd tc)) ((t, c) :: cs))%bool /\
  r = (if q_nonorm (fst k') then 1%R else norm_of (last (map snd cs) c)).
Proof.
  induction cs as [|(t2 & c2) cs IH]; intros t before c k r0 L H All Good.
  - inversion Good as [|? ? G1 _]; subst. destruct (step t before c k (only_good _ _ _ G1) L H) as (k' & r & E & I & L' & N & V).
    cbn [calls]. rewrite E. cbn [obind fst snd]. exists k', r. cbn [map last existsb]. rewrite orb_false_r. auto.
  - inversion Good as [|? ? G1 G2]; subst. destruct (step t before c k (only_good _ _ _ G1) L H) as (k' & r & E & I & L' & N & V).
    cbn [map snd] in All. destruct All as (To & All).
    destruct (IH t2 c c2 k' (Some r) L' (or_intror (conj To I)) All G2) as (k2 & r2 & E2 & I2 & N2 & V2).
    cbn [calls]. rewrite E. cbn [obind fst snd]. cbn [calls] in E2. exists k2, r2. split; [exact E2|].
    assert (LA : last (map snd ((t2, c2) :: cs)) c = last (map snd cs) c2).
    { cbn [map snd]. clear. revert c2 c. induction (map snd cs) as [|x l IHl]; intros c2 c; [reflexivity|]. cbn [last] in *. destruct l; [reflexivity|]. apply (IHl c2 c). }
    rewrite LA. split; [exact I2|]. split; [|exact V2]. rewrite N2, N. cbn [existsb snd]. now rewrite !orb_assoc.
Qed.
Theorem history_norm : forall cs t (c : call), td_history A B (cs ++ [(t, c)]) ->
  exists k r, calls R_ops A B res nrm bs (cs ++ [(t, c)]) (fresh R_ops A B bs) None = Some (k, Some r) /\
  r = (if existsb (fun tc => u_generating (snd tc)) (cs ++ [(t, c)]) then 1%R else norm_of c) /\
  forall e p time sigma, nth_error (u_data c) e = Some (p, time, sigma) ->
  value R_ops A B res t c (fst k) e (p, time, sigma) = Some (smear res c (first c A p) (second c B p) time sigma * u_eff c (p, time, sigma))%R.
Proof.
  intros cs t c (F & All & Good).
  assert (Gt : good_table true amps t) by (apply only_good; rewrite Forall_forall in Good; apply (Good (t, c)), in_or_app; right; now left).
  destruct (cs ++ [(t, c)]) as [|(t0 & c0) l] eqn:E; [now destruct cs|].
  assert (LA : last (map snd l) c0 = c).
  { assert (LA : last (map snd ((t0, c0) :: l)) c0 = c) by (rewrite <- E, map_app; apply last_last). cbn [map snd] in LA. destruct (map snd l); exact LA. }
  destruct (run l t0 c0 c0 (fresh R_ops A B bs) None) as (k & r & E1 & (I1 & I2 & I3) & N & V); [unfold fresh; cbn [snd]; apply map_length|now left|exact All|exact Good|].
  exists k, r. split; [exact E1|]. rewrite LA in *. rewrite V, N. split; [reflexivity|]. intros e p time sigma He. now apply value_at.
Qed.
End Run.
