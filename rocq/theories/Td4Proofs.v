(** Proofs about Amp4Body_TD: the two sums of amplitudes, and the values a batch keeps. *)
From Coq Require Import Reals List ZArith Lra Lia Bool Arith Permutation.
From Coquelicot Require Import Complex.
From Verif Require Import FormulaSpec AmpModel AmpSpec AmpProofs Amp4Model Amp4Spec Amp4Proofs Td4Model Td4Spec.
From Verif Require LeafGen.
Import ListNotations.
Local Open Scope nat_scope.

(** ** Sums *)
Lemma Csum_app : forall l1 l2, Csum (l1 ++ l2) = Cplus (Csum l1) (Csum l2).
Proof. induction l1 as [|a l IH]; intros l2; cbn [app Csum fold_right]; [now rewrite Cplus_0_l|]. unfold Csum in *. cbn [app fold_right]. rewrite IH. apply Cplus_assoc. Qed.
Lemma Csum_perm : forall l1 l2, Permutation l1 l2 -> Csum l1 = Csum l2.
Proof.
  induction 1 as [|x l l' _ IH|x y l|l l' l'' _ IH1 _ IH2]; unfold Csum in *; cbn [fold_right]; [reflexivity|now rewrite IH| |congruence].
  rewrite !Cplus_assoc, (Cplus_comm y x). reflexivity.
Qed.
Lemma Csum_zero : forall l, Forall (fun z => z = RtoC 0) l -> Csum l = RtoC 0.
Proof. induction 1 as [|z l -> _ IH]; [reflexivity|]. unfold Csum in *. cbn [fold_right]. rewrite IH. apply Cplus_0_l. Qed.
Lemma same_true : forall a b, same a b = true -> b = a.
Proof. intros a b. unfold same. now destruct (amplitude_dec a b). Qed.
Lemma same_refl : forall a, same a a = true.
Proof. intros a. unfold same. now destruct (amplitude_dec a a). Qed.
Lemma found : forall a l, (find (same a) l = Some a /\ In a l) \/ (find (same a) l = None /\ ~ In a l).
Proof.
  intros a l. destruct (find (same a) l) as [b|] eqn:E.
  - apply find_some in E. destruct E as (I & S). apply same_true in S. subst b. now left.
  - right. split; [reflexivity|]. intro I. pose proof (find_none _ _ E _ I) as S. now rewrite same_refl in S.
Qed.

(** ** The coefficients *)
Section Sums.
Variables (A B : list amplitude).
Let amps := td_amps A B.
Variable t : list nat.
Hypothesis Ht : good_table true amps t.
Variables (head4 : list R) (var : nat -> R) (F : amp4 -> C).
Hypothesis H4 : length head4 = 4.
Hypothesis HF : forall f g a, F (entry f a) = F (entry g a).
Let ps : list R := head4 ++ map var (td_vars A B).

Definition shape (x : amp4 * list nat) : Prop :=
  (exists a, x = (entry 0 a, vars a)) \/ (exists a, x = (entry 1 a, vars a)) \/ (exists a b, x = (entry 2 a, vars a ++ vars b)).
Definition two (l : list nat) (i : nat) : C := (var (nth i l 0), var (nth (S i) l 0)).
Definition part_A (x : amp4 * list nat) : C := match a_flag (fst x) with 1 => RtoC 0 | _ => Cmult (two (snd x) 0) (F (fst x)) end.
Definition part_B (x : amp4 * list nat) : C :=
  match a_flag (fst x) with 1 => Cmult (two (snd x) 0) (F (fst x)) | 2 => Cmult (two (snd x) 2) (F (fst x)) | _ => RtoC 0 end.
Definition doubles (l : list (amp4 * list nat)) : nat := length (filter (fun x => Nat.eqb (a_flag (fst x)) 2) l).

Lemma built_shape : Forall shape (built A B).
Proof.
  unfold built. apply Forall_app. split.
  - apply Forall_forall. intros x Hx. apply in_map_iff in Hx. destruct Hx as (a & <- & _). unfold of_A, shape. destruct (find (same a) B) as [b|]; eauto.
  - apply Forall_forall. intros x Hx. apply in_flat_map in Hx. destruct Hx as (a & _ & Hx). unfold of_B in Hx. destruct (find (same a) A); [easy|].
    destruct Hx as [<-|[]]. unfold shape. eauto.
Qed.
Lemma vars_before : forall l, Forall shape l -> length (flat_map snd l) = 2 * (length l + doubles l).
Proof.
  induction 1 as [|x l S _ IH]; [reflexivity|]. cbn [flat_map length]. rewrite app_length, IH. unfold doubles. cbn [filter].
  destruct S as [(a & ->)|[(a & ->)|(a & b & ->)]]; cbn [fst snd entry a_flag Nat.eqb vars app length]; lia.
Qed.
Lemma coef_at : forall pre x suf j, built A B = pre ++ x :: suf -> 2 * j + 1 < length (snd x) ->
  coef ps (length pre) (doubles pre + j) = Some (two (snd x) (2 * j)).
Proof.
  intros pre x suf j E Hj.
  assert (Sh : Forall shape pre) by (pose proof built_shape as Sh; rewrite E in Sh; apply Forall_app in Sh; apply Sh).
  pose proof (vars_before _ Sh) as V.
  assert (N : forall m, m < length (snd x) -> nth_error ps (4 + 2 * (length pre + doubles pre) + m) = Some (var (nth m (snd x) 0))).
  { intros m Hm. unfold ps. rewrite nth_error_app2 by lia. rewrite H4. replace (4 + 2 * (length pre + doubles pre) + m - 4) with (2 * (length pre + doubles pre) + m) by lia.
    unfold td_vars. rewrite E, flat_map_app, map_app. rewrite nth_error_app2 by (rewrite map_length; lia). rewrite map_length, V.
    replace (2 * (length pre + doubles pre) + m - 2 * (length pre + doubles pre)) with m by lia. cbn [flat_map]. rewrite map_app.
    rewrite nth_error_app1 by (rewrite map_length; exact Hm). apply map_nth_error. now apply nth_error_nth'. }
  unfold coef, two. replace (4 + 2 * (length pre + (doubles pre + j))) with (4 + 2 * (length pre + doubles pre) + 2 * j) by lia.
  rewrite N by lia. cbn [obind].
  replace (5 + 2 * (length pre + (doubles pre + j))) with (4 + 2 * (length pre + doubles pre) + S (2 * j)) by lia. rewrite N by lia. reflexivity.
Qed.

Variable amp : nat -> option (R * R).
Hypothesis Hamp : forall i a, nth_error amps i = Some a -> amp i = Some (F a).

Lemma decays_value : forall suf pre sA sB, built A B = pre ++ suf ->
  decays R_ops ps t (length amps) amp (seq (length pre) (length suf)) (doubles pre) sA sB =
  Some (Cplus sA (Csum (map part_A suf)), Cplus sB (Csum (map part_B suf))).
Proof.
  induction suf as [|x suf IH]; intros pre sA sB E.
  { cbn [length seq decays map Csum fold_right]. now rewrite !Cplus_0_r. }
  assert (Hx : nth_error amps (length pre) = Some (fst x)).
  { unfold amps, td_amps. rewrite E, map_app. rewrite nth_error_app2 by (rewrite map_length; lia). now rewrite map_length, Nat.sub_diag. }
  assert (Sh : shape x) by (pose proof built_shape as Sh; rewrite E in Sh; apply Forall_app in Sh; destruct Sh as (_ & Sh); now inversion Sh).
  assert (Li : length pre < length amps) by (apply nth_error_Some; congruence).
  cbn [length seq decays]. rewrite (proj1 Ht (length pre) Li). cbn [obind].
  rewrite (proj2 Ht (length pre) (fst x) 3 (a_flag (fst x)) Hx) by reflexivity. cbn [obind]. rewrite (Hamp _ _ Hx). cbn [obind].
  specialize (IH (pre ++ [x])). rewrite <- app_assoc in IH. cbn [app] in IH. specialize (fun a b => IH a b E).
  rewrite app_length in IH. cbn [length] in IH. rewrite Nat.add_1_r in IH.
  assert (Hd : doubles (pre ++ [x]) = doubles pre + if Nat.eqb (a_flag (fst x)) 2 then 1 else 0).
  { unfold doubles. rewrite filter_app, app_length. cbn [filter]. now destruct (Nat.eqb (a_flag (fst x)) 2). }
  rewrite Hd in IH.
  assert (C0 : 1 < length (snd x) -> coef ps (length pre) (doubles pre) = Some (two (snd x) 0)) by (intro; rewrite <- (Nat.add_0_r (doubles pre)); apply (coef_at pre x suf 0 E); lia).
  assert (C1 : 3 < length (snd x) -> coef ps (length pre) (S (doubles pre)) = Some (two (snd x) 2)) by (intro; rewrite <- (Nat.add_1_r (doubles pre)); apply (coef_at pre x suf 1 E); lia).
  cbn [map]. unfold Csum. cbn [fold_right]. fold (Csum (map part_A suf)). fold (Csum (map part_B suf)). unfold part_A at 1, part_B at 1.
  destruct Sh as [(a & ->)|[(a & ->)|(a & b & ->)]]; cbn [fst snd entry a_flag vars app length Nat.eqb] in *.
  - rewrite C0 by (cbn [vars length]; lia). cbn [obind]. rewrite Nat.add_0_r in IH. rewrite IH. rewrite Cplus_0_l. do 2 f_equal.
    change (AmpModel.c_add R_ops) with Cplus. change (AmpModel.c_mul R_ops) with Cmult. rewrite <- Cplus_assoc. now rewrite (Cmult_comm (F _)).
  - rewrite C0 by (cbn [vars length]; lia). cbn [obind]. rewrite Nat.add_0_r in IH. rewrite IH. rewrite Cplus_0_l. do 2 f_equal.
    change (AmpModel.c_add R_ops) with Cplus. change (AmpModel.c_mul R_ops) with Cmult. rewrite <- Cplus_assoc. now rewrite (Cmult_comm (F _)).
  - rewrite C0 by (cbn [vars length]; lia). cbn [obind]. rewrite C1 by (cbn [vars length]; lia). cbn [obind]. rewrite Nat.add_1_r in IH. rewrite IH. do 2 f_equal;
    change (AmpModel.c_add R_ops) with Cplus; change (AmpModel.c_mul R_ops) with Cmult; rewrite <- Cplus_assoc; now rewrite (Cmult_comm (F _)).
Qed.

Definition term (a : amplitude) : C := Cmult (var (m_ar a), var (m_ai a)) (F (entry 0 a)).
Lemma sum_A : Csum (map part_A (built A B)) = Csum (map term A).
Proof.
  unfold built. rewrite map_app, Csum_app. rewrite (Csum_zero (map part_A (flat_map (of_B A) B))).
  - rewrite Cplus_0_r. f_equal. rewrite map_map. apply map_ext. intro a. unfold of_A, part_A, term.
    destruct (find (same a) B) as [b|]; cbn [fst snd entry a_flag vars app two nth]; unfold two; cbn [nth]; [now rewrite (HF 2 0)|reflexivity].
  - apply Forall_forall. intros z Hz. apply in_map_iff in Hz. destruct Hz as (x & <- & Hx). apply in_flat_map in Hx. destruct Hx as (a & _ & Hx).
    unfold of_B in Hx. destruct (find (same a) A); [easy|]. destruct Hx as [<-|[]]. reflexivity.
Qed.
Definition isin (l : list amplitude) (a : amplitude) : bool := match find (same a) l with Some _ => true | None => false end.
Lemma isin_iff : forall l a, isin l a = true <-> In a l.
Proof. intros l a. unfold isin. destruct (found a l) as [(-> & I)|(-> & I)]; split; try easy. Qed.
Lemma sum_B : NoDup A -> NoDup B -> Csum (map part_B (built A B)) = Csum (map term B).
Proof.
  intros NA NB. unfold built. rewrite map_app, Csum_app.
  assert (E1 : forall l, Csum (map part_B (map (of_A B) l)) = Csum (map term (filter (isin B) l))).
  { induction l as [|a l IH]; [reflexivity|]. cbn [map filter]. unfold Csum. cbn [fold_right]. fold (Csum (map part_B (map (of_A B) l))). rewrite IH.
    unfold of_A, part_B at 1, isin at 2. destruct (found a B) as [(-> & _)|(-> & _)]; cbn [fst snd entry a_flag].
    - cbn [map]. unfold Csum. cbn [fold_right]. f_equal. unfold two, vars, term. cbn [app nth]. now rewrite (HF 2 0).
    - now rewrite Cplus_0_l. }
  assert (E2 : forall l, Csum (map part_B (flat_map (of_B A) l)) = Csum (map term (filter (fun a => negb (isin A a)) l))).
  { induction l as [|a l IH]; [reflexivity|]. cbn [flat_map filter]. rewrite map_app, Csum_app, IH. unfold of_B at 1, isin at 2.
    destruct (found a A) as [(-> & _)|(-> & _)]; cbn [map negb]; [unfold Csum at 1; cbn [fold_right]; now rewrite Cplus_0_l|].
    unfold Csum. cbn [fold_right]. rewrite Cplus_0_r. f_equal. unfold part_B, two, vars, term. cbn [fst snd entry a_flag nth]. now rewrite (HF 1 0). }
  rewrite E1, E2, <- Csum_app, <- map_app. apply Csum_perm, Permutation_map.
  assert (P1 : Permutation (filter (isin B) A) (filter (isin A) B)).
  { apply NoDup_Permutation; try now apply NoDup_filter. intro a. rewrite !filter_In, !isin_iff. tauto. }
  rewrite P1. clear. generalize (isin A) B. intros f l0. induction l0 as [|a l IH]; [constructor|]. cbn [filter]. destruct (f a); cbn [negb].
  - cbn [app]. now constructor.
  - rewrite <- Permutation_middle. now constructor.
Qed.
End Sums.

(** ** What a batch keeps *)
Lemma put_read : forall {X} (l : list X) off vals l', put l off vals = Some l' ->
  length l' = length l /\ off + length vals <= length l /\
  forall m, nth_error l' m = if (Nat.leb off m && Nat.ltb m (off + length vals))%bool then nth_error vals (m - off) else nth_error l m.
Proof.
  intros X l off vals l' H. unfold put in H. destruct (Nat.leb (off + length vals) (length l)) eqn:E; [|discriminate]. apply Nat.leb_le in E. injection H as <-.
  split; [rewrite !app_length, firstn_length, skipn_length; lia|]. split; [exact E|]. intro m.
  destruct (Nat.leb off m) eqn:L1; cbn [andb].
  - apply Nat.leb_le in L1. rewrite nth_error_app2 by (rewrite firstn_length; lia). rewrite firstn_length. replace (Nat.min off (length l)) with off by lia.
    destruct (Nat.ltb m (off + length vals)) eqn:L2.
    + apply Nat.ltb_lt in L2. rewrite nth_error_app1 by lia. reflexivity.
    + apply Nat.ltb_ge in L2. rewrite nth_error_app2 by lia. rewrite <- (firstn_skipn (off + length vals) l) at 2.
      rewrite (nth_error_app2 (firstn _ _)) by (rewrite firstn_length; lia). f_equal. rewrite firstn_length. lia.
  - apply Nat.leb_gt in L1. rewrite nth_error_app1 by (rewrite firstn_length; lia). rewrite <- (firstn_skipn off l) at 2.
    rewrite (nth_error_app1 (firstn off l)) by (rewrite firstn_length; lia). reflexivity.
Qed.
Lemma put_some : forall {X} (l : list X) off vals, off + length vals <= length l -> exists l', put l off vals = Some l'.
Proof. intros X l off vals H. unfold put. apply Nat.leb_le in H. rewrite H. eauto. Qed.
Lemma block : forall n i j e, e < n -> (Nat.leb (i * n) (j * n + e) && Nat.ltb (j * n + e) (i * n + n))%bool = Nat.eqb i j.
Proof.
  intros n i j e He. destruct (Nat.eqb i j) eqn:E.
  - apply Nat.eqb_eq in E. subst. apply andb_true_intro. split; [apply Nat.leb_le|apply Nat.ltb_lt]; lia.
  - apply Nat.eqb_neq in E. apply andb_false_iff. assert (D : i < j \/ j < i) by lia. destruct D as [D|D]; [right; apply Nat.ltb_ge|left; apply Nat.leb_gt]; nia.
Qed.
Section Put.
Context {P X : Type}.
Variables (redo : nat -> bool) (f : nat -> P -> X) (ps : list P).
Lemma put_all_read : forall keys i l, (i + length keys) * length ps <= length l ->
  exists l', put_all redo f ps keys i l = Some l' /\ length l' = length l /\
  forall j e p, nth_error ps e = Some p ->
  nth_error l' (j * length ps + e) = match (if (Nat.leb i j && redo j)%bool then nth_error keys (j - i) else None) with
                                     | Some k => Some (f k p) | None => nth_error l (j * length ps + e) end.
Proof.
  induction keys as [|k keys IH]; intros i l H; cbn [put_all].
  { exists l. split; [reflexivity|]. split; [reflexivity|]. intros j e p _. destruct (Nat.leb i j && redo j)%bool; [|reflexivity]. now destruct (j - i). }
  cbn [length] in H.
  assert (Sx : exists l1, (if redo i then put l (i * length ps) (map (f k) ps) else Some l) = Some l1 /\ length l1 = length l /\
    forall j e p, nth_error ps e = Some p -> nth_error l1 (j * length ps + e) = if (Nat.eqb i j && redo i)%bool then Some (f k p) else nth_error l (j * length ps + e)).
  { destruct (redo i).
    - destruct (put_some l (i * length ps) (map (f k) ps)) as (l1 & E); [rewrite map_length; nia|]. destruct (put_read _ _ _ _ E) as (L & _ & N). exists l1. split; [exact E|]. split; [exact L|].
      intros j e p Hp. assert (He : e < length ps) by (apply nth_error_Some; congruence). rewrite N, map_length, (block _ _ _ _ He). rewrite andb_true_r.
      destruct (Nat.eqb i j) eqn:Eij; [|reflexivity]. apply Nat.eqb_eq in Eij. subst j. replace (i * length ps + e - i * length ps) with e by lia. now apply map_nth_error.
    - exists l. split; [reflexivity|]. split; [reflexivity|]. intros. now rewrite andb_false_r. }
  destruct Sx as (l1 & E1 & L1 & N1). rewrite E1. cbn [obind]. destruct (IH (S i) l1) as (l' & E & L & N); [rewrite L1; lia|].
  exists l'. split; [exact E|]. split; [congruence|]. intros j e p Hp. rewrite (N j e p Hp), (N1 j e p Hp). clear - H.
  destruct (Nat.leb_spec i j) as [Hij|Hij]; destruct (Nat.leb_spec (S i) j) as [Hij'|Hij']; try lia; cbn [andb].
  - replace (j - i) with (S (j - S i)) by lia. cbn [nth_error]. replace (Nat.eqb i j) with false by (symmetry; apply Nat.eqb_neq; lia). reflexivity.
  - assert (i = j) by lia. subst j. rewrite Nat.sub_diag, Nat.eqb_refl. cbn [nth_error andb]. now destruct (redo i).
  - replace (Nat.eqb i j) with false by (symmetry; apply Nat.eqb_neq; lia). reflexivity.
Qed.
End Put.
Lemma resize_length : forall {X} (z : X) n l, length (resize z n l) = n.
Proof. intros X z n l. unfold resize. rewrite app_length, firstn_length, repeat_length. lia. Qed.
Lemma resize_same : forall {X} (z : X) n l, length l = n -> resize z n l = l.
Proof. intros X z n l <-. unfold resize. rewrite firstn_all, Nat.sub_diag. apply app_nil_r. Qed.
