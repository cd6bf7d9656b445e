(** Proofs about Amp3Body_TD. *)
From Coq Require Import Reals List Lra Lia Arith Bool ZArith.
From Coquelicot Require Import Coquelicot.
From Verif Require Import ListAux FormulaSpec AmpModel AmpSpec AmpProofs ResolModel ResolSpec ResolProofs TdModel TdSpec.
Import ListNotations.
Open Scope R_scope.

(** ** The sums *)
Definition weight (c : call (T := R)) (x y : R) : R := if inside c x y then eff c x y else 0.
Section Sums.
Variables (c : call (T := R)).
Let n := nres c.
Let M := (n12 (range c) * n13 (range c))%nat.
Let at_cell {A} (b : nat) (f : R -> R -> A) : A := f (fst (cell_IS R_ops (range c) b)) (snd (cell_IS R_ops (range c) b)).

Lemma fold_t_add : forall (f : nat -> three (T := R)) l s,
  fold_left (t_add R_ops) (map f l) s =
  (Cplus (aa s) (fold_right Cplus (RtoC 0) (map (fun b => aa (f b)) l)),
   Cplus (ab s) (fold_right Cplus (RtoC 0) (map (fun b => ab (f b)) l)),
   Cplus (bb s) (fold_right Cplus (RtoC 0) (map (fun b => bb (f b)) l))).
Proof.
  intros f. induction l as [|b l IH]; intros s; cbn [map fold_left fold_right].
  - destruct s as [[[a1 a2] [b1 b2]] [c1 c2]]. unfold aa, ab, bb, Cplus, RtoC. cbn [fst snd]. repeat f_equal; ring.
  - rewrite IH. unfold t_add, aa, ab, bb. cbn [fst snd]. change (c_add ?a ?b) with (Cplus a b). now rewrite <- !Cplus_assoc.
Qed.
Lemma td_integral_value : forall i j,
  td_integral R_ops c (range c) i j =
  (Ctotal M (fun b => at_cell b (fun x y => Cmult (Cmult (bw c i x y) (Cconj (bw c j x y))) (RtoC (weight c x y)))),
   Ctotal M (fun b => at_cell b (fun x y => Cmult (Cmult (bw c i x y) (Cconj (bw c j y x))) (RtoC (weight c x y)))),
   Ctotal M (fun b => at_cell b (fun x y => Cmult (Cmult (bw c i y x) (Cconj (bw c j y x))) (RtoC (weight c x y))))).
Proof.
  intros i j. unfold td_integral. rewrite fold_t_add. unfold t_zero, Ctotal. cbn [aa ab bb fst snd]. change (c_zero R_ops) with (RtoC 0). rewrite !Cplus_0_l.
  assert (P : forall b, td_integrand R_ops c (range c) i j b =
    (at_cell b (fun x y => Cmult (Cmult (bw c i x y) (Cconj (bw c j x y))) (RtoC (weight c x y))),
     at_cell b (fun x y => Cmult (Cmult (bw c i x y) (Cconj (bw c j y x))) (RtoC (weight c x y))),
     at_cell b (fun x y => Cmult (Cmult (bw c i y x) (Cconj (bw c j y x))) (RtoC (weight c x y))))).
  { intros b. unfold td_integrand, at_cell. destruct (cell_IS R_ops (range c) b) as [x y]. unfold weight. cbn [fst snd]. destruct (inside c x y);
    unfold t_zero, aa, ab, bb, c_scale, AmpModel.c_mul, AmpModel.c_conj, AmpModel.c_zero, Cmult, Cconj, RtoC;
    cbn [LeafGen.o_add LeafGen.o_sub LeafGen.o_mul LeafGen.o_div LeafGen.o_opp LeafGen.o_zero R_ops fst snd]; repeat apply f_equal2; ring. }
  f_equal; [f_equal|]; f_equal; apply map_ext; intros b; now rewrite P.
Qed.

Lemma td_sum_value : forall k part (f g : nat -> R -> R -> C),
  (forall i j, (i < n)%nat -> (j < n)%nat -> part (i_kept k i j) = Ctotal M (fun b => at_cell b (fun x y => Cmult (Cmult (f i x y) (Cconj (g j x y))) (RtoC (weight c x y))))) ->
  td_sum R_ops c k part = Ctotal M (fun b => at_cell b (fun x y =>
    Cmult (Cmult (Ctotal n (fun i => Cmult (nth i (amps c) (RtoC 0)) (f i x y))) (Cconj (Ctotal n (fun i => Cmult (nth i (amps c) (RtoC 0)) (g i x y))))) (RtoC (weight c x y)))).
Proof.
  intros k part f g Hp. unfold td_sum. rewrite fold_total2. fold n.
  transitivity (Ctotal n (fun i => Ctotal n (fun j => Ctotal M (fun b => Cmult (c_mul (amp R_ops c i) (c_conj R_ops (amp R_ops c j)))
     (at_cell b (fun x y => Cmult (Cmult (f i x y) (Cconj (g j x y))) (RtoC (weight c x y)))))))).
  { change (AmpModel.c_zero R_ops) with (RtoC 0). unfold Ctotal at 2. rewrite Cplus_0_l. f_equal. apply map_ext_in. intros i Hi. apply in_seq in Hi. apply Ctotal_ext. intros j Hj.
    rewrite Hp by lia. change (c_mul ?a ?b) with (Cmult a b) at 1. now rewrite Ctotal_mult_l. }
  rewrite (Ctotal_ext n _ (fun i => Ctotal M (fun b => Ctotal n (fun j => Cmult (c_mul (amp R_ops c i) (c_conj R_ops (amp R_ops c j)))
     (at_cell b (fun x y => Cmult (Cmult (f i x y) (Cconj (g j x y))) (RtoC (weight c x y)))))))) by (intros; apply Ctotal_swap).
  rewrite Ctotal_swap. apply Ctotal_ext. intros b _. unfold at_cell. destruct (cell_IS R_ops (range c) b) as [x y]. cbn [fst snd].
  rewrite Ctotal_conj, <- product_of_sums, Ctotal_mult_r. apply Ctotal_ext. intros i _.
  rewrite Ctotal_mult_r. apply Ctotal_ext. intros j _. unfold amp. change (c_mul ?a ?b) with (Cmult a b). change (c_conj R_ops ?a) with (Cconj a).
  change (AmpModel.c_zero R_ops) with (RtoC 0).
  assert (E : forall u v : C, Cconj (Cmult u v) = Cmult (Cconj u) (Cconj v)).
  { intros [u1 u2] [v1 v2]. unfold Cconj, Cmult. cbn [fst snd]. f_equal; ring. }
  rewrite E. cring.
Qed.
End Sums.

Lemma Rtotal_fst : forall n f, fst (Ctotal n f) = Rtotal n (fun i => fst (f i)).
Proof. exact Ctotal_re. Qed.
Lemma Rtotal_snd : forall n f, snd (Ctotal n f) = Rtotal n (fun i => snd (f i)).
Proof. induction n as [|n IH]; intro f; [reflexivity|]. rewrite Ctotal_S, Rtotal_S, <- IH. reflexivity. Qed.
Lemma Cmult_real : forall (z : C) r, Cmult z (RtoC r) = (fst z * r, snd z * r).
Proof. intros [a b] r. unfold Cmult, RtoC. cbn [fst snd]. f_equal; ring. Qed.
Lemma mult_conj : forall z : C, Cmult z (Cconj z) = (norm2 z, 0).
Proof. intros [a b]. unfold Cmult, Cconj, norm2. cbn [fst snd]. f_equal; ring. Qed.

(** The sum over the bins in the model's order, over the cells, of a function of the centre. *)
Definition bins (g : grid (T := R)) (f : R -> R -> R) : R :=
  Rtotal (n12 g * n13 g) (fun b => f (fst (cell_IS R_ops g b)) (snd (cell_IS R_ops g b))).
Lemma bins_over_cells : forall g f, bins g f * (1 * size12 R_ops g * size13 R_ops g) = over_cells g f.
Proof.
  intros g f. unfold bins, over_cells, cell_IS. cbn [fst snd]. destruct (Nat.eq_dec (n12 g) 0) as [Z|N].
  - rewrite Z. cbn [Nat.mul]. unfold Rtotal at 1. cbn [seq map fold_right]. rewrite Rmult_0_l. symmetry.
    rewrite (Rtotal_ext _ _ (fun _ => 0)); [apply Rtotal_zero|]. intros l _. reflexivity.
  - rewrite (Rtotal_ext _ _ (fun b => (fun k l => f (mid (lo12 g) (up12 g) (n12 g) k) (mid (lo13 g) (up13 g) (n13 g) l)) (b mod n12 g)%nat (b / n12 g)%nat)).
    + rewrite (grid_sum (n12 g) (n13 g) (fun k l => f (mid (lo12 g) (up12 g) (n12 g) k) (mid (lo13 g) (up13 g) (n13 g) l)) N). rewrite Rtotal_mult_r. apply Rtotal_ext. intros l _. rewrite Rtotal_mult_r. apply Rtotal_ext. intros k _.
      destruct (size_R g) as [-> ->]. ring.
    + intros b Hb. assert (n13 g <> 0)%nat by (intro Z; rewrite Z, Nat.mul_0_r in Hb; lia). now rewrite !centre_mid.
Qed.

Definition point_rate (c : call (T := R)) (flip : bool) (tau xm ym time x y : R) : R :=
  let A := dec_A c x y in let B := dec_B c x y in
  rate (norm2 A + norm2 B) (if flip then norm2 B - norm2 A else norm2 A - norm2 B) (fst (cmult A (cconj B)))
       (if flip then - snd (cmult A (cconj B)) else snd (cmult A (cconj B))) tau xm ym time * weight c x y.
Lemma point_rate_density : forall c flip tau xm ym m12 m13 time, point_rate c flip tau xm ym time m12 m13 = signal c flip tau xm ym m12 m13 time.
Proof.
  intros c flip tau xm ym m12 m13 time. unfold point_rate, signal, weight. destruct (inside c m12 m13); [|ring]. rewrite amplitude_rate. unfold rate.
  replace (ym * time / tau) with (ym * (time / tau)) by (unfold Rdiv; ring). replace (xm * time / tau) with (xm * (time / tau)) by (unfold Rdiv; ring).
  destruct flip; [|reflexivity]. set (A := dec_A c m12 m13). set (B := dec_B c m12 m13). unfold cmult, cconj. cbn [fst snd]. ring.
Qed.
Lemma rate_total : forall n p q r s w tau x y t,
  Rtotal n (fun b => rate (p b + q b) (p b - q b) (r b) (s b) tau x y t * w b) =
  rate (Rtotal n (fun b => p b * w b) + Rtotal n (fun b => q b * w b)) (Rtotal n (fun b => p b * w b) - Rtotal n (fun b => q b * w b))
       (Rtotal n (fun b => r b * w b)) (Rtotal n (fun b => s b * w b)) tau x y t.
Proof.
  intros n p q r s w tau x y t. induction n as [|n IH]; [unfold Rtotal, rate; cbn [seq map fold_right]; ring|].
  rewrite !Rtotal_S, IH. unfold rate. ring.
Qed.

(** ** What is kept *)
Definition td_fresh (c : call (T := R)) (k : td_kept (T := R)) : Prop :=
  (forall i, (i < nres c)%nat -> w_kept k i = map (td_wave R_ops c i) (events c)) /\
  (forall i j, (i < nres c)%nat -> (j < nres c)%nat -> i_kept k i j = td_integral R_ops c (range c) i j) /\ g_kept k = Some (range c).

Lemma bins_swap : forall g f, lo12 g = lo13 g -> up12 g = up13 g -> n12 g = n13 g -> bins g f = bins g (fun x y => f y x).
Proof.
  intros g f El Eu En. unfold bins, cell_IS. cbn [fst snd]. rewrite <- El, <- Eu, <- En. destruct (Nat.eq_dec (n12 g) 0) as [Z|N]; [now rewrite Z|].
  rewrite (grid_sum (n12 g) (n12 g) (fun k l => f (centre R_ops (lo12 g) (up12 g) (n12 g) k) (centre R_ops (lo12 g) (up12 g) (n12 g) l)) N).
  rewrite (grid_sum (n12 g) (n12 g) (fun k l => f (centre R_ops (lo12 g) (up12 g) (n12 g) l) (centre R_ops (lo12 g) (up12 g) (n12 g) k)) N).
  apply Rtotal_swap.
Qed.
Lemma conj_integral : forall c i j, symmetric c -> t_conj R_ops (td_integral R_ops c (range c) i j) = td_integral R_ops c (range c) j i.
Proof.
  intros c i j (Se & Si & El & Eu & En). rewrite !td_integral_value. unfold t_conj, aa, ab, bb. cbn [fst snd]. change (c_conj R_ops ?a) with (Cconj a).
  assert (W : forall x y, weight c x y = weight c y x) by (intros; unfold weight; now rewrite Se, Si).
  assert (D : forall u v : C, forall w, Cconj (Cmult (Cmult u (Cconj v)) (RtoC w)) = Cmult (Cmult v (Cconj u)) (RtoC w)).
  { intros [u1 u2] [v1 v2] w. unfold Cconj, Cmult, RtoC. cbn [fst snd]. f_equal; ring. }
  f_equal; [f_equal|]; rewrite Ctotal_conj.
  - apply Ctotal_ext. intros b _. apply D.
  - apply injective_projections; rewrite ?Rtotal_fst, ?Rtotal_snd.
    + refine (eq_trans _ (eq_sym (bins_swap (range c) (fun x y => fst (Cmult (Cmult (bw c j x y) (Cconj (bw c i y x))) (RtoC (weight c x y)))) El Eu En))).
      unfold bins. apply Rtotal_ext. intros b _. rewrite D, W. reflexivity.
    + refine (eq_trans _ (eq_sym (bins_swap (range c) (fun x y => snd (Cmult (Cmult (bw c j x y) (Cconj (bw c i y x))) (RtoC (weight c x y)))) El Eu En))).
      unfold bins. apply Rtotal_ext. intros b _. rewrite D, W. reflexivity.
  - apply Ctotal_ext. intros b _. apply D.
Qed.
Lemma f_loop : forall c, symmetric c -> forall l m a b,
  m a b = td_integral R_ops c (range c) a b \/ (In (a, b) l /\ (redo c a || redo c b) = true) ->
  fold_left (f_step R_ops c (range c)) l m a b = td_integral R_ops c (range c) a b.
Proof.
  intros c S. induction l as [|[i j] l IH]; intros m a b H; cbn [fold_left]; [destruct H as [H|[[] _]]; exact H|].
  apply IH. unfold f_step.
  destruct (negb (redo c i) && negb (redo c j)) eqn:E.
  - destruct H as [H|[[H|H] R']]; [now left| |now right]. injection H as -> ->. destruct (redo c a), (redo c b); discriminate.
  - assert (Q : forall m x y, m a b = td_integral R_ops c (range c) a b -> put m x y (td_integral R_ops c (range c) x y) a b = td_integral R_ops c (range c) a b).
    { intros m' x y Hm. unfold put. destruct (Nat.eqb_spec a x), (Nat.eqb_spec b y); subst; cbn; auto. }
    assert (Q' : forall m, put m a b (td_integral R_ops c (range c) a b) a b = td_integral R_ops c (range c) a b).
    { intros m'. unfold put. now rewrite !Nat.eqb_refl. }
    rewrite conj_integral by exact S. destruct H as [H|[[H|H] R']]; [left|left|now right].
    + destruct (Nat.eqb i j); auto.
    + injection H as -> ->. destruct (Nat.eqb a b); auto.
Qed.
Lemma in_pairs : forall n a b, (a < n)%nat -> (b < n)%nat -> In (a, b) (pairs n).
Proof. intros n a b Ha Hb. unfold pairs. apply in_flat_map. exists a. split; [apply in_seq; lia|]. apply in_map_iff. exists b. split; [reflexivity|]. apply in_seq. lia. Qed.

(** A call finds fresh things kept, and announces what it changes; or it is the first. *)
Definition ready (now : call (T := R)) (k : td_kept (T := R)) : Prop :=
  (force now = true /\ g_kept k = None) \/ exists before, td_fresh before k /\ announced before now /\ range before = range now.
Lemma ready_range : forall c k, ready c k -> td_range c k = range c.
Proof. intros c k [[_ G]|(b & (_ & _ & G) & _ & E)]; unfold td_range; rewrite G; [reflexivity|exact E]. Qed.
Lemma ready_waves : forall c k i, ready c k -> (i < nres c)%nat ->
  (if redo c i then map (td_wave R_ops c i) (events c) else w_kept k i) = map (td_wave R_ops c i) (events c).
Proof.
  intros c k i Rd Hi. destruct (redo c i) eqn:E; [reflexivity|]. unfold redo in E. apply orb_false_iff in E. destruct E as [E1 E2].
  destruct Rd as [[F _]|(before & (FW & _) & A & _)]; [congruence|]. destruct A as [A|(AL & _ & AI & _ & AE & AB)]; [congruence|].
  rewrite FW by (unfold nres in *; congruence). rewrite AE. apply map_ext. intros [x y]. unfold td_wave. cbn [fst snd]. rewrite AI. now rewrite !(AB i E2).
Qed.
Lemma ready_integrals : forall c k i j, ready c k -> (i < nres c)%nat -> (j < nres c)%nat -> (negb (redo c i) && negb (redo c j)) = true ->
  i_kept k i j = td_integral R_ops c (range c) i j.
Proof.
  intros c k i j Rd Hi Hj E. apply andb_true_iff in E. destruct E as [E1 E2]. apply negb_true_iff in E1, E2. unfold redo in E1, E2. apply orb_false_iff in E1, E2.
  destruct E1 as [E1 E1'], E2 as [_ E2']. destruct Rd as [[F _]|(before & (_ & FI & _) & A & RG)]; [congruence|]. destruct A as [A|(AL & AF & AI & _ & _ & AB)]; [congruence|].
  rewrite FI by (unfold nres in *; congruence). unfold td_integral. rewrite RG. f_equal. apply map_ext. intros b. unfold td_integrand. destruct (cell_IS R_ops (range c) b) as [x y].
  now rewrite AI, !AF, !(AB i E1'), !(AB j E2').
Qed.
Lemma td_refresh_fresh : forall c k, ready c k -> td_fresh c (td_refresh R_ops c k).
Proof.
  intros c k Rd. unfold td_refresh. rewrite ready_range by exact Rd. split; [|split]; cbn [w_kept i_kept g_kept]; [|intros i j Hi Hj|reflexivity].
  - intros i Hi. now apply ready_waves.
  - destruct (negb (redo c i) && negb (redo c j)) eqn:E; [|reflexivity]. now apply ready_integrals.
Qed.
Lemma td_fractions_fresh : forall t k, symmetric (td_dp t) -> ready (td_dp t) k -> td_fresh (td_dp t) (fst (td_fractions R_ops t k)).
Proof.
  intros t k S Rd. unfold td_fractions. rewrite ready_range by exact Rd. cbn [fst]. split; [|split]; cbn [w_kept i_kept g_kept]; [|intros i j Hi Hj|reflexivity].
  - intros i Hi. now apply ready_waves.
  - apply f_loop; [exact S|]. destruct (negb (redo (td_dp t) i) && negb (redo (td_dp t) j)) eqn:E.
    + left. now apply ready_integrals.
    + right. split; [now apply in_pairs|]. destruct (redo (td_dp t) i), (redo (td_dp t) j); auto; discriminate.
Qed.

Lemma last_announced : forall cs (b c : call (T := R)), all_announced (cs ++ [b; c]) -> announced b c.
Proof. induction cs as [|a cs IH]; intros b c H; cbn in H; [tauto|]. destruct cs as [|d cs]; cbn in H; [tauto|]. apply IH. apply H. Qed.
Lemma head_announced : forall cs (c : call (T := R)), all_announced (cs ++ [c]) -> all_announced cs.
Proof.
  induction cs as [|a cs IH]; intros c H; [exact I|]. destruct cs as [|b cs]; [exact I|]. cbn in H |- *. destruct H. split; [assumption|]. now apply (IH c).
Qed.
Lemma head_honest : forall os (o : td_op (T := R)), td_honest (os ++ [o]) -> td_honest os.
Proof.
  intros os o [[H1 H2] H3]. rewrite map_app in H1, H2. split; [split|].
  - destruct os; [exact I|exact H1].
  - now apply head_announced in H2.
  - intros a b Ha Hb. apply H3; apply in_or_app; now left.
Qed.
Lemma td_calls_ready : forall res os o, td_honest (os ++ [o]) -> fractions_if_symmetric os -> ready (td_dp (td_of o)) (fst (td_calls R_ops res os)).
Proof.
  intros res.
  assert (STEP : forall os o, td_calls R_ops res (os ++ [o]) = td_step R_ops res (td_calls R_ops res os) o) by (intros; unfold td_calls; now rewrite fold_left_app).
  intro os. induction os as [|a os IH] using rev_ind; intros o H O.
  - left. split; [apply H|reflexivity].
  - right. exists (td_dp (td_of a)). split; [|split].
    + pose proof (IH a (head_honest _ _ H) (fun t Ht => O t (in_or_app _ _ _ (or_introl Ht)))) as Rd. rewrite STEP. destruct a as [t|t]; cbn [td_step].
      * unfold td_normalize. cbn [fst]. now apply td_refresh_fresh.
      * cbn [fst]. apply td_fractions_fresh; [|exact Rd]. apply O. apply in_or_app. right. now left.
    + destruct H as [[_ H] _]. rewrite !map_app, <- app_assoc in H. now apply last_announced in H.
    + destruct H as [_ H]. apply (H a o); apply in_or_app; [left; apply in_or_app|]; right; now left.
Qed.
Lemma td_calls_fresh : forall res os t, td_honest (os ++ [TdNormalize t]) -> fractions_if_symmetric os ->
  td_fresh (td_dp t) (fst (td_calls R_ops res (os ++ [TdNormalize t]))) /\
  snd (td_calls R_ops res (os ++ [TdNormalize t])) = Some (td_result R_ops res t (fst (td_calls R_ops res (os ++ [TdNormalize t])))).
Proof.
  intros res os t H O.
  assert (STEP : td_calls R_ops res (os ++ [TdNormalize t]) = td_step R_ops res (td_calls R_ops res os) (TdNormalize t)) by (unfold td_calls; now rewrite fold_left_app).
  rewrite STEP. cbn [td_step]. unfold td_normalize. cbn [fst snd]. split; [|reflexivity]. apply td_refresh_fresh. exact (td_calls_ready res os (TdNormalize t) H O).
Qed.

Lemma td_sums : forall c k, td_fresh c k ->
  fst (td_sum R_ops c k aa) = bins (range c) (fun x y => norm2 (dec_A c x y) * weight c x y) /\
  fst (td_sum R_ops c k bb) = bins (range c) (fun x y => norm2 (dec_B c x y) * weight c x y) /\
  fst (td_sum R_ops c k ab) = bins (range c) (fun x y => fst (cmult (dec_A c x y) (cconj (dec_B c x y))) * weight c x y) /\
  snd (td_sum R_ops c k ab) = bins (range c) (fun x y => snd (cmult (dec_A c x y) (cconj (dec_B c x y))) * weight c x y).
Proof.
  intros c k (_ & FI & _).
  assert (A : td_sum R_ops c k aa = _) by (refine (td_sum_value c k aa (fun i x y => bw c i x y) (fun i x y => bw c i x y) _); intros i j Hi Hj; rewrite FI, td_integral_value by assumption; reflexivity).
  assert (X : td_sum R_ops c k ab = _) by (refine (td_sum_value c k ab (fun i x y => bw c i x y) (fun i x y => bw c i y x) _); intros i j Hi Hj; rewrite FI, td_integral_value by assumption; reflexivity).
  assert (B : td_sum R_ops c k bb = _) by (refine (td_sum_value c k bb (fun i x y => bw c i y x) (fun i x y => bw c i y x) _); intros i j Hi Hj; rewrite FI, td_integral_value by assumption; reflexivity).
  rewrite A, B, X, !Rtotal_fst, Rtotal_snd. unfold bins.
  repeat split; apply Rtotal_ext; intros b _; rewrite ?mult_conj, Cmult_real; cbn [fst snd]; reflexivity.
Qed.

(** ** The normalisation as an integral *)
Definition norm_of (res : time_resolution R) (c : call (T := R)) (k : td_kept (T := R)) (flip : bool) (tau xm ym : R) : R :=
  let one := fst (td_sum R_ops c k aa) in let two := fst (td_sum R_ops c k bb) in
  let thr := fst (td_sum R_ops c k ab) in let fou := snd (td_sum R_ops c k ab) in
  if flip then r_norm res two one thr (- fou) tau xm ym else r_norm res one two thr fou tau xm ym.
Lemma td_integrated : forall res K c flip tau k xm ym, td_fresh c k -> integrates res K tau xm ym ->
  over_decay_time (fun time => K time * over_cells (range c) (fun m12 m13 => signal c flip tau xm ym m12 m13 time))
    (norm_of res c k flip tau xm ym * (1 * size12 R_ops (range c) * size13 R_ops (range c))).
Proof.
  intros res K c flip tau k xm ym F I. destruct (td_sums c k F) as (E1 & E2 & E3 & E4).
  assert (P : over_decay_time (fun time => 1 * size12 R_ops (range c) * size13 R_ops (range c) * (K time *
     rate (fst (td_sum R_ops c k aa) + fst (td_sum R_ops c k bb)) (if flip then fst (td_sum R_ops c k bb) - fst (td_sum R_ops c k aa) else fst (td_sum R_ops c k aa) - fst (td_sum R_ops c k bb))
          (fst (td_sum R_ops c k ab)) (if flip then - snd (td_sum R_ops c k ab) else snd (td_sum R_ops c k ab)) tau xm ym time))
     (1 * size12 R_ops (range c) * size13 R_ops (range c) * norm_of res c k flip tau xm ym)).
  { unfold norm_of. destruct flip.
    - refine (gen_ext _ _ _ _ _ _ _ eq_refl (gen_scal _ _ _ (1 * size12 R_ops (range c) * size13 R_ops (range c)) _ (I _ _ _ _))).
      intros time. now rewrite (Rplus_comm (fst (td_sum R_ops c k bb))).
    - exact (gen_scal _ _ _ (1 * size12 R_ops (range c) * size13 R_ops (range c)) _ (I _ _ _ _)). }
  refine (gen_ext _ _ _ _ _ _ _ _ P); [|apply Rmult_comm]. rewrite E1, E2, E3, E4. clear P.
  intros time. rewrite <- bins_over_cells. unfold bins.
  rewrite (Rtotal_ext _ (fun b => signal c flip tau xm ym _ _ time) (fun b => point_rate c flip tau xm ym time (fst (cell_IS R_ops (range c) b)) (snd (cell_IS R_ops (range c) b))))
    by (intros b _; symmetry; apply point_rate_density).
  unfold point_rate. destruct flip.
  - rewrite (Rtotal_ext _ (fun i => rate _ _ _ _ _ _ _ _ * _)
      (fun b => rate (norm2 (dec_B c (fst (cell_IS R_ops (range c) b)) (snd (cell_IS R_ops (range c) b))) + norm2 (dec_A c (fst (cell_IS R_ops (range c) b)) (snd (cell_IS R_ops (range c) b))))
          (norm2 (dec_B c (fst (cell_IS R_ops (range c) b)) (snd (cell_IS R_ops (range c) b))) - norm2 (dec_A c (fst (cell_IS R_ops (range c) b)) (snd (cell_IS R_ops (range c) b))))
          (fst (cmult (dec_A c (fst (cell_IS R_ops (range c) b)) (snd (cell_IS R_ops (range c) b))) (cconj (dec_B c (fst (cell_IS R_ops (range c) b)) (snd (cell_IS R_ops (range c) b))))))
          (- snd (cmult (dec_A c (fst (cell_IS R_ops (range c) b)) (snd (cell_IS R_ops (range c) b))) (cconj (dec_B c (fst (cell_IS R_ops (range c) b)) (snd (cell_IS R_ops (range c) b))))))
          tau xm ym time * weight c (fst (cell_IS R_ops (range c) b)) (snd (cell_IS R_ops (range c) b)))) by (intros b _; now rewrite Rplus_comm).
    rewrite (rate_total _ (fun b => norm2 (dec_B c _ _)) (fun b => norm2 (dec_A c _ _)) (fun b => fst (cmult (dec_A c _ _) (cconj (dec_B c _ _)))) (fun b => - snd (cmult (dec_A c _ _) (cconj (dec_B c _ _)))) (fun b => weight c _ _)).
    rewrite (Rtotal_ext _ (fun b => - _ * _) (fun b => snd (cmult (dec_A c (fst (cell_IS R_ops (range c) b)) (snd (cell_IS R_ops (range c) b))) (cconj (dec_B c (fst (cell_IS R_ops (range c) b)) (snd (cell_IS R_ops (range c) b))))) * weight c (fst (cell_IS R_ops (range c) b)) (snd (cell_IS R_ops (range c) b)) * - (1))) by (intros; ring).
    rewrite <- Rtotal_mult_r. rewrite (Rplus_comm (Rtotal _ (fun b => norm2 (dec_B c _ _) * _))).
    unfold rate. ring.
  - rewrite (rate_total _ (fun b => norm2 (dec_A c _ _)) (fun b => norm2 (dec_B c _ _)) (fun b => fst (cmult (dec_A c _ _) (cconj (dec_B c _ _)))) (fun b => snd (cmult (dec_A c _ _) (cconj (dec_B c _ _)))) (fun b => weight c _ _)).
    ring.
Qed.
Lemma over_cells_plus : forall g a b f h, over_cells g (fun x y => a * f x y + b * h x y) = a * over_cells g f + b * over_cells g h.
Proof.
  intros g a b f h. rewrite <- !bins_over_cells. unfold bins. set (s := 1 * size12 R_ops g * size13 R_ops g).
  transitivity ((a * Rtotal (n12 g * n13 g) (fun b0 => f (fst (cell_IS R_ops g b0)) (snd (cell_IS R_ops g b0))) + b * Rtotal (n12 g * n13 g) (fun b0 => h (fst (cell_IS R_ops g b0)) (snd (cell_IS R_ops g b0)))) * s); [|ring].
  f_equal. rewrite (Rmult_comm a), (Rmult_comm b), !Rtotal_mult_r, <- Rtotal_plus. apply Rtotal_ext. intros; ring.
Qed.
Lemma over_cells_ext : forall g f h, (forall x y, f x y = h x y) -> over_cells g f = over_cells g h.
Proof. intros g f h E. unfold over_cells. apply Rtotal_ext. intros l _. apply Rtotal_ext. intros k _. now rewrite E. Qed.
Lemma result_value : forall res t k, let c := td_dp t in let w := if td_in_limits t then td_mistag t else 0 in
  td_result R_ops res t k =
  ((1 - 2 * w) * (td_d0 t * norm_of res c k false (td_tau t) (x_of t 1) (y_of t 1) + (1 - td_d0 t) * norm_of res c k false (td_tau t) (x_of t (-1)) (y_of t (-1)))
   + w * (norm_of res c k false (taufix R_ops) (xfix R_ops) (yfix R_ops) + norm_of res c k true (taufix R_ops) (xfix R_ops) (yfix R_ops)))
  * (1 * size12 R_ops (range c) * size13 R_ops (range c)).
Proof.
  intros res t k c w. unfold td_result, norm_of, w, c. cbn [LeafGen.o_add LeafGen.o_sub LeafGen.o_mul LeafGen.o_div LeafGen.o_opp LeafGen.o_one LeafGen.o_ofZ R_ops].
  unfold x_of, y_of. replace (td_x t + 1 * td_dx t) with (td_x t + td_dx t) by ring. replace (td_y t + 1 * td_dy t) with (td_y t + td_dy t) by ring.
  replace (td_x t + -1 * td_dx t) with (td_x t - td_dx t) by ring. replace (td_y t + -1 * td_dy t) with (td_y t - td_dy t) by ring.
  destruct (td_in_limits t); ring.
Qed.
(** The value with any mistag, for the undisturbed decay time. *)
Definition with_mistag (t : td_call (T := R)) (w : R) (tag : Z) (m12 m13 time : R) : R :=
  (1 - 2 * w) * td_density t (x_of t tag) (y_of t tag) m12 m13 time
  + w * (signal (td_dp t) false (taufix R_ops) (xfix R_ops) (yfix R_ops) m12 m13 time + signal (td_dp t) true (taufix R_ops) (xfix R_ops) (yfix R_ops) m12 m13 time).
Lemma td_total : forall res K t k, td_fresh (td_dp t) k -> let w := if td_in_limits t then td_mistag t else 0 in
  integrates res K (td_tau t) (x_of t 1) (y_of t 1) -> integrates res K (td_tau t) (x_of t (-1)) (y_of t (-1)) ->
  w = 0 \/ integrates res K (taufix R_ops) (xfix R_ops) (yfix R_ops) ->
  over_decay_time (fun time => K time * over_cells (range (td_dp t)) (fun m12 m13 =>
    td_d0 t * with_mistag t w 1 m12 m13 time + (1 - td_d0 t) * with_mistag t w (-1) m12 m13 time)) (td_result R_ops res t k).
Proof.
  intros res K t k F w I1 I2 I3. rewrite result_value. fold w. set (c := td_dp t) in *.
  pose proof (td_integrated res K c false (td_tau t) k _ _ F I1) as P1. pose proof (td_integrated res K c false (td_tau t) k _ _ F I2) as P2.
  assert (E : forall time, over_cells (range c) (fun m12 m13 => td_d0 t * with_mistag t w 1 m12 m13 time + (1 - td_d0 t) * with_mistag t w (-1) m12 m13 time) =
    (1 - 2 * w) * (td_d0 t * over_cells (range c) (fun m12 m13 => signal c false (td_tau t) (x_of t 1) (y_of t 1) m12 m13 time)
                   + (1 - td_d0 t) * over_cells (range c) (fun m12 m13 => signal c false (td_tau t) (x_of t (-1)) (y_of t (-1)) m12 m13 time))
    + w * (1 * over_cells (range c) (fun m12 m13 => signal c false (taufix R_ops) (xfix R_ops) (yfix R_ops) m12 m13 time)
           + 1 * over_cells (range c) (fun m12 m13 => signal c true (taufix R_ops) (xfix R_ops) (yfix R_ops) m12 m13 time))).
  { intros time. rewrite <- !over_cells_plus. apply over_cells_ext. intros x y. unfold with_mistag, td_density. fold c. ring. }
  set (s := 1 * size12 R_ops (range c) * size13 R_ops (range c)) in *.
  destruct I3 as [W|I3].
  - refine (gen_ext _ _ _ _ _ _ _ _ (gen_plus _ _ _ _ _ _ (gen_scal _ _ _ (td_d0 t) _ P1) (gen_scal _ _ _ (1 - td_d0 t) _ P2))).
    + intros time. rewrite E, W. ring.
    + rewrite W. ring.
  - pose proof (td_integrated res K c false (taufix R_ops) k _ _ F I3) as P3. pose proof (td_integrated res K c true (taufix R_ops) k _ _ F I3) as P4. fold s in P3, P4.
    refine (gen_ext _ _ _ _ _ _ _ _ (gen_plus _ _ _ _ _ _ (gen_scal _ _ _ (1 - 2 * w) _ (gen_plus _ _ _ _ _ _ (gen_scal _ _ _ (td_d0 t) _ P1) (gen_scal _ _ _ (1 - td_d0 t) _ P2)))
      (gen_scal _ _ _ w _ (gen_plus _ _ _ _ _ _ P3 P4)))).
    + intros time. rewrite E. ring.
    + ring.
Qed.

(** ** The value *)
Lemma wave_sum : forall c k n x y (part : C * C -> C), td_fresh c k -> nth_error (events c) n = Some (x, y) -> inside c x y = true ->
  forall f, (forall i, part (bw c i x y, bw c i y x) = f i) ->
  fold_left (fun s i => c_add s (c_mul (part (nth n (w_kept k i) (c_zero R_ops, c_zero R_ops))) (amp R_ops c i))) (seq 0 (nres c)) (c_zero R_ops)
  = Ctotal (nres c) (fun i => Cmult (nth i (amps c) (RtoC 0)) (f i)).
Proof.
  intros c k n x y part (FW & _) E I f Hf. rewrite fold_total. change (c_zero R_ops) with (RtoC 0) at 1. rewrite Cplus_0_l. apply Ctotal_ext. intros i Hi.
  change (c_mul ?a ?b) with (Cmult a b). rewrite Cmult_comm. unfold amp. f_equal. rewrite <- Hf. f_equal. rewrite FW by exact Hi.
  apply nth_error_nth. rewrite nth_error_map, E. cbn [option_map]. unfold td_wave. cbn [fst snd]. now rewrite I.
Qed.
Section Value.
Variables (res : time_resolution R) (t : td_call (T := R)) (k : td_kept (T := R)) (n : nat) (e : td_event (T := R)).
Hypothesis F : td_fresh (td_dp t) k.
Hypothesis E : nth_error (events (td_dp t)) n = Some (e_m12 e, e_m13 e).
Hypothesis G : e_tag e = 1%Z \/ e_tag e = 0%Z \/ e_tag e = (-1)%Z.
Let A := dec_A (td_dp t) (e_m12 e) (e_m13 e).
Let B := dec_B (td_dp t) (e_m12 e) (e_m13 e).
Let w := if Rlt_dec 0 (e_mistag e) then e_mistag e else 0.
Lemma td_value_rate :
  td_value R_ops res t k n e =
  if inside (td_dp t) (e_m12 e) (e_m13 e) then
    ((1 - 2 * w) * r_rate res (norm2 A + norm2 B) (norm2 A - norm2 B) (fst (cmult A (cconj B))) (snd (cmult A (cconj B))) (td_tau t) (e_time e) (x_of t (e_tag e)) (y_of t (e_tag e)) (e_sigma e)
     + w * (r_rate res (norm2 A + norm2 B) (norm2 A - norm2 B) (fst (cmult A (cconj B))) (snd (cmult A (cconj B))) (taufix R_ops) (e_time e) (xfix R_ops) (yfix R_ops) (e_sigma e)
            + r_rate res (norm2 A + norm2 B) (- (norm2 A - norm2 B)) (fst (cmult A (cconj B))) (- snd (cmult A (cconj B))) (taufix R_ops) (e_time e) (xfix R_ops) (yfix R_ops) (e_sigma e)))
    * eff (td_dp t) (e_m12 e) (e_m13 e)
  else 0.
Proof using F E G.
  unfold td_value. cbv beta zeta. destruct (inside (td_dp t) (e_m12 e) (e_m13 e)) eqn:I; [|reflexivity].
  pose proof (wave_sum _ k n _ _ fst F E I (fun i => bw (td_dp t) i (e_m12 e) (e_m13 e)) (fun i => eq_refl)) as PA.
  pose proof (wave_sum _ k n _ _ snd F E I (fun i => bw (td_dp t) i (e_m13 e) (e_m12 e)) (fun i => eq_refl)) as PB.
  repeat match goal with |- context [fold_left ?f ?l ?s] => first [replace (fold_left f l s) with A by (symmetry; exact PA) | replace (fold_left f l s) with B by (symmetry; exact PB)] end.
  clear PA PB.
  assert (NA : c_norm R_ops A = norm2 A) by (unfold c_norm, norm2; cbn [LeafGen.o_add LeafGen.o_mul R_ops]; ring).
  assert (NB : c_norm R_ops B = norm2 B) by (unfold c_norm, norm2; cbn [LeafGen.o_add LeafGen.o_mul R_ops]; ring).
  rewrite NA, NB. change (c_mul A (c_conj R_ops B)) with (cmult A (cconj B)).
  replace (if (e_tag e =? 1)%Z then LeafGen.o_add R_ops (td_x t) (td_dx t) else if (e_tag e =? -1)%Z then LeafGen.o_sub R_ops (td_x t) (td_dx t) else td_x t) with (x_of t (e_tag e))
    by (unfold x_of; destruct G as [-> |[-> | -> ]]; cbn; ring).
  replace (if (e_tag e =? 1)%Z then LeafGen.o_add R_ops (td_y t) (td_dy t) else if (e_tag e =? -1)%Z then LeafGen.o_sub R_ops (td_y t) (td_dy t) else td_y t) with (y_of t (e_tag e))
    by (unfold y_of; destruct G as [-> |[-> | -> ]]; cbn; ring).
  cbn [LeafGen.o_add LeafGen.o_sub LeafGen.o_mul LeafGen.o_opp LeafGen.o_one LeafGen.o_ofZ LeafGen.o_lt LeafGen.o_zero R_ops]. unfold Rltb, w.
  destruct (Rlt_dec 0 (e_mistag e)); ring.
Qed.
End Value.
Lemma td_value_truth : forall W t k n e, td_fresh (td_dp t) k -> nth_error (events (td_dp t)) n = Some (e_m12 e, e_m13 e) ->
  e_tag e = 1%Z \/ e_tag e = 0%Z \/ e_tag e = (-1)%Z ->
  td_value R_ops (truth W) t k n e = with_mistag t (if Rlt_dec 0 (e_mistag e) then e_mistag e else 0) (e_tag e) (e_m12 e) (e_m13 e) (e_time e).
Proof.
  intros W t k n e F E G. rewrite (td_value_rate (truth W) t k n e F E G). unfold with_mistag, td_density. rewrite <- !point_rate_density. unfold point_rate, weight.
  destruct (inside (td_dp t) (e_m12 e) (e_m13 e)); [|ring]. unfold truth. cbn [r_rate]. rewrite !truth_is_rate.
  replace (- (norm2 (dec_A (td_dp t) (e_m12 e) (e_m13 e)) - norm2 (dec_B (td_dp t) (e_m12 e) (e_m13 e))))
    with (norm2 (dec_B (td_dp t) (e_m12 e) (e_m13 e)) - norm2 (dec_A (td_dp t) (e_m12 e) (e_m13 e))) by ring.
  ring.
Qed.
Lemma given_truth : forall W t w tag m12 m13 time, 0 <= w -> tag = 1%Z \/ tag = 0%Z \/ tag = (-1)%Z -> given (truth W) t w tag m12 m13 time = with_mistag t w tag m12 m13 time.
Proof.
  intros W t w tag m12 m13 time Hw G. unfold given. set (t' := with_event t m12 m13). set (e := mkEvent m12 m13 time 0 w tag).
  assert (F : td_fresh (td_dp t') (fst (td_calls R_ops (truth W) [TdNormalize t']))).
  { apply (td_calls_fresh (truth W) [] t'); [|intros ? []]. split; [split; [reflexivity|exact I]|]. intros a b [<-|[]] [<-|[]]. reflexivity. }
  rewrite (td_value_truth W t' _ 0 e F eq_refl G). cbn [e_mistag e_tag e_m12 e_m13 e_time e].
  replace (if Rlt_dec 0 w then w else 0) with w by (destruct (Rlt_dec 0 w); lra). reflexivity.
Qed.
Lemma truth_integrates : forall W tau x y, 0 < tau -> -1 < y < 1 -> integrates (truth W) (fun _ => 1) tau x y.
Proof.
  intros W tau x y Ht Hy A2 B2 ABr ABi. cbn [truth r_norm]. refine (gen_ext _ _ _ _ _ _ _ _ (rate_integral (A2 + B2) (A2 - B2) ABr ABi tau x y Ht Hy)).
  - intros t. ring.
  - rewrite truth_norm_value. pose proof (pow2_ge_0 x). field. split; nra.
Qed.
Lemma fix_values : taufix R_ops = 4101 / 10000 /\ xfix R_ops = 39 / 10000 /\ yfix R_ops = 65 / 10000.
Proof. repeat split. Qed.
