(** The pieces of the acceptance put together: the rate of ThreeGaussResolutionSplice. *)
From Coq Require Import List ZArith Reals Lra Lia Arith Bool.
From Coquelicot Require Import Coquelicot.
From Verif Require Import FormulaSpec ResolModel ResolSpec ResolMoment ResolProofs ResolProofs2 ResolProofs3 ResolProofs4 SpliceModel SpliceSpec SpliceProofs.
From Verif Require LeafGen.
Import ListNotations.
Open Scope R_scope.

(** ** One piece *)
(** What the code computes in place of [rate_quintic]: f is 1 there. *)
Definition rate_code (f c1 c2 c3 c4 tau x y t : R) : R :=
  let z := x * t / tau in
  exp (- (t / tau)) * (c1 * cosh (y * t / tau) + c2 * (1 - z ^ 2 / 2 + f ^ 4 * z ^ 4 / 24) - 2 * c3 * sinh (y * t / tau)
                       - 2 * c4 * (z - f * z ^ 3 / 6 + f ^ 11 * z ^ 5 / 120)).
Lemma code_quintic c1 c2 c3 c4 tau x y t : rate_code 1 c1 c2 c3 c4 tau x y t = rate_quintic c1 c2 c3 c4 tau x y t.
Proof. unfold rate_code, rate_quintic. cbv zeta. rewrite !pow1, !Rmult_1_l. reflexivity. Qed.
Lemma code_x0 f c1 c2 c3 c4 tau y t : rate_code f c1 c2 c3 c4 tau 0 y t = rate c1 c2 c3 c4 tau 0 y t.
Proof. unfold rate_code, rate. cbv zeta. replace (0 * t / tau) with 0 by (unfold Rdiv; ring). rewrite cos_0, sin_0. f_equal. field. Qed.
Section Sums.
Variables (D : R -> nat -> R) (f c1 c2 c3 c4 tau x y : R).
Let Ga := 1 / tau.
Let w := x * Ga.
Definition pterm (j : nat) : R :=
  ((c1 / 2 - c3) * D (Ga * (1 - y)) j + (c1 / 2 + c3) * D (Ga * (1 + y)) j) +
  ((c2 * D Ga j + (- (c2 * w ^ 2 / 2) * D Ga (j + 2)%nat + c2 * (f ^ 4 * w ^ 4) / 24 * D Ga (j + 4)%nat)) +
   (-2 * c4 * w * D Ga (j + 1)%nat + (c4 * f * w ^ 3 / 3 * D Ga (j + 3)%nat + - (c4 * f ^ 11 * w ^ 5 / 60) * D Ga (j + 5)%nat))).
Definition psum (a : cubic) : R := (c_0 a * pterm 0 + c_1 a * pterm 1) + (c_2 a * pterm 2 + c_3 a * pterm 3).
Lemma code_split j t : tau <> 0 -> t ^ j * rate_code f c1 c2 c3 c4 tau x y t =
  ((c1 / 2 - c3) * (t ^ j * exp (- (Ga * (1 - y)) * t)) + (c1 / 2 + c3) * (t ^ j * exp (- (Ga * (1 + y)) * t))) +
  ((c2 * (t ^ j * exp (- Ga * t)) + (- (c2 * w ^ 2 / 2) * (t ^ (j + 2) * exp (- Ga * t)) + c2 * (f ^ 4 * w ^ 4) / 24 * (t ^ (j + 4) * exp (- Ga * t)))) +
   (-2 * c4 * w * (t ^ (j + 1) * exp (- Ga * t)) + (c4 * f * w ^ 3 / 3 * (t ^ (j + 3) * exp (- Ga * t)) + - (c4 * f ^ 11 * w ^ 5 / 60) * (t ^ (j + 5) * exp (- Ga * t))))).
Proof.
  intros Ht. rewrite !pow_add. generalize (t ^ j). intros tj. unfold rate_code, cosh, sinh. cbv zeta.
  replace (exp (- (Ga * (1 - y)) * t)) with (exp (- (t / tau)) * exp (y * t / tau)) by (rewrite <- !exp_plus; f_equal; unfold Ga; field; exact Ht).
  replace (exp (- (Ga * (1 + y)) * t)) with (exp (- (t / tau)) * exp (- (y * t / tau))) by (rewrite <- !exp_plus; f_equal; unfold Ga; field; exact Ht).
  replace (exp (- Ga * t)) with (exp (- (t / tau))) by (f_equal; unfold Ga; field; exact Ht).
  generalize (exp (- (t / tau))) (exp (y * t / tau)) (exp (- (y * t / tau))). intros e2 e3 e4.
  unfold w, Ga. field. exact Ht.
Qed.
Variables (h : R -> R) (lo hi : R).
Hypothesis HD : forall k n, k = Ga * (1 - y) \/ k = Ga * (1 + y) \/ k = Ga -> is_RInt (fun t => t ^ n * (exp (- k * t) * h t)) lo hi (D k n).
Lemma pterm_int j : tau <> 0 -> is_RInt (fun t => t ^ j * (rate_code f c1 c2 c3 c4 tau x y t * h t)) lo hi (pterm j).
Proof.
  intros Ht.
  assert (M : forall c k n, k = Ga * (1 - y) \/ k = Ga * (1 + y) \/ k = Ga -> is_RInt (fun t => c * (t ^ n * (exp (- k * t) * h t))) lo hi (c * D k n)).
  { intros c k n K. apply (is_RInt_scal (V := R_NormedModule)). now apply HD. }
  assert (P : forall u v U V, is_RInt u lo hi U -> is_RInt v lo hi V -> is_RInt (fun t => u t + v t) lo hi (U + V)).
  { intros u v U V A B. exact (is_RInt_plus (V := R_NormedModule) u v lo hi U V A B). }
  unfold pterm.
  eapply is_RInt_ext; [|apply P; [apply P; apply M; auto|apply P; [apply P; [apply M; auto|apply P; apply M; auto]|apply P; [apply M; auto|apply P; apply M; auto]]]].
  intros t _. cbv beta. replace (t ^ j * (rate_code f c1 c2 c3 c4 tau x y t * h t)) with (t ^ j * rate_code f c1 c2 c3 c4 tau x y t * h t) by ring.
  rewrite (code_split j t Ht). eqR. ring.
Qed.
Lemma psum_int a : tau <> 0 -> is_RInt (fun t => value a t * (rate_code f c1 c2 c3 c4 tau x y t * h t)) lo hi (psum a).
Proof.
  intros Ht.
  assert (M : forall c n, is_RInt (fun t => c * (t ^ n * (rate_code f c1 c2 c3 c4 tau x y t * h t))) lo hi (c * pterm n)).
  { intros c n. apply (is_RInt_scal (V := R_NormedModule)). now apply pterm_int. }
  assert (P : forall u v U V, is_RInt u lo hi U -> is_RInt v lo hi V -> is_RInt (fun t => u t + v t) lo hi (U + V)).
  { intros u v U V A B. exact (is_RInt_plus (V := R_NormedModule) u v lo hi U V A B). }
  unfold psum. eapply is_RInt_ext; [|apply P; apply P; apply M]. intros t _. cbv beta. unfold value. eqR. ring.
Qed.
End Sums.
Lemma psum_ext D D' f c1 c2 c3 c4 tau x y a : (forall k n, D k n = D' k n) -> psum D f c1 c2 c3 c4 tau x y a = psum D' f c1 c2 c3 c4 tau x y a.
Proof. intros E. unfold psum, pterm. now rewrite !E. Qed.

Definition quad_sum (q r : quad) : quad := mkQuad (p1 q + p1 r) (p2 q + p2 r) (p3 q + p3 r) (p4 q + p4 r).
Definition piece_of (c : cubic) : @piece R := mkPiece (c_0 c) (c_1 c) (c_2 c) (c_3 c).
Section Device.
Variable W : R -> R -> R.
Definition DH (s T lo hi k : R) (n : nat) : R := H k s n lo T - H k s n hi T.
Definition knot_quad (tau x y s T lo hi : R) (c : cubic) : quad :=
  let e13 := evaluate_knot R_ops (R_lib W) R_extra (1 / tau) lo hi (piece_of c) T s y in
  let e24 := evaluate_knot_sincos R_ops (R_lib W) R_extra (1 / tau) lo hi (piece_of c) T s x in
  mkQuad (fst e13) (fst e24) (snd e13) (snd e24).
Lemma u0_form k s T : 0 < s -> (2 * k - 2 * T * (1 / s * (1 / s))) / (2 * (1 / s)) = k * s - T / s.
Proof. intros. field. lra. Qed.
Lemma knot13 tau y s T lo hi c : 0 < s ->
  let e := evaluate_knot R_ops (R_lib W) R_extra (1 / tau) lo hi (piece_of c) T s y in
  let S k := c_0 c * DH s T lo hi k 0 + c_1 c * DH s T lo hi k 1 + c_2 c * DH s T lo hi k 2 + c_3 c * DH s T lo hi k 3 in
  fst e = / 2 * (S (1 / tau * (1 - y)) + S (1 / tau * (1 + y))) /\ snd e = / 2 * (S (1 / tau * (1 - y)) - S (1 / tau * (1 + y))).
Proof.
  intros Hs. cbv zeta. unfold evaluate_knot. cbv zeta. cbn [fst snd piece_of a0 a1 a2 a3]. rops.
  rewrite !(Rmult_assoc 2 (1 / tau)), !u0_form by exact Hs. unfold DH.
  set (kp := 1 / tau * (1 - y)). set (km := 1 / tau * (1 + y)).
  rewrite <- !(acceptance_value W kp s T lo hi Hs), <- !(acceptance_value W km s T lo hi Hs).
  set (ep := exp (- / 2 * (T * T * (1 / s * (1 / s)) - (kp * s - T / s) * (kp * s - T / s)))).
  set (em := exp (- / 2 * (T * T * (1 / s * (1 / s)) - (km * s - T / s) * (km * s - T / s)))).
  set (ap := fun i => evaluate_acceptance R_ops (R_lib W) i (1 / s) (fun i => evaluate_convo R_ops (R_lib W) R_extra i (1 / s * lo + (kp * s - T / s)) (1 / s * hi + (kp * s - T / s))) (pow_u0 R_ops (kp * s - T / s))).
  set (am := fun i => evaluate_acceptance R_ops (R_lib W) i (1 / s) (fun i => evaluate_convo R_ops (R_lib W) R_extra i (1 / s * lo + (km * s - T / s)) (1 / s * hi + (km * s - T / s))) (pow_u0 R_ops (km * s - T / s))).
  repeat match goal with |- context [evaluate_acceptance R_ops (R_lib W) ?n (1 / s) ?f (pow_u0 R_ops (kp * s - T / s))] => change (evaluate_acceptance R_ops (R_lib W) n (1 / s) f (pow_u0 R_ops (kp * s - T / s))) with (ap n) end.
  repeat match goal with |- context [evaluate_acceptance R_ops (R_lib W) ?n (1 / s) ?f (pow_u0 R_ops (km * s - T / s))] => change (evaluate_acceptance R_ops (R_lib W) n (1 / s) f (pow_u0 R_ops (km * s - T / s))) with (am n) end.
  clearbody ep em ap am. split; field; lra.
Qed.
Lemma knot24 tau x s T lo hi c : 0 < s ->
  let e := evaluate_knot_sincos R_ops (R_lib W) R_extra (1 / tau) lo hi (piece_of c) T s x in
  let w := x * (1 / tau) in let f := x * (1 / tau) * s in
  let S j := c_0 c * DH s T lo hi (1 / tau) j + c_1 c * DH s T lo hi (1 / tau) (j + 1) + c_2 c * DH s T lo hi (1 / tau) (j + 2) + c_3 c * DH s T lo hi (1 / tau) (j + 3) in
  fst e = S 0%nat - w ^ 2 / 2 * S 2%nat + f ^ 4 * w ^ 4 / 24 * S 4%nat /\ snd e = w * S 1%nat - f * w ^ 3 / 6 * S 3%nat + f ^ 11 * w ^ 5 / 120 * S 5%nat.
Proof.
  intros Hs. cbv zeta. unfold evaluate_knot_sincos. cbv zeta. cbn [fst snd piece_of a0 a1 a2 a3]. rops.
  rewrite !u0_form by exact Hs. unfold DH. set (k := 1 / tau).
  assert (E : forall n j, H k s (n + j) lo T - H k s (n + j) hi T = s ^ n * (exp (- / 2 * (T * T * (1 / s * (1 / s)) - (k * s - T / s) * (k * s - T / s))) *
     evaluate_acceptance_gn R_ops (R_lib W) n j (1 / s) (fun i => evaluate_convo R_ops (R_lib W) R_extra i (1 / s * lo + (k * s - T / s)) (1 / s * hi + (k * s - T / s))) (pow_u0 R_ops (k * s - T / s)))).
  { intros n j. rewrite (acceptance_gn_value W k s T lo hi Hs). field. apply pow_nonzero. lra. }
  set (ep := exp (- / 2 * (T * T * (1 / s * (1 / s)) - (k * s - T / s) * (k * s - T / s)))) in *.
  set (ap := fun n j => evaluate_acceptance_gn R_ops (R_lib W) n j (1 / s) (fun i => evaluate_convo R_ops (R_lib W) R_extra i (1 / s * lo + (k * s - T / s)) (1 / s * hi + (k * s - T / s))) (pow_u0 R_ops (k * s - T / s))) in *.
  assert (E' : forall n j, H k s (n + j) lo T - H k s (n + j) hi T = s ^ n * (ep * ap n j)) by exact E. clear E.
  repeat match goal with |- context [evaluate_acceptance_gn R_ops (R_lib W) ?n ?j (1 / s) ?f (pow_u0 R_ops (k * s - T / s))] => change (evaluate_acceptance_gn R_ops (R_lib W) n j (1 / s) f (pow_u0 R_ops (k * s - T / s))) with (ap n j) end.
  assert (E0 : forall n, H k s n lo T - H k s n hi T = s ^ n * (ep * ap n 0%nat)) by (intros n; rewrite <- E'; now rewrite Nat.add_0_r).
  clearbody ep ap. rewrite !E', !E0. clearbody k. split; field; lra.
Qed.
Lemma knot_value tau x y s T lo hi c c1 c2 c3 c4 : 0 < s ->
  combine_rate R_ops (knot_quad tau x y s T lo hi c) c1 c2 c3 c4 = psum (DH s T lo hi) (x * (1 / tau) * s) c1 c2 c3 c4 tau x y c.
Proof.
  intros Hs. rewrite combine_value. unfold knot_quad. cbv zeta. cbn [p1 p2 p3 p4].
  destruct (knot13 tau y s T lo hi c Hs) as [E1 E3]. destruct (knot24 tau x s T lo hi c Hs) as [E2 E4]. cbv zeta in E1, E2, E3, E4.
  rewrite E1, E2, E3, E4. unfold psum, pterm. cbn [Nat.add]. generalize (DH s T lo hi). intros D. generalize (1 / tau). intros Ga. field.
Qed.
(** ** All pieces *)
Fixpoint psums (V : R -> R -> cubic -> R) (ks : list R) (cs : list cubic) : R :=
  match ks, cs with k :: (k' :: _) as ks', c :: cs' => V k k' c + psums V ks' cs' | _, _ => 0 end.
Definition c_d : cubic := (0, 0, 0, 0).
Lemma rs_psums V : forall cs ks, length ks = S (length cs) -> rs (fun i => V (nth i ks 0) (nth (S i) ks 0) (nth i cs c_d)) (length cs) = psums V ks cs.
Proof.
  induction cs as [|c cs IH]; intros ks Hl; (destruct ks as [|k ks]; [discriminate|]).
  - destruct ks; [reflexivity|discriminate].
  - cbn [length] in Hl. destruct ks as [|k' ks]; [discriminate|]. change (length (c :: cs)) with (S (length cs)). rewrite rs_first. cbn [nth psums]. f_equal.
    apply (IH (k' :: ks)). cbn in *. lia.
Qed.
Lemma psums_ext V V' : forall ks cs, (forall lo hi c, V lo hi c = V' lo hi c) -> psums V ks cs = psums V' ks cs.
Proof. intros ks. induction ks as [|k ks IH]; intros cs E; [reflexivity|]. destruct ks as [|k' ks]; [reflexivity|]. destruct cs as [|c cs]; [reflexivity|]. cbn [psums]. rewrite E. f_equal. now apply IH. Qed.
Lemma fold_quads (F : nat -> quad) n c1 c2 c3 c4 :
  combine_rate R_ops (fold_left (fun q i => mkQuad (p1 q + p1 (F i)) (p2 q + p2 (F i)) (p3 q + p3 (F i)) (p4 q + p4 (F i))) (seq 0 n) (mkQuad 0 0 0 0)) c1 c2 c3 c4
  = rs (fun i => combine_rate R_ops (F i) c1 c2 c3 c4) n.
Proof.
  induction n as [|n IH]; [cbn [seq fold_left rs]; rewrite combine_value; cbn; ring|].
  rewrite seq_S, fold_left_app. cbn [fold_left rs Nat.add]. rewrite <- IH, !combine_value. cbn [p1 p2 p3 p4]. ring.
Qed.
Definition arrays_of (ks : list R) (cs : list cubic) : arrays := mkArrays ks (map c_0 cs) (map c_1 cs) (map c_2 cs) (map c_3 cs).
Lemma piece_at_of ks cs i : piece_at R_ops (arrays_of ks cs) i = piece_of (nth i cs c_d).
Proof.
  unfold piece_at, arrays_of, piece_of. cbn [s0 s1 s2 s3]. rops.
  rewrite <- (map_nth c_0 cs c_d i), <- (map_nth c_1 cs c_d i), <- (map_nth c_2 cs c_d i), <- (map_nth c_3 cs c_d i). reflexivity.
Qed.
Lemma splice_value tau x y s T ks cs c1 c2 c3 c4 : 0 < s -> length ks = S (length cs) ->
  combine_rate R_ops (gaussian_splice R_ops (R_lib W) R_extra tau T x y s (length ks) (arrays_of ks cs)) c1 c2 c3 c4 =
  psums (fun lo hi c => psum (DH s T lo hi) (x * (1 / tau) * s) c1 c2 c3 c4 tau x y c) ks cs.
Proof.
  intros Hs Hl. unfold gaussian_splice. cbv zeta. rops.
  pose proof (fold_quads (fun i => knot_quad tau x y s T (nth i ks 0) (nth (S i) ks 0) (nth i cs c_d)) (length ks - 1) c1 c2 c3 c4) as Q.
  match goal with |- combine_rate _ (fold_left ?F _ _) _ _ _ _ = _ => match type of Q with combine_rate _ (fold_left ?G _ _) _ _ _ _ = _ => replace F with G end end.
  2:{ apply FunctionalExtensionality.functional_extensionality. intros q. apply FunctionalExtensionality.functional_extensionality. intros i. rewrite piece_at_of. reflexivity. }
  rewrite Q. replace (length ks - 1)%nat with (length cs) by lia. rewrite <- (rs_psums _ cs ks Hl). apply rs_ext. intros i _. now apply knot_value.
Qed.
(** ** The tail *)
Lemma high_value' tau x y sb s T a C : 0 < s -> mygaussian_high R_ops (R_lib W) R_extra tau T x y s sb a C = scale_quad (C * exp (sb * a)) (gq tau x y sb s a T).
Proof.
  intros Hs. unfold mygaussian_high, sqrt1o2pi, sqrtpio2, cossin, r1o6. cbv zeta. rops. rewrite norm_const. set (Ga := 1 / tau). set (k := Ga + sb).
  replace (Ga + - T * (1 / s * (1 / s)) - y * Ga + sb) with (Ga + - T * (1 / s * (1 / s)) + - (y * Ga) + sb) by ring.
  pose proof (u_y tau sb s T Hs) as UY. pose proof (u_0 tau sb s T Hs) as U0. fold Ga in UY, U0. fold k in UY, U0.
  rewrite !UY, !U0, !u1_form', !u1_form, !exponent by exact Hs. change (k + - (y * Ga)) with (k - y * Ga).
  unfold scale_quad, gq. cbv zeta. cbn [p1 p2 p3 p4 fst snd]. fold Ga. fold k.
  pose proof s2_pos as P2. pose proof spi_pos as PP.
  f_equal.
  - cbn [H]. unfold H0.
    generalize (exp ((k - y * Ga) ^ 2 * s ^ 2 / 2 - (k - y * Ga) * T)) (exp ((k + y * Ga) ^ 2 * s ^ 2 / 2 - (k + y * Ga) * T)) (exp (sb * a))
      (Rerfc (((k - y * Ga) * s ^ 2 - T + a) / (s * sqrt 2))) (Rerfc (((k + y * Ga) * s ^ 2 - T + a) / (s * sqrt 2))).
    intros. field. repeat split; lra.
  - rewrite !(H0_closed k s _ T Hs), !(H2_closed k s _ T Hs).
    set (u0 := (k * s ^ 2 - T) / (s * sqrt 2)). set (u1 := (k * s ^ 2 - T + a) / (s * sqrt 2)).
    replace (- (1) * u1 * u1) with (- (u1 * u1)) by ring. replace (u1 ^ 2) with (u1 * u1) by ring.
    generalize (exp (k ^ 2 * s ^ 2 / 2 - k * T)) (exp (sb * a)) (Rerfc u1) (exp (- (u1 * u1))).
    clearbody u0 u1. intros. field. repeat split; lra.
  - cbn [H]. unfold H0.
    generalize (exp ((k - y * Ga) ^ 2 * s ^ 2 / 2 - (k - y * Ga) * T)) (exp ((k + y * Ga) ^ 2 * s ^ 2 / 2 - (k + y * Ga) * T)) (exp (sb * a))
      (Rerfc (((k - y * Ga) * s ^ 2 - T + a) / (s * sqrt 2))) (Rerfc (((k + y * Ga) * s ^ 2 - T + a) / (s * sqrt 2))).
    intros. field. repeat split; lra.
  - rewrite !(H1_closed k s _ T Hs), !(H3_closed k s _ T Hs).
    set (u0 := (k * s ^ 2 - T) / (s * sqrt 2)). set (u1 := (k * s ^ 2 - T + a) / (s * sqrt 2)).
    replace (- (1) * u1 * u1) with (- (u1 * u1)) by ring. replace (u1 ^ 2) with (u1 * u1) by ring.
    generalize (exp (k ^ 2 * s ^ 2 / 2 - k * T)) (exp (sb * a)) (Rerfc u1) (exp (- (u1 * u1))).
    clearbody u0 u1. intros. field. repeat split; lra.
Qed.
(** One Gaussian: the pieces and the tail that starts with value v and slope m. *)
Definition one_gauss (tau x y s : R) (ks : list R) (cs : list cubic) (v m c1 c2 c3 c4 T : R) : R :=
  psums (fun lo hi c => psum (DH s T lo hi) (x * (1 / tau) * s) c1 c2 c3 c4 tau x y c) ks cs
  + v * exp (- m / v * last ks 0) * gsum tau x y (- m / v) s (last ks 0) c1 c2 c3 c4 T.

(** ** Reading the parameters *)
Lemma map_nth_seq (l1 l2 l3 : list R) d : forall n, length l1 = n -> map (fun i => nth (n + i) (l1 ++ l2 ++ l3) d) (seq 0 (length l2)) = l2.
Proof.
  intros n <-. apply (nth_ext _ _ d d); [now rewrite map_length, seq_length|]. rewrite map_length, seq_length. intros i Hi.
  rewrite (nth_indep _ d (nth (length l1 + 0) (l1 ++ l2 ++ l3) d)) by (now rewrite map_length, seq_length).
  rewrite (map_nth (fun i => nth (length l1 + i) (l1 ++ l2 ++ l3) d)), seq_nth by exact Hi.
  rewrite app_nth2 by lia. replace (length l1 + (0 + i) - length l1)%nat with i by lia. rewrite app_nth1 by exact Hi. reflexivity.
Qed.
Lemma nth_last (l : list R) d : nth (length l - 1) l d = last l d.
Proof. induction l as [|a l IH]; [reflexivity|]. destruct l as [|b l]; [reflexivity|]. cbn [length last] in *. rewrite <- IH. cbn [Nat.sub nth]. now rewrite Nat.sub_0_r. Qed.
Lemma last_map {A} (f : A -> R) (l : list A) d : last (map f l) (f d) = f (last l d).
Proof. induction l as [|a l IH]; [reflexivity|]. destruct l as [|b l]; [reflexivity|]. cbn [map last] in *. exact IH. Qed.
Lemma last_tl (k : R) ks : (2 <= length (k :: ks))%nat -> last (0 :: ks) 0 = last (k :: ks) 0.
Proof. destruct ks; [cbn; lia|reflexivity]. Qed.
Lemma read_value (hd12 ks : list R) (cs : list cubic) : length hd12 = 12%nat -> length ks = S (length cs) -> (2 <= length ks <= 8)%nat ->
  read_arrays R_ops (hd12 ++ ks ++ map c_0 cs ++ map c_1 cs ++ map c_2 cs ++ map c_3 cs) (length ks) = Some (arrays_of (0 :: tl ks) cs).
Proof.
  intros H12 Hl Hk. unfold read_arrays. cbv zeta.
  replace (Nat.leb (length ks) 8) with true by (symmetry; apply Nat.leb_le; lia). replace (Nat.leb 2 (length ks)) with true by (symmetry; apply Nat.leb_le; lia).
  replace (length (hd12 ++ ks ++ map c_0 cs ++ map c_1 cs ++ map c_2 cs ++ map c_3 cs)) with (12 + length ks + 4 * (length ks - 1))%nat by (rewrite !app_length, !map_length; lia).
  rewrite Nat.leb_refl. cbn [andb]. rops. do 2 f_equal. unfold arrays_of.
  rewrite (map_nth_seq hd12 ks _ 0 12 H12). replace (length ks - 1)%nat with (length cs) by lia.
  assert (Q : forall (f : cubic -> R) l1 l3 j, length l1 = (12 + length ks + j * length cs)%nat ->
    map (fun i => nth (12 + length ks + i + j * length cs) (l1 ++ map f cs ++ l3) 0) (seq 0 (length cs)) = map f cs).
  { intros f l1 l3 j E. pose proof (map_nth_seq l1 (map f cs) l3 0 _ E) as Q. rewrite map_length in Q. transitivity (map (fun i => nth (12 + length ks + j * length cs + i) (l1 ++ map f cs ++ l3) 0) (seq 0 (length cs))); [|exact Q]. apply map_ext. intros i. f_equal. lia. }
  f_equal.
  - pose proof (Q c_0 (hd12 ++ ks) (map c_1 cs ++ map c_2 cs ++ map c_3 cs) 0%nat) as Z. rewrite <- !app_assoc in Z. apply Z. rewrite app_length. lia.
  - pose proof (Q c_1 (hd12 ++ ks ++ map c_0 cs) (map c_2 cs ++ map c_3 cs) 1%nat) as Z. rewrite <- !app_assoc in Z. apply Z. rewrite !app_length, map_length. lia.
  - pose proof (Q c_2 (hd12 ++ ks ++ map c_0 cs ++ map c_1 cs) (map c_3 cs) 2%nat) as Z. rewrite <- !app_assoc in Z. apply Z. rewrite !app_length, !map_length. lia.
  - pose proof (Q c_3 (hd12 ++ ks ++ map c_0 cs ++ map c_1 cs ++ map c_2 cs) [] 3%nat) as Z. rewrite <- !app_assoc in Z. cbn [app] in Z. rewrite app_nil_r in Z. apply Z. rewrite !app_length, !map_length. lia.
Qed.
Lemma tail_value ks cs : length ks = S (length cs) -> exp_tail R_ops (length ks) (arrays_of ks cs) =
  let e := last ks 0 in let c := last cs c_d in (e, - c_1 c / (c_1 c * e + c_0 c), c_1 c * e + c_0 c).
Proof.
  intros Hl. unfold exp_tail, arrays_of. cbn [knots s0 s1]. cbv zeta. rops. rewrite nth_last.
  assert (E : forall f : cubic -> R, f c_d = 0 -> nth (length ks - 1 - 1) (map f cs) 0 = f (last cs c_d)).
  { intros f F. replace (length ks - 1 - 1)%nat with (length (map f cs) - 1)%nat by (rewrite map_length; lia). rewrite nth_last, <- F. apply last_map. }
  now rewrite (E c_1 eq_refl), (E c_0 eq_refl).
Qed.
End Device.
