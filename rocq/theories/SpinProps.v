(** The spin factors: C95 - C98. *)
From Coq Require Import Reals List Lra Lia Psatz Bool.
From Verif Require Import AmpModel FormulaSpec WaveSpec WaveProofs LineSpec LineProofs SpinModel SpinSpec SpinProofs SpinProofs2.
From Verif Require LeafGen.
Import ListNotations.
Local Open Scope R_scope.

(** C95: rotations and boosts (determinant 1) of the whole event leave each spin factor unchanged; reflections (determinant -1) change
    the sign of those with the antisymmetric tensor.  For every event and every choice of its particles. *)
Theorem C95_invariant : forall L, lorentz L -> det4 L = 1 -> forall k c event p1 p2 p3 p4,
  spin_value R_ops k c (map (apply L) event) p1 p2 p3 p4 = spin_value R_ops k c event p1 p2 p3 p4.
Proof.
  intros L H D k c event p1 p2 p3 p4. unfold spin_value. rewrite !nth_error_map.
  destruct (nth_error event p1), (nth_error event p2), (nth_error event p3), (nth_error event p4); try reflexivity. cbn [option_map].
  rewrite (spin_lorentz L H), D. f_equal. destruct k; ring.
Qed.
Print Assumptions C95_invariant.
Theorem C95_reflection : forall L, lorentz L -> det4 L = -1 -> forall k c event p1 p2 p3 p4,
  spin_value R_ops k c (map (apply L) event) p1 p2 p3 p4 = option_map (Rmult (parity k)) (spin_value R_ops k c event p1 p2 p3 p4).
Proof.
  intros L H D k c event p1 p2 p3 p4. unfold spin_value. rewrite !nth_error_map.
  destruct (nth_error event p1), (nth_error event p2), (nth_error event p3), (nth_error event p4); try reflexivity. cbn [option_map].
  rewrite (spin_lorentz L H), D. destruct k; reflexivity.
Qed.
Print Assumptions C95_reflection.
Theorem C95_no_other : forall L, lorentz L -> det4 L = 1 \/ det4 L = -1.
Proof. exact lorentz_det. Qed.
Print Assumptions C95_no_other.
(** A boost along x with velocity 3/5, and the reflection of y. *)
Definition boost (i j : ix) : R :=
  match i, j with ix_x, ix_x | ix_t, ix_t => 5 / 4 | ix_x, ix_t | ix_t, ix_x => 3 / 4 | ix_y, ix_y | ix_z, ix_z => 1 | _, _ => 0 end.
Definition mirror (i j : ix) : R := match i, j with ix_y, ix_y => -1 | ix_x, ix_x | ix_z, ix_z | ix_t, ix_t => 1 | _, _ => 0 end.
Example C95_boost_ex : lorentz boost /\ det4 boost = 1.
Proof.
  split; [intros i j; destruct i, j; unfold sum; cbn [boost g metric]; field|].
  unfold det4, sum, perm, order, rank. cbn [boost Nat.compare]. field.
Qed.
Example C95_mirror_ex : lorentz mirror /\ det4 mirror = -1.
Proof.
  split; [intros i j; destruct i, j; unfold sum; cbn [mirror g metric]; field|].
  unfold det4, sum, perm, order, rank. cbn [mirror Nat.compare]. field.
Qed.

(** C96: the spin factors are the contractions of the covariant tensors of the momenta of the particles p1 to p4 of the event, except
    the one of a tensor meson. *)
Theorem C96_covariant_partial : forall k c event p1 p2 p3 p4 P1 P2 P3 P4, k <> DtoTP1 -> is_form_factor k = false ->
  nth_error event p1 = Some P1 -> nth_error event p2 = Some P2 -> nth_error event p3 = Some P3 -> nth_error event p4 = Some P4 ->
  physical P1 -> physical P2 -> physical P3 -> physical P4 ->
  spin_value R_ops k c event p1 p2 p3 p4 = Some (covariant k P1 P2 P3 P4).
Proof.
  intros k c event p1 p2 p3 p4 P1 P2 P3 P4 NT NF E1 E2 E3 E4 H1 H2 H3 H4. unfold spin_value. rewrite E1, E2, E3, E4. f_equal.
  now apply covariant_value.
Qed.
Print Assumptions C96_covariant_partial.
Theorem C96_form_factor : forall k r event p1 p2 p3 p4 P1 P2 P3 P4 q, is_form_factor k = true ->
  nth_error event p1 = Some P1 -> nth_error event p2 = Some P2 -> nth_error event p3 = Some P3 -> nth_error event p4 = Some P4 ->
  physical P1 -> physical P2 -> physical P3 -> physical P4 ->
  breakup (mass_of (plus4 P1 (plus4 P2 (plus4 P3 P4)))) (fst (ff_masses k P1 P2 P3 P4)) (snd (ff_masses k P1 P2 P3 P4)) q ->
  spin_value R_ops k r event p1 p2 p3 p4 = Some (sqrt (weight (ff_spin k) ((q * r) ^ 2))).
Proof.
  intros k r event p1 p2 p3 p4 P1 P2 P3 P4 q F E1 E2 E3 E4 H1 H2 H3 H4 B. unfold spin_value. rewrite E1, E2, E3, E4. f_equal.
  now apply ff_value.
Qed.
Print Assumptions C96_form_factor.
(** For the tensor meson T the trace term is divided by the mass^2 of T instead of that of the mother. *)
Theorem C96_tensor_partial : forall c P1 P2 P3 P4, physical P1 -> physical P2 -> physical P3 -> physical P4 ->
  let pT := plus4 P2 (plus4 P3 P4) in let pD := plus4 P1 pT in
  let tD := orbital1 (minus4 pT P1) pD in let tT := orbital1 (minus4 (plus4 P3 P4) P2) pT in
  let w := eps3 tT (comp pT) (act (spin1_sum pT) (orbital1 (minus4 P3 P4) (plus4 P3 P4))) in
  R_spin DtoTP1 c P1 P2 P3 P4 = covariant DtoTP1 P1 P2 P3 P4 +
    / 3 * dot1 tD tD * (/ scalar pT pT - / scalar pD pD) * dot4 (fun i j => comp pD i * comp pD j) (spin2_sum pT) w tT.
Proof. intro c. exact tensor_value. Qed.
Print Assumptions C96_tensor_partial.
Definition x1 : vec4 := Vec 0 1 1 2.
Definition x2 : vec4 := Vec 0 1 0 2.
Definition x3 : vec4 := Vec 1 0 0 2.
Definition x4 : vec4 := Vec (-1) (-1) 0 2.
Example C96_physical_ex : physical x1 /\ physical x2 /\ physical x3 /\ physical x4.
Proof. unfold physical, scalar, sum, x1, x2, x3, x4. cbn [comp g vX vY vZ vE]. repeat split; lra. Qed.
Ltac go := unfold dot1, dot2, act, orbital1, spin1_sum, scalar, plus4, minus4, make, sum; cbn [comp g metric vX vY vZ vE].
Theorem C96_tensor_refuted : forall c, exists P1 P2 P3 P4, physical P1 /\ physical P2 /\ physical P3 /\ physical P4 /\
  R_spin DtoTP1 c P1 P2 P3 P4 <> covariant DtoTP1 P1 P2 P3 P4.
Proof.
  intro c. exists x1, x2, x3, x4. destruct C96_physical_ex as (A & B & C & D). repeat (split; [assumption|]).
  pose proof (C96_tensor_partial c x1 x2 x3 x4 A B C D) as E. cbv zeta in E. revert E.
  replace (plus4 x2 (plus4 x3 x4)) with (Vec 0 0 0 6 : vec4) by (unfold x2, x3, x4, plus4, make; cbn [comp vX vY vZ vE]; f_equal; ring).
  replace (plus4 x1 (Vec 0 0 0 6)) with (Vec 0 1 1 8 : vec4) by (unfold x1, plus4, make; cbn [comp vX vY vZ vE]; f_equal; ring).
  replace (minus4 (Vec 0 0 0 6) x1) with (Vec 0 (-1) (-1) 4 : vec4) by (unfold x1, minus4, make; cbn [comp vX vY vZ vE]; f_equal; ring).
  replace (minus4 (plus4 x3 x4) x2) with (Vec 0 (-2) 0 2 : vec4) by (unfold x2, x3, x4, plus4, minus4, make; cbn [comp vX vY vZ vE]; f_equal; ring).
  replace (minus4 x3 x4) with (Vec 2 1 0 0 : vec4) by (unfold x3, x4, minus4, make; cbn [comp vX vY vZ vE]; f_equal; ring).
  replace (plus4 x3 x4) with (Vec 0 (-1) 0 4 : vec4) by (unfold x3, x4, plus4, make; cbn [comp vX vY vZ vE]; f_equal; ring).
  replace (dot1 (orbital1 (Vec 0 (-1) (-1) 4) (Vec 0 1 1 8)) (orbital1 (Vec 0 (-1) (-1) 4) (Vec 0 1 1 8))) with (- (144 / 31)) by (go; field).
  replace (scalar (Vec 0 0 0 6) (Vec 0 0 0 6)) with 36 by (go; ring). replace (scalar (Vec 0 1 1 8) (Vec 0 1 1 8)) with 62 by (go; ring).
  unfold spin2_sum. rewrite dot4_outer.
  set (t := orbital1 (Vec 0 (-2) 0 2) (Vec 0 0 0 6)). set (w := eps3 _ _ _).
  assert (T : t ix_x = 0 /\ t ix_y = -2 /\ t ix_z = 0 /\ t ix_t = 0) by (unfold t; repeat split; go; field).
  assert (W : w ix_x = 0 /\ w ix_y = 0 /\ w ix_z = -24 /\ w ix_t = 0).
  { destruct T as (T0 & T1 & T2 & T3).
    assert (S : forall i, w i = comp (levi R_ops (Vec 0 (-2) 0 0) (Vec 0 0 0 6) (Vec (-2) (-16 / 15) 0 0)) i).
    { intro i. unfold w. symmetry. apply eps3_levi.
      - intro j. destruct j; cbn [comp vX vY vZ vE]; congruence.
      - reflexivity.
      - intro j. destruct j; go; field. }
    rewrite !S. unfold levi. rops. cbn [comp vX vY vZ vE]. repeat split; field. }
  destruct T as (T0 & T1 & T2 & T3), W as (W0 & W1 & W2 & W3).
  replace (dot2 (comp (Vec 0 1 1 8)) (spin1_sum (Vec 0 0 0 6)) w) with (-24) by (go; rewrite W0, W1, W2, W3; field).
  replace (dot2 (comp (Vec 0 1 1 8)) (spin1_sum (Vec 0 0 0 6)) t) with (-2) by (go; rewrite T0, T1, T2, T3; field).
  replace (dot2 (comp (Vec 0 1 1 8)) (spin1_sum (Vec 0 0 0 6)) (comp (Vec 0 1 1 8))) with 2 by (go; field).
  replace (dot2 w (spin1_sum (Vec 0 0 0 6)) t) with 0 by (go; rewrite W0, W1, W2, W3, T0, T1, T2, T3; field).
  intros E F. rewrite F in E. lra.
Qed.
Print Assumptions C96_tensor_refuted.

(** C97: the exchange of the two particles from a decay of spin 1 changes the sign, that of other pairs does not, and the two pairs can be
    exchanged where they come from a decay to two resonances. *)
Theorem C97_first : forall k c P1 P2 P3 P4 s, sign12 k = Some s -> R_spin k c P2 P1 P3 P4 = s * R_spin k c P1 P2 P3 P4.
Proof. exact exchange12. Qed.
Print Assumptions C97_first.
Theorem C97_second : forall k c P1 P2 P3 P4 s, sign34 k = Some s -> R_spin k c P1 P2 P4 P3 = s * R_spin k c P1 P2 P3 P4.
Proof. exact exchange34. Qed.
Print Assumptions C97_second.
Theorem C97_pairs : forall k c P1 P2 P3 P4, pairs k = true -> R_spin k c P3 P4 P1 P2 = R_spin k c P1 P2 P3 P4.
Proof. exact exchange_pairs. Qed.
Print Assumptions C97_pairs.
Example C97_ex : R_spin DtoVS 0 x2 x1 x3 x4 = - R_spin DtoVS 0 x1 x2 x3 x4 /\ R_spin DtoV1P1 0 x1 x2 x4 x3 = - R_spin DtoV1P1 0 x1 x2 x3 x4.
Proof. split; [rewrite (C97_first DtoVS 0 x1 x2 x3 x4 (-1) eq_refl)|rewrite (C97_second DtoV1P1 0 x1 x2 x3 x4 (-1) eq_refl)]; ring. Qed.
Example C96_form_factor_ex : let a := (Vec (3 / 2) 0 0 (5 / 2) : vec4) in let b := (Vec (- (3 / 2)) 0 0 (5 / 2) : vec4) in
  R_spin FF_12_34_L1 2 a a b b = sqrt (1 / (1 + 36)).
Proof.
  intros a b. assert (A : physical a) by (unfold physical, scalar, sum, a; cbn [comp g vX vY vZ vE]; split; lra).
  assert (B : physical b) by (unfold physical, scalar, sum, b; cbn [comp g vX vY vZ vE]; split; lra).
  rewrite (ff_value FF_12_34_L1 2 a a b b 3 eq_refl A A B B).
  - cbn [weight ff_spin]. f_equal. f_equal. ring.
  - cbn [ff_masses fst snd]. unfold mass_of.
    replace (scalar (plus4 a (plus4 a (plus4 b b))) (plus4 a (plus4 a (plus4 b b)))) with (10 * 10) by (unfold a, b; go; field).
    replace (scalar (plus4 a a) (plus4 a a)) with (4 * 4) by (unfold a, b; go; field).
    replace (scalar (plus4 b b) (plus4 b b)) with (4 * 4) by (unfold a, b; go; field). rewrite !sqrt_square by lra.
    split; [lra|]. replace (3 ^ 2 + 4 ^ 2) with (5 * 5) by ring. rewrite sqrt_square by lra. ring.
Qed.

(** C98: a spin-1 resonance gives the cosine of the angle in its rest frame; two of them in a P wave give the sine of the angle between the
    planes, as a triple product in the rest frame of the mother. *)
Theorem C98_PtoVP : forall c P1 P2 P3 P4, physical P1 -> physical P2 -> physical P3 -> physical P4 -> at_rest (plus4 P3 P4) ->
  R_spin DtoPP1_PtoVP2 c P1 P2 P3 P4 =
  2 * (1 + (mass2 (plus4 P3 P4) - mass2 P2) / mass2 (plus4 P2 (plus4 P3 P4))) * dot3 P2 P3.
Proof.
  intros c P1 P2 P3 P4 H1 H2 H3 H4 (X & Y & Z). rewrite covariant_value by (auto; discriminate). unfold covariant. cbv zeta.
  assert (A34 : physical (plus4 P3 P4)) by now apply physical_add. assert (A234 : physical (plus4 P2 (plus4 P3 P4))) by now apply physical_add.
  destruct A34 as [B34 _], A234 as [B234 _]. revert B34 B234 X Y Z. unfold mass2, dot3.
  destruct P2 as [x2 y2 z2 e2], P3 as [x3 y3 z3 e3], P4 as [x4 y4 z4 e4]. go. intros B34 B234 X Y Z.
  assert (x4 = - x3) by lra. assert (y4 = - y3) by lra. assert (z4 = - z3) by lra. subst x4 y4 z4. field. split; lra.
Qed.
Print Assumptions C98_PtoVP.
Theorem C98_VS : forall c P1 P2 P3 P4, physical P1 -> physical P2 -> physical P3 -> physical P4 -> at_rest (plus4 P1 P2) ->
  R_spin DtoVS c P1 P2 P3 P4 =
  2 * (1 + (mass2 (plus4 P1 P2) - mass2 (plus4 P3 P4)) / mass2 (plus4 P1 (plus4 P2 (plus4 P3 P4)))) * dot3 (plus4 P3 P4) P1.
Proof.
  intros c P1 P2 P3 P4 H1 H2 H3 H4 (X & Y & Z). rewrite covariant_value by (auto; discriminate). unfold covariant. cbv zeta.
  assert (A12 : physical (plus4 P1 P2)) by now apply physical_add. assert (A34 : physical (plus4 P3 P4)) by now apply physical_add.
  assert (A234 : physical (plus4 P2 (plus4 P3 P4))) by now apply physical_add. assert (AD : physical (plus4 P1 (plus4 P2 (plus4 P3 P4)))) by now apply physical_add.
  destruct A12 as [B12 _], AD as [BD _]. revert B12 BD X Y Z. unfold mass2, dot3. generalize (plus4 P3 P4). intro S.
  destruct P1 as [x1 y1 z1 e1], P2 as [x2 y2 z2 e2], S as [x3 y3 z3 e3]. go. intros B12 BD X Y Z.
  assert (x2 = - x1) by lra. assert (y2 = - y1) by lra. assert (z2 = - z1) by lra. subst x2 y2 z2. field. split; lra.
Qed.
Print Assumptions C98_VS.
Theorem C98_AtoSP : forall c P1 P2 P3 P4, physical P1 -> physical P2 -> physical P3 -> physical P4 -> at_rest (plus4 P2 (plus4 P3 P4)) ->
  R_spin DtoAP1_AtoSP2 c P1 P2 P3 P4 =
  - 2 * (1 + (mass2 (plus4 P2 (plus4 P3 P4)) - mass2 P1) / mass2 (plus4 P1 (plus4 P2 (plus4 P3 P4)))) * dot3 P1 P2.
Proof.
  intros c P1 P2 P3 P4 H1 H2 H3 H4 (X & Y & Z). rewrite covariant_value by (auto; discriminate). unfold covariant. cbv zeta.
  assert (A34 : physical (plus4 P3 P4)) by now apply physical_add.
  assert (A234 : physical (plus4 P2 (plus4 P3 P4))) by now apply physical_add. assert (AD : physical (plus4 P1 (plus4 P2 (plus4 P3 P4)))) by now apply physical_add.
  destruct A234 as [B234 _], AD as [BD _]. revert B234 BD X Y Z. unfold mass2, dot3. generalize (plus4 P3 P4). intro S.
  destruct P1 as [x1 y1 z1 e1], P2 as [x2 y2 z2 e2], S as [x3 y3 z3 e3]. go. intros B234 BD X Y Z.
  assert (x3 = - x2) by lra. assert (y3 = - y2) by lra. assert (z3 = - z2) by lra. subst x3 y3 z3. field. split; lra.
Qed.
Print Assumptions C98_AtoSP.
Lemma orbital1_coeff : forall q p, exists k, forall i, orbital1 q p i = comp q i - k * comp p i.
Proof. intros q p. exists (scalar q p / scalar p p). reflexivity. Qed.
Lemma eps_ext : forall a b c d a' b' c' d', (forall i, a i = a' i) -> (forall i, b i = b' i) -> (forall i, c i = c' i) -> (forall i, d i = d' i) ->
  eps a b c d = eps a' b' c' d'.
Proof. intros. unfold eps, sum. rewrite !H, !H0, !H1, !H2. reflexivity. Qed.
Theorem C98_V1V2 : forall c P1 P2 P3 P4, physical P1 -> physical P2 -> physical P3 -> physical P4 ->
  at_rest (plus4 P1 (plus4 P2 (plus4 P3 P4))) ->
  R_spin DtoV1V2_P c P1 P2 P3 P4 =
  - 8 * vE (plus4 P1 (plus4 P2 (plus4 P3 P4))) * triple (plus4 P1 P2) P1 P3.
Proof.
  intros c P1 P2 P3 P4 H1 H2 H3 H4 (X & Y & Z). rewrite covariant_value by (auto; discriminate). unfold covariant. cbv zeta.
  destruct (orbital1_coeff (minus4 (plus4 P1 P2) (plus4 P3 P4)) (plus4 P1 (plus4 P2 (plus4 P3 P4)))) as [k0 K0].
  destruct (orbital1_coeff (minus4 P1 P2) (plus4 P1 P2)) as [k1 K1]. destruct (orbital1_coeff (minus4 P3 P4) (plus4 P3 P4)) as [k2 K2].
  rewrite (eps_ext _ _ _ _ (comp (plus4 P1 (plus4 P2 (plus4 P3 P4)))) _ _ _ (fun _ => eq_refl) K0 K1 K2).
  clear K0 K1 K2 H1 H2 H3 H4. revert X Y Z. unfold triple, eps, perm, order, rank.
  destruct P1 as [x1 y1 z1 e1], P2 as [x2 y2 z2 e2], P3 as [x3 y3 z3 e3], P4 as [x4 y4 z4 e4]. go. cbn [Nat.compare]. intros X Y Z.
  assert (x4 = - (x1 + x2 + x3)) by lra. assert (y4 = - (y1 + y2 + y3)) by lra. assert (z4 = - (z1 + z2 + z3)) by lra. subst x4 y4 z4.
  ring.
Qed.
Print Assumptions C98_V1V2.
Example C98_rest_ex : exists P1 P2 P3 P4, physical P1 /\ physical P2 /\ physical P3 /\ physical P4 /\
  at_rest (plus4 P1 (plus4 P2 (plus4 P3 P4))) /\ triple (plus4 P1 P2) P1 P3 <> 0.
Proof.
  exists (Vec 1 0 0 2 : vec4), (Vec 0 1 0 2 : vec4), (Vec 0 0 1 2 : vec4), (Vec (-1) (-1) (-1) 3 : vec4).
  unfold physical, at_rest, triple; go; repeat split; lra.
Qed.
Example C98_pair_ex : exists P1 P2 P3 P4, physical P1 /\ physical P2 /\ physical P3 /\ physical P4 /\ at_rest (plus4 P3 P4) /\ dot3 P2 P3 <> 0.
Proof.
  exists (Vec 1 0 0 2 : vec4), (Vec 0 1 0 2 : vec4), (Vec 0 1 0 2 : vec4), (Vec 0 (-1) 0 3 : vec4).
  unfold physical, at_rest, dot3; go; repeat split; lra.
Qed.
