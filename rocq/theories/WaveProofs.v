(** Proofs about the resonance functions. *)
From Coq Require Import Reals List Lra Lia Psatz Arith Bool ZArith.
From Coquelicot Require Import Coquelicot.
From Verif Require Import FormulaSpec FormulaProofs AmpModel WaveModel WaveSpec.
Import ListNotations.
Open Scope R_scope.

Ltac rops := cbn [R_ops R_lib LeafGen.o_zero LeafGen.o_one LeafGen.o_half LeafGen.o_add LeafGen.o_sub LeafGen.o_mul LeafGen.o_div
  LeafGen.o_opp LeafGen.o_sqrt LeafGen.o_abs LeafGen.o_ofZ LeafGen.o_lit LeafGen.o_lt LeafGen.o_le LeafGen.o_eq
  LeafGen.m_log LeafGen.m_exp LeafGen.m_pow LeafGen.m_sin LeafGen.m_cos] in *.
Notation LL := (R_lib (fun _ _ => 0)).

(** ** Momenta *)
Lemma sqrt_pow2' : forall x, 0 <= x -> sqrt x ^ 2 = x.
Proof. intros x P. now rewrite pow2_sqrt. Qed.
Lemma energies : forall q m1 m2, let E1 := sqrt (q ^ 2 + m1 ^ 2) in let E2 := sqrt (q ^ 2 + m2 ^ 2) in
  E1 ^ 2 = q ^ 2 + m1 ^ 2 /\ E2 ^ 2 = q ^ 2 + m2 ^ 2 /\ 0 <= E1 /\ 0 <= E2 /\ m1 * m2 <= E1 * E2 /\ - (m1 * m2) <= E1 * E2.
Proof.
  intros q m1 m2 E1 E2. assert (P1 : 0 <= q ^ 2 + m1 ^ 2) by nra. assert (P2 : 0 <= q ^ 2 + m2 ^ 2) by nra.
  assert (A1 : E1 ^ 2 = q ^ 2 + m1 ^ 2) by (apply sqrt_pow2'; exact P1).
  assert (A2 : E2 ^ 2 = q ^ 2 + m2 ^ 2) by (apply sqrt_pow2'; exact P2).
  assert (B1 : 0 <= E1) by apply sqrt_pos. assert (B2 : 0 <= E2) by apply sqrt_pos.
  assert (Q : (m1 * m2) ^ 2 <= (E1 * E2) ^ 2).
  { replace ((E1 * E2) ^ 2) with (E1 ^ 2 * E2 ^ 2) by ring. rewrite A1, A2.
    assert (0 <= q ^ 2) by nra. assert (0 <= m1 ^ 2) by nra. assert (0 <= m2 ^ 2) by nra. nra. }
  assert (0 <= E1 * E2) by nra.
  repeat split; try assumption.
  - destruct (Rle_dec (m1 * m2) (E1 * E2)); [assumption|nra].
  - destruct (Rle_dec (- (m1 * m2)) (E1 * E2)); [assumption|nra].
Qed.
Lemma two_body_closed : forall s m1 m2, 0 < s -> (m1 + m2) ^ 2 <= s -> (m1 - m2) ^ 2 <= s ->
  two_body_mom R_ops s m1 m2 = sqrt ((s - (m1 + m2) ^ 2) * (s - (m1 - m2) ^ 2)) / (2 * sqrt s).
Proof.
  intros s m1 m2 Ps P1 P2. unfold two_body_mom, sq. rops. cbv zeta.
  assert (Q1 : 1 - (m1 + m2) * (m1 + m2) / s = (s - (m1 + m2) ^ 2) / s) by (field; lra).
  assert (Q2 : 1 - (m1 - m2) * (m1 - m2) / s = (s - (m1 - m2) ^ 2) / s) by (field; lra).
  rewrite Q1, Q2.
  assert (N1 : 0 <= (s - (m1 + m2) ^ 2) / s) by (apply Rmult_le_pos; [lra|left; now apply Rinv_0_lt_compat]).
  assert (N2 : 0 <= (s - (m1 - m2) ^ 2) / s) by (apply Rmult_le_pos; [lra|left; now apply Rinv_0_lt_compat]).
  unfold Rleb. destruct (Rle_dec 0 _) as [_|N]; [|contradiction]. destruct (Rle_dec 0 _) as [_|N]; [|contradiction].
  rewrite !sqrt_div by lra. rewrite sqrt_mult by lra.
  assert (0 < sqrt s) by now apply sqrt_lt_R0. field. lra.
Qed.
Lemma breakup_pos : forall s m1 m2 q, 0 < s -> breakup (sqrt s) m1 m2 q -> (m1 + m2) ^ 2 <= s /\ (m1 - m2) ^ 2 <= s /\
  (s - (m1 + m2) ^ 2) * (s - (m1 - m2) ^ 2) = 4 * s * q ^ 2.
Proof.
  intros s m1 m2 q Ps [Pq E]. pose proof (energies q m1 m2) as X. cbv zeta in X. destruct X as (A1 & A2 & B1 & B2 & C1 & C2).
  set (E1 := sqrt (q ^ 2 + m1 ^ 2)) in *. set (E2 := sqrt (q ^ 2 + m2 ^ 2)) in *.
  assert (S : s = (E1 + E2) ^ 2) by (rewrite E; symmetry; apply sqrt_pow2'; lra).
  assert (S' : s = 2 * q ^ 2 + m1 ^ 2 + m2 ^ 2 + 2 * (E1 * E2)) by (rewrite S; nra).
  split; [nra|]. split; [nra|]. rewrite S'. assert (Z : (E1 * E2) ^ 2 = (q ^ 2 + m1 ^ 2) * (q ^ 2 + m2 ^ 2)).
  { replace ((E1 * E2) ^ 2) with (E1 ^ 2 * E2 ^ 2) by ring. now rewrite A1, A2. }
  set (P := E1 * E2) in *. clearbody P. nra.
Qed.
Lemma two_body_breakup : forall s m1 m2 q, 0 < s -> breakup (sqrt s) m1 m2 q -> two_body_mom R_ops s m1 m2 = q.
Proof.
  intros s m1 m2 q Ps P. destruct (breakup_pos _ _ _ _ Ps P) as (A & B & E). rewrite two_body_closed by assumption. rewrite E.
  destruct P as [Pq _]. assert (0 < sqrt s) by now apply sqrt_lt_R0.
  replace (4 * s * q ^ 2) with (Rsqr (2 * sqrt s * q)).
  - rewrite sqrt_Rsqr by nra. field. lra.
  - unfold Rsqr. replace (2 * sqrt s * q * (2 * sqrt s * q)) with (4 * (sqrt s ^ 2) * q ^ 2) by ring. rewrite sqrt_pow2' by lra. reflexivity.
Qed.
Lemma breakup_exists : forall s m1 m2, 0 < s -> (m1 + m2) ^ 2 <= s -> 0 <= m1 -> 0 <= m2 ->
  breakup (sqrt s) m1 m2 (two_body_mom R_ops s m1 m2).
Proof.
  intros s m1 m2 Ps A P1 P2. assert (B : (m1 - m2) ^ 2 <= s) by (assert (0 <= m1 * m2) by nra; nra).
  rewrite two_body_closed by assumption. set (x := (s - (m1 + m2) ^ 2) * (s - (m1 - m2) ^ 2)).
  assert (0 < sqrt s) by now apply sqrt_lt_R0. assert (X : 0 <= x) by (unfold x; apply Rmult_le_pos; lra).
  assert (Q : (sqrt x / (2 * sqrt s)) ^ 2 = x / (4 * s)).
  { replace ((sqrt x / (2 * sqrt s)) ^ 2) with (sqrt x ^ 2 / (4 * sqrt s ^ 2)) by (field; lra). rewrite !sqrt_pow2' by lra. reflexivity. }
  split; [apply Rmult_le_pos; [apply sqrt_pos|left; apply Rinv_0_lt_compat; lra]|]. rewrite Q. unfold x.
  replace ((s - (m1 + m2) ^ 2) * (s - (m1 - m2) ^ 2) / (4 * s) + m1 ^ 2) with (Rsqr ((s + m1 ^ 2 - m2 ^ 2) / (2 * sqrt s))).
  2:{ unfold Rsqr. replace ((s + m1 ^ 2 - m2 ^ 2) / (2 * sqrt s) * ((s + m1 ^ 2 - m2 ^ 2) / (2 * sqrt s)))
        with ((s + m1 ^ 2 - m2 ^ 2) ^ 2 / (4 * sqrt s ^ 2)) by (field; lra). rewrite sqrt_pow2' by lra. field. lra. }
  replace ((s - (m1 + m2) ^ 2) * (s - (m1 - m2) ^ 2) / (4 * s) + m2 ^ 2) with (Rsqr ((s + m2 ^ 2 - m1 ^ 2) / (2 * sqrt s))).
  2:{ unfold Rsqr. replace ((s + m2 ^ 2 - m1 ^ 2) / (2 * sqrt s) * ((s + m2 ^ 2 - m1 ^ 2) / (2 * sqrt s)))
        with ((s + m2 ^ 2 - m1 ^ 2) ^ 2 / (4 * sqrt s ^ 2)) by (field; lra). rewrite sqrt_pow2' by lra. field. lra. }
  assert (I : 0 < / (2 * sqrt s)) by (apply Rinv_0_lt_compat; lra).
  assert (J : Rabs (m1 ^ 2 - m2 ^ 2) <= s) by (assert (0 <= m1 * m2) by nra; apply Rabs_le; nra).
  apply Rabs_le_between in J. rewrite !sqrt_Rsqr by (apply Rmult_le_pos; lra).
  replace ((s + m1 ^ 2 - m2 ^ 2) / (2 * sqrt s) + (s + m2 ^ 2 - m1 ^ 2) / (2 * sqrt s)) with (s / sqrt s) by (field; lra).
  rewrite <- (sqrt_pow2' s) at 1 by lra. field. lra.
Qed.
Lemma mother_inside : forall s M m, 0 < s -> 0 < M -> s < (M - m) ^ 2 -> s < (M + m) ^ 2 -> mother_mom R_ops s M m = s / (2 * M).
Proof.
  intros s M m Ps PM A B. unfold mother_mom, sq, Rleb. rops. cbv zeta. unfold Rleb.
  assert (I : 0 < / s) by now apply Rinv_0_lt_compat.
  destruct (Rle_dec 0 (1 - (M + m) * (M + m) / s)) as [N|_].
  { exfalso. assert (E : 1 - (M + m) * (M + m) / s = (s - (M + m) ^ 2) * / s) by (field; lra). rewrite E in N. nra. }
  destruct (Rle_dec 0 (1 - (M - m) * (M - m) / s)) as [N|_].
  { exfalso. assert (E : 1 - (M - m) * (M - m) / s = (s - (M - m) ^ 2) * / s) by (field; lra). rewrite E in N. nra. }
  field. lra.
Qed.

(** ** The angular factor *)
Lemma energy2 : forall m p, energy m p ^ 2 = m ^ 2 + dot p p.
Proof. intros m [[x y] z]. unfold energy. apply sqrt_pow2'. unfold dot. nra. Qed.
Lemma zemach : forall M mA mB mC a c sAB sAC sBC, at_rest M mA mB mC a c sAB sAC sBC -> sAB <> 0 ->
  let mf := 1 / sAB in
  - (1) * ((sBC - sAC) + (mf * (M * M - mC * mC) * (mA * mA - mB * mB))) = - 4 * dot a c /\
  ((sAB - (2 * M * M) - (2 * mC * mC)) + mf * ((M * M - mC * mC) * (M * M - mC * mC))) *
  ((sAB - (2 * mA * mA) - (2 * mB * mB)) + mf * ((mA * mA - mB * mB) * (mA * mA - mB * mB))) = 16 * (dot a a * dot c c).
Proof.
  intros M mA mB mC a c sAB sAC sBC (E1 & E2 & E3 & E4) N mf.
  pose proof (energy2 mA a) as HA. pose proof (energy2 mB (neg a)) as HB. pose proof (energy2 mC c) as HC.
  unfold mass2 in *. set (eA := energy mA a) in *. set (eB := energy mB (neg a)) in *. set (eC := energy mC c) in *.
  clearbody eA eB eC. destruct a as [[a1 a2] a3], c as [[c1 c2] c3]. unfold dot, plus, neg in *.
  assert (S : sAB = (eA + eB) ^ 2) by (rewrite E1; ring).
  assert (N' : eA + eB <> 0) by (intro Q; apply N; rewrite S, Q; ring).
  assert (DA : mA * mA = eA ^ 2 - (a1 * a1 + a2 * a2 + a3 * a3)) by lra.
  assert (DB : mB * mB = eB ^ 2 - (a1 * a1 + a2 * a2 + a3 * a3)) by (rewrite HB; ring).
  assert (DC : mC * mC = eC ^ 2 - (c1 * c1 + c2 * c2 + c3 * c3)) by lra.
  assert (DM : M * M = (eA + eB + eC) ^ 2 - (c1 * c1 + c2 * c2 + c3 * c3)) by lra.
  unfold mf. replace (2 * M * M) with (2 * (M * M)) by ring. replace (2 * mC * mC) with (2 * (mC * mC)) by ring.
  replace (2 * mA * mA) with (2 * (mA * mA)) by ring. replace (2 * mB * mB) with (2 * (mB * mB)) by ring.
  rewrite DA, DB, DC, DM, E2, E3, S. split; field; exact N'.
Qed.
Lemma spin_angular : forall d l cyc a c m12 m13 m23, (l <= 2)%nat -> (cyc <= 2)%nat -> seen d cyc a c m12 m13 m23 ->
  0 < pair_mass cyc m12 m13 m23 -> spin_factor R_ops l d m12 m13 m23 cyc = angular l a c.
Proof.
  intros d l cyc a c m12 m13 m23 Pl Pc S Ps.
  destruct cyc as [|[|[|cyc]]]; [| | |lia]; unfold seen, pair_mass in *;
  (destruct (zemach _ _ _ _ _ _ _ _ _ S) as [Z1 Z2]; [lra|]);
  (destruct l as [|[|[|l]]]; [reflexivity| | |lia]); unfold spin_factor, by_pair, sq, angular; rops; cbv zeta;
  cbn [Nat.eqb]; try exact Z1; rewrite Z1, Z2; field.
Qed.

(** ** The relativistic Breit-Wigner *)
Lemma breakup_sym : forall M m1 m2 q, breakup M m1 m2 q -> breakup M m2 m1 q.
Proof. intros M m1 m2 q [P Q]. split; [exact P|]. now rewrite Rplus_comm. Qed.
Lemma breakup_first : forall M d cyc q, (cyc <= 2)%nat ->
  (let '(mA, mB, _) := pair_daughters d cyc in breakup M mA mB q) -> breakup M (first_mass d cyc) (second_mass d cyc) q.
Proof.
  intros M d cyc q Pc B. destruct cyc as [|[|[|cyc]]]; [| | |lia]; unfold pair_daughters, first_mass, second_mass in *; cbn [Nat.eqb] in *;
  [exact B|apply breakup_sym; exact B|exact B].
Qed.
Lemma odd_power : forall x l, Rpow x (two_spin_1 R_ops l) = x ^ (2 * l + 1).
Proof.
  intros x l. unfold two_spin_1. rops. replace (2 * IZR (Z.of_nat l) + 1) with (IZR (Z.of_nat (2 * l + 1))); [apply Rpow_nat|].
  rewrite <- !INR_IZR_INZ, plus_INR, mult_INR. cbn [INR]. ring.
Qed.
Lemma norm_barrier : forall q q0 l r, (l = 1 \/ l = 2)%nat ->
  damping_norm R_ops q0 l r / damping_norm R_ops q l r = barrier l ((q * r) ^ 2) ((q0 * r) ^ 2).
Proof.
  intros q q0 l r [-> | ->]; unfold damping_norm, barrier; rops; cbv zeta; cbn [Nat.eqb].
  - replace (r * r * q * q) with ((q * r) ^ 2) by ring. now replace (r * r * q0 * q0) with ((q0 * r) ^ 2) by ring.
  - replace (r * r * q * q) with ((q * r) ^ 2) by ring. replace (r * r * q0 * q0) with ((q0 * r) ^ 2) by ring.
    f_equal; ring.
Qed.
Lemma barrier_same : forall l z, 0 <= z -> barrier l z z = 1.
Proof. intros [|[|l]] z P; unfold barrier; [reflexivity| |]; field; nra. Qed.
Lemma sq_nonneg : forall x : R, 0 <= x ^ 2.
Proof. intro x. nra. Qed.

(** What the code computes, with the momentum [p] of the mother as it takes it. *)
Lemma factors_value : forall d l cyc m0 s q q0, (l <= 2)%nat -> (cyc <= 2)%nat -> 0 < s -> 0 < m0 ->
  (let '(mA, mB, _) := pair_daughters d cyc in breakup (sqrt s) mA mB q /\ breakup m0 mA mB q0) ->
  factors R_ops LL d l cyc true (m0 * m0) s =
  (q, q0, barrier l ((q * d_radius d) ^ 2) ((q0 * d_radius d) ^ 2),
   barrier l ((mother_mom R_ops s (d_mother d) (bachelor d cyc) * d_mother_radius d) ^ 2)
             ((mother_mom R_ops (m0 * m0) (d_mother d) (bachelor d cyc) * d_mother_radius d) ^ 2)).
Proof.
  intros d l cyc m0 s q q0 Pl Pc Ps Pm B.
  assert (Q : breakup (sqrt s) (first_mass d cyc) (second_mass d cyc) q /\ breakup (sqrt (m0 * m0)) (first_mass d cyc) (second_mass d cyc) q0).
  { rewrite sqrt_square by lra. destruct (pair_daughters d cyc) as [[mA mB] mC] eqn:E. destruct B as [B1 B2].
    split; apply breakup_first; rewrite ?E; try lia; assumption. }
  destruct Q as [Q1 Q2]. unfold factors. cbv zeta.
  rewrite (two_body_breakup _ _ _ _ Ps Q1), (two_body_breakup (m0 * m0) _ _ q0) by (try exact Q2; nra).
  destruct l as [|[|[|l]]]; [reflexivity| | |lia]; rops; rewrite !norm_barrier by lia; reflexivity.
Qed.
Definition scaled (x : R) (z : C) : C := (RtoC x * z)%C.
Lemma dress_scaled : forall d l cyc fr frm m12 m13 m23 z,
  dress R_ops d l cyc fr frm m12 m13 m23 z = scaled (spin_factor R_ops l d m12 m13 m23 cyc * (sqrt fr * sqrt frm)) z.
Proof.
  intros. destruct z as [x y]. unfold dress, c_scale, scaled, Cmult, RtoC. rops. cbn [fst snd]. f_equal; ring.
Qed.
Lemma propagator : forall A B : R, (A * (1 / (A * A + B * B)), B * (1 / (A * A + B * B))) = (/ (A, - B)%R)%C.
Proof.
  intros A B. unfold Cinv. cbn [fst snd]. replace (A ^ 2 + (- B) ^ 2) with (A * A + B * B) by ring. unfold Rdiv. f_equal; ring.
Qed.
Lemma rbw_term_value : forall d m0 width l cyc norm m12 m13 m23 q q0 fr frm,
  let s := pair_mass cyc m12 m13 m23 in
  0 < s -> factors R_ops LL d l cyc norm (m0 * m0) s = (q, q0, fr, frm) ->
  rbw_term R_ops LL d m0 width l cyc norm m12 m13 m23 =
  scaled (spin_factor R_ops l d m12 m13 m23 cyc * (sqrt fr * sqrt frm))
         (/ (m0 ^ 2 - s, - (m0 * (width * (q / q0) ^ (2 * l + 1) * (m0 / sqrt s) * fr)))%R)%C.
Proof.
  intros d m0 width l cyc norm m12 m13 m23 q q0 fr frm s Ps E. unfold rbw_term, sq. rops.
  change (by_pair cyc m12 m13 m23) with s in *. rewrite E. rewrite odd_power. unfold sq. rops. rewrite dress_scaled, propagator.
  assert (0 < sqrt s) by now apply sqrt_lt_R0.
  unfold scaled. do 3 f_equal; [ring|field; lra].
Qed.
Lemma rbw_plain : forall d m0 width l cyc norm m12 m13 m23,
  rbw R_ops LL d m0 width l cyc norm false m12 m13 m23 = rbw_term R_ops LL d m0 width l cyc norm m12 m13 m23.
Proof.
  intros. unfold rbw. destruct (rbw_term _ _ _ _ _ _ _ _ _ _ _) as [x y]. unfold c_add, c_zero. rops. cbn [fst snd]. f_equal; ring.
Qed.
Lemma rbw_norm : forall d m0 width l cyc m12 m13 m23 a c q q0,
  let s := pair_mass cyc m12 m13 m23 in
  (l <= 2)%nat -> (cyc <= 2)%nat -> 0 < s -> 0 < m0 -> seen d cyc a c m12 m13 m23 ->
  (let '(mA, mB, _) := pair_daughters d cyc in breakup (sqrt s) mA mB q /\ breakup m0 mA mB q0) ->
  rbw_term R_ops LL d m0 width l cyc true m12 m13 m23 =
  (RtoC (angular l a c) * rbw_formula m0 width l (d_radius d) (d_mother_radius d) s q q0
     (mother_mom R_ops s (d_mother d) (bachelor d cyc)) (mother_mom R_ops (m0 * m0)%R (d_mother d) (bachelor d cyc)))%C.
Proof.
  intros d m0 width l cyc m12 m13 m23 a c q q0 s Pl Pc Ps Pm S B.
  rewrite (rbw_term_value _ _ _ _ _ _ _ _ _ _ _ _ _ Ps (factors_value d l cyc m0 s q q0 Pl Pc Ps Pm B)).
  fold s. rewrite (spin_angular _ _ _ _ _ _ _ _ Pl Pc S Ps). unfold rbw_formula, scaled, running, Cdiv.
  rewrite RtoC_mult, Cmult_assoc. reflexivity.
Qed.
Lemma factors_s : forall d cyc norm m0 s q q0, (cyc <= 2)%nat -> 0 < s -> 0 < m0 ->
  (let '(mA, mB, _) := pair_daughters d cyc in breakup (sqrt s) mA mB q /\ breakup m0 mA mB q0) ->
  factors R_ops LL d 0 cyc norm (m0 * m0) s = (q, q0, 1, 1).
Proof.
  intros d cyc norm m0 s q q0 Pc Ps Pm B. pose proof (factors_value d 0 cyc m0 s q q0 ltac:(lia) Pc Ps Pm B) as X.
  cbv beta iota zeta delta [factors barrier] in X |- *. exact X.
Qed.
Lemma scaled_inj : forall x y z, z <> RtoC 0 -> scaled x z = scaled y z -> x = y.
Proof.
  intros x y [u v] N E. unfold scaled, Cmult, RtoC in E. cbn [fst snd] in E. injection E as E1 E2.
  destruct (Req_dec u 0) as [->|U].
  - assert (v <> 0) by (intro; subst; now apply N). apply Rmult_eq_reg_r with v; lra.
  - apply Rmult_eq_reg_r with u; lra.
Qed.
Lemma inv_nonzero : forall A B : R, A <> 0 -> (/ (A, B))%C <> RtoC 0.
Proof.
  intros A B N E. unfold Cinv, RtoC in E. cbn [fst snd] in E. injection E as E1 _.
  assert (0 < A ^ 2) by nra. assert (P : A ^ 2 + B ^ 2 <> 0) by nra.
  apply (Rmult_eq_compat_r (A ^ 2 + B ^ 2)) in E1. unfold Rdiv in E1. rewrite Rmult_assoc, Rinv_l, Rmult_0_l in E1 by exact P. lra.
Qed.
Lemma sqrt_of : forall x y, 0 <= y -> x = y * y -> sqrt x = y.
Proof. intros x y P ->. now apply sqrt_square. Qed.

(** ** Angular momentum *)
Lemma dress_parts : forall d l cyc fr frm a c m12 m13 m23 z, (l <= 2)%nat -> (cyc <= 2)%nat -> seen d cyc a c m12 m13 m23 ->
  0 < pair_mass cyc m12 m13 m23 ->
  dress R_ops d l cyc fr frm m12 m13 m23 z = (RtoC (angular l a c) * scaled (sqrt fr * sqrt frm) z)%C.
Proof.
  intros d l cyc fr frm a c m12 m13 m23 z Pl Pc S Ps. rewrite dress_scaled, (spin_angular _ _ _ _ _ _ _ _ Pl Pc S Ps).
  unfold scaled. now rewrite RtoC_mult, Cmult_assoc.
Qed.
Lemma legendre_rbw : forall d m g l cyc norm, (l <= 2)%nat -> (cyc <= 2)%nat -> legendre d (RBW m g l cyc norm false).
Proof.
  intros d m g l cyc norm Pl Pc.
  exists (fun s => let '(q, q0, fr, frm) := factors R_ops LL d l cyc norm (sq R_ops m) s in
           Some (scaled (sqrt fr * sqrt frm)
             (let A := sq R_ops m - s in let B := sq R_ops m * g * Rpow (q / q0) (two_spin_1 R_ops l) * fr / sqrt s in
              let C := 1 / (sq R_ops A + sq R_ops B) in (A * C, B * C)))).
  intros a c m12 m13 m23 S Ps. cbn [pair_of spin_of] in *. unfold amplitude. rewrite rbw_plain. unfold rbw_term. rops.
  change (by_pair cyc m12 m13 m23) with (pair_mass cyc m12 m13 m23).
  destruct (factors R_ops LL d l cyc norm (sq R_ops m) (pair_mass cyc m12 m13 m23)) as [[[q q0] fr] frm]. cbv zeta.
  f_equal. now apply dress_parts.
Qed.
Lemma legendre_gs : forall d m g l cyc norm sym, (l <= 2)%nat -> (cyc <= 2)%nat -> legendre d (GS m g l cyc norm sym).
Proof.
  intros d m g l cyc norm sym Pl Pc.
  exists (fun s => let '(q, q0, fr, frm) := factors R_ops LL d l cyc norm (m * m) s in
           Some (scaled (sqrt fr * sqrt frm) (gs_core R_ops LL d (m * m) g l q q0 fr s))).
  intros a c m12 m13 m23 S Ps. cbn [pair_of spin_of] in *. unfold amplitude, gs. rops.
  change (by_pair cyc m12 m13 m23) with (pair_mass cyc m12 m13 m23).
  destruct (factors R_ops LL d l cyc norm (m * m) (pair_mass cyc m12 m13 m23)) as [[[q q0] fr] frm]. cbv zeta.
  f_equal. now apply dress_parts.
Qed.
Definition lass_core (m g a r R0 phiR B phiB : R) (l : nat) (q q0 fr s : R) : C :=
  let w := g * Rpow (q / q0) (two_spin_1 R_ops l) * fr / sqrt s in
  let cot := 1 / (a * q) + / 2 * r * q in
  let qcot := 1 / a + / 2 * r * q * q in
  let e2d := c_div R_ops (qcot, q) (qcot, - q) in
  let resT := c_scale R_ops (cos (phiR + 2 * phiB), sin (phiR + 2 * phiB)) R0 in
  let prop := c_div R_ops (1, 0) (m - s, sqrt m * w) in
  let resT := c_mul R_ops resT (c_mul R_ops (c_scale R_ops prop (m * g / q0)) e2d) in
  let bkg := c_scale R_ops (c_scale R_ops (c_scale R_ops (cos phiB, sin phiB) B) (cos phiB + cot * sin phiB)) (sqrt s) in
  c_add R_ops resT (c_div R_ops bkg (qcot, - q)).
Lemma lass_split : forall d m g a r R0 phiR B phiB l cyc norm m12 m13 m23,
  lass R_ops LL d m g a r R0 phiR B phiB l cyc norm m12 m13 m23 =
  match lass_factors R_ops d l cyc norm (m * m) (pair_mass cyc m12 m13 m23) with
  | None => None
  | Some (q, q0, fr, frm) =>
      Some (dress R_ops d l cyc fr frm m12 m13 m23 (lass_core (m * m) g a r R0 phiR B phiB l q q0 fr (pair_mass cyc m12 m13 m23)))
  end.
Proof. reflexivity. Qed.
Lemma legendre_lass : forall d m g a r R0 phiR B phiB l cyc norm, (l <= 2)%nat -> (cyc <= 2)%nat ->
  legendre d (LASS m g a r R0 phiR B phiB l cyc norm).
Proof.
  intros d m g a0 r R0 phiR B phiB l cyc norm Pl Pc.
  exists (fun s => match lass_factors R_ops d l cyc norm (m * m) s with None => None
           | Some (q, q0, fr, frm) => Some (scaled (sqrt fr * sqrt frm) (lass_core (m * m) g a0 r R0 phiR B phiB l q q0 fr s)) end).
  intros a c m12 m13 m23 S Ps. cbn [pair_of spin_of] in *. unfold amplitude. rewrite lass_split.
  destruct (lass_factors R_ops d l cyc norm (m * m) (pair_mass cyc m12 m13 m23)) as [[[[q q0] fr] frm]|]; [|reflexivity].
  f_equal. now apply dress_parts.
Qed.
Lemma c_one_l : forall z : C, (RtoC 1 * z)%C = z.
Proof. intros [x y]. unfold Cmult, RtoC. cbn [fst snd]. f_equal; ring. Qed.
Lemma legendre_scalar : forall d w, asks_symmetry w = false -> match w with FLATTE _ _ _ _ _ | Gauss _ _ _ | NonRes => True | _ => False end -> legendre d w.
Proof.
  intros d [] Y N; try contradiction; cbn [asks_symmetry] in Y; try subst symm.
  - exists (fun s => Some (c_add R_ops (c_zero R_ops) (flatte_term R_ops mean g1 (rg2og1 * g1) s))).
    intros a c m12 m13 m23 S Ps. cbn [spin_of pair_of angular]. rewrite c_one_l. reflexivity.
  - exists (fun s => Some (gauss R_ops LL mass width 0 s 0 0)). intros a c m12 m13 m23 S Ps. cbn [spin_of pair_of angular]. rewrite c_one_l. reflexivity.
  - exists (fun s => Some (RtoC 1)). intros a c m12 m13 m23 S Ps. cbn [spin_of pair_of angular]. rewrite c_one_l. reflexivity.
Qed.
Lemma legendre_all : forall d w, asks_symmetry w = false -> is_mixing w = false -> (spin_of w <= 2)%nat -> (pair_of w <= 2)%nat -> legendre d w.
Proof.
  intros d w Y M Pl Pc. destruct w; cbn [asks_symmetry is_mixing spin_of pair_of] in *; try discriminate; try subst sym.
  - now apply legendre_rbw.
  - now apply legendre_gs.
  - now apply legendre_lass.
  - apply legendre_scalar; cbn; auto.
  - apply legendre_scalar; cbn; auto.
  - apply legendre_scalar; cbn; auto.
Qed.
Lemma no_common_factor : forall (z1 z2 : R) (b om rho f : C), z1 <> 0 -> z2 <> 0 -> z1 <> z2 ->
  b <> RtoC 0 -> om <> RtoC 0 -> rho <> RtoC 0 ->
  (RtoC z1 * rho * (b * (RtoC z1 * om) + 1) = RtoC z1 * f)%C -> (RtoC z2 * rho * (b * (RtoC z2 * om) + 1) = RtoC z2 * f)%C -> False.
Proof.
  intros z1 z2 b om rho f N1 N2 N Nb No Nr E1 E2.
  assert (F1 : f = (rho * (b * (RtoC z1 * om) + 1))%C).
  { replace f with (RtoC z1 * f / RtoC z1)%C by (field; intro Q; apply N1; now injection Q). rewrite <- E1. field. intro Q; apply N1; now injection Q. }
  assert (F2 : f = (rho * (b * (RtoC z2 * om) + 1))%C).
  { replace f with (RtoC z2 * f / RtoC z2)%C by (field; intro Q; apply N2; now injection Q). rewrite <- E2. field. intro Q; apply N2; now injection Q. }
  assert (Z : (rho * b * om * RtoC (z1 - z2))%C = RtoC 0).
  { rewrite RtoC_minus. transitivity (rho * (b * (RtoC z1 * om) + 1) - rho * (b * (RtoC z2 * om) + 1))%C; [ring|]. rewrite <- F1, <- F2. ring. }
  assert (P : (rho * b * om * RtoC (z1 - z2))%C <> RtoC 0).
  { repeat apply Cmult_neq_0; try assumption. intro Q. injection Q as Q. lra. }
  contradiction.
Qed.
Lemma pi_pos : 0 < pi_ R_ops.
Proof. unfold pi_. rops. apply Rmult_lt_0_compat; [lra|]. apply powerRZ_lt. lra. Qed.

(** ** Names of the daughters *)
Lemma two_body_swap : forall s m1 m2, two_body_mom R_ops s m1 m2 = two_body_mom R_ops s m2 m1.
Proof.
  intros s m1 m2. unfold two_body_mom, sq. rops. rewrite (Rplus_comm m2 m1).
  replace ((m2 - m1) * (m2 - m1)) with ((m1 - m2) * (m1 - m2)) by ring. reflexivity.
Qed.
Lemma renamed_pair : forall d cyc m12 m13 m23, (cyc <= 2)%nat ->
  by_pair (next cyc) m23 m12 m13 = by_pair cyc m12 m13 m23 /\ bachelor (renamed d) (next cyc) = bachelor d cyc /\
  (forall s, two_body_mom R_ops s (first_mass (renamed d) (next cyc)) (second_mass (renamed d) (next cyc)) =
             two_body_mom R_ops s (first_mass d cyc) (second_mass d cyc)) /\
  (forall l, spin_factor R_ops l (renamed d) m23 m12 m13 (next cyc) = spin_factor R_ops l d m12 m13 m23 cyc).
Proof.
  intros d cyc m12 m13 m23 P. destruct cyc as [|[|[|]]]; [| | |lia]; (split; [reflexivity|]; split; [reflexivity|]; split; [|intros [|]; reflexivity]).
  - intro s. apply two_body_swap.
  - intro s. apply two_body_swap.
  - reflexivity.
Qed.
Lemma renamed_factors : forall d l cyc norm m s, (cyc <= 2)%nat ->
  factors R_ops LL (renamed d) l (next cyc) norm m s = factors R_ops LL d l cyc norm m s.
Proof.
  intros d l cyc norm m s P. destruct (renamed_pair d cyc 0 0 0 P) as (_ & B & Q & _). unfold factors. rewrite !Q, B. reflexivity.
Qed.
Lemma renamed_rbw_term : forall d m0 g l cyc norm m12 m13 m23, (cyc <= 2)%nat ->
  rbw_term R_ops LL (renamed d) m0 g l (next cyc) norm m23 m12 m13 = rbw_term R_ops LL d m0 g l cyc norm m12 m13 m23.
Proof.
  intros d m0 g l cyc norm m12 m13 m23 P. destruct (renamed_pair d cyc m12 m13 m23 P) as (M & _ & _ & S).
  unfold rbw_term. rewrite M, renamed_factors by assumption. destruct (factors R_ops LL d l cyc norm _ _) as [[[q q0] fr] frm].
  unfold dress. now rewrite S.
Qed.
Lemma renamed_rbw : forall m0 g l cyc norm sym, (cyc <= 2)%nat -> same_when_renamed (RBW m0 g l cyc norm sym).
Proof.
  intros m0 g l cyc norm sym P d m12 m13 m23. unfold amplitude, renamed_wave, rbw. rewrite renamed_rbw_term by assumption.
  destruct sym; [|reflexivity].
  replace (Nat.modulo (next cyc + 1) 3) with (next (Nat.modulo (cyc + 1) 3)) by (destruct cyc as [|[|[|]]]; [| | |lia]; reflexivity).
  rewrite renamed_rbw_term; [reflexivity|]. assert (Nat.modulo (cyc + 1) 3 < 3)%nat by (apply Nat.mod_upper_bound; lia). lia.
Qed.
Lemma renamed_gs : forall d m0 g l cyc norm m12 m13 m23, (cyc <= 2)%nat -> d_1 d = d_2 d -> d_1 d = d_3 d ->
  gs R_ops LL (renamed d) m0 g l (next cyc) norm m23 m12 m13 = gs R_ops LL d m0 g l cyc norm m12 m13 m23.
Proof.
  intros d m0 g l cyc norm m12 m13 m23 P E2 E3. destruct (renamed_pair d cyc m12 m13 m23 P) as (M & _ & _ & S).
  unfold gs. rewrite M, renamed_factors by assumption. destruct (factors R_ops LL d l cyc norm _ _) as [[[q q0] fr] frm].
  unfold dress. rewrite S. unfold gs_core. cbn [renamed d_2 d_3]. now rewrite <- E2, <- E3.
Qed.
Lemma renamed_lass : forall d m0 g a r R0 phiR B phiB l cyc norm m12 m13 m23, cyc = 2%nat \/ (cyc <= 2)%nat /\ d_1 d = d_2 d /\ d_1 d = d_3 d ->
  lass R_ops LL (renamed d) m0 g a r R0 phiR B phiB l (next cyc) norm m23 m12 m13 = lass R_ops LL d m0 g a r R0 phiR B phiB l cyc norm m12 m13 m23.
Proof.
  intros d m0 g a r R0 phiR B phiB l cyc norm m12 m13 m23 P. assert (Pc : (cyc <= 2)%nat) by (destruct P as [->|[P _]]; lia).
  destruct (renamed_pair d cyc m12 m13 m23 Pc) as (M & C & _ & S).
  unfold lass. rewrite M.
  replace (lass_factors R_ops (renamed d) l (next cyc) norm) with (lass_factors R_ops d l cyc norm).
  2:{ unfold lass_factors. rewrite C. destruct P as [->|(_ & E2 & E3)]; [reflexivity|].
      destruct cyc as [|[|[|]]]; [| | |lia]; unfold first_mass, lass_second; cbn [renamed d_1 d_2 d_3 next Nat.eqb d_mother d_radius d_mother_radius]; now rewrite <- ?E2, <- ?E3. }
  destruct (lass_factors R_ops d l cyc norm _ _) as [[[[q q0] fr] frm]|]; [|reflexivity]. unfold dress. now rewrite S.
Qed.

(** ** Exchange of two daughters *)
Lemma exchange_term : forall d m0 g l norm x y m23, d_2 d = d_3 d ->
  rbw_term R_ops LL d m0 g l 1 norm x y m23 =
  scaled (match l with O => 1 | 2%nat => 1 | _ => - (1) end) (rbw_term R_ops LL d m0 g l 0 norm y x m23).
Proof.
  intros d m0 g l norm x y m23 E. unfold rbw_term. cbn [by_pair].
  replace (factors R_ops LL d l 1 norm) with (factors R_ops LL d l 0 norm).
  2:{ unfold factors, first_mass, second_mass, bachelor. cbn [by_pair Nat.eqb]. now rewrite E. }
  destruct (factors R_ops LL d l 0 norm _ _) as [[[q q0] fr] frm]. rewrite !dress_scaled.
  replace (spin_factor R_ops l d x y m23 1) with (match l with O => 1 | 2%nat => 1 | _ => - (1) end * spin_factor R_ops l d y x m23 0).
  { unfold scaled. now rewrite !RtoC_mult, !Cmult_assoc. }
  unfold spin_factor. destruct l as [|[|[|l]]]; cbn [by_pair Nat.eqb]; unfold sq; rops; rewrite ?E; [ring|ring| |ring].
  generalize (1 / y). intro u. field.
Qed.

(** ** Gounaris-Sakurai *)
Lemma two_body_equal : forall s mu, 0 < mu -> 4 * mu ^ 2 < s -> two_body_mom R_ops s mu mu = sqrt (s / 4 - mu ^ 2).
Proof.
  intros s mu Pm Ps. assert (0 < mu ^ 2) by nra. rewrite two_body_closed by nra.
  replace ((s - (mu + mu) ^ 2) * (s - (mu - mu) ^ 2)) with ((s / 4 - mu ^ 2) * (2 * 2) * s) by field.
  rewrite sqrt_mult by nra. rewrite sqrt_mult by nra. rewrite (sqrt_of (2 * 2) 2) by lra.
  assert (0 < sqrt s) by (apply sqrt_lt_R0; lra). field. lra.
Qed.
Lemma h_equal : forall s mu, 0 < mu -> 4 * mu ^ 2 < s -> h_fun R_ops LL s mu mu = gs_h (pi_ R_ops) mu s.
Proof. intros s mu Pm Ps. unfold h_fun, gs_h. rops. rewrite two_body_equal by assumption. cbv zeta. now replace (mu + mu) with (2 * mu) by ring. Qed.
Lemma gs_h_derive : forall pi mu s, 0 < pi -> 0 < mu -> 4 * mu ^ 2 < s ->
  is_derive (gs_h pi mu) s (gs_h pi mu s * (1 / (8 * (s / 4 - mu ^ 2)) - 1 / (2 * s)) + 1 / (2 * pi * s)).
Proof.
  intros pi mu s Pp Pm Ps. assert (Q : 0 < mu ^ 2) by nra. assert (K : 0 < s / 4 - mu ^ 2) by lra.
  assert (S1 : 0 < sqrt s) by (apply sqrt_lt_R0; lra). assert (S2 : 0 < sqrt (s / 4 - mu ^ 2)) by (apply sqrt_lt_R0; lra).
  assert (E1 : sqrt s * sqrt s = s) by (apply sqrt_sqrt; lra). assert (E2 : sqrt (s / 4 - mu ^ 2) * sqrt (s / 4 - mu ^ 2) = s / 4 - mu ^ 2) by (apply sqrt_sqrt; lra).
  assert (P : 0 < (sqrt s + 2 * sqrt (s / 4 - mu ^ 2)) / (2 * mu)) by (apply Rdiv_lt_0_compat; lra).
  unfold gs_h. auto_derive; change (s * / 4 + - (mu * (mu * 1))) with (s / 4 - mu ^ 2).
  - assert (sqrt s <> 0) by lra. assert (0 < s) by lra. repeat split; assumption.
  - change ((sqrt s + 2 * sqrt (s / 4 - mu ^ 2)) * / (2 * mu)) with ((sqrt s + 2 * sqrt (s / 4 - mu ^ 2)) / (2 * mu)).
    set (l := ln _). clearbody l. replace (8 * (s / 4 - mu ^ 2)) with (8 * (sqrt (s / 4 - mu ^ 2) * sqrt (s / 4 - mu ^ 2))) by (now rewrite E2).
    set (k := sqrt (s / 4 - mu ^ 2)) in *. replace (2 * s) with (2 * (sqrt s * sqrt s)) by (now rewrite E1).
    replace (2 * pi * s) with (2 * pi * (sqrt s * sqrt s)) by (now rewrite E1). set (r := sqrt s) in *. clearbody k r.
    field. repeat split; lra.
Qed.
Lemma dh_equal : forall s mu, 0 < mu -> 4 * mu ^ 2 < s -> dh_ds_fun R_ops LL s mu mu = Derive (gs_h (pi_ R_ops) mu) s.
Proof.
  intros s mu Pm Ps. symmetry. apply is_derive_unique. unfold dh_ds_fun, sq. rops. rewrite h_equal, two_body_equal by assumption. cbv zeta.
  rewrite sqrt_sqrt by lra. now apply gs_h_derive; try apply pi_pos.
Qed.
Lemma fs_equal : forall s m0 width mu, 0 < mu -> 4 * mu ^ 2 < s -> 4 * mu ^ 2 < m0 ^ 2 ->
  fs_fun R_ops LL s (m0 * m0) width mu mu = gs_f (pi_ R_ops) mu m0 width s.
Proof.
  intros s m0 width mu Pm Ps P0. replace (m0 * m0) with (m0 ^ 2) by ring. unfold fs_fun, gs_f, sq, cube. rops.
  rewrite !two_body_equal, !h_equal, dh_equal by assumption. cbv zeta. now rewrite <- !(Rmult_assoc), <- ?tech_pow_Rmult, ?pow_1, ?Rmult_1_r, <- ?Rmult_assoc.
Qed.
Lemma d_equal : forall m0 mu, 0 < mu -> 0 < m0 -> 4 * mu ^ 2 < m0 ^ 2 -> d_fun R_ops LL (m0 * m0) mu mu = gs_d (pi_ R_ops) mu m0.
Proof.
  intros m0 mu Pm P0 P. replace (m0 * m0) with (m0 ^ 2) by ring. unfold d_fun, gs_d, sq, cube. rops. rewrite two_body_equal by assumption. cbv zeta.
  rewrite (sqrt_of (m0 ^ 2) m0) by nra. replace (mu + mu) with (2 * mu) by ring. pose proof pi_pos. set (l := ln _). clearbody l.
  assert (0 < sqrt (m0 ^ 2 / 4 - mu ^ 2)) by (apply sqrt_lt_R0; lra). set (k := sqrt (m0 ^ 2 / 4 - mu ^ 2)) in *. clearbody k. field. lra.
Qed.
Lemma gs_core_value : forall d m0 width l q q0 fr s mu, 0 < mu -> 0 < m0 -> d_2 d = mu -> d_3 d = mu -> 4 * mu ^ 2 < s -> 4 * mu ^ 2 < m0 ^ 2 ->
  gs_core R_ops LL d (m0 * m0) width l q q0 fr s = gs_formula (pi_ R_ops) mu m0 width s (m0 * width * (q / q0) ^ (2 * l + 1) * fr).
Proof.
  intros d m0 width l q q0 fr s mu Pm P0 E2 E3 Ps Pt. unfold gs_core, gs_formula. rewrite E2, E3. rops. rewrite odd_power, d_equal, fs_equal, (sqrt_square m0) by lra.
  replace (m0 * m0) with (m0 ^ 2) by ring. set (E := m0 ^ 2 - s + _). set (F := m0 * width * _ * fr).
  unfold Cdiv, Cinv, Cmult, RtoC. cbn [fst snd]. replace (E ^ 2 + (- F) ^ 2) with (E * E + F * F) by ring. cbv zeta. unfold Rdiv. f_equal; ring.
Qed.
Lemma breakup_equal : forall s mu q, 0 < s -> 0 < mu -> breakup (sqrt s) mu mu q -> s = 4 * mu ^ 2 + 4 * q ^ 2.
Proof. intros s mu q Ps Pm B. destruct (breakup_pos s mu mu q Ps B) as (_ & _ & E). apply Rmult_eq_reg_l with s; [|lra]. nra. Qed.
Lemma gs_norm : forall d m0 width l cyc norm m12 m13 m23 a c q q0 mu,
  let s := pair_mass cyc m12 m13 m23 in
  (l <= 2)%nat -> (cyc <= 2)%nat -> 0 < s -> 0 < m0 -> 0 < mu -> 0 < q -> 0 < q0 -> seen d cyc a c m12 m13 m23 ->
  l = 0%nat \/ norm = true ->
  (let '(mA, mB, _) := pair_daughters d cyc in mA = mu /\ mB = mu) -> d_2 d = mu -> d_3 d = mu ->
  breakup (sqrt s) mu mu q -> breakup m0 mu mu q0 ->
  gs R_ops LL d m0 width l cyc norm m12 m13 m23 =
  (RtoC (angular l a c) * scaled (sqrt (barrier l ((q * d_radius d) ^ 2) ((q0 * d_radius d) ^ 2)) *
      sqrt (barrier l ((mother_mom R_ops s (d_mother d) (bachelor d cyc) * d_mother_radius d) ^ 2)
                      ((mother_mom R_ops (m0 * m0)%R (d_mother d) (bachelor d cyc) * d_mother_radius d) ^ 2)))
     (gs_formula (pi_ R_ops) mu m0 width s (m0 * width * (q / q0) ^ (2 * l + 1) * barrier l ((q * d_radius d) ^ 2) ((q0 * d_radius d) ^ 2))))%C.
Proof.
  intros d m0 width l cyc norm m12 m13 m23 a c q q0 mu s Pl Pc Ps P0 Pm Pq Pq0 S N M E2 E3 B B0.
  assert (BB : let '(mA, mB, _) := pair_daughters d cyc in breakup (sqrt s) mA mB q /\ breakup m0 mA mB q0).
  { destruct (pair_daughters d cyc) as [[mA mB] mC]. destruct M as [-> ->]. auto. }
  assert (F : factors R_ops LL d l cyc norm (m0 * m0) s =
    (q, q0, barrier l ((q * d_radius d) ^ 2) ((q0 * d_radius d) ^ 2),
     barrier l ((mother_mom R_ops s (d_mother d) (bachelor d cyc) * d_mother_radius d) ^ 2)
               ((mother_mom R_ops (m0 * m0) (d_mother d) (bachelor d cyc) * d_mother_radius d) ^ 2))).
  { destruct N as [-> | ->]; [now apply factors_s|now apply factors_value]. }
  unfold gs. rops. change (by_pair cyc m12 m13 m23) with s. rewrite F. rewrite (dress_parts _ _ _ _ _ _ _ _ _ _ _ Pl Pc S Ps).
  pose proof (breakup_equal s mu q Ps Pm B) as K. assert (B0' : breakup (sqrt (m0 * m0)) mu mu q0) by (now rewrite sqrt_square by lra).
  pose proof (breakup_equal (m0 * m0) mu q0 ltac:(nra) Pm B0') as K0.
  rewrite (gs_core_value d m0 width l q q0 _ s mu) by (try assumption; nra). reflexivity.
Qed.
Lemma gs_peak : forall pi mu m0 width, 0 < pi -> 0 < mu -> 4 * mu ^ 2 < m0 ^ 2 ->
  m0 ^ 2 - m0 ^ 2 + gs_f pi mu m0 width (m0 ^ 2) = 0 /\ is_derive (fun s => m0 ^ 2 - s + gs_f pi mu m0 width s) (m0 ^ 2) (- (1)).
Proof.
  intros pi mu m0 width Pp Pm P. split; [unfold gs_f; cbv zeta; ring|].
  assert (K : 0 < m0 ^ 2 / 4 - mu ^ 2) by lra. unfold gs_f. cbv zeta.
  set (k0 := sqrt (m0 ^ 2 / 4 - mu ^ 2)). assert (K0 : 0 < k0) by (apply sqrt_lt_R0; lra). assert (Q : k0 ^ 2 = m0 ^ 2 / 4 - mu ^ 2) by (apply sqrt_pow2'; lra).
  set (D := Derive (gs_h pi mu) (m0 ^ 2)).
  assert (HD : is_derive (gs_h pi mu) (m0 ^ 2) D) by (apply Derive_correct; eexists; now apply gs_h_derive).
  set (h0 := gs_h pi mu (m0 ^ 2)).
  apply (is_derive_ext_loc (fun s => m0 ^ 2 - s + width * m0 ^ 2 / k0 ^ 3 * ((s / 4 - mu ^ 2) * (gs_h pi mu s - h0) + (m0 ^ 2 - s) * k0 ^ 2 * D))).
  { exists (mkposreal _ K). intros y By. unfold ball in By. cbn in By. unfold AbsRing_ball, abs, minus, plus, opp in By. cbn in By.
    rewrite (sqrt_pow2' (y / 4 - mu ^ 2)); [reflexivity|]. apply Rabs_def2 in By. cbn [pow] in *. lra. }
  assert (W : forall g : R -> R, g (m0 ^ 2) = h0 -> is_derive g (m0 ^ 2) D ->
    is_derive (fun s => m0 ^ 2 - s + width * m0 ^ 2 / k0 ^ 3 * ((s / 4 - mu ^ 2) * (g s - h0) + (m0 ^ 2 - s) * k0 ^ 2 * D)) (m0 ^ 2) (- (1))).
  { intros g G0 G. auto_derive.
    - repeat split. now exists D.
    - cbn [pow] in *. match goal with |- context [Derive ?f ?x] => replace (Derive f x) with D by (symmetry; apply is_derive_unique; exact G) end. rewrite !Rmult_1_r in *. unfold Rdiv in *. rewrite G0.
      replace (m0 * m0 * / 4 + - (mu * mu)) with (k0 * k0) by lra. field. lra. }
  now apply W.
Qed.

(** ** Flatté *)
Lemma rho_phase : forall t s c, 0 < s -> rho_re R_ops t s c = c * Re (phase_space t s) /\ rho_im R_ops t s c = c * Im (phase_space t s).
Proof.
  intros t s c Ps. unfold rho_re, rho_im, phase_space. rops. unfold Rleb. destruct (Rle_dec t s) as [H|H]; cbn [Re Im fst snd RtoC].
  - split; [reflexivity|]. unfold RtoC, Im. cbn [snd]. ring.
  - unfold Re, Im. cbn [fst snd]. split; [ring|]. do 2 f_equal. ring.
Qed.
Definition flatte_A (m0 g1 g2 t1 t2 t3 t4 s : R) : R :=
  (m0 * m0 - s) + m0 * ((2 / 3 * Im (phase_space t1 s) + 1 / 3 * Im (phase_space t2 s)) * g1 + (/ 2 * Im (phase_space t3 s) + / 2 * Im (phase_space t4 s)) * g2).
Definition flatte_B (m0 g1 g2 t1 t2 t3 t4 s : R) : R :=
  m0 * ((2 / 3 * Re (phase_space t1 s) + 1 / 3 * Re (phase_space t2 s)) * g1 + (/ 2 * Re (phase_space t3 s) + / 2 * Re (phase_space t4 s)) * g2).
Lemma flatte_formula_parts : forall m0 g1 g2 a b c d s,
  flatte_formula m0 g1 g2 a b c d s = (/ (flatte_A m0 g1 g2 (4 * a ^ 2) (4 * b ^ 2) (4 * c ^ 2) (4 * d ^ 2) s, - flatte_B m0 g1 g2 (4 * a ^ 2) (4 * b ^ 2) (4 * c ^ 2) (4 * d ^ 2) s)%R)%C.
Proof.
  intros. unfold flatte_formula, flatte_A, flatte_B. 
  destruct (phase_space (4 * a ^ 2) s) as [x1 y1], (phase_space (4 * b ^ 2) s) as [x2 y2], (phase_space (4 * c ^ 2) s) as [x3 y3], (phase_space (4 * d ^ 2) s) as [x4 y4].
  unfold Cdiv. rewrite Cmult_1_l. f_equal. unfold Cminus, Copp, Cdiv, Cinv, Cmult, Cplus, RtoC, Ci, Re, Im. cbn [fst snd]. f_equal; field.
Qed.
Lemma flatte_term_parts : forall m0 g1 g2 s, 0 < s ->
  flatte_term R_ops m0 g1 g2 s = flatte_formula m0 g1 g2 (pip_mass R_ops) (pi0_mass R_ops) (kp_mass R_ops) (k0_mass R_ops) s.
Proof.
  intros m0 g1 g2 s Ps. rewrite flatte_formula_parts. unfold flatte_term. rops.
  set (a := pip_mass R_ops). set (b := pi0_mass R_ops). set (c := kp_mass R_ops). set (d := k0_mass R_ops).
  destruct (rho_phase (4 * a * a) s (2 / 3) Ps) as [-> ->]. destruct (rho_phase (4 * b * b) s (1 / 3) Ps) as [-> ->].
  destruct (rho_phase (4 * c * c) s (/ 2) Ps) as [-> ->]. destruct (rho_phase (4 * d * d) s (/ 2) Ps) as [-> ->].
  rewrite <- propagator. rewrite !Rplus_0_l. unfold flatte_A, flatte_B.
  replace (4 * a ^ 2) with (4 * a * a) by ring. replace (4 * b ^ 2) with (4 * b * b) by ring.
  replace (4 * c ^ 2) with (4 * c * c) by ring. replace (4 * d ^ 2) with (4 * d * d) by ring. reflexivity.
Qed.
Lemma phase_space_sqrt : forall t s, 0 < s -> phase_space t s = (sqrt (1 - t / s), sqrt (t / s - 1)).
Proof.
  intros t s Ps. unfold phase_space, RtoC. destruct (Rle_dec t s) as [H|H]; f_equal; symmetry; apply sqrt_neg_0.
  - assert (t / s <= 1) by (apply Rcomplements.Rle_div_l; lra). lra.
  - assert (1 <= t / s) by (apply Rcomplements.Rle_div_r; lra). lra.
Qed.
Lemma phase_continuous : forall t s, 0 < s -> continuous (fun x => Re (phase_space t x)) s /\ continuous (fun x => Im (phase_space t x)) s.
Proof.
  intros t s Ps. assert (L : locally s (fun x => 0 < x)).
  { exists (mkposreal _ Ps). intros y By. unfold ball in By. cbn in By. unfold AbsRing_ball, abs, minus, plus, opp in By. cbn in By. apply Rabs_def2 in By. lra. }
  assert (D : continuous (fun x => t / x) s).
  { apply (continuous_mult (fun _ => t) (fun x => / x)); [apply continuous_const|]. apply continuous_Rinv. lra. }
  split.
  - apply (continuous_ext_loc _ (fun x => sqrt (1 - t / x))).
    + revert L. apply filter_imp. intros x Px. now rewrite phase_space_sqrt.
    + apply (continuous_comp (fun x => 1 - t / x) sqrt); [|apply continuous_sqrt].
      apply (continuous_minus (fun _ => 1) (fun x => t / x)); [apply continuous_const|exact D].
  - apply (continuous_ext_loc _ (fun x => sqrt (t / x - 1))).
    + revert L. apply filter_imp. intros x Px. now rewrite phase_space_sqrt.
    + apply (continuous_comp (fun x => t / x - 1) sqrt); [|apply continuous_sqrt].
      apply (continuous_minus (fun x => t / x) (fun _ => 1)); [exact D|apply continuous_const].
Qed.
Lemma phase_nonneg : forall t s, 0 <= Re (phase_space t s) /\ 0 <= Im (phase_space t s).
Proof.
  intros t s. unfold phase_space, RtoC, Re, Im. destruct (Rle_dec t s); cbn [fst snd]; split; try apply sqrt_pos; lra.
Qed.
Lemma flatte_denominator : forall m0 g1 g2 t1 t2 t3 t4 s, 0 < m0 -> 0 < g1 -> 0 <= g2 -> 0 < s -> 0 < t2 < t1 -> t2 <= m0 ^ 2 ->
  0 < flatte_A m0 g1 g2 t1 t2 t3 t4 s ^ 2 + flatte_B m0 g1 g2 t1 t2 t3 t4 s ^ 2.
Proof.
  intros m0 g1 g2 t1 t2 t3 t4 s Pm P1 P2 Ps Pt Q.
  destruct (phase_nonneg t1 s) as [R1 I1], (phase_nonneg t2 s) as [R2 I2], (phase_nonneg t3 s) as [R3 I3], (phase_nonneg t4 s) as [R4 I4].
  set (A := flatte_A _ _ _ _ _ _ _ _). set (B := flatte_B _ _ _ _ _ _ _ _).
  destruct (Rle_dec s t2) as [H|H].
  - assert (J : 0 < Im (phase_space t1 s)).
    { unfold phase_space. destruct (Rle_dec t1 s); [lra|]. cbn [Im snd]. apply sqrt_lt_R0. assert (1 < t1 / s) by (apply Rcomplements.Rlt_div_r; lra). lra. }
    assert (0 < A).
    { unfold A, flatte_A. assert (0 < 2 / 3 * Im (phase_space t1 s) + 1 / 3 * Im (phase_space t2 s)) by lra.
      assert (0 <= / 2 * Im (phase_space t3 s) + / 2 * Im (phase_space t4 s)) by lra. set (x := 2 / 3 * _ + _) in *. set (y := / 2 * _ + _) in *.
      assert (0 < x * g1) by nra. assert (0 <= y * g2) by nra. assert (0 < m0 * (x * g1 + y * g2)) by nra. nra. }
    assert (0 <= B ^ 2) by nra. assert (0 < A ^ 2) by nra. lra.
  - assert (J : 0 < Re (phase_space t2 s)).
    { unfold phase_space. destruct (Rle_dec t2 s); [|lra]. unfold RtoC. cbn [Re fst]. apply sqrt_lt_R0. assert (t2 / s < 1) by (apply Rcomplements.Rlt_div_l; lra). lra. }
    assert (0 < B).
    { unfold B, flatte_B. assert (0 < 2 / 3 * Re (phase_space t1 s) + 1 / 3 * Re (phase_space t2 s)) by lra.
      assert (0 <= / 2 * Re (phase_space t3 s) + / 2 * Re (phase_space t4 s)) by lra. set (x := 2 / 3 * _ + _) in *. set (y := / 2 * _ + _) in *.
      assert (0 < x * g1) by nra. assert (0 <= y * g2) by nra. nra. }
    assert (0 <= A ^ 2) by nra. assert (0 < B ^ 2) by nra. lra.
Qed.
Lemma flatte_continuous : forall m0 g1 g2 t1 t2 t3 t4 s, 0 < s ->
  0 < flatte_A m0 g1 g2 t1 t2 t3 t4 s ^ 2 + flatte_B m0 g1 g2 t1 t2 t3 t4 s ^ 2 ->
  let F := fun s => (/ (flatte_A m0 g1 g2 t1 t2 t3 t4 s, - flatte_B m0 g1 g2 t1 t2 t3 t4 s)%R)%C in
  continuous (fun x => Re (F x)) s /\ continuous (fun x => Im (F x)) s.
Proof.
  intros m0 g1 g2 t1 t2 t3 t4 s Ps N F.
  destruct (phase_continuous t1 s Ps) as [R1 I1], (phase_continuous t2 s Ps) as [R2 I2], (phase_continuous t3 s Ps) as [R3 I3], (phase_continuous t4 s Ps) as [R4 I4].
  assert (SC : forall c (f : R -> R), continuous f s -> continuous (fun x => c * f x) s).
  { intros c f H. apply (continuous_mult (fun _ => c) f); [apply continuous_const|exact H]. }
  assert (CS : forall c (f : R -> R), continuous f s -> continuous (fun x => f x * c) s).
  { intros c f H. apply (continuous_mult f (fun _ => c)); [exact H|apply continuous_const]. }
  assert (AD : forall f g : R -> R, continuous f s -> continuous g s -> continuous (fun x => f x + g x) s).
  { intros f g H H'. exact (continuous_plus f g s H H'). }
  assert (CA : continuous (fun x => flatte_A m0 g1 g2 t1 t2 t3 t4 x) s).
  { unfold flatte_A. apply (AD (fun x => m0 * m0 - x)).
    - apply (continuous_minus (fun _ => m0 * m0) (fun x => x)); [apply continuous_const|apply continuous_id].
    - apply SC, AD; apply CS, AD; apply SC; assumption. }
  assert (CB : continuous (fun x => flatte_B m0 g1 g2 t1 t2 t3 t4 x) s) by (unfold flatte_B; apply SC, AD; apply CS, AD; apply SC; assumption).
  assert (CN : continuous (fun x => / (flatte_A m0 g1 g2 t1 t2 t3 t4 x ^ 2 + (- flatte_B m0 g1 g2 t1 t2 t3 t4 x) ^ 2)) s).
  { apply (continuous_comp (fun x => flatte_A m0 g1 g2 t1 t2 t3 t4 x ^ 2 + (- flatte_B m0 g1 g2 t1 t2 t3 t4 x) ^ 2) Rinv); [|apply continuous_Rinv; nra].
    apply AD.
    - cbn [pow]. apply (continuous_mult (fun x => flatte_A m0 g1 g2 t1 t2 t3 t4 x)); [exact CA|]. now apply CS.
    - assert (CO : continuous (fun x => - flatte_B m0 g1 g2 t1 t2 t3 t4 x) s) by (exact (continuous_opp (fun x => flatte_B m0 g1 g2 t1 t2 t3 t4 x) s CB)).
      cbn [pow]. apply (continuous_mult (fun x => - flatte_B m0 g1 g2 t1 t2 t3 t4 x)); [exact CO|]. now apply CS. }
  split; unfold F, Cinv, Re, Im; cbn [fst snd].
  - apply (continuous_mult (fun x => flatte_A m0 g1 g2 t1 t2 t3 t4 x)); assumption.
  - apply (continuous_mult (fun x => - - flatte_B m0 g1 g2 t1 t2 t3 t4 x)); [|assumption].
    apply (continuous_ext (fun x => flatte_B m0 g1 g2 t1 t2 t3 t4 x)); [intro; now rewrite Ropp_involutive|exact CB].
Qed.

(** ** LASS *)
Lemma lass_spin0 : forall d m0 width a r R0 phiR B phiB cyc norm m12 m13 m23 q,
  let s := pair_mass cyc m12 m13 m23 in
  cyc = 0%nat \/ cyc = 2%nat -> 0 < s -> (let '(mA, mB, _) := pair_daughters d cyc in breakup (sqrt s) mA mB q) ->
  lass R_ops LL d m0 width a r R0 phiR B phiB 0 cyc norm m12 m13 m23 =
  Some (lass_core (m0 * m0) width a r R0 phiR B phiB 0 q
         (let '(mA, mB, _) := pair_daughters d cyc in two_body_mom R_ops (m0 * m0) mA mB) 1 s).
Proof.
  intros d m0 width a r R0 phiR B phiB cyc norm m12 m13 m23 q s Pc Ps K. rewrite lass_split. fold s.
  assert (E : lass_factors R_ops d 0 cyc norm (m0 * m0) s =
    Some (q, (let '(mA, mB, _) := pair_daughters d cyc in two_body_mom R_ops (m0 * m0) mA mB), 1, 1)).
  { destruct Pc as [-> | ->]; unfold lass_factors; cbn [pair_daughters] in *; rops; cbv zeta; do 4 f_equal; now apply two_body_breakup. }
  rewrite E. f_equal. rewrite dress_scaled. cbn [spin_factor]. rops. unfold scaled. rewrite sqrt_1, !Rmult_1_r. apply c_one_l.
Qed.
Lemma unitary_norm : forall x y, (1 - 2 * y) ^ 2 + (2 * x) ^ 2 = 1 -> unitary (x, y).
Proof.
  intros x y E. unfold unitary, Cmod. unfold Cplus, Cmult, RtoC, Ci. cbn [fst snd].
  match goal with |- sqrt ?X = 1 => replace X with 1; [apply sqrt_1|] end. etransitivity; [symmetry; exact E|ring].
Qed.
Lemma background_unitary : forall phi kappa q, 0 < q ->
  let t := (q * cos phi + kappa * sin phi) / (kappa * kappa + q * q) in
  unitary (t * (cos phi * kappa - sin phi * q), t * (sin phi * kappa + cos phi * q)).
Proof.
  intros phi kappa q Pq t. apply unitary_norm. pose proof (sin2_cos2 phi) as SC. unfold Rsqr in SC. set (c := cos phi) in *. set (s := sin phi) in *. clearbody c s.
  assert (K : 0 < kappa * kappa + q * q) by nra.
  assert (T : t * (kappa * kappa + q * q) = q * c + kappa * s) by (unfold t; field; lra).
  assert (U : t * t * (kappa * kappa + q * q) = t * (q * c + kappa * s)) by (rewrite <- T; ring). clearbody t.
  replace ((1 - 2 * (t * (s * kappa + c * q))) ^ 2 + (2 * (t * (c * kappa - s * q))) ^ 2)
    with (1 - 4 * (t * (q * c + kappa * s)) + 4 * (t * t * (kappa * kappa + q * q)) * (s * s + c * c)) by ring.
  rewrite SC, U. ring.
Qed.
Lemma lass_background : forall m width a r phiR phiB q q0 s, 0 < s -> a <> 0 -> 0 < q ->
  unitary (RtoC (q / sqrt s) * lass_core m width a r 0 phiR 1 phiB 0 q q0 1 s)%C.
Proof.
  intros m width a r phiR phiB q q0 s Ps Na Pq. pose proof (background_unitary phiB (1 / a + / 2 * r * q * q) q Pq) as U. cbv zeta in U.
  assert (S : 0 < sqrt s) by now apply sqrt_lt_R0.
  match goal with U : unitary ?x |- unitary ?y => replace y with x; [exact U|] end.
  unfold lass_core. set (prop := c_mul R_ops (c_scale R_ops (c_div R_ops (1, 0) _) _) _). destruct prop as [u v].
  unfold c_scale, c_add, c_mul, c_div, c_norm. rops. cbn [fst snd]. rops.
  replace (1 / (a * q) + / 2 * r * q) with ((1 / a + / 2 * r * q * q) / q) by (field; lra).
  set (kappa := 1 / a + / 2 * r * q * q). clearbody kappa. assert (K : 0 < kappa * kappa + q * q) by nra.
  unfold Cmult, RtoC. cbn [fst snd]. f_equal; field; repeat split; try lra; nra.
Qed.
Lemma lass_peak : forall m0 width a r q, 0 < m0 -> 0 < width -> a <> 0 -> 0 < q ->
  Cmod (1 + 2 * Ci * (RtoC (q / m0) * lass_core (m0 * m0)%R width a r 1 0 1 0 0 q q 1 (m0 * m0)%R))%C = 1 + 2 * m0.
Proof.
  intros m0 width a r q Pm Pw Na Pq. unfold lass_core. rewrite sqrt_square by lra. rewrite odd_power.
  replace (q / q) with 1 by (field; lra). rewrite pow1.
  replace (0 + 2 * 0) with 0 by ring. rewrite cos_0, sin_0.
  replace (1 / (a * q) + / 2 * r * q) with ((1 / a + / 2 * r * q * q) / q) by (field; lra).
  set (kappa := 1 / a + / 2 * r * q * q). clearbody kappa. assert (K : 0 < kappa * kappa + q * q) by nra.
  set (N := kappa * kappa + q * q) in *.
  assert (E : (1 + 2 * Ci * (RtoC (q / m0) *
     (c_add R_ops (c_mul R_ops (c_scale R_ops (1, 0) 1)
         (c_mul R_ops (c_scale R_ops (c_div R_ops (1, 0) (m0 * m0 - m0 * m0, m0 * (width * 1 * 1 / m0)))%R (m0 * m0 * width / q)%R) (c_div R_ops (kappa, q) (kappa, - q)%R)))
       (c_div R_ops (c_scale R_ops (c_scale R_ops (c_scale R_ops (1, 0) 1) (1 + kappa / q * 0)%R) m0) (kappa, - q)%R)))%C)%C
     = ((1 + 2 * m0) * ((kappa * kappa - q * q) / N), (1 + 2 * m0) * (2 * kappa * q / N))).
  { unfold c_scale, c_add, c_mul, c_div, c_norm. rops. cbn [fst snd]. rops. unfold Cmult, Cplus, Ci, RtoC. cbn [fst snd].
    replace (kappa * kappa + - q * - q) with N by (unfold N; ring). unfold N in *. f_equal; field; repeat split; try lra; nra. }
  cbv zeta. etransitivity; [exact (f_equal Cmod E)|]. unfold Cmod. cbn [fst snd].
  replace (((1 + 2 * m0) * ((kappa * kappa - q * q) / N)) ^ 2 + ((1 + 2 * m0) * (2 * kappa * q / N)) ^ 2) with ((1 + 2 * m0) * (1 + 2 * m0)).
  - apply sqrt_square. lra.
  - unfold N in *. field. lra.
Qed.
