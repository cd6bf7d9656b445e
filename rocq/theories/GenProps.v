(** C110, C111 and C112: GenerateSig of Amp3Body. *)
From Coq Require Import Reals List Lra Lia ZArith Bool Psatz.
From Coquelicot Require Import Complex.
From Verif Require Import FormulaSpec FormulaProofs KinModel KinSpec AmpModel AmpSpec AmpProofs AmpProps KinProps GenModel GenProofs.
From Verif Require LeafGen.
Import ListNotations.
Open Scope R_scope.

(** ** C110: what is returned *)

Lemma combine_nth_error : forall {A B} (l : list A) (l' : list B) e x y, nth_error l e = Some x -> nth_error l' e = Some y -> nth_error (combine l l') e = Some (x, y).
Proof. intros A B l. induction l as [|a l IH]; intros [|b l'] [|e] x y H1 H2; cbn in *; try discriminate; [congruence|now apply IH]. Qed.
Lemma seq_nth_error : forall n s e, (e < n)%nat -> nth_error (seq s n) e = Some (s + e)%nat.
Proof. induction n as [|n IH]; intros s [|e] H; cbn; [lia|lia|f_equal; lia|]. rewrite IH by lia. f_equal. lia. Qed.

Lemma flags_length : forall {A B} (h : nat * A -> B) (l : list A), length (map h (combine (seq 0 (length l)) l)) = length l.
Proof. intros A B h l. rewrite map_length, combine_length, seq_length. apply Nat.min_id. Qed.

(** For every number of events (at least one, at most 2^31), any momenta, phase-space weights and random numbers, and any PDF with any
    history: the momenta are returned; the variables are the squared masses of the pairs (1 2), (2 3) and (1 3) of these momenta; the weight is
    the phase-space weight times the value of the PDF for these squared masses over what normalize() returns; and an
    event is flagged if its random number times the largest weight is below its weight. *)
Theorem C110_returned : forall (c : call (T := R)) (k : kept (T := R)) (ds : list (daughters (T := R))) (pw : list R) (u : nat -> R),
  ds <> [] -> (Z.of_nat (length ds) <= 2147483648)%Z -> length pw = length ds ->
  exists k' g max, generate R_ops c k ds pw u = Some (k', g) /\
  let N := snd (normalize R_ops (gen_call R_ops c ds) k) in
  let '(m12s, m23s, m13s) := g_vars g in
  g_particles g = ds /\
  length m12s = length ds /\ length m23s = length ds /\ length m13s = length ds /\ length (g_weights g) = length ds /\ length (g_flags g) = length ds /\
  In max (g_weights g) /\ (forall w, In w (g_weights g) -> w <= max) /\
  forall e p1 p2 p3 w, nth_error ds e = Some (p1, p2, p3) -> nth_error pw e = Some w ->
    let v := w * (density c (minv (vadd p1 p2)) (minv (vadd p1 p3)) / N) in
    nth_error m12s e = Some (minv (vadd p1 p2)) /\ nth_error m23s e = Some (minv (vadd p2 p3)) /\ nth_error m13s e = Some (minv (vadd p1 p3)) /\
    nth_error (g_weights g) e = Some v /\
    (nth_error (g_flags g) e = Some true <-> u e * max < v) /\ (nth_error (g_flags g) e = Some false <-> v <= u e * max).
Proof.
  intros c k ds pw u NE BIG LEN.
  pose proof (results_are c k ds BIG (snd (normalize R_ops (gen_call R_ops c ds) k))) as RS. unfold generate. destruct (normalize R_ops (gen_call R_ops c ds) k) as [k' N]. cbn [fst snd] in *. rewrite RS.
  set (rs := map _ ds) in *. set (ws := map (fun rw => LeafGen.o_mul R_ops (fst rw) (snd rw)) (combine rs pw)).
  assert (Lr : length rs = length ds) by apply map_length.
  assert (Lw : length ws = length ds) by (unfold ws; rewrite (map_length _ (combine rs pw)), combine_length, Lr, LEN; apply Nat.min_id).
  destruct (max_is ws) as (M & EM & IM & UM). { intro Q. rewrite Q in Lw. cbn in Lw. destruct ds; [congruence|discriminate]. }
  unfold fill_flags. rewrite EM. eexists k', _, M. split; [reflexivity|]. cbn [g_vars g_particles g_weights g_flags].
  split; [reflexivity|]. split; [apply map_length|]. split; [apply map_length|]. split; [apply map_length|]. split; [exact Lw|].
  split; [rewrite flags_length; exact Lw|]. split; [exact IM|]. split; [exact UM|].
  intros e p1 p2 p3 w E W. cbv zeta. pose proof (nth_error_lt _ _ _ E) as L.
  assert (V : nth_error ws e = Some (w * (density c (minv (vadd p1 p2)) (minv (vadd p1 p3)) / N))).
  { unfold ws. rewrite nth_error_map. rewrite (combine_nth_error rs pw e (density c (minv (vadd p1 p2)) (minv (vadd p1 p3)) / N) w); [cbn [option_map fst snd LeafGen.o_mul R_ops]; f_equal; ring| |exact W].
    unfold rs. rewrite nth_error_map, E. reflexivity. }
  split; [unfold sg_m12; rewrite nth_error_map, E; cbn [option_map]; now rewrite dim2_minv|].
  split; [unfold sg_m23; rewrite nth_error_map, E; cbn [option_map]; now rewrite dim2_minv|].
  split; [unfold sg_m13; rewrite nth_error_map, E; cbn [option_map]; now rewrite dim2_minv|].
  split; [exact V|]. rewrite nth_error_map. assert (L' : (e < length ws)%nat) by (rewrite Lw; exact L). rewrite (combine_nth_error _ ws e e _ (seq_nth_error _ 0 e L') V). cbn [option_map fst snd LeafGen.o_lt LeafGen.o_mul R_ops].
  match goal with |- context [Rltb ?a ?b] => destruct (Rltb_spec a b) as [[X ->]|[X ->]] end; split; split; intro Q; try reflexivity; try exact X; try discriminate; lra.
Qed.
Print Assumptions C110_returned.

(** N above is the sum over the cells of the grid (C48), for grids with equally many bins in both directions. *)
Theorem C110_normalisation : forall (c : call (T := R)) (k : kept (T := R)) (ds : list (daughters (T := R))),
  n12 (range c) = n13 (range c) -> n12 (range c) <> O -> snd (normalize R_ops (gen_call R_ops c ds) k) = cells c.
Proof.
  intros c k ds SQ N0. unfold normalize. cbv zeta. cbn [snd]. rewrite (sum_integral_value _ _ (refresh_forced (gen_call R_ops c ds) k eq_refl)). cbn [fst RtoC]. rewrite <- (cells_value c SQ N0). reflexivity.
Qed.
Print Assumptions C110_normalisation.

(** For momenta of decays at rest and the kinematic limits of the code: no event is outside the limits, and the third pair mass that the resonances
    are given, M^2 + m1^2 + m2^2 + m3^2 - m12^2 - m13^2, is the one returned. *)
Theorem C110_decays : forall (c : call (T := R)) M m1 m2 m3 p1 p2 p3, 0 < M -> 0 <= m1 -> 0 <= m2 -> 0 <= m3 -> 0 < m1 + m2 \/ minv (vadd p1 p2) <> 0 ->
  inside c = (fun x y => LeafGen.in_dalitz R_ops x y M m1 m2 m3) ->
  on_shell p1 m1 -> on_shell p2 m2 -> on_shell p3 m3 -> vadd (vadd p1 p2) p3 = at_rest M ->
  density c (minv (vadd p1 p2)) (minv (vadd p1 p3)) = intensity c (minv (vadd p1 p2)) (minv (vadd p1 p3)) * eff c (minv (vadd p1 p2)) (minv (vadd p1 p3)) /\
  minv (vadd p2 p3) = M ^ 2 + m1 ^ 2 + m2 ^ 2 + m3 ^ 2 - minv (vadd p1 p2) - minv (vadd p1 p3).
Proof.
  intros c M m1 m2 m3 p1 p2 p3 HM H1 H2 H3 HZ IN S1 S2 S3 E.
  assert (B : forall p m, 0 <= m -> on_shell p m -> m <= ve p).
  { intros [x y z e] m Hm [A P]. unfold minv in A. cbn [vx vy vz ve] in *. pose proof (pow2_ge_0 x). pose proof (pow2_ge_0 y). pose proof (pow2_ge_0 z). nra. }
  assert (SUM : m1 + m2 + m3 <= M).
  { pose proof (B _ _ H1 S1). pose proof (B _ _ H2 S2). pose proof (B _ _ H3 S3). apply (f_equal ve) in E. cbn [vadd at_rest ve] in E. lra. }
  assert (D : inside c (minv (vadd p1 p2)) (minv (vadd p1 p3)) = true).
  { rewrite IN. apply C46_boundary_partial; try assumption. exists p1, p2, p3. repeat split; try assumption; try apply S1; try apply S2; try apply S3. }
  split; [unfold density; now rewrite D|].
  assert (T : minv (vadd p1 p2) + minv (vadd p1 p3) + minv (vadd p2 p3) = minv (vadd (vadd p1 p2) p3) + minv p1 + minv p2 + minv p3).
  { destruct p1 as [x1 y1 z1 e1], p2 as [x2 y2 z2 e2], p3 as [x3 y3 z3 e3]. unfold minv, vadd. cbn [vx vy vz ve]. ring. }
  destruct S1 as [S1 _], S2 as [S2 _], S3 as [S3 _]. rewrite E, S1, S2, S3 in T. unfold minv at 4, at_rest in T. cbn [vx vy vz ve] in T. lra.
Qed.
Print Assumptions C110_decays.

(** An event of the largest weight, if that is positive, is flagged for every random number below 1; an event of weight 0 never is. *)
Theorem C110_extremes : forall (c : call (T := R)) (k : kept (T := R)) ds pw u k' g e v, generate R_ops c k ds pw u = Some (k', g) ->
  (forall e, 0 <= u e < 1) -> nth_error (g_weights g) e = Some v ->
  ((forall w, In w (g_weights g) -> w <= v) -> 0 < v -> nth_error (g_flags g) e = Some true) /\
  ((forall w, In w (g_weights g) -> 0 <= w) -> v = 0 -> nth_error (g_flags g) e = Some false).
Proof.
  intros c k ds pw u k' g e v G U V. unfold generate in G. destruct (normalize R_ops (gen_call R_ops c ds) k) as [k1 N]. destruct (results R_ops c ds k1 N) as [rs|]; [|discriminate].
  set (ws := map _ (combine rs pw)) in *. unfold fill_flags in G. destruct ws as [|w0 ws0] eqn:EW; [discriminate|]. rewrite <- EW in *.
  destruct (max_is ws) as (M & EM & IM & UM); [rewrite EW; discriminate|]. rewrite EM in G. injection G as <- <-. cbn [g_weights g_flags] in *.
  pose proof (nth_error_lt _ _ _ V) as L. pose proof (nth_error_In _ _ V) as IV.
  rewrite nth_error_map, (combine_nth_error _ ws e e _ (seq_nth_error _ 0 e L) V). cbn [option_map fst snd LeafGen.o_lt LeafGen.o_mul R_ops]. pose proof (U e) as Ue. split; intros A B.
  - assert (M = v) by (apply Rle_antisym; [now apply A|now apply UM]). subst M. destruct (Rltb_spec (u e * v) v) as [[X ->]|[X _]]; [reflexivity|]. exfalso. nra.
  - pose proof (A M IM). destruct (Rltb_spec (u e * M) v) as [[X _]|[X ->]]; [|reflexivity]. exfalso. subst v. nra.
Qed.
Print Assumptions C110_extremes.

(** Two decays of a particle of mass 12 to massless ones, along a line and in a plane; PDF value m12^4, normalisation 1/4. *)
Definition exd : list (daughters (T := R)) :=
  [(mkV 6 0 0 6, mkV (-4) 0 0 4, mkV (-2) 0 0 2); (mkV 0 3 4 5, mkV 0 (-3) 0 3, mkV 0 0 (-4) 4)].
Definition exg : call (T := R) :=
  mkCall [(1, 0)] (fun _ x _ => (x, 0)) (fun _ _ => 1) (fun _ _ => true) (mkGrid 0 1 1 0 1 1) [(7, 1)] true (fun _ => false).
Lemma exg_density : forall x y, density exg x y = x * x.
Proof.
  intros x y. unfold density. cbn [exg inside eff]. unfold intensity, amplitude, Ctotal. cbn [exg amps length seq map fold_right nth bw]. unfold Cmod. rewrite pow2_sqrt by (cbn; nra). unfold Cplus, Cmult, RtoC. cbn [fst snd]. ring.
Qed.
Lemma exg_cells : cells exg = / 4.
Proof. unfold cells, Rtotal. cbn [exg range n12 n13 seq map fold_right]. rewrite exg_density. unfold mid. cbn [exg range lo12 up12 lo13 up13 INR]. field. Qed.
Example C110_ex : exists k' g, generate R_ops exg (kept0 R_ops) exd [1; 2] (fun _ => / 2) = Some (k', g) /\
  g_vars g = ([96; 48], [0; 24], [48; 72]) /\ g_weights g = [36864; 18432] /\ g_flags g = [true; false].
Proof.
  destruct (C110_returned exg (kept0 R_ops) exd [1; 2] (fun _ => / 2)) as (k' & g & M & G & H); [discriminate|cbn; lia|reflexivity|].
  exists k', g. split; [exact G|]. rewrite C110_normalisation, exg_cells in H by (reflexivity || discriminate). cbv zeta in H.
  destruct g as [gp [[a b] d] w f]. cbn [g_vars g_particles g_weights g_flags] in *. destruct H as (_ & La & Lb & Ld & Lw & Lf & IM & UM & H).
  destruct (H 0%nat _ _ _ _ eq_refl eq_refl) as (A0 & B0 & D0 & W0 & F0 & _). destruct (H 1%nat _ _ _ _ eq_refl eq_refl) as (A1 & B1 & D1 & W1 & _ & F1). clear H.
  rewrite exg_density in *. unfold minv, vadd in *. cbn [vx vy vz ve] in *.
  destruct a as [|a0 [|a1 [|]]]; try discriminate. destruct b as [|b0 [|b1 [|]]]; try discriminate. destruct d as [|d0 [|d1 [|]]]; try discriminate. destruct w as [|w0 [|w1 [|]]]; try discriminate. destruct f as [|f0 [|f1 [|]]]; try discriminate.
  cbn [nth_error] in *. injection A0 as ->. injection A1 as ->. injection B0 as ->. injection B1 as ->. injection D0 as ->. injection D1 as ->. injection W0 as ->. injection W1 as ->.
  assert (M = 36864).
  { apply Rle_antisym; [destruct IM as [<-|[<-|[]]]; lra|]. eapply Rle_trans; [|apply UM; left; reflexivity]. lra. }
  subst M. split; [repeat f_equal; ring|]. split; [repeat f_equal; field|].
  assert (X0 : Some f0 = Some true) by (apply F0; lra). assert (X1 : Some f1 = Some false) by (apply F1; lra). congruence.
Qed.

(** ** C111: the fit after a generation *)

Lemma honest_after : forall cs c (x y : call (T := R)), honest (cs ++ [c]) -> force x = true -> force y = true -> honest ((cs ++ [c; x]) ++ [y]).
Proof.
  intros cs c x y H Fx Fy. rewrite <- app_assoc. cbn [app]. destruct H as [H1 H2]. split; [destruct cs; exact H1|]. clear - H2 Fx Fy.
  induction cs as [|a cs IH]; [cbn; repeat split; now left|].
  destruct cs as [|b cs]; cbn in H2 |- *; [|destruct H2 as [H2 H3]; split; [exact H2|]; now apply IH]. destruct H2 as [H2 _]. repeat split; [exact H2| |]; now left.
Qed.
Lemma values_fresh : forall c k, fresh c k -> values R_ops c k = map (fun xy => density c (fst xy) (snd xy)) (events c).
Proof.
  intros c k F. unfold values.
  transitivity (map (fun e => let xy := nth e (events c) (0, 0) in coherent R_ops c k e (fst xy) (snd xy)) (seq 0 (length (events c)))).
  - set (h := fun e => let xy := nth e (events c) (0, 0) in coherent R_ops c k e (fst xy) (snd xy)).
    assert (Q : forall l l' n, (forall i, (i < length l)%nat -> nth i l (0, 0) = nth (n + i) l' (0, 0)) ->
       map (fun ep : nat * (R * R) => coherent R_ops c k (fst ep) (fst (snd ep)) (snd (snd ep))) (combine (seq n (length l)) l) = map (fun e => let xy := nth e l' (0, 0) in coherent R_ops c k e (fst xy) (snd xy)) (seq n (length l))).
    { induction l as [|p l IH]; intros l' n H; cbn [length seq combine map fst snd]; [reflexivity|]. f_equal.
      - pose proof (H 0%nat ltac:(cbn; lia)) as E. cbn [nth] in E. rewrite Nat.add_0_r in E. now rewrite E.
      - apply IH. intros i Hi. specialize (H (S i) ltac:(cbn; lia)). cbn [nth] in H. rewrite H. f_equal. lia. }
    apply Q. reflexivity.
  - apply map_seq_nth. intros e [x y] E. cbv zeta. rewrite (nth_error_nth _ _ (0, 0) E). cbn [fst snd]. now apply coherent_value.
Qed.

(** Whatever was generated, normalize() returns afterwards what it returned before. *)
Theorem C111_normalisation : forall (cs : list (call (T := R))) (c : call (T := R)) (ds : list (daughters (T := R))), honest (cs ++ [c]) ->
  snd (calls R_ops (cs ++ [c; gen_call R_ops c ds; after_gen R_ops c ds])) = snd (calls R_ops (cs ++ [c])).
Proof.
  intros cs c ds H. destruct (calls_fresh cs c H) as [F V]. destruct (calls_fresh _ _ (honest_after cs c (gen_call R_ops c ds) (after_gen R_ops c ds) H eq_refl eq_refl)) as [F' V'].
  rewrite <- app_assoc in F', V'. cbn [app] in F', V'. rewrite V, V'. rewrite (sum_integral_value _ _ F), (sum_integral_value _ _ F'). reflexivity.
Qed.
Print Assumptions C111_normalisation.

(** If the user attaches the data again, the PDF has its values at the data as before, provided that there are not more events in it than were generated
    (or that setDataSize is called: then [cap] is their number). *)
Theorem C111_attached_again_partial : forall (cs : list (call (T := R))) (c : call (T := R)) (ds : list (daughters (T := R))) cap, honest (cs ++ [c]) ->
  cap = length ds \/ cap = length (events c) -> (length (events c) <= cap)%nat ->
  exists k n, normalize_cap R_ops cap (after_set_data c (events c)) (fst (calls R_ops (cs ++ [c; gen_call R_ops c ds]))) = Some (k, n) /\
    Some n = snd (calls R_ops (cs ++ [c])) /\ values R_ops (after_set_data c (events c)) k = values R_ops c (fst (calls R_ops (cs ++ [c]))).
Proof.
  intros cs c ds cap H _ L. unfold normalize_cap. change (events (after_set_data c (events c))) with (events c). apply Nat.leb_le in L. rewrite L.
  destruct (calls_fresh cs c H) as [F V].
  set (c2 := after_set_data c (events c)). set (k0 := fst (calls R_ops (cs ++ [c; gen_call R_ops c ds]))).
  pose proof (refresh_forced c2 k0 eq_refl) as F2. eexists _, _. split; [unfold normalize; reflexivity|]. split.
  - rewrite V. f_equal. cbn [LeafGen.o_mul R_ops]. rewrite (sum_integral_value _ _ F), (sum_integral_value _ _ F2). reflexivity.
  - rewrite (values_fresh _ _ F), (values_fresh _ _ F2). reflexivity.
Qed.
Print Assumptions C111_attached_again_partial.

(** If not, the PDF is evaluated for the generated events, one value for each of them, whatever the data were; and with setData alone and more events
    than were generated, the next normalize() writes beyond the end of the waves. *)
Theorem C111_data_refuted :
  (forall (cs : list (call (T := R))) (c : call (T := R)) (ds : list (daughters (T := R))), honest (cs ++ [c]) ->
     values R_ops (after_gen R_ops c ds) (fst (calls R_ops (cs ++ [c; gen_call R_ops c ds; after_gen R_ops c ds]))) =
     map (fun d => let '(p1, p2, p3) := d in density c (minv (vadd p1 p2)) (minv (vadd p1 p3))) ds) /\
  (forall c k (ds : list (daughters (T := R))), (length ds < length (events c))%nat -> normalize_cap R_ops (length ds) (after_set_data c (events c)) k = None) /\
  honest [exg] /\ events exg = [(7, 1)] /\
  values R_ops exg (fst (calls R_ops [exg])) = [49] /\
  values R_ops (after_gen R_ops exg exd) (fst (calls R_ops [exg; gen_call R_ops exg exd; after_gen R_ops exg exd])) = [9216; 2304].
Proof.
  assert (G : forall (cs : list (call (T := R))) (c : call (T := R)) (ds : list (daughters (T := R))), honest (cs ++ [c]) ->
     values R_ops (after_gen R_ops c ds) (fst (calls R_ops (cs ++ [c; gen_call R_ops c ds; after_gen R_ops c ds]))) =
     map (fun d => let '(p1, p2, p3) := d in density c (minv (vadd p1 p2)) (minv (vadd p1 p3))) ds).
  { intros cs c ds H. destruct (calls_fresh _ _ (honest_after cs c (gen_call R_ops c ds) (after_gen R_ops c ds) H eq_refl eq_refl)) as [F' _].
    rewrite <- app_assoc in F'. cbn [app] in F'. rewrite (values_fresh _ _ F'). change (events (after_gen R_ops c ds)) with (device_events R_ops (event_array R_ops ds) (length ds)).
    rewrite device_events_are, map_map. apply map_ext. intros [[p1 p2] p3]. reflexivity. }
  assert (H : honest [exg]) by (split; [reflexivity|exact I]).
  split; [exact G|]. split.
  { intros c k ds L. unfold normalize_cap. change (events (after_set_data c (events c))) with (events c). now rewrite (proj2 (Nat.leb_gt _ _) L). }
  split; [exact H|]. split; [reflexivity|]. split.
  - destruct (calls_fresh [] exg H) as [F _]. cbn [app] in F. rewrite (values_fresh _ _ F). cbn [exg events map fst snd]. fold exg. rewrite exg_density. f_equal. ring.
  - pose proof (G [] exg exd H) as Q. cbn [app] in Q. rewrite Q. cbn [exd map]. rewrite !exg_density. unfold minv, vadd. cbn [vx vy vz ve]. repeat f_equal; ring.
Qed.
Print Assumptions C111_data_refuted.

(** The hypotheses of the second theorem hold for the example: one event of data, two generated. *)
Example C111_ex : honest ([] ++ [exg]) /\ (length (events exg) <= length exd)%nat.
Proof. repeat split; cbn; lia. Qed.

(** ** C112: momenta in Python *)

(** From the arrays of the four-body PDFs every momentum can be read back: particle i of event j has E, px, py, pz at (i, j, 0) to (i, j, 3). *)
Theorem C112_four_body_partial : forall (ps : list (list (vec4 R))) i j p, option_map (fun l => nth_error l j) (nth_error ps i) = Some (Some p) ->
  option_map (fun l => nth_error l j) (nth_error (py_particles4 ps) i) = Some (Some [ve p; vx p; vy p; vz p]).
Proof.
  intros ps i j p H. unfold py_particles4, py_particles. rewrite nth_error_map. destruct (nth_error ps i) as [l|]; [|discriminate]. cbn [option_map] in *. injection H as H.
  rewrite nth_error_map, H. reflexivity.
Qed.
Print Assumptions C112_four_body_partial.

(** For Amp3Body the z components are missing: two different decays at rest (mirror images) give the same array, whatever the other events. *)
Theorem C112_three_body_refuted :
  (forall ds : list (daughters (T := R)), forall i j v, option_map (fun l => nth_error l j) (nth_error (py_particles3 ds) i) = Some (Some v) -> length v = 3%nat) /\
  (forall (before after : list (daughters (T := R))), exists p1 p2 p3 q1 q2 q3,
     on_shell p1 0 /\ on_shell p2 0 /\ on_shell p3 0 /\ vadd (vadd p1 p2) p3 = at_rest 12 /\
     on_shell q1 0 /\ on_shell q2 0 /\ on_shell q3 0 /\ vadd (vadd q1 q2) q3 = at_rest 12 /\
     vz p1 <> vz q1 /\ py_particles3 (before ++ (p1, p2, p3) :: after) = py_particles3 (before ++ (q1, q2, q3) :: after)).
Proof.
  split.
  - intros ds i j v H. unfold py_particles3, py_particles in H. cbn [map] in H. destruct i as [|[|[|[|i]]]]; cbn [nth_error option_map] in H; try discriminate; injection H as H; rewrite nth_error_map in H;
      (destruct (nth_error _ j) in H; [|discriminate]); injection H as <-; reflexivity.
  - intros before after. exists (mkV 0 3 4 5), (mkV 0 (-3) 0 3), (mkV 0 0 (-4) 4), (mkV 0 3 (-4) 5), (mkV 0 (-3) 0 3), (mkV 0 0 4 4).
    unfold on_shell, minv, vadd, at_rest. cbn [vx vy vz ve]. repeat split; try lra; try (f_equal; lra).
    unfold py_particles3, py_particles. cbn [map]. rewrite !map_app. cbn [map fst snd seq vget ve vx vy]. reflexivity.
Qed.
Print Assumptions C112_three_body_refuted.
(** A particle of a four-body event. *)
Example C112_ex : py_particles4 [[mkV 1 2 3 4]] = [[[4; 1; 2; 3]]] /\ py_particles3 [(mkV 1 2 3 4, mkV 0 0 0 1, mkV 5 6 7 8)] = [[[4; 1; 2]]; [[1; 0; 0]]; [[8; 5; 6]]].
Proof. split; reflexivity. Qed.
