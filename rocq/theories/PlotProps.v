(** C108 and C109: DalitzPlotter. *)
From Coq Require Import Reals List Lra Lia ZArith Bool Psatz.
From Coquelicot Require Import Complex.
From Verif Require Import FormulaSpec KinModel KinSpec AmpModel AmpSpec AmpProofs AmpProps KinProps PlotModel PlotProofs.
From Verif Require LeafGen.
Import ListNotations.
Open Scope R_scope.

(** Middle of cell (i, j) of the grid of a PDF. *)
Definition middle (c : call (T := R)) (i j : nat) : R * R :=
  (mid (lo12 (range c)) (up12 (range c)) (n12 (range c)) i, mid (lo13 (range c)) (up13 (range c)) (n13 (range c)) j).

(** The histogram of make2D, for a PDF with any history: in bin (1 + i, 1 + j) the normalised value of the PDF in the middle of that cell
    (0 outside the kinematic limits), nothing in underflow and overflow, and contents times the area of a cell add up to 1.  The
    entries: the cells inside the limits, each once, with their value. *)
Theorem C108_histogram_partial : forall (c : call (T := R)) (k : kept (T := R)),
  n12 (range c) = n13 (range c) -> n12 (range c) <> 0%nat -> cells c <> 0 ->
  let p := snd (make_plotter R_ops c k) in let h := make_2d R_ops p in let g := range c in
  (forall i j, (i < n12 g)%nat -> (j < n13 g)%nat -> h (S i) (S j) = density c (fst (middle c i j)) (snd (middle c i j)) / cells c) /\
  (forall a b, (a = 0 \/ b = 0 \/ n12 g < a \/ n13 g < b)%nat -> h a b = 0) /\
  Rtotal (n13 g) (fun j => Rtotal (n12 g) (fun i => h (S i) (S j) * ((up12 g - lo12 g) / INR (n12 g) * ((up13 g - lo13 g) / INR (n13 g))))) = 1 /\
  (forall i j, (exists e, get_bin p e = Some (i, j)) <-> (i < n12 g)%nat /\ (j < n13 g)%nat /\ inside c (fst (middle c i j)) (snd (middle c i j)) = true) /\
  (forall e e' b, get_bin p e = Some b -> get_bin p e' = Some b -> e = e') /\
  (forall e i j, get_bin p e = Some (i, j) -> nth_error (p_points p) e = Some (middle c i j) /\ get_val p e = Some (h (S i) (S j))).
Proof.
  intros c k SQ N0 C0 p h g. split; [|split; [|split; [|split; [|split]]]].
  - intros i j Hi Hj. now apply plot_2d.
  - intros a b H. now apply plot_2d_out.
  - transitivity (Rtotal (n13 g) (fun j => Rtotal (n12 g) (fun i =>
      density c (mid (lo12 g) (up12 g) (n12 g) i) (mid (lo13 g) (up13 g) (n13 g) j) * ((up12 g - lo12 g) / INR (n12 g) * ((up13 g - lo13 g) / INR (n13 g))))) * / cells c).
    + rewrite Rtotal_mult_r. apply Rtotal_ext. intros j Hj. rewrite Rtotal_mult_r. apply Rtotal_ext. intros i Hi. unfold h, p. rewrite plot_2d by assumption. unfold at_. cbn [fst snd]. fold g. unfold Rdiv. ring.
    + change (cells c * / cells c = 1). now apply Rinv_r.
  - intros i j. change (middle c i j) with (at_ c i j). unfold g. rewrite <- (bins_in c i j). unfold get_bin, p. rewrite plot_bins. split; [intros [e H]; now apply nth_error_In in H|apply In_nth_error].
  - intros e e' b H H'. unfold get_bin, p in *. rewrite plot_bins in *. pose proof (bins_nodup (inside c) (range c)) as ND. rewrite NoDup_nth_error in ND. apply ND; [apply nth_error_Some; congruence|congruence].
  - intros e i j H. unfold get_bin, p in H. rewrite plot_bins in H. split.
    + unfold p. rewrite plot_points, nth_error_map, H. reflexivity.
    + unfold get_val, p. rewrite plot_vals by assumption. rewrite nth_error_map, H. cbn [option_map fst snd]. f_equal. symmetry. apply nth_error_In, bins_in in H. unfold h, p. apply plot_2d; tauto.
Qed.
Print Assumptions C108_histogram_partial.

(** getZval is not the square of the third pair mass: a decay of a particle of mass 10 to massless particles, cell in the middle of which
    m12^2 = 4 and m13^2 = 80; then m23^2 = 16, and getZval returns -6316. *)
Definition exz : call (T := R) :=
  mkCall [(1, 0)] (fun _ _ _ => (1, 0)) (fun _ _ => 1) (fun x y => LeafGen.in_dalitz R_ops x y 10 0 0 0) (mkGrid 3 5 1 60 100 1) [] true (fun _ => false).
Lemma exz_middle : middle exz 0 0 = (4, 80).
Proof. unfold middle, mid, exz. cbn [range lo12 up12 n12 lo13 up13 n13 INR]. f_equal; field. Qed.
Lemma exz_cells : cells exz = 80.
Proof.
  unfold cells, Rtotal, mid, density. cbn [exz range n12 n13 lo12 up12 lo13 up13 seq map fold_right inside eff INR].
  replace (3 + (0 + / 2) * ((5 - 3) / 1)) with 4 by field. replace (60 + (0 + / 2) * ((100 - 60) / 1)) with 80 by field. rewrite massless_in by lra.
  unfold intensity, amplitude, Ctotal. cbn [exz amps length seq map fold_right nth bw]. unfold Cmod. rewrite pow2_sqrt by (cbn; nra). unfold Cplus, Cmult, RtoC. cbn [fst snd]. field.
Qed.
Theorem C108_third_mass_refuted : exists (c : call (T := R)) (k : kept (T := R)) M x y z,
  let p := snd (make_plotter R_ops c k) in
  nth_error (p_points p) 0 = Some (x, y) /\ get_zval R_ops M p 0 = Some z /\
  dalitz_point M 0 0 0 x y /\ (forall p1 p2 p3, on_shell p1 0 -> on_shell p2 0 -> on_shell p3 0 -> vadd (vadd p1 p2) p3 = at_rest M ->
     minv (vadd p1 p2) = x -> minv (vadd p1 p3) = y -> minv (vadd p2 p3) = 16) /\ z = -6316.
Proof.
  exists exz, (kept0 R_ops), 10, 4, 80, (-6316). cbv zeta.
  assert (P : nth_error (p_points (snd (make_plotter R_ops exz (kept0 R_ops)))) 0 = Some (4, 80)).
  { destruct (C108_histogram_partial exz (kept0 R_ops) eq_refl ltac:(discriminate) ltac:(rewrite exz_cells; lra)) as (_ & _ & _ & I & U & V).
    assert (X : exists e, get_bin (snd (make_plotter R_ops exz (kept0 R_ops))) e = Some (0%nat, 0%nat)).
    { apply I. cbn [exz range n12 n13]. split; [lia|]. split; [lia|]. rewrite exz_middle. cbn [fst snd exz inside]. apply massless_in. lra. }
    destruct X as [e X]. assert (E0 : e = 0%nat).
    { destruct e as [|e]; [reflexivity|exfalso]. destruct (get_bin (snd (make_plotter R_ops exz (kept0 R_ops))) 0) as [[i j]|] eqn:Z.
      - assert (Y : (i < 1)%nat /\ (j < 1)%nat) by (pose proof (proj1 (I i j) (ex_intro _ _ Z)) as W; cbn [exz range n12 n13] in W; tauto).
        assert (i = 0%nat) by lia. assert (j = 0%nat) by lia. subst. discriminate (U _ _ _ Z X).
      - unfold get_bin in Z, X. apply nth_error_None in Z. assert (S e < 0)%nat; [|lia]. eapply Nat.lt_le_trans; [apply nth_error_Some; rewrite X; discriminate|exact Z]. }
    subst e. destruct (V _ _ _ X) as [W _]. rewrite W, exz_middle. reflexivity. }
  split; [exact P|]. split.
  { unfold get_zval. rewrite P. cbn [LeafGen.o_sub LeafGen.o_mul R_ops]. f_equal. ring. }
  split; [|split; [|reflexivity]].
  - apply C46_boundary_partial; try lra; try (right; lra). apply massless_in. lra.
  - intros p1 p2 p3 [S1 _] [S2 _] [S3 _] E E12 E13.
    assert (T : minv (vadd p1 p2) + minv (vadd p1 p3) + minv (vadd p2 p3) = minv (vadd (vadd p1 p2) p3) + minv p1 + minv p2 + minv p3).
    { destruct p1 as [x1 y1 z1 e1], p2 as [x2 y2 z2 e2], p3 as [x3 y3 z3 e3]. unfold minv, vadd. cbn [vx vy vz ve]. ring. }
    rewrite E, S1, S2, S3, E12, E13 in T. unfold minv at 2, at_rest in T. cbn [vx vy vz ve] in T. lra.
Qed.
Print Assumptions C108_third_mass_refuted.

(** A plot of this PDF: the value in the only bin is 1 over the area. *)
Example C108_ex : let h := make_2d R_ops (snd (make_plotter R_ops exz (kept0 R_ops))) in h 1%nat 1%nat = / 80 /\ h 0%nat 1%nat = 0 /\ h 2%nat 1%nat = 0.
Proof.
  cbv zeta. destruct (C108_histogram_partial exz (kept0 R_ops) eq_refl ltac:(discriminate) ltac:(rewrite exz_cells; lra)) as (H & Z & _).
  split; [|split; apply Z; cbn [exz range n12 n13]; lia]. rewrite (H 0%nat 0%nat) by (cbn [exz range n12 n13]; lia). rewrite exz_middle, exz_cells. cbn [fst snd]. unfold density. cbn [exz inside eff].
  rewrite massless_in by lra. unfold intensity, amplitude, Ctotal. cbn [exz amps length seq map fold_right nth bw]. unfold Cmod. rewrite pow2_sqrt by (cbn; nra). unfold Cplus, Cmult, RtoC. cbn [fst snd]. field.
Qed.

(** ** C109: the fit after a plot *)

(** When the user calls setDataSize again after making the plot, the next evaluation of the fit gives what it gave before it. *)
Theorem C109_announced_partial : forall (cs : list (call (T := R))) (c : call (T := R)), honest (cs ++ [c]) ->
  let before := calls R_ops (cs ++ [c]) in let after := calls R_ops (cs ++ [c; plot_call R_ops c; fit_after_size c]) in
  snd after = snd before /\
  forall e x y, nth_error (events c) e = Some (x, y) -> coherent R_ops (fit_after_size c) (fst after) e x y = coherent R_ops c (fst before) e x y.
Proof.
  intros cs c H before after.
  assert (H' : honest ((cs ++ [c; plot_call R_ops c]) ++ [fit_after_size c])).
  { rewrite <- app_assoc. cbn [app]. destruct H as [H1 H2]. split; [destruct cs; exact H1|]. clear - H2. induction cs as [|a cs IH]; [cbn; repeat split; left; reflexivity|].
    destruct cs as [|b cs]; cbn in H2 |- *; [|destruct H2 as [H2 H3]; split; [exact H2|]; now apply IH]. destruct H2 as [H2 _]. repeat split; [exact H2| |]; left; reflexivity. }
  destruct (calls_fresh cs c H) as [F V]. destruct (calls_fresh _ _ H') as [F' V']. rewrite <- app_assoc in F', V'. cbn [app] in F', V'.
  split.
  - unfold after, before. rewrite V, V'. rewrite (sum_integral_value _ _ F), (sum_integral_value _ _ F'). reflexivity.
  - intros e x y E. unfold before, after. rewrite (coherent_value _ _ _ _ _ F E). rewrite (coherent_value _ _ e x y F' E). reflexivity.
Qed.
Print Assumptions C109_announced_partial.

(** Without that call (the data set is attached again by the plotter itself) the events are evaluated with the waves of the plot: event
    number e of the fit gets the amplitude of the e-th cell of the plot. *)
Theorem C109_stale_refuted :
  (forall (cs : list (call (T := R))) (c : call (T := R)) e x y i j,
     nth_error (bins R_ops (inside c) (range c)) e = Some (i, j) -> inside c x y = true ->
     coherent R_ops (fit_after c) (fst (calls R_ops (cs ++ [c; plot_call R_ops c; fit_after c]))) e x y
       = intensity c (fst (middle c i j)) (snd (middle c i j)) * eff c x y) /\
  exists c : call (T := R), honest [c] /\ nth_error (events c) 0 = Some (4, 0) /\
    coherent R_ops c (fst (calls R_ops [c])) 0 4 0 = 0 /\
    coherent R_ops (fit_after c) (fst (calls R_ops [c; plot_call R_ops c; fit_after c])) 0 4 0 = 6400.
Proof.
  assert (G : forall (cs : list (call (T := R))) (c : call (T := R)) e x y i j,
     nth_error (bins R_ops (inside c) (range c)) e = Some (i, j) -> inside c x y = true ->
     coherent R_ops (fit_after c) (fst (calls R_ops (cs ++ [c; plot_call R_ops c; fit_after c]))) e x y
       = intensity c (fst (middle c i j)) (snd (middle c i j)) * eff c x y).
  { intros cs c e x y i j H I.
    set (k0 := fst (calls R_ops (cs ++ [c]))).
    assert (E : fst (calls R_ops (cs ++ [c; plot_call R_ops c; fit_after c])) = refresh R_ops (fit_after c) (refresh R_ops (plot_call R_ops c) k0)).
    { unfold k0. change [c; plot_call R_ops c; fit_after c] with ([c] ++ [plot_call R_ops c; fit_after c]). rewrite app_assoc. unfold calls. rewrite (fold_left_app _ (cs ++ [c])). cbn [fold_left].
      destruct (fold_left _ (cs ++ [c]) _) as [kk rr]. reflexivity. }
    rewrite E. clear E.
    set (c1 := mkCall (amps c) (bw c) (fun _ _ => 1) (inside c) (range c) (events (plot_call R_ops c)) true (changed c)).
    pose proof (refresh_forced c1 k0 eq_refl) as F.
    assert (P : nth_error (events c1) e = Some (middle c i j)) by (cbn [c1 plot_call events]; rewrite nth_error_map, H; cbn [option_map]; now rewrite point_mid).
    assert (IN : inside c (fst (middle c i j)) (snd (middle c i j)) = true) by (apply nth_error_In, bins_in in H; apply H).
    pose proof (coherent_value c1 _ e (fst (middle c i j)) (snd (middle c i j)) F ltac:(rewrite P; now rewrite <- surjective_pairing)) as V.
    set (m := middle c i j) in *. unfold density, coherent in V. change (inside c1) with (inside c) in V. rewrite IN in V. change (eff c1) with (fun _ _ : R => 1) in V. cbn [LeafGen.o_mul R_ops] in V. rewrite !Rmult_1_r in V.
    unfold coherent. change (inside (fit_after c)) with (inside c). rewrite I. change (eff (fit_after c)) with (eff c). cbn [LeafGen.o_mul R_ops]. f_equal. exact V. }
  split; [exact G|].
  set (c := mkCall [(1, 0)] (fun _ _ y => (y, 0)) (fun _ _ => 1) (fun x y => LeafGen.in_dalitz R_ops x y 10 0 0 0) (mkGrid 3 5 1 60 100 1) [(4, 0)] true (fun _ => false)).
  assert (M : middle c 0 0 = (4, 80)) by exact exz_middle.
  assert (A : forall x y, intensity c x y = y * y).
  { intros x y. unfold intensity, amplitude, Ctotal. cbn [c amps length seq map fold_right nth bw]. unfold Cmod. rewrite pow2_sqrt by (cbn; nra). unfold Cplus, Cmult, RtoC. cbn [fst snd]. ring. }
  exists c. split; [split; [reflexivity|exact I]|]. split; [reflexivity|]. split.
  - destruct (calls_fresh [] c) as [F _]; [split; [reflexivity|exact I]|]. cbn [app] in F. rewrite (coherent_value c _ 0 4 0 F eq_refl). unfold density. rewrite A. destruct (inside c 4 0); cbn [c eff]; ring.
  - change [c; plot_call R_ops c; fit_after c] with ([] ++ [c; plot_call R_ops c; fit_after c]). rewrite (G [] c 0%nat 4 0 0%nat 0%nat).
    + rewrite M, A. cbn [fst snd c eff]. ring.
    + assert (X : In (0%nat, 0%nat) (bins R_ops (inside c) (range c))).
      { apply bins_in. cbn [c range n12 n13]. split; [lia|]. split; [lia|]. change (at_ c 0 0) with (middle c 0 0). rewrite M. cbn [fst snd c inside]. apply massless_in. lra. }
      apply In_nth_error in X as [e X]. destruct e as [|e]; [exact X|exfalso].
      assert (L : (length (bins R_ops (inside c) (range c)) <= 1)%nat).
      { unfold bins. cbn [c range n12 n13 seq flat_map]. destruct (point R_ops _ _). destruct (inside _ _ _); cbn; lia. }
      assert (S e < length (bins R_ops (inside c) (range c)))%nat by (apply nth_error_Some; rewrite X; discriminate). lia.
    + cbn [c inside]. apply massless_in. lra.
Qed.
Print Assumptions C109_stale_refuted.
(** A fit of this kind, with two evaluations before the plot. *)
Example C109_ex : honest ([exc (1, 0) (0, 1) 1 true] ++ [exc (2, 0) (0, 1) 1 true]).
Proof. split; [reflexivity|]. cbn. split; [left; reflexivity|exact I]. Qed.
