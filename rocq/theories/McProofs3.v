(** Toy generation in doubles: the whole call. *)
From Coq Require Import List ZArith Reals Lra Lia Bool Psatz.
From Flocq Require Import Core BinarySingleNaN.
From Verif Require Import F64 F64Lemmas F64Err ListAux LeafFormulas VariableModel VariableSpec VariableProofs DataSetModel DataSetSpec DataSetProofs GridSpec GridProofs
  DataSetProofs2 BinModel BinSpec BinProofs BinGeom GridProofs2 McModel McSpec McProofs McProofs2.
From Verif Require LeafGen.
Import ListNotations.
Open Scope R_scope.

Lemma uro_pow : / 2 ^ 53 = uro.
Proof. rewrite pow_bpow_inv. reflexivity. Qed.
Lemma draw_err : forall lo up n k c u, usable lo up n -> (0 <= k < n)%Z -> is_finite c = true ->
  Rabs (B2R c - midpoint (B2R lo) (B2R up) n k) <= 12 * uro * biggest lo up -> is_finite u = true -> Rabs (B2R u) <= / 2 ->
  is_finite (fadd c (fmul (bin_size lo up n) u)) = true /\
  Rabs (B2R (fadd c (fmul (bin_size lo up n) u)) - (midpoint (B2R lo) (B2R up) n k + B2R u * width (B2R lo) (B2R up) n)) <= 24 * uro * biggest lo up.
Proof.
  intros lo up n k c u U Hk Fc Ec Fu Hu'. destruct (bin_size_err lo up n U) as (Fs & d1 & d2 & D1 & D2 & Es).
  pose proof uro_b as Hu. pose proof uro_small as Hus. pose proof (w_pos lo up n U) as HW. pose proof (n_pos lo up n U) as HN. pose proof (w_eq lo up n U) as Hw.
  pose proof (biggest_pos lo up n U) as HB. pose proof (biggest_le lo up n U) as HBl. pose proof (w_low lo up n U) as WL.
  set (w := width (B2R lo) (B2R up) n) in *. set (B := biggest lo up) in *.
  assert (Hspan : B2R up - B2R lo <= 2 * B).
  { pose proof (between_biggest lo up (B2R lo)). pose proof (between_biggest lo up (B2R up)). pose proof (Rle_abs (B2R up)). pose proof (Rle_abs (- B2R lo)).
    rewrite Rabs_Ropp in H2. fold B in H, H0. destruct (U' lo up n U) as (_ & _ & _ & _ & LU & _). lra. }
  assert (HWB : w <= 2 * B) by (apply Rle_trans with (IZR n * w); [nra|lra]).
  assert (EB : eta0 <= uro * B).
  { apply Rle_trans with (uro * (bpow radix2 (-1000) * / 2)); [|apply Rmult_le_compat_l; lra].
    change (/ 2) with (bpow radix2 (-1)). unfold uro, eta0. rewrite <- !bpow_plus. apply bpow_le. lia. }
  apply Rabs_le_inv in D1, D2. set (t := B2R u) in *. apply Rabs_le_inv in Hu'.
  assert (HPs : Rabs (B2R (bin_size lo up n) * t - w * t) <= 3 * uro * B).
  { rewrite Es. replace (w * ((1 + d1) * (1 + d2)) * t - w * t) with (w * t * ((1 + d1) * (1 + d2) - 1)) by ring. rewrite Rabs_mult.
    assert (X1 : Rabs (w * t) <= B) by (apply Rabs_le; split; nra). assert (X2 : Rabs ((1 + d1) * (1 + d2) - 1) <= 3 * uro) by (apply Rabs_le; split; nra).
    replace (3 * uro * B) with (B * (3 * uro)) by ring. apply Rmult_le_compat; try apply Rabs_pos; assumption. }
  apply Rabs_le_inv in HPs. assert (UB : 0 <= uro * B) by (apply Rmult_le_pos; lra). assert (UBB : uro * B <= / 1000000 * B) by (apply Rmult_le_compat_r; lra).
  assert (WT : - B <= w * t <= B) by (split; nra).
  assert (B2 : 4 * B <= bpow radix2 1023).
  { apply Rle_trans with (4 * bpow radix2 1021); [lra|]. change 4 with (bpow radix2 2). rewrite <- bpow_plus. apply bpow_le. lia. }
  destruct (fmul_rnd _ _ Fs Fu) as [Fm Em]; [apply Rabs_le; fold t; lra|]. fold t in Em.
  destruct (rnd_err (B2R (bin_size lo up n) * t)) as (d3 & e3 & D3 & E3 & Er). rewrite Er in Em. apply Rabs_le_inv in D3, E3.
  set (p := B2R (bin_size lo up n) * t) in *.
  assert (Pd : - (uro * (2 * B)) <= p * d3 <= uro * (2 * B)).
  { assert (Rabs (p * d3) <= 2 * B * uro); [|apply Rabs_le_inv in H; lra]. rewrite Rabs_mult. apply Rmult_le_compat; try apply Rabs_pos; apply Rabs_le; lra. }
  assert (Mid : Rabs (midpoint (B2R lo) (B2R up) n k) <= B).
  { apply between_biggest. pose proof (edge_le lo up n U k ltac:(lia)). pose proof (edge_le lo up n U (k + 1) ltac:(lia)). unfold edge, midpoint in *. rewrite plus_IZR in *. fold w in H, H0 |- *. lra. }
  apply Rabs_le_inv in Mid, Ec. set (m := midpoint (B2R lo) (B2R up) n k) in *. set (q := fmul (bin_size lo up n) u) in *.
  destruct (fadd_err c q Fc Fm) as (F & d4 & D4 & E4); [apply Rabs_le; lra|]. split; [exact F|]. rewrite E4.
  assert (Sd : Rabs ((B2R c + B2R q) * d4) <= 3 * B * uro).
  { rewrite Rabs_mult. apply Rmult_le_compat; try apply Rabs_pos; [|exact D4]. apply Rabs_le. lra. }
  apply Rabs_le_inv in Sd. apply Rabs_le. lra.
Qed.

Section Run.
Variables (o : handle) (lo up : f64) (nb : Z).
Hypothesis U : usable lo up nb.
Definition limits_ok (hp : heap) : Prop := separated hp [o] /\ get_f hp o FLower = lo /\ get_f hp o FUpper = up /\ get_n hp o FNumBins = nb.
Lemma limits_set : forall hp x, limits_ok hp -> limits_ok (set_f hp o FValue x) /\ get_f (set_f hp o FValue x) o FValue = x.
Proof.
  intros hp x (S & L & H & N). destruct (separated_set hp [o] o x S (or_introl eq_refl)) as (S' & V & K).
  split.
  - split; [exact S'|]. unfold get_f, get_n in *. rewrite !K by (try (left; reflexivity); discriminate). auto.
  - rewrite V by (left; reflexivity). now rewrite Nat.eqb_refl.
Qed.
Definition event_ok (cell : f64 -> nat) (d : f64 * f64) (x : f64) : Prop :=
  (edge (B2R lo) (B2R up) nb (Z.of_nat (cell (fst d))) <= B2R x <= edge (B2R lo) (B2R up) nb (Z.of_nat (cell (fst d)) + 1)) /\
  Rabs (B2R x - (midpoint (B2R lo) (B2R up) nb (Z.of_nat (cell (fst d))) + B2R (snd d) * width (B2R lo) (B2R up) nb)) <= 24 * uro * biggest lo up.
Lemma draw_ok : forall d k c, good_draw lo up nb d -> (0 <= k < nb)%Z -> is_finite c = true ->
  Rabs (B2R c - midpoint (B2R lo) (B2R up) nb k) <= 12 * uro * biggest lo up ->
  let x := fadd c (fmul (bin_size lo up nb) (snd d)) in
  is_finite x = true /\ (edge (B2R lo) (B2R up) nb k <= B2R x <= edge (B2R lo) (B2R up) nb (k + 1)) /\ in_range lo up x = true /\
  Rabs (B2R x - (midpoint (B2R lo) (B2R up) nb k + B2R (snd d) * width (B2R lo) (B2R up) nb)) <= 24 * uro * biggest lo up.
Proof.
  intros d k c (_ & _ & Fu & HG) Hk Fc Ec x. unfold f2R in *. rewrite uro_pow in HG. fold (biggest lo up) in HG.
  pose proof (w_pos lo up nb U) as HW. pose proof (biggest_pos lo up nb U) as HB. pose proof uro_pos as UP. set (w := width (B2R lo) (B2R up) nb) in *.
  assert (UB : 0 < 24 * uro * biggest lo up) by (apply Rmult_lt_0_compat; lra).
  assert (Hu : Rabs (B2R (snd d)) <= / 2) by (apply Rmult_le_reg_r with w; lra).
  destruct (draw_err lo up nb k c (snd d) U Hk Fc Ec Fu Hu) as [F E]. fold x in F, E. fold w in E. split; [exact F|].
  assert (X : edge (B2R lo) (B2R up) nb k <= B2R x <= edge (B2R lo) (B2R up) nb (k + 1)).
  { apply Rabs_le_inv in E. assert (Y : Rabs (B2R (snd d) * w) <= Rabs (B2R (snd d)) * w) by (rewrite Rabs_mult, (Rabs_pos_eq w); lra). apply Rabs_le_inv in Y.
    unfold edge, midpoint in *. rewrite plus_IZR. fold w in E |- *. lra. }
  split; [exact X|]. split; [|exact E]. pose proof (edge_le lo up nb U k ltac:(lia)). pose proof (edge_le lo up nb U (k + 1) ltac:(lia)).
  apply orb_true_iff. right. apply andb_true_iff. destruct (U' lo up nb U) as (FL & FU & _). rewrite !fle_R by assumption. lra.
Qed.
Lemma mc_loop_ok : forall cell grid, 
  (forall j, (Z.of_nat j < nb)%Z -> exists c, getValue grid o j = Ok c /\ is_finite c = true /\ Rabs (B2R c - midpoint (B2R lo) (B2R up) nb (Z.of_nat j)) <= 12 * uro * biggest lo up) ->
  forall draws, Forall (fun d => good_draw lo up nb d /\ (Z.of_nat (cell (fst d)) < nb)%Z) draws ->
  forall hp orig evs, limits_ok hp -> drel [o] (hp, orig) (mkSpec hp evs) ->
  exists hp' d xs, mc_loop hp orig grid o cell draws = (hp', d, Ok tt) /\ drel [o] (hp', d) (mkSpec hp' (evs ++ map (fun x => [x]) xs)) /\ Forall2 (event_ok cell) draws xs.
Proof.
  intros cell grid HG draws. induction draws as [|[r u] draws IH]; intros HD hp orig evs HL HR.
  - exists hp, orig, []. split; [reflexivity|]. split; [now rewrite app_nil_r|constructor].
  - inversion HD as [|? ? [D1 D2] HD']; subst. cbn [fst] in D2. cbn [mc_loop]. destruct (HG (cell r) D2) as (c & -> & Fc & Ec).
    destruct HL as (LS & L1 & L2 & L3). rewrite L1, L2, L3. fold (bin_size lo up nb).
    destruct (draw_ok (r, u) (Z.of_nat (cell r)) c D1 ltac:(lia) Fc Ec) as (Fx & X1 & X2 & X3). cbn [snd] in Fx, X1, X2, X3. set (x := fadd c (fmul (bin_size lo up nb) u)) in *.
    destruct (limits_set hp x (conj LS (conj L1 (conj L2 L3)))) as [HL' VX]. set (hp' := set_f hp o FValue x) in *.
    assert (HR' : drel [o] (hp', orig) (mkSpec hp' evs)). { destruct HR as (_ & R2 & R3 & R4 & R5). cbn in *. repeat split; assumption. }
    pose proof (addEvent_spec [o] hp' orig _ HR') as AS. destruct (addEvent hp' orig) as [orig' e] eqn:EA. destruct AS as [AS AE].
    unfold spec_add in AS, AE. cbn [e_heap e_events] in AS, AE.
    assert (AR : all_in_range hp' [o] = true).
    { cbn [all_in_range forallb]. rewrite andb_true_r. unfold handle_in_range. destruct HL' as (_ & M1 & M2 & _). rewrite M1, M2, VX. exact X2. }
    rewrite AR in AS, AE. cbn [fst snd] in AS, AE. destruct e as [[]|]; [|discriminate].
    destruct (IH HD' hp' orig' _ HL' AS) as (hp2 & d & xs & E & R & F). exists hp2, d, (x :: xs). split; [exact E|]. split.
    + replace (evs ++ map (fun x0 : f64 => [x0]) (x :: xs)) with ((evs ++ [current hp' [o]]) ++ map (fun x0 : f64 => [x0]) xs); [exact R|].
      rewrite <- app_assoc. unfold current. cbn [map app]. now rewrite VX.
    + constructor; [|exact F]. split; [exact X1|exact X3].
Qed.
Lemma grid_keeps : forall ev n i st, (ev = None) -> limits_ok (fst st) ->
  limits_ok (fst (fst (grid_loop (fun i '(hp, d) => make_a_grid [] ev (set_f hp o FValue (grid_point (get_f hp o FLower) (get_f hp o FUpper) (get_n hp o FNumBins) i), d)) n i st))).
Proof.
  intros ev. induction n as [|n IH]; intros i [hp d] -> HL; [exact HL|]. cbn [grid_loop]. set (x := grid_point _ _ _ _).
  destruct (limits_set hp x HL) as [HL' _]. cbn [make_a_grid]. destruct (addEvent (set_f hp o FValue x) d) as [d' r]. destruct r as [[]|e].
  - apply IH; [reflexivity|exact HL'].
  - exact HL'.
Qed.
End Run.

Lemma drel_getValue1 : forall o hp d xs i x, drel [o] (hp, d) (mkSpec hp (map (fun x => [x]) xs)) -> nth_error xs i = Some x -> getValue d o i = Ok x.
Proof.
  intros o hp d xs i x HR Hi. rewrite (drel_getValue [o] hp d _ 0 o i [x] HR); [reflexivity| |reflexivity|].
  - repeat constructor. intros [].
  - now rewrite nth_error_map, Hi.
Qed.
Lemma singles : forall evs : list (list f64), Forall (fun ev => length ev = 1%nat) evs -> exists xs, evs = map (fun x => [x]) xs.
Proof.
  induction evs as [|e evs IH]; intro H; [now exists []|]. inversion H as [|? ? H1 H2]; subst. destruct (IH H2) as (xs & ->). destruct e as [|x [|]]; try discriminate. now exists (x :: xs).
Qed.
Lemma fillMC_ok : forall hp0 o h pdf draws, Forall op_ok h ->
  let st := after hp0 [o] h in let hp := fst st in
  let lo := get_f hp o FLower in let up := get_f hp o FUpper in let nb := get_n hp o FNumBins in
  separated hp [o] -> isEventNumber o = false -> usable lo up nb -> resolved lo up nb ->
  Z.of_nat (length pdf) = nb -> Forall (fun v => f_isfinite v = true /\ 0 <= f2R v) pdf -> 0 < rsum (map f2R pdf) <= 2 ^ 1000 -> Forall (good_draw lo up nb) draws ->
  exists hp' d, fillMCDataSimple f64_ops hp (snd st) o pdf draws = (hp', d, Ok tt, true) /\
    d_num d = (d_num (snd st) + length draws)%nat /\
    (forall i, (i < d_num (snd st))%nat -> getValue d o i = getValue (snd st) o i) /\
    (forall i r u, nth_error draws i = Some (r, u) -> exists j x, getValue d o (d_num (snd st) + i) = Ok x /\
       nearly_belongs (map f2R pdf) (margin nb) (f2R r) j /\ edge (f2R lo) (f2R up) nb (Z.of_nat j) <= f2R x <= edge (f2R lo) (f2R up) nb (Z.of_nat j + 1) /\
       Rabs (f2R x - (midpoint (f2R lo) (f2R up) nb (Z.of_nat j) + f2R u * width (f2R lo) (f2R up) nb)) <= 24 * / 2 ^ 53 * Rmax (Rabs (f2R lo)) (Rabs (f2R up))).
Proof.
  intros hp0 o h pdf draws Hok st hp lo up nb HS HE HU HR HL HV HSum HD.
  assert (NB : (1 <= nb <= 2 ^ 32)%Z) by apply HU.
  assert (GS : grid_size hp [o] = Z.to_nat nb). { unfold grid_size, spanning. cbn [filter]. rewrite HE. cbn [negb map product fold_right]. unfold nbins. fold nb. lia. }
  destruct (grid_of_centres hp [o] HS) as (hp1 & grid & EG & NG & VG).
  { intros o' [<-|[]]. unfold grid_ready. rewrite HE. split; assumption. }
  { intros a b [<-|[]] [<-|[]]; reflexivity. }
  { rewrite GS. lia. }
  assert (L1 : limits_ok o lo up nb hp1).
  { assert (L0 : limits_ok o lo up nb hp) by (split; [exact HS|auto]).
    unfold fillWithGrid, new_dataset in EG. cbn [map d_data forallb andb d_obs rev app] in EG.
    assert (LE : last_event_number [o] = None) by (unfold last_event_number; cbn [fold_left]; now rewrite HE). rewrite LE in EG.
    cbn [make_a_grid] in EG. rewrite HE in EG.
    pose proof (grid_keeps o lo up nb None (Z.to_nat (get_n hp o FNumBins)) 0 (hp, new_dataset [o]) eq_refl L0) as K.
    cbn [make_a_grid] in K. unfold new_dataset in K. cbn [map] in K. cbn [fst] in EG. rewrite EG in K. exact K. }
  unfold fillMCDataSimple. rewrite EG.
  pose proof (after_rel hp0 [o] h Hok) as AR. fold st in AR. destruct AR as (A1 & A2 & A3 & A4 & A5). set (sp := fst (spec_run [o] (mkSpec hp0 []) h)) in *.
  destruct (singles (e_events sp) A5) as (xs0 & EX).
  assert (RR : drel [o] (hp1, snd st) (mkSpec hp1 (map (fun x => [x]) xs0))).
  { repeat split; cbn [snd e_events]; try assumption; rewrite <- EX; assumption. }
  assert (RR0 : drel [o] (hp, snd st) (mkSpec hp (map (fun x => [x]) xs0))).
  { repeat split; cbn [snd e_events]; try assumption; rewrite <- EX; assumption. }
  assert (CE : forall d, good_draw lo up nb d -> nearly_belongs (map f2R pdf) (margin nb) (f2R (fst d)) (pick f64_ops pdf (fst d))).
  { intros d (D1 & D2 & _). rewrite <- HL. apply pick_f64; try assumption.
    - unfold f2R in HSum. rewrite pow_bpow in HSum. exact HSum.
    - lia. }
  destruct (mc_loop_ok o lo up nb HU (pick f64_ops pdf) grid) with (draws := draws) (hp := hp1) (orig := snd st) (evs := map (fun x => [x]) xs0) as (hp2 & d & xs & E & R & F).
  - intros j Hj. destruct (VG j 0%nat o) as (c & C1 & C2); [rewrite GS; lia|reflexivity|]. rewrite HE in C2. destruct C2 as [C2 C3]. exists c. split; [exact C1|]. split; [exact C2|].
    assert (SJ : ((j / stride hp [o] 0) mod nbins hp o)%nat = j). { unfold stride, grid_size. cbn [firstn spanning filter map product fold_right]. rewrite Nat.div_1_r. apply Nat.mod_small. unfold nbins. fold nb. lia. }
    rewrite SJ in C3. rewrite uro_pow in C3. exact C3.
  - eapply Forall_impl; [|exact HD]. intros d GD. split; [exact GD|]. destruct (CE d GD) as [C _]. rewrite map_length in C. lia.
  - exact L1.
  - exact RR.
  - rewrite E. exists hp2, d. split; [reflexivity|]. rewrite <- map_app in R.
    assert (LX : length xs = length draws) by (clear -F; induction F; [reflexivity|cbn; now f_equal]).
    assert (DN : d_num (snd st) = length xs0) by (rewrite A3, EX, map_length; reflexivity).
    split; [|split].
    + destruct R as (_ & _ & R3 & _). cbn in R3. rewrite R3, map_length, app_length. lia.
    + intros i Hi. rewrite DN in Hi. destruct (nth_error xs0 i) as [x|] eqn:EN; [|apply nth_error_None in EN; lia].
      rewrite (drel_getValue1 o hp (snd st) xs0 i x RR0 EN). apply (drel_getValue1 o hp2 d (xs0 ++ xs)); [exact R|]. rewrite nth_error_app1 by lia. exact EN.
    + intros i r u Hd. assert (GD : good_draw lo up nb (r, u)) by (apply (proj1 (Forall_forall _ _) HD); eapply nth_error_In; exact Hd).
      assert (EX2 : exists x, nth_error xs i = Some x /\ event_ok lo up nb (pick f64_ops pdf) (r, u) x).
      { clear -F Hd. revert i Hd. induction F as [|a b l l' HF F IH]; intros [|i] Hd; try discriminate.
        - injection Hd as ->. exists b. split; [reflexivity|exact HF].
        - apply IH. exact Hd. }
      destruct EX2 as (x & EN & O1 & O2). exists (pick f64_ops pdf r), x. split; [|split; [|split]].
      * apply (drel_getValue1 o hp2 d (xs0 ++ xs)); [exact R|]. rewrite nth_error_app2 by lia. replace (d_num (snd st) + i - length xs0)%nat with i by lia. exact EN.
      * apply (CE (r, u) GD).
      * exact O1.
      * rewrite uro_pow. exact O2.
Qed.
