(** Property theorems for toy generation from a grid (C54). *)
From Coq Require Import List ZArith Reals Lra Lia Bool String.
From Flocq Require Import Core BinarySingleNaN.
From Verif Require Import F64 F64Lemmas F64Err ListAux LeafFormulas FormulaSpec VariableModel VariableSpec VariableProofs DataSetModel DataSetSpec DataSetProofs GridSpec GridProofs
  DataSetProofs2 BinModel BinSpec BinProofs BinGeom BinProofs2 GridProofs2 McModel McSpec McProofs McProofs2 McProofs3.
Import ListNotations.
Open Scope R_scope.

(** ** C54 *)

(** With exact arithmetic: the cell generated for a random number r of [0, 1) is the one r belongs to, and the numbers r
    that belong to cell j fill an interval whose length is the share of cell j in the sum over all cells. *)
Theorem C54_cell_share : forall l, List.Forall (fun v => 0 <= v) l -> 0 < rsum l ->
  (forall r j, 0 <= r < 1 -> pick R_ops l r = j <-> belongs l r j) /\
  below l 0 = 0 /\ below l (List.length l) = 1 /\
  forall j, (j < List.length l)%nat -> below l (S j) - below l j = nth j l 0 / rsum l.
Proof.
  intros l HP HS. split; [intros r j Hr; now apply pick_R|]. split; [unfold below, Rdiv; cbn [firstn rsum]; ring|]. split.
  - unfold below. rewrite firstn_all. field. lra.
  - intros j Hj. unfold below. rewrite prefix_S by exact Hj. field. lra.
Qed.
Print Assumptions C54_cell_share.
Example C54_cell_example : pick R_ops [1; 2; 1] (/ 2) = 1%nat.
Proof.
  apply C54_cell_share.
  - repeat constructor; lra.
  - cbn [rsum]. lra.
  - lra.
  - split; [cbn; lia|]. unfold below. cbn [firstn rsum]. split; [right|]; lra.
Qed.

(** In doubles: fillMCDataSimple appends one event per pair of random numbers; event i lies in a cell j whose share of
    the random numbers contains r up to n/2^50, at the place u of that cell; the earlier events are kept, and the PDF is
    attached to the filled data set again.  This needs u to keep off the edges of the cell by the rounding error. *)
Theorem C54_generation_partial : forall hp0 o h pdf draws, List.Forall op_ok h ->
  let st := after hp0 [o] h in let hp := fst st in
  let lo := get_f hp o FLower in let up := get_f hp o FUpper in let nb := get_n hp o FNumBins in
  separated hp [o] -> isEventNumber o = false -> usable lo up nb -> resolved lo up nb ->
  Z.of_nat (List.length pdf) = nb -> List.Forall (fun v => f_isfinite v = true /\ 0 <= f2R v) pdf -> 0 < rsum (map f2R pdf) <= 2 ^ 1000 -> List.Forall (good_draw lo up nb) draws ->
  exists hp' d, fillMCDataSimple f64_ops hp (snd st) o pdf draws = (hp', d, Ok tt, true) /\
    d_num d = (d_num (snd st) + List.length draws)%nat /\
    (forall i, (i < d_num (snd st))%nat -> getValue d o i = getValue (snd st) o i) /\
    (forall i r u, nth_error draws i = Some (r, u) -> exists j x, getValue d o (d_num (snd st) + i) = Ok x /\
       nearly_belongs (map f2R pdf) (margin nb) (f2R r) j /\ edge (f2R lo) (f2R up) nb (Z.of_nat j) <= f2R x <= edge (f2R lo) (f2R up) nb (Z.of_nat j + 1) /\
       Rabs (f2R x - (midpoint (f2R lo) (f2R up) nb (Z.of_nat j) + f2R u * width (f2R lo) (f2R up) nb)) <= 24 * / 2 ^ 53 * Rmax (Rabs (f2R lo)) (Rabs (f2R up))).
Proof. exact fillMC_ok. Qed.
Print Assumptions C54_generation_partial.

Definition mc_vstate := fst (vrun vinit [NewObservable "x"%string (f_of_Z 1) (f_of_Z 2)]).
Definition mc_obs : handle := nth 0 (snd mc_vstate) (mkHandle EmptyString 0 0 0 0 (XObservable 0 false)).
Definition mc_heap : heap := fst mc_vstate.
Lemma mc_separated : separated mc_heap [mc_obs].
Proof.
  apply (reachable_separated [NewObservable "x"%string (f_of_Z 1) (f_of_Z 2)] mc_heap [mc_obs] [mc_obs]).
  - unfold mc_heap, mc_obs, mc_vstate. reflexivity.
  - apply incl_refl.
  - repeat constructor. intros [].
  - repeat constructor; eexists; eexists; reflexivity.
Qed.
Lemma mc_limits : get_f mc_heap mc_obs FLower = f_of_Z 1 /\ get_f mc_heap mc_obs FUpper = f_of_Z 2 /\ get_n mc_heap mc_obs FNumBins = 100%Z.
Proof. split; [|split]; reflexivity. Qed.
Lemma mc_usable : usable (f_of_Z 1) (f_of_Z 2) 100 /\ resolved (f_of_Z 1) (f_of_Z 2) 100.
Proof.
  destruct (usable_Z 1 2 100) as (U & E1 & E2); try (vm_compute; discriminate); [lia..|]. split; [exact U|]. unfold resolved, width. rewrite E1, E2.
  rewrite !Rabs_pos_eq by lra. rewrite Rmax_right by lra. replace (2 ^ 46) with 70368744177664 by (cbn; lra). lra.
Qed.
Definition mc_pdf : list f64 := repeat fone 100.
Lemma mc_pdf_ok : List.Forall (fun v => f_isfinite v = true /\ 0 <= f2R v) mc_pdf /\ 0 < rsum (map f2R mc_pdf) <= 2 ^ 1000.
Proof.
  assert (E1 : f2R fone = 1). { change fone with (f_of_Z 1). apply (f_of_Z_exact 1). lia. }
  split.
  - apply List.Forall_forall. intros v H. apply repeat_spec in H. subst v. split; [reflexivity|]. rewrite E1. lra.
  - assert (S : forall k, rsum (map f2R (repeat fone k)) = INR k).
    { induction k as [|k IH]; [reflexivity|]. cbn [repeat map rsum]. rewrite IH, E1, S_INR. lra. }
    unfold mc_pdf. rewrite S. rewrite INR_IZR_INZ. change (Z.of_nat 100) with 100%Z. split; [lra|]. apply Rle_trans with (2 ^ 10); [cbn; lra|]. apply Rle_pow; [lra|lia].
Qed.
Lemma f_pow2 : forall k, (-1000 <= k <= 0)%Z -> B2R (f_of_ZE 1 k) = bpow radix2 k.
Proof.
  intros k Hk. unfold f_of_ZE. pose proof (binary_normalize_correct 53 1024 f64_prec_gt f64_prec_lt mode_NE 1 k false) as H. cbv zeta in H.
  assert (Eg : F2R (Float radix2 1 k) = bpow radix2 k) by (unfold F2R; cbn [Fnum Fexp]; ring).
  rewrite Eg in H. rewrite Rlt_bool_true in H.
  - destruct H as [H _]. rewrite H. rewrite round_generic. reflexivity. apply valid_rnd_round_mode.
    apply generic_format_bpow. change (SpecFloat.fexp 53 1024) with (FLT_exp (-1074) 53). unfold FLT_exp. lia.
  - apply rnd_no_ovf. rewrite Rabs_right by (apply Rle_ge, bpow_ge_0). apply bpow_le. lia.
Qed.
Lemma half_R : f2R fhalf = / 2 /\ f2R (fopp fhalf) = - / 2 /\ f2R (f_of_ZE 1 (-2)) = / 4.
Proof. unfold f2R. rewrite B2R_fopp. change fhalf with (f_of_ZE 1 (-1)). rewrite !f_pow2 by lia. split; [reflexivity|]. split; reflexivity. Qed.
Example C54_generation_example :
  separated mc_heap [mc_obs] /\ isEventNumber mc_obs = false /\
  obs_usable mc_heap mc_obs (get_n mc_heap mc_obs FNumBins) /\ resolved (get_f mc_heap mc_obs FLower) (get_f mc_heap mc_obs FUpper) (get_n mc_heap mc_obs FNumBins) /\
  Z.of_nat (List.length mc_pdf) = get_n mc_heap mc_obs FNumBins /\
  good_draw (get_f mc_heap mc_obs FLower) (get_f mc_heap mc_obs FUpper) (get_n mc_heap mc_obs FNumBins) (fhalf, f_of_ZE 1 (-2)).
Proof.
  split; [exact mc_separated|]. split; [reflexivity|]. unfold obs_usable. destruct mc_limits as (-> & -> & ->). destruct mc_usable as [U1 U2]. split; [exact U1|]. split; [exact U2|].
  split; [reflexivity|]. destruct half_R as (H1 & _ & H3). unfold good_draw. cbn [fst snd]. rewrite H1, H3. split; [reflexivity|]. split; [lra|]. split; [reflexivity|].
  destruct (usable_Z 1 2 100) as (U & E1 & E2); try (vm_compute; discriminate); [lia..|]. unfold width. rewrite E1, E2.
  rewrite !Rabs_pos_eq by lra. rewrite Rmax_right by lra. replace (2 ^ 53) with 9007199254740992 by (cbn; lra). lra.
Qed.

(** Without the safety distance it fails: Observable("x", 1, 2) with the default 100 bins, a constant PDF, r = 0 and
    u = -1/2, both of which the generators can return.  The call ends with an exception, adds nothing, and leaves the PDF
    attached to a data set that no longer exists. *)
Theorem C54_edge_refuted : exists hp o pdf r u,
  separated hp [o] /\ isEventNumber o = false /\ usable (get_f hp o FLower) (get_f hp o FUpper) (get_n hp o FNumBins) /\
  resolved (get_f hp o FLower) (get_f hp o FUpper) (get_n hp o FNumBins) /\
  Z.of_nat (List.length pdf) = get_n hp o FNumBins /\ List.Forall (fun v => f_isfinite v = true /\ 0 <= f2R v) pdf /\ 0 < rsum (map f2R pdf) <= 2 ^ 1000 /\
  f_isfinite r = true /\ 0 <= f2R r < 1 /\ f_isfinite u = true /\ - / 2 <= f2R u < / 2 /\
  exists hp' d, fillMCDataSimple f64_ops hp (new_dataset [o]) o pdf [(r, u)] = (hp', d, Throw EOutOfRange, false) /\ d_num d = 0%nat.
Proof.
  exists mc_heap, mc_obs, mc_pdf, fzero, (fopp fhalf). split; [exact mc_separated|]. split; [reflexivity|]. destruct mc_limits as (L1 & L2 & L3). rewrite L1, L2, L3.
  destruct mc_usable as [U1 U2]. split; [exact U1|]. split; [exact U2|]. split; [reflexivity|]. destruct mc_pdf_ok as [P1 P2]. split; [exact P1|]. split; [exact P2|].
  destruct half_R as (_ & H2 & _). rewrite H2. split; [reflexivity|]. split; [change (f2R fzero) with 0; lra|]. split; [reflexivity|]. split; [lra|].
  assert (E : match fillMCDataSimple f64_ops mc_heap (new_dataset [mc_obs]) mc_obs mc_pdf [(fzero, fopp fhalf)] with
              | (_, d, Throw EOutOfRange, false) => Nat.eqb (d_num d) 0 | _ => false end = true) by (vm_compute; reflexivity).
  destruct (fillMCDataSimple f64_ops mc_heap (new_dataset [mc_obs]) mc_obs mc_pdf [(fzero, fopp fhalf)]) as [[[hp' d] [a|[| |]]] [|]]; try discriminate.
  exists hp', d. split; [reflexivity|]. now apply Nat.eqb_eq.
Qed.
Print Assumptions C54_edge_refuted.
