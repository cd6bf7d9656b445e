(** The flattened parameter array under cost function calls. *)
From Coq Require Import List ZArith String Bool Lia.
From Verif Require Import F64 F64Lemmas ListAux VariableModel LeafFormulas DeviceModel PdfModel PdfSpec FlatProofs EvalProofs HostProofs PdfProofs PdfProofs2 PdfProofs3
  NormModel FitModel FitSpec FitProofs FitProofs2 FitProofs3.
Import ListNotations.
Local Open Scope nat_scope.
Local Notation len := List.length.

Definition apar (ns : list snode) (st : gstate) (k : nat) : Prop :=
  kids_match ns (g_pdfs st) /\ k < len (g_pdfs st) /\ placed (S k) (g_pdfs st) 0 0 k /\ exists hp0, a_par (g_arr st) = enc_par (flat (S k) hp0 (g_pdfs st) k).

Lemma enc_par_lens : forall n hp ps ps' id, map lens ps = map lens ps' -> enc_par (flat n hp ps id) = enc_par (flat n hp ps' id).
Proof.
  induction n as [|n IH]; intros hp ps ps' id H; [reflexivity|]. cbn [flat]. destruct (nth_error ps id) as [p|] eqn:E.
  - destruct (lens_nth _ _ _ _ H E) as (p' & E' & X1 & X2). rewrite E', X2.
    assert (G : forall ks, enc_par (flat_map (flat n hp ps) ks) = enc_par (flat_map (flat n hp ps') ks)).
    { induction ks as [|c ks IHk]; [reflexivity|]. cbn [flat_map]. rewrite !enc_par_app, IHk. f_equal. now apply IH. }
    specialize (G (p_comps p)). unfold enc_par in *. cbn [flat_map block_of b_pars]. rewrite X1, G. reflexivity.
  - now rewrite (lens_none _ _ _ H E).
Qed.
Lemma refresh_apar : forall ns st k, apar ns st k -> exists st', refresh st k = NOk st' /\ apar ns st' k /\ a_par (g_arr st') = enc_par (flat (S k) (g_heap st) (g_pdfs st) k).
Proof.
  intros ns st k (K & Hk & PL & hp0 & EP). unfold refresh. cbn [gstep]. replace (Nat.ltb k (len (g_pdfs st))) with true by (symmetry; now apply Nat.ltb_lt).
  pose proof (updateParameters_ok (S k) hp0 (g_heap st) (g_pdfs st) k [] [] 0 PL) as U. cbn [app] in U. rewrite !app_nil_r in U. rewrite EP, U.
  eexists. split; [reflexivity|]. split; [|reflexivity]. split; [exact K|]. split; [exact Hk|]. split; [exact PL|]. exists (g_heap st). reflexivity.
Qed.
Lemma apar_heap : forall ns st k hp, apar ns st k -> apar ns (with_heap st hp) k.
Proof. intros ns st k hp H. exact H. Qed.

Lemma quiet_apar : forall ns k st o, quiet ns k o -> apar ns st k -> apar ns (fst (gstep st o)) k.
Proof.
  intros ns k st o Q AP. pose proof AP as (K & Hk & PL & hp0 & EP). pose proof (quiet_lens ns k st o Q) as L. symmetry in L.
  assert (HK : k < len (g_pdfs (fst (gstep st o)))) by (apply (f_equal (@len _)) in L; rewrite !map_length in L; lia).
  assert (PLACES : (forall j, place_of (g_pdfs (fst (gstep st o))) j = place_of (g_pdfs st) j) -> placed (S k) (g_pdfs (fst (gstep st o))) 0 0 k).
  { intro P. eapply placed_ext; [exact K|exact L| |exact PL]. intros j _. apply P. }
  assert (ALL : (forall j, place_of (g_pdfs (fst (gstep st o))) j = place_of (g_pdfs st) j) -> a_par (g_arr (fst (gstep st o))) = a_par (g_arr st) ->
                apar ns (fst (gstep st o)) k).
  { intros P A. split; [eapply lens_kids; [exact L|exact K]|]. split; [exact HK|]. split; [now apply PLACES|]. exists hp0. rewrite A, EP. now apply enc_par_lens. }
  destruct o; cbn [quiet] in Q; try contradiction; cbn [gstep] in *.
  - destruct (vstep (g_heap st, g_hs st) o) as [[? ?] ?]. exact AP.
  - subst id. destruct (refresh_apar ns st k AP) as (st' & E & AP' & _). unfold refresh in E. cbn [gstep] in E.
    destruct (Nat.ltb k (len (g_pdfs st))); [|discriminate]. destruct (updateParameters (S k) (g_heap st) (g_pdfs st) (a_par (g_arr st)) k) as [par ok].
    destruct ok; [|discriminate]. injection E as <-. exact AP'.
  - destruct (Nat.ltb id (len (g_pdfs st)) && is_var (g_hs st) v); exact AP.
  - destruct (nth_error (g_pdfs st) id) as [p|] eqn:Ep; [|exact AP]. destruct (Nat.ltb (p_ni p + 1) (len (a_nor (g_arr st)))); [|exact AP].
    apply ALL; [|reflexivity]. intro j. cbn [fst g_pdfs]. unfold place_of. destruct (Nat.eq_dec j id) as [->|Hj].
    + rewrite nth_error_upd_same by (eapply nth_error_Some_lt; eauto). now rewrite Ep.
    + now rewrite nth_error_upd_other by congruence.
  - destruct (Nat.ltb id (len (g_pdfs st))); [|exact AP]. apply ALL; [|reflexivity]. intro j. cbn [fst g_pdfs]. apply place_set_ranges. reflexivity.
  - destruct (Nat.ltb id (len (g_pdfs st))); [|exact AP]. apply ALL; [|reflexivity]. intro j. cbn [fst g_pdfs]. apply place_set_ranges. reflexivity.
  - destruct (Nat.ltb id (len (g_pdfs st))); [|exact AP]. apply ALL; [|reflexivity]. intro j. cbn [fst g_pdfs]. apply place_set_ranges. reflexivity.
  - destruct (Nat.ltb id (len (g_pdfs st))); exact AP.
  - destruct (Nat.ltb id (len (g_pdfs st))); exact AP.
Qed.
Lemma call_apar : forall ns first force q st vs st', apar ns st (q_pdf q) -> from_minuit first st q vs force = NOk st' -> apar ns st' (q_pdf q).
Proof.
  intros ns first force q st vs st' AP E. unfold from_minuit in E. destruct (update_loop first force (g_pdfs st) (q_pdf q) vs (g_heap st) (q_vars q)) as [hp| | |]; try discriminate.
  cbn [nbind] in E. destruct (refresh_apar ns (with_heap st hp) (q_pdf q) (apar_heap ns st _ hp AP)) as (st2 & E2 & AP2 & _). unfold with_heap in E2. rewrite E2 in E.
  injection E as <-. exact AP2.
Qed.
Lemma frun_apar : forall ns q os st st', apar ns st (q_pdf q) -> Forall (fquiet ns (q_pdf q) (len (q_vars q))) os -> frun q st os = NOk st' -> apar ns st' (q_pdf q).
Proof.
  intros ns q. induction os as [|o os IH]; intros st st' AP Q E; [now injection E as <-|]. cbn [frun] in E. inversion Q; subst.
  destruct (fstep q st o) as [st1| | |] eqn:E1; try discriminate. cbn [nbind] in E. apply (IH st1 st'); try assumption.
  destruct o as [o| |v|v| |vals errs]; cbn [fstep fquiet] in *.
  - injection E1 as <-. now apply quiet_apar.
  - injection E1 as <-. exact AP.
  - eapply call_apar; eauto.
  - eapply call_apar; eauto.
  - destruct (make_minuit_vector (g_heap st) (q_vars q)) as [v| | |]; try discriminate. cbn [nbind] in E1. eapply call_apar; eauto.
  - destruct (write_back (g_heap st) vals errs (q_vars q)) as [hp'| | |]; try discriminate. cbn [nbind] in E1. injection E1 as <-. exact AP.
Qed.

(** The tree was flattened, then only quiet things happened. *)
Lemma flattened_apar : forall ops k qs st ns, after (ops ++ GSetIndices k :: qs) = (st, ns) -> k < len ns -> NoDup (tree_ids ns k) -> Forall (quiet ns k) qs -> apar ns st k.
Proof.
  intros ops k qs st ns E Hk ND Q.
  change (ops ++ GSetIndices k :: qs) with (ops ++ [GSetIndices k] ++ qs) in E. rewrite app_assoc in E. unfold after in E. rewrite history_app in E.
  destruct (history ginit [] (ops ++ [GSetIndices k])) as [st1 ns1] eqn:E1. cbn [fst snd] in E.
  assert (NS : ns1 = ns).
  { revert E. clear - Q. revert st1 ns1. induction qs as [|q qs IH]; intros st1 ns1 E; [now injection E|]. inversion Q; subst. cbn [history] in E.
    destruct (gstep st1 q) as [st2 out] eqn:EG. specialize (IH H2 _ _ E). rewrite <- IH.
    destruct q; cbn [quiet] in H1; try contradiction; try reflexivity; destruct out; reflexivity. }
  subst ns1. destruct (g_after_setIndices ops k st1 ns E1 Hk) as (st0 & _ & I0 & I1 & EH & HS & EA).
  assert (Hp : exists p, nth_error (g_pdfs st0) k = Some p).
  { destruct I0 as (_ & [ML _] & _). destruct (nth_error (g_pdfs st0) k) eqn:N; [eauto|]. apply nth_error_None in N. lia. }
  destruct Hp as [p Ep]. destruct (setIndices_ok (g_heap st0) (g_pdfs st0) (g_arr st0) k p Ep) as (fc & p' & EA2 & Ep' & EF & EFC).
  rewrite <- EA in EA2, Ep'. cbn [fst snd] in EA2, Ep'.
  assert (K0 : kids_match ns (g_pdfs st0)) by (apply match_kids_match; apply I0).
  assert (AP1 : apar ns st1 k).
  { split; [apply match_kids_match; apply I1|]. split; [eapply nth_error_Some_lt; eauto|]. split.
    - apply (f_equal fst) in EA. cbn [fst] in EA. rewrite EA. unfold setIndices. rewrite Ep.
      assert (FC : forall ps x, kids_match ns ps -> placed (S k) (fst (setIndices_fc (g_heap st0) ps k x)) 0 0 k).
      { intros ps x Kp. unfold setIndices_fc. destruct (rsi_placed ns (S k) (g_heap st0) ps no_arrays k Kp ND) as [RP _].
        destruct (recursiveSetIndices (S k) (g_heap st0) ps no_arrays k) as [ps' A']. exact RP. }
      destruct (p_fit p); [now apply FC|].
      pose proof (sfc_map lens (fun _ _ _ _ _ _ => eq_refl) (fun _ _ => eq_refl) (fun _ _ => eq_refl) (S k) (g_heap st0) (g_pdfs st0) (g_arr st0) k UnbinnedNllFit) as X.
      destruct (setFitControl (S k) (g_heap st0) (g_pdfs st0) (g_arr st0) k UnbinnedNllFit) as [ps1 A1]. apply FC. eapply lens_kids; [symmetry; exact X|exact K0].
    - exists (g_heap st0). rewrite EA2. cbn [push_fun extend no_arrays a_par app]. now rewrite (flat_sim _ _ _ _ _ HS). }
  clear - E AP1 Q. revert st1 E AP1. induction qs as [|q qs IH]; intros st1 E AP1; [injection E as <-; exact AP1|]. inversion Q; subst. cbn [history] in E.
  pose proof (quiet_apar ns k st1 q H1 AP1) as AP2. destruct (gstep st1 q) as [st2 out] eqn:EG. cbn [fst] in AP2. apply (IH H2 st2); [|exact AP2].
  replace (note st1 q out ns) with ns in E; [exact E|]. destruct q; cbn [quiet] in H1; try contradiction; try reflexivity; destruct out; reflexivity.
Qed.
Lemma rebuild_par : forall st k, k < len (g_pdfs st) -> a_par (g_arr (fst (gstep st (GSetIndices k)))) = enc_par (flat (S k) (g_heap st) (g_pdfs st) k).
Proof.
  intros st k Hk. cbn [gstep]. replace (Nat.ltb k (len (g_pdfs st))) with true by (symmetry; now apply Nat.ltb_lt).
  destruct (nth_error (g_pdfs st) k) as [p|] eqn:Ep; [|apply nth_error_None in Ep; lia].
  destruct (setIndices_ok (g_heap st) (g_pdfs st) (g_arr st) k p Ep) as (fc & p' & EA & _). destruct (setIndices (g_heap st) (g_pdfs st) (g_arr st) k) as [ps' A'].
  cbn [fst snd g_arr] in *. rewrite EA. reflexivity.
Qed.

(** ** A call goes through and refreshes the array *)
Lemma call_goes_through : forall made ns first force q st vs, finv made q st -> apar ns st (q_pdf q) -> len vs = len (q_vars q) ->
  exists st', from_minuit first st q vs force = NOk st' /\ a_par (g_arr st') = a_par (g_arr (fst (gstep st' (GSetIndices (q_pdf q))))) /\
    a_fun (g_arr st') = a_fun (g_arr st) /\ a_con (g_arr st') = a_con (g_arr st) /\ a_obs (g_arr st') = a_obs (g_arr st) /\ a_nor (g_arr st') = a_nor (g_arr st).
Proof.
  intros made ns first force q st vs F AP L. pose proof F as (G & (S1 & S2 & S3) & I).
  set (val := fun h => nth (Z.to_nat (get_fitter_index (g_heap st) h)) vs fzero).
  destruct (update_loop_ok made first force (g_pdfs st) (q_pdf q) vs val (q_vars q) (g_heap st) G S1 S2 S3) as (hp' & EL & _).
  { intros h Hh. apply In_nth_error in Hh. destruct Hh as [i Ei]. unfold val. rewrite (I i h Ei), at_nat, Nat2Z.id. apply nth_error_nth'. apply nth_error_Some_lt in Ei. lia. }
  destruct (refresh_apar ns (with_heap st hp') (q_pdf q) (apar_heap ns st _ hp' AP)) as (st2 & E2 & AP2 & EP). exists st2. unfold from_minuit. rewrite EL. cbn [nbind].
  split; [exact E2|]. destruct (refresh_same _ _ _ E2) as (R1 & R2 & R3 & R4 & R5 & R6 & R7). cbn [with_heap g_heap g_pdfs g_arr g_hs] in *.
  split; [|repeat split; assumption]. rewrite rebuild_par by apply AP2. rewrite R1, R3. exact EP.
Qed.
