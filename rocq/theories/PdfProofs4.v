(** C14: leaf PDFs consume what they register. *)
From Coq Require Import List ZArith String Bool Lia.
From Verif Require Import F64 F64Lemmas ListAux VariableModel LeafFormulas DeviceModel PdfModel PdfSpec FlatProofs EvalProofs HostProofs PdfProofs PdfProofs2 PdfProofs3.
Import ListNotations.
Local Open Scope nat_scope.
Local Notation len := List.length.

Lemma dbind_ok : forall {A B} (x : dres A) (k : A -> dres B) r, dbind x k = DOk r -> exists a, x = DOk a /\ k a = DOk r.
Proof. intros A B [a| |] k r H; try discriminate. now exists a. Qed.
Local Opaque argus_upper argus_lower breit_wigner gauss bifur_gauss scaled_gauss corr_gauss crystal_ball exp_gaus exponential
  johnson_su kin_limit_bw landau novosibirsk step trig_upper trig_lower trig_upper2 trig_lower2 voigt exp_poly polynomial
  multi_polynomial bernstein_from bin_number var_bin dalitz_veto square_dalitz f_of_Z fadd fsub fdiv get_f get_i f2int to_index.

Lemma leaf_cursor : forall L rec A c hp hp0 nrm l e v c',
  stand A c [leaf_block hp hp0 l nrm] -> bsmall (leaf_block hp hp0 l nrm) -> (forall x ls, l <> LVarBin x ls) ->
  body L A rec (leaf_kind l) e c = DOk (v, c') -> c' = adv1 c (leaf_block hp hp0 l nrm).
Proof.
  intros L rec A c hp hp0 nrm l e v c' HS HB HN H.
  pose proof (rd_npar _ _ _ HS HB) as NP. pose proof (rd_ncon _ _ _ HS HB) as NC.
  pose proof (rd_nobs _ _ _ HS HB) as NO. pose proof (rd_inc _ _ _ HS HB) as NI. clear HS HB.
  unfold adv1 in *. cbn [leaf_block b_pars b_cons b_obs] in *.
  destruct l; try (exfalso; eapply HN; reflexivity);
  try match goal with up : bool |- _ => destruct up end; cbn [leaf_kind body leaf_pars leaf_obs leaf_cons] in *;
  unfold dev_argus, dev_bw, dev_bifur, dev_corr, dev_crystal, dev_expgaus, dev_exp, dev_expoffset, dev_gaussian, dev_johnson,
    dev_kinlimit, dev_landau, dev_novosibirsk, dev_scaled, dev_voigtian, dev_square_dalitz, dev_trig, dev_trig2, dev_step, dev_exppoly,
    dev_exppolyoffset, dev_polynomial, dev_offsetpolynomial, dev_multipolynomial, dev_bernstein, dev_bintransform, dev_dalitzveto in H;
  repeat match type of H with dbind _ _ = DOk _ =>
    let t := fresh "t" in let E := fresh "E" in apply dbind_ok in H; destruct H as (t & E & H) end;
  apply (f_equal (fun o => match o with DOk x => snd x | _ => c end)) in H; cbv beta iota in H; cbn [snd] in H; subst c';
  try congruence;
  rewrite ?NP, ?NC, ?NO in *;
  repeat match goal with E : DOk ?a = DOk ?b |- _ => apply (f_equal (fun o => match o with DOk x => x | _ => a end)) in E; cbv beta iota in E; subst end;
  try reflexivity.
Qed.

Lemma part_join : forall {T} (a x b : list T), part ((a ++ x) ++ b) (len a) x.
Proof. intros. exists a, b. split; [now rewrite <- app_assoc|reflexivity]. Qed.
Lemma stand_join : forall A0 bs Q, stand (join (extend A0 bs) Q) (end_of A0) bs.
Proof.
  intros. unfold stand, join, extend, end_of. cbn [a_fun a_par a_con a_obs a_nor c_fun c_par c_con c_obs c_nor]. repeat split; apply part_join.
Qed.
Lemma end_extend1 : forall A0 b, end_of (extend A0 [b]) = adv1 (end_of A0) b.
Proof.
  intros. unfold end_of, extend, adv1, incrementIndex5. cbn [a_fun a_par a_con a_obs a_nor c_fun c_par c_con c_obs c_nor enc_fun enc_par enc_con enc_obs enc_nor map flat_map].
  rewrite !app_length. unfold pref. cbn [len app]. rewrite ?app_nil_r. f_equal; lia.
Qed.

Lemma leaf_consumes : forall L fuel hp hp0 l A0 Q e v c,
  (forall x ls, l <> LVarBin x ls) -> distinct (leaf_obs l) ->
  small (len (leaf_pars l)) -> small (len (leaf_cons hp0 l)) -> small (len (leaf_obs l)) ->
  callFunction fuel L (join (push_block hp (leaf_pdf hp0 l) A0) Q) e (end_of A0) = DOk (v, c) ->
  c = end_of (push_block hp (leaf_pdf hp0 l) A0).
Proof.
  intros L fuel hp hp0 l A0 Q e v c HN HD S1 S2 S3 H. destruct fuel as [|n]; [discriminate|]. rewrite push_block_extend in *.
  assert (EB : block_of hp (leaf_pdf hp0 l) = leaf_block hp hp0 l fone).
  { unfold block_of, leaf_pdf, leaf_block, new_pdf. cbn [p_kind p_pars p_cons p_obs p_norm]. now rewrite registerObservables_distinct. }
  rewrite EB in *. pose proof (stand_join A0 [leaf_block hp hp0 l fone] Q) as ST. rewrite end_extend1. cbn [callFunction] in H.
  pose proof ST as (SF & _). assert (NF : nth_error (a_fun (join (extend A0 [leaf_block hp hp0 l fone]) Q)) (c_fun (end_of A0)) = Some (FPdf (leaf_kind l))).
  { replace (c_fun (end_of A0)) with (c_fun (end_of A0) + 0) by lia. apply (part_nth _ _ _ 0 _ SF). reflexivity. }
  rewrite NF in H. eapply leaf_cursor; [exact ST| |exact HN|exact H].
  unfold bsmall, leaf_block. cbn [b_pars b_cons b_obs]. rewrite vals_length, idxs_length. now repeat split.
Qed.

Lemma varbin_stays : forall L fuel hp hp0 x ls A0 Q e v c,
  callFunction fuel L (join (push_block hp (leaf_pdf hp0 (LVarBin x ls)) A0) Q) e (end_of A0) = DOk (v, c) ->
  c = end_of A0 /\ c <> end_of (push_block hp (leaf_pdf hp0 (LVarBin x ls)) A0).
Proof.
  intros L fuel hp hp0 x ls A0 Q e v c H. destruct fuel as [|n]; [discriminate|]. rewrite push_block_extend in *. set (b := block_of hp _) in *.
  pose proof (stand_join A0 [b] Q) as ST. rewrite end_extend1. cbn [callFunction] in H.
  pose proof ST as (SF & _). assert (NF : nth_error (a_fun (join (extend A0 [b]) Q)) (c_fun (end_of A0)) = Some (FPdf KVarBin)).
  { replace (c_fun (end_of A0)) with (c_fun (end_of A0) + 0) by lia. apply (part_nth _ _ _ 0 _ SF). reflexivity. }
  rewrite NF in H. cbn [body] in H. unfold dev_varbin in H.
  repeat match type of H with dbind _ _ = DOk _ =>
    let t := fresh "t" in let E := fresh "E" in apply dbind_ok in H; destruct H as (t & E & H) end.
  apply (f_equal (fun o => match o with DOk x => snd x | _ => c end)) in H. cbv beta iota in H. cbn [snd] in H. subst c. split; [reflexivity|].
  intro X. apply (f_equal c_fun) in X. unfold adv1, incrementIndex5 in X. cbn [c_fun] in X. lia.
Qed.

Lemma sfc_fit : forall hp ps A id fc p, nth_error ps id = Some p ->
  exists p', nth_error (fst (setFitControl (S id) hp ps A id fc)) id = Some p' /\ p_fit p' = Some fc.
Proof.
  intros hp ps A id fc p E. cbn [setFitControl]. rewrite E. 
  assert (Lm : forall ks s, len (fst (fold_left (fun s c => setFitControl id hp (fst s) (snd s) c fc) ks s)) = len (fst s)).
  { induction ks as [|k ks IH]; intro s; [reflexivity|]. cbn [fold_left]. rewrite IH.
    pose proof (sfc_map lens (fun _ _ _ _ _ _ => eq_refl) (fun _ _ => eq_refl) (fun _ _ => eq_refl) id hp (fst s) (snd s) k fc) as X.
    apply (f_equal (@len _)) in X. now rewrite !map_length in X. }
  dfold ps1 A1 EF. assert (Lp : len ps1 = len ps) by (change ps1 with (fst (ps1, A1)); rewrite <- EF; exact (Lm (p_comps p) (ps, A))).
  destruct (nth_error ps1 id) as [q|] eqn:Eq; [|apply nth_error_None in Eq; apply nth_error_Some_lt in E; unfold pdfs in *; lia].
  assert (SP : set_pdf ps1 id (fun q => with_fit q fc) = upd ps1 id (with_fit q fc)) by (unfold set_pdf; now rewrite Eq). rewrite SP. unfold setIndices_fc.
  pose proof (rsi_map p_fit (fun _ _ _ _ _ _ => eq_refl) (fun _ _ => eq_refl) (S id) hp (upd ps1 id (with_fit q fc)) no_arrays id) as X.
  destruct (recursiveSetIndices (S id) hp (upd ps1 id (with_fit q fc)) no_arrays id) as [ps2 A2]. cbn [fst] in *.
  assert (Y : nth_error (map p_fit (upd ps1 id (with_fit q fc))) id = Some (Some fc)).
  { rewrite nth_error_map, nth_error_upd_same by (eapply nth_error_Some_lt; eauto). reflexivity. }
  rewrite <- X, nth_error_map in Y. destruct (nth_error ps2 id) as [p'|]; [|discriminate]. exists p'. split; [reflexivity|]. now injection Y.
Qed.
Lemma fit_control_selects : forall ops k fc st ns, after (ops ++ [GSetFitControl k fc]) = (st, ns) -> k < len ns ->
  metric_of st k = getMetric fc.
Proof.
  intros ops k fc st ns E Hk. pose proof E as E'. unfold after in E. rewrite history_app in E. destruct (history ginit [] ops) as [st0 ns0] eqn:E0.
  cbn [fst snd history gstep] in E. pose proof (after_inv ops st0 ns0 E0) as (_ & [ML _] & _).
  assert (NS : ns0 = ns). { destruct (Nat.ltb k (len (g_pdfs st0))); [destruct (setFitControl (S k) (g_heap st0) (g_pdfs st0) (g_arr st0) k fc)|]; cbn [note] in E; congruence. }
  subst ns0. replace (Nat.ltb k (len (g_pdfs st0))) with true in E by (symmetry; apply Nat.ltb_lt; lia).
  destruct (nth_error (g_pdfs st0) k) as [p|] eqn:Ep; [|apply nth_error_None in Ep; lia].
  destruct (sfc_fit (g_heap st0) (g_pdfs st0) (g_arr st0) k fc p Ep) as (p' & Ep' & EF).
  destruct (setFitControl (S k) (g_heap st0) (g_pdfs st0) (g_arr st0) k fc) as [ps' A']. cbn [note fst] in *. injection E as <-.
  unfold metric_of. cbn [g_pdfs]. now rewrite Ep', EF.
Qed.

Lemma refreshed_value : forall ops k qs st ns st' L e v fuel,
  after (ops ++ GSetIndices k :: qs) = (st, ns) -> k < len ns -> NoDup (tree_ids ns k) -> Forall (quiet ns k) qs ->
  st' = fst (gstep st (GSetIndices k)) -> tree_ok st' ns k -> pdf_value L st' ns e k = Some v -> S k <= fuel ->
  exists c, callFunction fuel L (g_arr (fst (gstep st (GCopyParams k)))) e cur0 = DOk (v, c).
Proof.
  intros ops k qs st ns st' L e v fuel E Hk ND Q -> HT HV Hf.
  destruct (refresh_equals_rebuild ops k qs st ns E Hk ND Q) as [_ ->].
  destruct (flattened_evaluation (ops ++ GSetIndices k :: qs) k (fst (gstep st (GSetIndices k))) ns L e v fuel) as (c & H & _); try assumption; [|now exists c].
  unfold after in *. rewrite history_app, E. cbn [fst snd history]. 
  assert (NE : note st (GSetIndices k) (snd (gstep st (GSetIndices k))) ns = ns) by (destruct (snd (gstep st (GSetIndices k))); reflexivity).
  destruct (gstep st (GSetIndices k)) as [s o]. cbn [fst snd] in *. now rewrite NE.
Qed.
