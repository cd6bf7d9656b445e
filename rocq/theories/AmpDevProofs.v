(** Proofs about amplitude PDFs in the flattened arrays. *)
From Coq Require Import List ZArith Bool Arith Lia.
From Verif Require Import F64 F64Lemmas ListAux VariableModel LeafFormulas DeviceModel PdfModel PdfSpec FlatProofs EvalProofs HostProofs PdfProofs PdfProofs4 AmpModel AmpDevice.
Import ListNotations.
Local Open Scope nat_scope.
Local Notation len := List.length.

Lemma join_assoc : forall A B C, join (join A B) C = join A (join B C).
Proof. intros. unfold join. cbn [a_fun a_par a_con a_obs a_nor]. now rewrite <- !app_assoc. Qed.
Lemma extend_join : forall A bs, extend A bs = join A (extend no_arrays bs).
Proof. reflexivity. Qed.
Lemma end_join_reg : forall A r, end_of (join A (reg_arrays r)) =
  incrementIndex5 (end_of A) 1 (len (r_pars r)) (len (r_cons r)) (len (r_obs r)) 1.
Proof.
  intros. unfold end_of, join, reg_arrays, incrementIndex5. cbn [a_fun a_par a_con a_obs a_nor c_fun c_par c_con c_obs c_nor].
  rewrite !app_length. cbn [len]. f_equal; lia.
Qed.

(** ** Reading a registered object *)
Section Reads.
Variables (A0 Q : arrays) (r : reg).
Let A := join A0 (join (reg_arrays r) Q).
Let c := end_of A0.
Lemma nth_mid : forall {T} (a x q : list T) i v, nth_error x i = Some v -> nth_error (a ++ x ++ q) (len a + i) = Some v.
Proof. intros. rewrite nth_error_app2 by lia. replace (len a + i - len a) with i by lia. rewrite nth_error_app1; [assumption|]. apply nth_error_Some. congruence. Qed.
Lemma reg_par : forall i v, nth_error (r_pars r) i = Some v -> getParameter A c i = DOk v.
Proof.
  intros i v H. unfold getParameter, rd, A, c, join, end_of, reg_arrays. cbn [a_par c_par]. rewrite <- Nat.add_assoc, Nat.add_1_r.
  rewrite (nth_mid _ (_ :: _) _ (S i) v) by exact H. reflexivity.
Qed.
Lemma reg_con : forall i v, nth_error (r_cons r) i = Some v -> getConstant A c i = DOk v.
Proof.
  intros i v H. unfold getConstant, rd, A, c, join, end_of, reg_arrays. cbn [a_con c_con]. rewrite <- Nat.add_assoc, Nat.add_1_r.
  rewrite (nth_mid _ (_ :: _) _ (S i) v) by exact H. reflexivity.
Qed.
Lemma reg_ob : forall i v, nth_error (r_obs r) i = Some v -> getObservable A c i = DOk v.
Proof.
  intros i v H. unfold getObservable, rd, A, c, join, end_of, reg_arrays. cbn [a_obs c_obs]. rewrite <- Nat.add_assoc, Nat.add_1_r.
  rewrite (nth_mid _ (_ :: _) _ (S i) v) by exact H. reflexivity.
Qed.
Lemma reg_npar : small (len (r_pars r)) -> getNumParameters A c = DOk (len (r_pars r)).
Proof.
  intro S1. unfold getNumParameters, rd, A, c, join, end_of, reg_arrays. cbn [a_par c_par]. rewrite <- (Nat.add_0_r (len (a_par A0))).
  rewrite (nth_mid _ (_ :: _) _ 0 (f_of_nat (len (r_pars r)))) by reflexivity. now apply to_index_nat.
Qed.
Lemma reg_ncon : small (len (r_cons r)) -> getNumConstants A c = DOk (len (r_cons r)).
Proof.
  intro S1. unfold getNumConstants, rd, A, c, join, end_of, reg_arrays. cbn [a_con c_con]. rewrite <- (Nat.add_0_r (len (a_con A0))).
  rewrite (nth_mid _ (_ :: _) _ 0 (f_of_nat (len (r_cons r)))) by reflexivity. now apply to_index_nat.
Qed.
Lemma reg_nobs : small (len (r_obs r)) -> getNumObservables A c = DOk (len (r_obs r)).
Proof.
  intro S1. unfold getNumObservables, rd, A, c, join, end_of, reg_arrays. cbn [a_obs c_obs]. rewrite <- (Nat.add_0_r (len (a_obs A0))).
  rewrite (nth_mid _ (_ :: _) _ 0 (f_of_nat (len (r_obs r)))) by reflexivity. now apply to_index_nat.
Qed.
Lemma to_index_one : to_index fone = DOk 1.
Proof. rewrite fone_Z. apply (to_index_Z 1). lia. Qed.
Lemma reg_nnor : getNumNormalizations A c = DOk 1.
Proof.
  unfold getNumNormalizations, rd, A, c, join, end_of, reg_arrays. cbn [a_nor c_nor]. rewrite <- (Nat.add_0_r (len (a_nor A0))).
  rewrite (nth_mid _ [fone; r_norm r] _ 0 fone) by reflexivity. apply to_index_one.
Qed.
Definition rsmall (r : reg) : Prop := small (len (r_pars r)) /\ small (len (r_cons r)) /\ small (len (r_obs r)).
Lemma reg_inc : rsmall r -> incrementIndex A c = DOk (end_of (join A0 (reg_arrays r))).
Proof.
  intros (H1 & H2 & H3). unfold incrementIndex. rewrite reg_npar, reg_ncon, reg_nobs, reg_nnor by assumption. cbn [dbind].
  now rewrite end_join_reg.
Qed.
End Reads.

Lemma push_regs_cons : forall r rs A, push_regs (r :: rs) A = push_regs rs (join A (reg_arrays r)).
Proof. reflexivity. Qed.
Lemma push_join : forall rs A Q, join (push_regs rs A) Q = join A (join (push_regs rs no_arrays) Q).
Proof.
  induction rs as [|r rs IH]; intros A Q; [reflexivity|]. rewrite !push_regs_cons. rewrite IH, (IH (join no_arrays (reg_arrays r)) Q).
  rewrite join_assoc. f_equal.
Qed.
Lemma skip_regs : forall rs A Q, Forall rsmall rs -> skip (join (push_regs rs A) Q) (end_of A) (len rs) = DOk (end_of (push_regs rs A)).
Proof.
  induction rs as [|r rs IH]; intros A Q H; [reflexivity|]. inversion H as [|r0 l Hr Hrs]; subst. rewrite push_regs_cons. cbn [len skip].
  assert (E : incrementIndex (join (push_regs rs (join A (reg_arrays r))) Q) (end_of A) = DOk (end_of (join A (reg_arrays r)))).
  { rewrite push_join, join_assoc. now apply reg_inc. }
  rewrite E. cbn [dbind]. now apply IH.
Qed.
Lemma skip_add : forall A n m c, skip A c (n + m) = (c1 <- skip A c n ;; skip A c1 m).
Proof.
  induction n as [|n IH]; intros m c; [reflexivity|]. cbn [plus skip]. destruct (incrementIndex A c); cbn [dbind]; try reflexivity. apply IH.
Qed.
Lemma regs_fun : forall rs A, len (a_fun (push_regs rs A)) = len (a_fun A) + len rs.
Proof.
  induction rs as [|r rs IH]; intro A; [cbn; lia|]. rewrite push_regs_cons, IH. unfold join, reg_arrays. cbn [a_fun]. rewrite app_length. cbn [len]. lia.
Qed.

(** ** The efficiency *)
Section Eff.
Variables (ops : list gop) (k : nat) (st : gstate) (ns : list snode) (L : libm).
Hypothesis E : after ops = (st, ns).
Hypothesis Hk : k < len ns.
Hypothesis TOK : tree_ok st ns k.
Let bs := flat (S k) (g_heap st) (g_pdfs st) k.
Lemma eff_len : len bs = len (tree_ids ns k).
Proof.
  pose proof (after_inv ops st ns E) as (_ & HM & _). unfold bs, tree_ids. now apply flat_length.
Qed.
Lemma eff_small : Forall bsmall bs.
Proof.
  pose proof (after_inv ops st ns E) as (_ & HM & _). destruct TOK as [_ HT2].
  apply Forall_forall. intros b Hb. unfold bs in Hb. destruct (subtree_in _ _ _ _ _ HM b Hb) as (i & q & Hi & Eq & ->).
  eapply Forall_forall in HT2; [|exact Hi]. destruct HT2 as [HT2 _]. unfold sizes_ok in HT2. rewrite Eq in HT2. eapply bsmall_in; [reflexivity|exact HT2].
Qed.
Lemma eff_eval : forall A c e v fuel, stand A c bs -> pdf_value L st ns e k = Some v -> S k <= fuel ->
  callFunction fuel L A e c = DOk (v, adv c bs).
Proof.
  intros A c e v fuel HS HV Hf. pose proof (after_inv ops st ns E) as (HW & HM & HC). pose proof TOK as [HT1 HT2].
  unfold pdf_value in HV. eapply (eval_correct L A (g_heap st) ns (g_pdfs st) HM (norm_of st) (first_obs_of st)) with (id := k) (f := S k).
  - intros i q Eq. unfold norm_of. now rewrite Eq.
  - intros i q o Eq Eo. unfold first_obs_of in Eo. rewrite getObservables_obs_of in Eo by exact HC. unfold obs_of in Eo. rewrite Eq in Eo.
    destruct (p_obs q) as [|o' os] eqn:Eqo; [discriminate|]. cbn in Eo. injection Eo as ->. split; [reflexivity|].
    destruct (HC i q Eq) as (_ & W & _). rewrite Eqo in W. now inversion W.
  - exact Hf.
  - lia.
  - exact HS.
  - exact eff_small.
  - fold bs. rewrite eff_len. exact HT1.
  - eapply Forall_impl; [|exact HT2]. intros i [_ Hi]. exact Hi.
  - intros h w _ Hh. exact Hh.
  - exact HV.
Qed.
End Eff.

Lemma adv_extend : forall bs A, adv (end_of A) bs = end_of (extend A bs).
Proof.
  induction bs as [|b bs IH]; intro A; [now rewrite extend_nil|]. change (b :: bs) with ([b] ++ bs). rewrite extend_app, <- IH, adv_app.
  rewrite end_extend1. reflexivity.
Qed.

Lemma layout_extend : forall hp ps r rs k A0, layout hp ps r rs k A0 = extend (push_regs (r :: rs) A0) (flat (S k) hp ps k).
Proof. intros. unfold layout. apply rsi_arrays. Qed.

Lemma layout_split : forall hp ps r rs k A0 Q, join (layout hp ps r rs k A0) Q =
  join A0 (join (reg_arrays r) (join (push_regs rs no_arrays) (join (extend no_arrays (flat (S k) hp ps k)) Q))).
Proof.
  intros. rewrite layout_extend, extend_join, join_assoc, push_join, push_regs_cons, push_join, !join_assoc. reflexivity.
Qed.
Lemma layout_split' : forall hp ps r rs k A0 Q, join (layout hp ps r rs k A0) Q =
  join (push_regs rs (join A0 (reg_arrays r))) (join (extend no_arrays (flat (S k) hp ps k)) Q).
Proof. intros. now rewrite layout_extend, extend_join, join_assoc. Qed.

(** ** device_DalitzPlot *)
Lemma rd_column : forall A c e p i x, getObservable A c i = DOk (f_of_nat p) -> small p -> nth_error e p = Some (Some x) -> obs_value A c e i = DOk x.
Proof. intros A c e p i x H S1 Hx. unfold obs_value. rewrite H. cbn [dbind]. rewrite to_index_nat by assumption. cbn [dbind]. unfold ev. now rewrite Hx. Qed.
Lemma dmap_seq_ok : forall {T} (f : nat -> dres T) (g : nat -> T) n i, (forall j, j < n -> f (i + j) = DOk (g (i + j))) -> dmap f (seq i n) = DOk (map g (seq i n)).
Proof.
  induction n as [|n IH]; intros i H; [reflexivity|]. cbn [seq dmap map]. pose proof (H 0 ltac:(lia)) as H0. rewrite Nat.add_0_r in H0. rewrite H0. cbn [dbind].
  rewrite IH; [reflexivity|]. intros j Hj. specialize (H (S j) ltac:(lia)). now rewrite <- Nat.add_succ_comm in H.
Qed.
Lemma coef_nth : forall (coefs : list (f64 * f64)) i a, nth_error coefs i = Some a ->
  nth_error (flat_map (fun a => [fst a; snd a]) coefs) (i * 2) = Some (fst a) /\ nth_error (flat_map (fun a => [fst a; snd a]) coefs) (i * 2 + 1) = Some (snd a).
Proof.
  induction coefs as [|b coefs IH]; intros [|i] a H; try discriminate.
  - cbn in H. injection H as ->. split; reflexivity.
  - cbn in H. apply IH in H. exact H.
Qed.
Lemma coef_len : forall coefs : list (f64 * f64), len (flat_map (fun a => [fst a; snd a]) coefs) = len coefs * 2.
Proof. induction coefs as [|b coefs IH]; [reflexivity|]. cbn [flat_map app len]. lia. Qed.

Section Dalitz.
Variables (ops : list gop) (k : nat) (st : gstate) (ns : list snode) (L : libm) (fuel : nat).
Hypothesis E : after ops = (st, ns).
Hypothesis Hk : k < len ns.
Hypothesis TOK : tree_ok st ns k.
Hypothesis FU : S k <= fuel.
Variables (f : fentry) (coefs : list (f64 * f64)) (cache p12 p13 pn : nat) (norm : f64) (rs : list reg) (A0 Q : arrays).
Hypothesis NR : len coefs = len rs.
Hypothesis RS : Forall rsmall rs.
Hypothesis SM : small (len rs * 2) /\ small cache /\ small p12 /\ small p13 /\ small pn.
Let r := amp_reg f coefs cache p12 p13 pn norm.
Let lay := layout (g_heap st) (g_pdfs st) r rs k A0.
Let A := join lay Q.
Let bs := flat (S k) (g_heap st) (g_pdfs st) k.
Variables (inD : f64 -> f64 -> bool) (cRes : nat -> Z -> dres (f64 * f64)).

Lemma A_split : A = join A0 (join (reg_arrays r) (join (push_regs rs no_arrays) (join (extend no_arrays bs) Q))).
Proof. apply layout_split. Qed.
Lemma A_split' : A = join (push_regs rs (join A0 (reg_arrays r))) (join (extend no_arrays bs) Q).
Proof. apply layout_split'. Qed.
Lemma small_le : forall a b, a <= b -> small b -> small a.
Proof. unfold small. intros. lia. Qed.

Lemma amp_fixed : getNumObservables A (end_of A0) = DOk 3 /\ getConstant A (end_of A0) 0 = DOk (f_of_nat (len rs)) /\
  getConstant A (end_of A0) 1 = DOk (f_of_nat cache) /\ getObservable A (end_of A0) 0 = DOk (f_of_nat p12) /\
  getObservable A (end_of A0) 1 = DOk (f_of_nat p13) /\ getObservable A (end_of A0) 2 = DOk (f_of_nat pn).
Proof.
  rewrite A_split. repeat split.
  - apply reg_nobs. now apply Z.ltb_lt.
  - apply reg_con. cbn. now rewrite NR.
  - now apply reg_con.
  - now apply reg_ob.
  - now apply reg_ob.
  - now apply reg_ob.
Qed.
Lemma amp_past : incrementIndex5 (end_of A0) 1 (len rs * 2) 2 3 1 = end_of (join A0 (reg_arrays r)).
Proof. rewrite end_join_reg. unfold r, amp_reg. cbn [r_pars r_cons r_obs]. now rewrite coef_len, NR. Qed.
Lemma to_efficiency : skip A (end_of (join A0 (reg_arrays r))) (len rs) = DOk (end_of (push_regs (r :: rs) A0)).
Proof. rewrite A_split', push_regs_cons. now apply skip_regs. Qed.
Lemma eff_stands : stand A (end_of (push_regs (r :: rs) A0)) bs.
Proof.
  replace A with (join (extend (push_regs (r :: rs) A0) bs) Q) by (unfold A, lay; now rewrite layout_extend). apply stand_join.
Qed.
Lemma eff_end : adv (end_of (push_regs (r :: rs) A0)) bs = end_of lay.
Proof. unfold lay. rewrite layout_extend. apply adv_extend. Qed.

Lemma dalitz_inside : forall e x y num evt (w : nat -> f64 * f64) v,
  nth_error e p12 = Some (Some x) -> nth_error e p13 = Some (Some y) -> nth_error e pn = Some (Some num) ->
  inD x y = true -> floor_int (fadd fhalf num) = Some evt -> (forall i, i < len rs -> cRes (i + 16 * cache) evt = DOk (w i)) ->
  pdf_value L st ns e k = Some v ->
  dev_dalitz A inD cRes (callFunction fuel L A) e (end_of A0)
  = DOk (fmul (c_norm f64_ops (c_sum f64_ops (map (fun i => c_mul f64_ops (nth i coefs (fzero, fzero)) (w i)) (seq 0 (len rs))))) v, end_of lay).
Proof.
  intros e x y num evt w v Hx Hy Hn ID EV WV PV. destruct SM as (S1 & S2 & S3 & S4 & S5).
  destruct amp_fixed as (F1 & F2 & F3 & F4 & F5 & F6). unfold dev_dalitz. rewrite F1. cbn [dbind].
  rewrite (rd_column _ _ _ _ _ x F4 S3 Hx), (rd_column _ _ _ _ _ y F5 S4 Hy), F2, F3. cbn [dbind].
  rewrite (to_index_nat (len rs)) by (eapply small_le; [|exact S1]; lia). cbn [dbind]. rewrite (to_index_nat cache S2). cbn [dbind]. rewrite ID.
  rewrite (rd_column _ _ _ _ _ num F6 S5 Hn). cbn [dbind]. rewrite EV. cbn [of_option dbind].
  rewrite (dmap_seq_ok _ (fun i => c_mul f64_ops (nth i coefs (fzero, fzero)) (w i))).
  2:{ intros j Hj. rewrite Nat.add_0_l. assert (HN : nth_error coefs j = Some (nth j coefs (fzero, fzero))) by (apply nth_error_nth'; lia).
      destruct (coef_nth _ _ _ HN) as [C1 C2]. rewrite A_split. rewrite (reg_par A0 _ r _ _ C1). cbn [dbind]. rewrite (reg_par A0 _ r _ _ C2). cbn [dbind].
      rewrite (WV j Hj). cbn [dbind]. now destruct (nth j coefs (fzero, fzero)). }
  cbn [dbind]. rewrite amp_past, to_efficiency. cbn [dbind].
  rewrite (eff_eval ops k st ns L E Hk TOK A _ e v fuel eff_stands PV FU). cbn [dbind]. fold bs. now rewrite eff_end.
Qed.

Lemma dalitz_outside : forall e x y, nth_error e p12 = Some (Some x) -> nth_error e p13 = Some (Some y) -> inD x y = false ->
  exists b, hd_error bs = Some b /\
  dev_dalitz A inD cRes (callFunction fuel L A) e (end_of A0) = DOk (fzero, end_of (extend (push_regs (r :: rs) A0) [b])).
Proof.
  intros e x y Hx Hy ID. destruct SM as (S1 & S2 & S3 & S4 & S5).
  destruct amp_fixed as (F1 & F2 & F3 & F4 & F5 & F6). unfold dev_dalitz. rewrite F1. cbn [dbind].
  rewrite (rd_column _ _ _ _ _ x F4 S3 Hx), (rd_column _ _ _ _ _ y F5 S4 Hy), F2, F3. cbn [dbind].
  rewrite (to_index_nat (len rs)) by (eapply small_le; [|exact S1]; lia). cbn [dbind]. rewrite (to_index_nat cache S2). cbn [dbind]. rewrite ID.
  rewrite amp_past, to_efficiency. cbn [dbind].
  pose proof eff_stands as ST. pose proof (eff_small ops k st ns E TOK) as EB. fold bs in EB.
  pose proof (eff_len ops k st ns E) as EL. fold bs in EL.
  destruct bs as [|b t]; [exfalso; unfold tree_ids in EL; cbn [subtree len] in EL; destruct (nth_error ns k) eqn:N; [discriminate|]; apply nth_error_None in N; lia|].
  exists b. split; [reflexivity|]. apply stand_cons in ST. destruct ST as [ST _]. inversion EB as [|b0 t0 EB0 _]; subst.
  rewrite (rd_inc _ _ _ ST EB0). cbn [dbind]. now rewrite end_extend1.
Qed.
End Dalitz.

(** ** The efficiency in the normalisation integral *)
Section Integral.
Variables (ops : list gop) (k : nat) (st : gstate) (ns : list snode) (L : libm) (fuel : nat).
Hypothesis E : after ops = (st, ns).
Hypothesis Hk : k < len ns.
Hypothesis TOK : tree_ok st ns k.
Hypothesis FU : S k <= fuel.
Variables (f : fentry) (coefs : list (f64 * f64)) (cache p12 p13 pn : nat) (norm : f64) (rs0 rs : list reg) (Q : arrays).
Hypothesis NR : len coefs = len rs.
Hypothesis RS : Forall rsmall rs.
Hypothesis RS0 : Forall rsmall rs0.
Hypothesis SM : small (len rs * 2) /\ small cache /\ small p12 /\ small p13 /\ small pn.
Let r := amp_reg f coefs cache p12 p13 pn norm.
Let lay := layout (g_heap st) (g_pdfs st) r rs k (push_regs rs0 no_arrays).
Let A := join lay Q.
Let bs := flat (S k) (g_heap st) (g_pdfs st) k.
Hypothesis LEAF : tree_ids ns k = [k].
Hypothesis COLS : p12 < 10 /\ p13 < 10.

Definition grid_event (x y : f64) : event := upd (upd (upd (repeat None 10) 0 (Some (f_of_Z 2))) p12 (Some x)) p13 (Some y).
Lemma integral_leaf : forall x y v, pdf_value L st ns (grid_event x y) k = Some v ->
  integral_efficiency A (callFunction fuel L A) (len rs0) (efficiencyFunction lay) x y = DOk v.
Proof.
  intros x y v PV. destruct SM as (S1 & S2 & S3 & S4 & S5). unfold integral_efficiency.
  assert (E1 : skip A cur0 (len rs0) = DOk (end_of (push_regs rs0 no_arrays))).
  { unfold A, lay. rewrite layout_split. exact (skip_regs rs0 no_arrays _ RS0). }
  rewrite E1. cbn [dbind].
  destruct (amp_fixed k st f coefs cache p12 p13 pn norm rs (push_regs rs0 no_arrays) Q NR) as (_ & _ & _ & F4 & F5 & _).
  change (join (layout (g_heap st) (g_pdfs st) (amp_reg f coefs cache p12 p13 pn norm) rs k (push_regs rs0 no_arrays)) Q) with A in F4, F5.
  rewrite F4. cbn [dbind]. rewrite (to_index_nat _ S3). cbn [dbind]. rewrite F5. cbn [dbind]. rewrite (to_index_nat _ S4). cbn [dbind].
  destruct COLS as [C1 C2]. apply Nat.ltb_lt in C1, C2. rewrite C1, C2. cbn [andb].
  assert (EL : len bs = 1) by (unfold bs; rewrite (eff_len ops k st ns E), LEAF; reflexivity).
  replace (efficiencyFunction lay - c_fun (end_of (push_regs rs0 no_arrays))) with (1 + len rs).
  2:{ unfold efficiencyFunction, lay. rewrite layout_extend. fold bs. unfold extend, end_of. cbn [a_fun c_fun]. rewrite app_length. unfold enc_fun. rewrite map_length, EL.
      rewrite regs_fun. cbn [len]. lia. }
  assert (E2 : skip A (end_of (push_regs rs0 no_arrays)) (1 + len rs) = DOk (end_of (push_regs (r :: rs) (push_regs rs0 no_arrays)))).
  { unfold A, lay. rewrite layout_extend, extend_join, join_assoc. apply (skip_regs (r :: rs)). constructor; [|exact RS].
    unfold r, amp_reg. split; [|split]; cbn [r_pars r_cons r_obs]; [rewrite coef_len, NR; exact S1|unfold small; cbn; lia|unfold small; cbn; lia]. }
  rewrite E2. cbn [dbind]. fold (grid_event x y).
  assert (ST : stand A (end_of (push_regs (r :: rs) (push_regs rs0 no_arrays))) bs).
  { unfold A, lay. rewrite layout_extend. apply stand_join. }
  rewrite (eff_eval ops k st ns L E Hk TOK A _ _ v fuel ST PV FU). reflexivity.
Qed.
End Integral.

(** ** Amp3Body_IS *)
Lemma nth_error_firstn_lt : forall {T} (l : list T) n i, i < n -> nth_error (firstn n l) i = nth_error l i.
Proof. induction l as [|a l IH]; intros [|n] [|i] H; try lia; try reflexivity. cbn. apply IH. lia. Qed.
Section Incoherent.
Variables (ops : list gop) (k : nat) (st : gstate) (ns : list snode) (L : libm) (fuel : nat).
Hypothesis E : after ops = (st, ns).
Hypothesis Hk : k < len ns.
Hypothesis TOK : tree_ok st ns k.
Hypothesis FU : S k <= fuel.
Variables (f : fentry) (cache p12 p13 pn : nat) (norm : f64) (rs : list reg) (A0 Q : arrays).
Hypothesis RS : Forall rsmall rs.
Hypothesis SM : small (len rs) /\ small cache /\ small p12 /\ small p13 /\ small pn.
Let r := is_reg f (len rs) cache p12 p13 pn norm.
Let lay := layout (g_heap st) (g_pdfs st) r rs k A0.
Let A := join lay Q.
Let bs := flat (S k) (g_heap st) (g_pdfs st) k.
Variables (cRes : nat -> Z -> dres (f64 * f64)).

(** What is read as the weights: the flattened parameters of the resonances themselves, starting with the number of
    parameters of the first one. *)
Definition weights_read : list f64 := firstn (len rs) (flat_map (fun q => f_of_nat (len (r_pars q)) :: r_pars q) rs).
Lemma pars_of_regs : forall l B, a_par (push_regs l B) = a_par B ++ flat_map (fun q => f_of_nat (len (r_pars q)) :: r_pars q) l.
Proof.
  induction l as [|q l IH]; intro B; [cbn; now rewrite app_nil_r|]. rewrite push_regs_cons, IH. unfold join, reg_arrays. cbn [a_par flat_map]. now rewrite <- app_assoc.
Qed.
Lemma weights_len : len rs <= len (flat_map (fun q => f_of_nat (len (r_pars q)) :: r_pars q) rs).
Proof. clear. induction rs as [|q l IH]; [reflexivity|]. cbn [flat_map]. rewrite app_length. cbn [len]. lia. Qed.
Lemma is_par : forall i w, nth_error weights_read i = Some w -> getParameter A (end_of A0) i = DOk w.
Proof.
  intros i w H. assert (HL : i < len weights_read) by (apply nth_error_Some; congruence).
  unfold weights_read in H. rewrite nth_error_firstn_lt in H by (unfold weights_read in HL; rewrite firstn_length in HL; lia).
  unfold A, lay. rewrite layout_split. unfold getParameter, rd, join, end_of, reg_arrays. cbn [a_par c_par r is_reg r_pars].
  rewrite pars_of_regs. cbn [a_par no_arrays app]. rewrite nth_error_app2 by lia.
  replace (len (a_par A0) + i + 1 - len (a_par A0)) with (S i) by lia. cbn [nth_error]. rewrite nth_error_app1 by (apply nth_error_Some; congruence).
  now rewrite H.
Qed.
Lemma incoherent_value : forall e num evt (w : nat -> f64 * f64) v,
  nth_error e pn = Some (Some num) -> floor_int (fadd fhalf num) = Some evt ->
  (forall i, i < len rs -> cRes cache (evt * Z.of_nat (len rs) + Z.of_nat i)%Z = DOk (w i)) ->
  pdf_value L st ns e k = Some v ->
  dev_incoherent A cRes (callFunction fuel L A) e (end_of A0)
  = DOk (fmul (fold_left fadd (map (fun i => fmul (nth i weights_read fzero) (c_norm f64_ops (w i))) (seq 0 (len rs))) fzero) v, end_of lay).
Proof.
  intros e num evt w v Hn EV WV PV. destruct SM as (S1 & S2 & S3 & S4 & S5).
  assert (SP : A = join A0 (join (reg_arrays r) (join (push_regs rs no_arrays) (join (extend no_arrays bs) Q)))) by apply layout_split.
  assert (F6 : getObservable A (end_of A0) 2 = DOk (f_of_nat pn)) by (rewrite SP; now apply reg_ob).
  assert (G4 : getConstant A (end_of A0) 4 = DOk (f_of_nat (len rs))) by (rewrite SP; now apply reg_con).
  assert (G5 : getConstant A (end_of A0) 5 = DOk (f_of_nat cache)) by (rewrite SP; now apply reg_con).
  unfold dev_incoherent. rewrite (rd_column _ _ _ _ _ num F6 S5 Hn). cbn [dbind]. rewrite EV. cbn [of_option dbind]. rewrite G4, G5. cbn [dbind].
  rewrite (to_index_nat _ S1). cbn [dbind]. rewrite (to_index_nat _ S2). cbn [dbind].
  rewrite (dmap_seq_ok _ (fun i => fmul (nth i weights_read fzero) (c_norm f64_ops (w i)))).
  2:{ intros j Hj. rewrite Nat.add_0_l. rewrite (is_par j (nth j weights_read fzero)).
      - cbn [dbind]. rewrite (WV j Hj). reflexivity.
      - apply nth_error_nth'. unfold weights_read. rewrite firstn_length. pose proof weights_len. lia. }
  cbn [dbind].
  assert (E1 : incrementIndex A (end_of A0) = DOk (end_of (join A0 (reg_arrays r)))).
  { rewrite SP. apply reg_inc. unfold r, is_reg. repeat split; cbn [r_pars r_cons r_obs]; unfold small; cbn; lia. }
  rewrite E1. cbn [dbind].
  assert (E2 : skip A (end_of (join A0 (reg_arrays r))) (len rs) = DOk (end_of (push_regs (r :: rs) A0))).
  { unfold A, lay. rewrite layout_split', push_regs_cons. now apply skip_regs. }
  rewrite E2. cbn [dbind].
  assert (ST : stand A (end_of (push_regs (r :: rs) A0)) bs) by (unfold A, lay; rewrite layout_extend; apply stand_join).
  rewrite (eff_eval ops k st ns L E Hk TOK A _ _ v fuel ST PV FU). cbn [dbind]. fold bs. unfold lay. rewrite layout_extend, adv_extend. reflexivity.
Qed.
End Incoherent.

Lemma integrator_place : forall hp ps f cache p12 p13 pn norm k rs Q i, rs <> [] -> Forall rsmall rs -> small (len rs) ->
  let r := is_reg f (len rs) cache p12 p13 pn norm in
  let A := join (layout hp ps r rs k no_arrays) Q in
  is_integrator_cursor A 0 i = DOk (end_of (push_regs (r :: removelast rs) no_arrays)).
Proof.
  intros hp ps f cache p12 p13 pn norm k rs Q i NE RS SM r A. unfold is_integrator_cursor. cbn [skip dbind].
  assert (G4 : getConstant A cur0 4 = DOk (f_of_nat (len rs))).
  { change cur0 with (end_of no_arrays). unfold A. rewrite layout_split. now apply reg_con. }
  rewrite G4. cbn [dbind]. rewrite (to_index_nat _ SM). cbn [dbind c_fun cur0]. rewrite Nat.sub_0_r.
  destruct (exists_last NE) as (l' & a & EQ). subst rs. rewrite removelast_last. rewrite app_length. cbn [len]. rewrite Nat.add_1_r.
  change (S (len l')) with (len (r :: l')). change cur0 with (end_of no_arrays).
  assert (SP : exists Q', A = join (push_regs (r :: l') no_arrays) Q').
  { unfold A. rewrite layout_extend, extend_join, join_assoc. exists (join (reg_arrays a) (join (extend no_arrays (flat (S k) hp ps k)) Q)).
    unfold push_regs. change (r :: l' ++ [a]) with ((r :: l') ++ [a]). rewrite fold_left_app. cbn [fold_left]. now rewrite join_assoc. }
  destruct SP as (Q' & SP). rewrite SP. apply skip_regs. apply Forall_app in RS. destruct RS as [RS _]. constructor; [|exact RS].
  unfold r, is_reg. repeat split; cbn [r_pars r_cons r_obs]; apply Z.ltb_lt; reflexivity.
Qed.
