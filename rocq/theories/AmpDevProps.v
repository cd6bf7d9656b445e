(** Property theorems for amplitude PDFs on the device: the efficiency of Amp3Body (C50) and the weights of Amp3Body_IS (C51).
    IEEE double arithmetic; undefined behaviour is an outcome of its own. *)
From Coq Require Import List ZArith String Bool Arith Lia.
From Verif Require Import F64 F64Lemmas ListAux VariableModel LeafFormulas DeviceModel PdfModel PdfSpec HostProofs PdfProofs PdfProofs4 PdfProps FlatProofs EvalProofs AmpModel AmpDevice AmpDevProofs.
Import ListNotations.
Open Scope string_scope.
Open Scope nat_scope.
Open Scope list_scope.
Local Notation len := List.length.

Lemma join_nil : forall A, join A no_arrays = A.
Proof. intros [f p c o n]. unfold join. cbn. now rewrite !app_nil_r. Qed.

(** ** C50 *)

(** Sizes and column numbers fit into int, as everywhere. *)
Definition decay_ok (rs : list reg) (cache p12 p13 pn : nat) : Prop :=
  Forall rsmall rs /\ small (len rs * 2) /\ small cache /\ small p12 /\ small p13 /\ small pn.

(** The value at an event inside the Dalitz plot: |sum a_i w_i|^2, with the amplitudes of the user and the cached waves,
    times the value of the efficiency PDF, whatever tree of PDFs it is, and the cursor ends behind it. *)
Theorem C50_evaluation_partial : forall ops k st ns L fuel, after ops = (st, ns) -> k < len ns -> tree_ok st ns k -> S k <= fuel ->
  forall f coefs cache p12 p13 pn norm rs A0 Q, len coefs = len rs -> decay_ok rs cache p12 p13 pn ->
  let lay := layout (g_heap st) (g_pdfs st) (amp_reg f coefs cache p12 p13 pn norm) rs k A0 in
  let A := join lay Q in
  forall inD cRes e x y num evt (w : nat -> f64 * f64) v,
  nth_error e p12 = Some (Some x) -> nth_error e p13 = Some (Some y) -> nth_error e pn = Some (Some num) ->
  inD x y = true -> floor_int (fadd fhalf num) = Some evt -> (forall i, i < len rs -> cRes (i + 16 * cache) evt = DOk (w i)) ->
  pdf_value L st ns e k = Some v ->
  dev_dalitz A inD cRes (callFunction fuel L A) e (end_of A0)
  = DOk (fmul (c_norm f64_ops (c_sum f64_ops (map (fun i => c_mul f64_ops (nth i coefs (fzero, fzero)) (w i)) (seq 0 (len rs))))) v, end_of lay).
Proof.
  intros ops k st ns L fuel E Hk T F f coefs cache p12 p13 pn norm rs A0 Q NR (D1 & D2 & D3 & D4 & D5 & D6) lay A inD cRes e x y num evt w v H1 H2 H3 H4 H5 H6 H7.
  eapply dalitz_inside; try eassumption. repeat split; assumption.
Qed.
Print Assumptions C50_evaluation_partial.

(** At an event outside the Dalitz plot the value is zero, and the cursor ends behind the efficiency if that is a PDF without
    components. *)
Theorem C50_outside_partial : forall ops k st ns L fuel, after ops = (st, ns) -> k < len ns -> tree_ok st ns k -> S k <= fuel ->
  forall f coefs cache p12 p13 pn norm rs A0 Q, len coefs = len rs -> decay_ok rs cache p12 p13 pn ->
  let lay := layout (g_heap st) (g_pdfs st) (amp_reg f coefs cache p12 p13 pn norm) rs k A0 in
  let A := join lay Q in
  forall inD cRes e x y, nth_error e p12 = Some (Some x) -> nth_error e p13 = Some (Some y) -> inD x y = false ->
  exists c, dev_dalitz A inD cRes (callFunction fuel L A) e (end_of A0) = DOk (fzero, c) /\ (c = end_of lay <-> tree_ids ns k = [k]).
Proof.
  intros ops k st ns L fuel E Hk T F f coefs cache p12 p13 pn norm rs A0 Q NR (D1 & D2 & D3 & D4 & D5 & D6) lay A inD cRes e x y H1 H2 H3.
  edestruct (dalitz_outside ops k st ns L fuel E Hk T F f coefs cache p12 p13 pn norm rs A0 Q NR D1 (conj D2 (conj D3 (conj D4 (conj D5 D6)))) inD cRes) as (b & Hb & V); try eassumption.
  exists (end_of (extend (push_regs (amp_reg f coefs cache p12 p13 pn norm :: rs) A0) [b])). split; [exact V|].
  unfold lay. rewrite layout_extend. pose proof (eff_len ops k st ns E) as EL. split; intro X.
  - apply (f_equal c_fun) in X. unfold end_of, extend in X. cbn [c_fun a_fun] in X. rewrite !app_length in X. unfold enc_fun in X. rewrite !map_length, EL in X. cbn [len] in X.
    unfold tree_ids in *. cbn [subtree] in *. destruct (nth_error ns k) eqn:N; [|apply nth_error_None in N; lia].
    match type of X with context [len (?h :: ?t)] => destruct t eqn:Et; [reflexivity|cbn [len] in X; lia] end.
  - rewrite X in EL. destruct (flat (S k) (g_heap st) (g_pdfs st) k) as [|b' [|]]; try discriminate. cbn in Hb. injection Hb as ->. reflexivity.
Qed.
Print Assumptions C50_outside_partial.

(** The normalisation integral uses the efficiency PDF's value at the grid point, when the efficiency is a PDF without
    components (m12 and m13 among the first ten columns of the event). *)
Theorem C50_integral_partial : forall ops k st ns L fuel, after ops = (st, ns) -> k < len ns -> tree_ok st ns k -> S k <= fuel ->
  forall f coefs cache p12 p13 pn norm rs0 rs Q, len coefs = len rs -> decay_ok rs cache p12 p13 pn -> Forall rsmall rs0 ->
  tree_ids ns k = [k] -> p12 < 10 -> p13 < 10 ->
  let lay := layout (g_heap st) (g_pdfs st) (amp_reg f coefs cache p12 p13 pn norm) rs k (push_regs rs0 no_arrays) in
  let A := join lay Q in
  forall x y v, pdf_value L st ns (grid_event p12 p13 x y) k = Some v ->
  integral_efficiency A (callFunction fuel L A) (len rs0) (efficiencyFunction lay) x y = DOk v.
Proof.
  intros ops k st ns L fuel E Hk T F f coefs cache p12 p13 pn norm rs0 rs Q NR (D1 & D2 & D3 & D4 & D5 & D6) R0 LF C1 C2 lay A x y v PV.
  eapply integral_leaf; try eassumption; repeat split; assumption.
Qed.
Print Assumptions C50_integral_partial.

(** An efficiency PDF that is a product of two exponentials, over the columns of m12 and m13. *)
Definition eff_ops : list gop :=
  [GVar (NewObservable "m12" (num 0) (num 10)); GVar (NewObservable "m13" (num 0) (num 10));
   GVar (NewVariable2 "a" (num 2)); GVar (NewVariable2 "b" (num 3));
   GLeaf (LExp 0 2);                   (* 0 *)
   GLeaf (LExp 1 3);                   (* 1 *)
   GProd [0; 1];                       (* 2 *)
   GSetupObservables 2].
(** A resonance with two parameters, three constants and the two masses as observables. *)
Definition reso (m g : Z) : reg := mkReg (FPdf KBW) [num m; num g] [num 1; num 2; num 3] [] fone.
Definition eff_lay (k : nat) : arrays :=
  layout (g_heap (st_of eff_ops)) (g_pdfs (st_of eff_ops)) (amp_reg (FPdf KProd) [(num 1, num 0); (num 0, num 1)] 0 0 1 2 fone) [reso 5 6; reso 7 8] k no_arrays.
Definition value_is (r : dres (f64 * cursor)) (v : option f64) : bool := match r, v with DOk (a, _), Some b => fsame a b | _, _ => false end.
Example C50_ex : after eff_ops = (st_of eff_ops, ns_of eff_ops) /\ 2 < len (ns_of eff_ops) /\ tree_ok (st_of eff_ops) (ns_of eff_ops) 2 /\
  tree_ids (ns_of eff_ops) 2 = [2; 0; 1] /\ tree_ids (ns_of eff_ops) 1 = [1] /\ tree_ok (st_of eff_ops) (ns_of eff_ops) 1 /\
  decay_ok [reso 5 6; reso 7 8] 0 0 1 2 /\
  (exists v, pdf_value lib1 (st_of eff_ops) (ns_of eff_ops) [Some (num 3); Some (num 4); Some (num 0)] 2 = Some v) /\
  value_is (dev_dalitz (eff_lay 2) (fun _ _ => true) (fun i _ => DOk (num (Z.of_nat i), num 1)) (callFunction 3 lib1 (eff_lay 2)) [Some (num 3); Some (num 4); Some (num 0)] cur0)
           (Some (num (5 * (7 * 13)))) = true.
Proof.
  split; [apply after_eq|]. split; [apply Nat.ltb_lt; vm_compute; reflexivity|]. split; [apply tree_okb_ok; vm_compute; reflexivity|].
  split; [vm_compute; reflexivity|]. split; [vm_compute; reflexivity|]. split; [apply tree_okb_ok; vm_compute; reflexivity|].
  split; [split; [repeat constructor|repeat constructor]|]. split; [|vm_compute; reflexivity].
  destruct (pdf_value lib1 (st_of eff_ops) (ns_of eff_ops) [Some (num 3); Some (num 4); Some (num 0)] 2) as [v|] eqn:X; [now exists v|].
  exfalso. assert (Y : match pdf_value lib1 (st_of eff_ops) (ns_of eff_ops) [Some (num 3); Some (num 4); Some (num 0)] 2 with Some _ => true | None => false end = true) by (vm_compute; reflexivity).
  rewrite X in Y. discriminate.
Qed.

Corollary outside_alone : forall ops k st ns L, after ops = (st, ns) -> k < len ns -> tree_ok st ns k ->
  forall f coefs cache p12 p13 pn norm rs, len coefs = len rs -> decay_ok rs cache p12 p13 pn ->
  let lay := layout (g_heap st) (g_pdfs st) (amp_reg f coefs cache p12 p13 pn norm) rs k no_arrays in
  forall inD cRes e x y, nth_error e p12 = Some (Some x) -> nth_error e p13 = Some (Some y) -> inD x y = false -> tree_ids ns k <> [k] ->
  exists c, dev_dalitz lay inD cRes (callFunction (S k) L lay) e cur0 = DOk (fzero, c) /\ c <> end_of lay.
Proof.
  intros ops k st ns L E Hk T f coefs cache p12 p13 pn norm rs NR D lay inD cRes e x y Hx Hy ID NL.
  destruct (C50_outside_partial ops k st ns L (S k) E Hk T (le_n _) f coefs cache p12 p13 pn norm rs no_arrays no_arrays NR D inD cRes e x y Hx Hy ID) as (c & V & I).
  rewrite join_nil in V. exists c. split; [exact V|]. intro X. apply NL. now apply I.
Qed.

(** False for an efficiency with components at events outside the Dalitz plot: the cursor stays inside the efficiency, so that
    what comes after the amplitude PDF in a sum is read from the wrong place. *)
Theorem C50_outside_refuted : exists ops k st ns, after ops = (st, ns) /\ k < len ns /\ tree_ok st ns k /\
  exists r rs e, let lay := layout (g_heap st) (g_pdfs st) r rs k no_arrays in
  forall L inD cRes, inD (num 9) (num 9) = false -> exists c, dev_dalitz lay inD cRes (callFunction (S k) L lay) e cur0 = DOk (fzero, c) /\ c <> end_of lay.
Proof.
  exists eff_ops, 2, (st_of eff_ops), (ns_of eff_ops). destruct C50_ex as (E & Hk & T & TI & _ & _ & D & _). split; [exact E|]. split; [exact Hk|]. split; [exact T|].
  exists (amp_reg (FPdf KProd) [(num 1, num 0); (num 0, num 1)] 0 0 1 2 fone), [reso 5 6; reso 7 8], [Some (num 9); Some (num 9); Some (num 0)].
  intros lay L inD cRes H. apply (outside_alone eff_ops 2 (st_of eff_ops) (ns_of eff_ops) L E Hk T (FPdf KProd) [(num 1, num 0); (num 0, num 1)] 0 0 1 2 fone [reso 5 6; reso 7 8]
    eq_refl D inD cRes [Some (num 9); Some (num 9); Some (num 0)] (num 9) (num 9) eq_refl eq_refl H). rewrite TI. discriminate.
Qed.
Print Assumptions C50_outside_refuted.

(** False for an efficiency with components in the normalisation integral: the last function of the table, the second
    exponential, is taken for the efficiency. *)
Lemma integral_pick : forall st ns k p12 p13 x y t t' lay,
  match pdf_value lib1 st ns (grid_event p12 p13 x y) k with Some v => fsame v t | None => false end = true ->
  match integral_efficiency lay (callFunction (S k) lib1 lay) 0 (efficiencyFunction lay) x y with DOk v => fsame v t' | _ => false end = true ->
  exists v v', pdf_value lib1 st ns (grid_event p12 p13 x y) k = Some v /\
  integral_efficiency lay (callFunction (S k) lib1 lay) 0 (efficiencyFunction lay) x y = DOk v' /\ fsame v t = true /\ fsame v' t' = true.
Proof.
  intros st ns k p12 p13 x y t t' lay H1 H2. destruct (pdf_value _ _ _ _ _) as [v|]; [|discriminate]. destruct (integral_efficiency _ _ _ _ _ _) as [v'| |]; try discriminate.
  exists v, v'. repeat split; assumption.
Qed.
Theorem C50_integral_refuted : exists ops k st ns, after ops = (st, ns) /\ k < len ns /\ tree_ok st ns k /\
  exists r rs x y v v', let lay := layout (g_heap st) (g_pdfs st) r rs k no_arrays in
  pdf_value lib1 st ns (grid_event 0 1 x y) k = Some v /\
  integral_efficiency lay (callFunction (S k) lib1 lay) 0 (efficiencyFunction lay) x y = DOk v' /\
  fsame v (num (7 * 13)) = true /\ fsame v' (num 13) = true.
Proof.
  exists eff_ops, 2, (st_of eff_ops), (ns_of eff_ops). destruct C50_ex as (E & Hk & T & _). split; [exact E|]. split; [exact Hk|]. split; [exact T|].
  exists (amp_reg (FPdf KProd) [(num 1, num 0); (num 0, num 1)] 0 0 1 2 fone), [reso 5 6; reso 7 8], (num 3), (num 4).
  apply integral_pick; vm_compute; reflexivity.
Qed.
Print Assumptions C50_integral_refuted.

(** ** C51 *)

(** The incoherent sum: sum of weight_i |w_i|^2, in the given weights, times the efficiency. *)
Definition incoherent_sum (weights : list f64) (w : nat -> f64 * f64) (n : nat) (v : f64) : f64 :=
  fmul (fold_left fadd (map (fun i => fmul (nth i weights fzero) (c_norm f64_ops (w i))) (seq 0 n)) fzero) v.

(** What Amp3Body_IS computes at an event, for any resonances and any efficiency tree: whatever the amplitude parameters
    [weights] are, it takes as weights the beginning of the flattened parameter lists of the resonances (the number of
    parameters of the first resonance, then its parameters, and so on). *)
Theorem C51_value_partial : forall ops k st ns L fuel, after ops = (st, ns) -> k < len ns -> tree_ok st ns k -> S k <= fuel ->
  forall f weights cache p12 p13 pn norm rs A0 Q, len weights = len rs -> decay_ok rs cache p12 p13 pn ->
  let lay := layout (g_heap st) (g_pdfs st) (is_reg_of f weights cache p12 p13 pn norm) rs k A0 in
  let A := join lay Q in
  forall cRes e num evt (w : nat -> f64 * f64) v,
  nth_error e pn = Some (Some num) -> floor_int (fadd fhalf num) = Some evt ->
  (forall i, i < len rs -> cRes cache (evt * Z.of_nat (len rs) + Z.of_nat i)%Z = DOk (w i)) ->
  pdf_value L st ns e k = Some v ->
  dev_incoherent A cRes (callFunction fuel L A) e (end_of A0)
  = DOk (incoherent_sum (flat_map (fun q => f_of_nat (len (r_pars q)) :: r_pars q) rs) w (len rs) v, end_of lay).
Proof.
  intros ops k st ns L fuel E Hk T F f weights cache p12 p13 pn norm rs A0 Q NR (D1 & D2 & D3 & D4 & D5 & D6) lay A cRes e num evt w v H1 H2 H3 H4.
  unfold A, lay, is_reg_of. rewrite NR. rewrite (incoherent_value ops k st ns L fuel E Hk T F f cache p12 p13 pn norm rs A0 Q D1) with (num := num) (evt := evt) (w := w) (v := v); try assumption.
  - unfold incoherent_sum. f_equal. f_equal. f_equal. f_equal. apply map_ext_in. intros i Hi. apply in_seq in Hi. f_equal. unfold weights_read.
    clear - Hi. set (l := flat_map _ rs). clearbody l. revert i Hi l. induction (len rs) as [|n IH]; intros i Hi l; [lia|]. destruct l as [|a l]; [now destruct i|]. destruct i as [|i]; [reflexivity|].
    cbn [firstn nth]. apply IH. lia.
  - repeat split; try assumption. unfold small in *. lia.
Qed.
Print Assumptions C51_value_partial.

Corollary value_alone : forall ops k st ns L, after ops = (st, ns) -> k < len ns -> tree_ok st ns k ->
  forall f weights cache p12 p13 pn norm rs, len weights = len rs -> decay_ok rs cache p12 p13 pn ->
  let lay := layout (g_heap st) (g_pdfs st) (is_reg_of f weights cache p12 p13 pn norm) rs k no_arrays in
  forall cRes e num evt (w : nat -> f64 * f64) v,
  nth_error e pn = Some (Some num) -> floor_int (fadd fhalf num) = Some evt ->
  (forall i, i < len rs -> cRes cache (evt * Z.of_nat (len rs) + Z.of_nat i)%Z = DOk (w i)) ->
  pdf_value L st ns e k = Some v ->
  dev_incoherent lay cRes (callFunction (S k) L lay) e cur0
  = DOk (incoherent_sum (flat_map (fun q => f_of_nat (len (r_pars q)) :: r_pars q) rs) w (len rs) v, end_of lay).
Proof.
  intros ops k st ns L E Hk T f weights cache p12 p13 pn norm rs NR D lay cRes e num evt w v H1 H2 H3 H4.
  pose proof (C51_value_partial ops k st ns L (S k) E Hk T (le_n _) f weights cache p12 p13 pn norm rs no_arrays no_arrays NR D cRes e num evt w v H1 H2 H3 H4) as P.
  rewrite join_nil in P. exact P.
Qed.
Lemma integrator_alone : forall hp ps f weights cache p12 p13 pn norm k rs i, rs <> [] -> Forall rsmall rs -> small (len rs) -> len weights = len rs ->
  let r := is_reg_of f weights cache p12 p13 pn norm in
  is_integrator_cursor (layout hp ps r rs k no_arrays) 0 i = DOk (end_of (push_regs (r :: removelast rs) no_arrays)).
Proof.
  intros hp ps f weights cache p12 p13 pn norm k rs i H1 H2 H3 H4. unfold is_reg_of. rewrite H4.
  pose proof (integrator_place hp ps f cache p12 p13 pn norm k rs no_arrays i H1 H2 H3) as P. cbv zeta in P. rewrite join_nil in P. exact P.
Qed.

(** So it does not weight each resonance with its own amplitude parameter: one resonance without parameters (NonRes), cached
    wave 1, efficiency 7, amplitude parameter 3: the value is 0 and not 21. *)
Theorem C51_weights_refuted : exists ops k st ns, after ops = (st, ns) /\ k < len ns /\ tree_ok st ns k /\
  exists weights rs e v u, let lay := layout (g_heap st) (g_pdfs st) (is_reg_of (FPdf KProd) weights 0 0 1 2 fone) rs k no_arrays in
  len weights = len rs /\ pdf_value lib1 st ns e k = Some v /\ fsame (incoherent_sum weights (fun _ => (fone, fzero)) (len rs) v) (num 21) = true /\
  dev_incoherent lay (fun _ _ => DOk (fone, fzero)) (callFunction (S k) lib1 lay) e cur0 = DOk (u, end_of lay) /\ fsame u fzero = true.
Proof.
  exists eff_ops, 0, (st_of eff_ops), (ns_of eff_ops). destruct C50_ex as (E & _). split; [exact E|].
  assert (Hk : 0 < len (ns_of eff_ops)) by (apply Nat.ltb_lt; vm_compute; reflexivity). split; [exact Hk|].
  assert (T : tree_ok (st_of eff_ops) (ns_of eff_ops) 0) by (apply tree_okb_ok; vm_compute; reflexivity). split; [exact T|].
  exists [num 3], [mkReg (FPdf KBW) [] [] [] fone], [Some (num 3); Some (num 4); Some (num 0)].
  assert (H1 : match pdf_value lib1 (st_of eff_ops) (ns_of eff_ops) [Some (num 3); Some (num 4); Some (num 0)] 0 with
               | Some v => fsame (incoherent_sum [num 3] (fun _ => (fone, fzero)) 1 v) (num 21) && fsame (incoherent_sum [f_of_nat 0] (fun _ => (fone, fzero)) 1 v) fzero | None => false end = true) by (vm_compute; reflexivity).
  destruct (pdf_value lib1 (st_of eff_ops) (ns_of eff_ops) [Some (num 3); Some (num 4); Some (num 0)] 0) as [v|] eqn:PV; [|discriminate].
  apply andb_true_iff in H1. destruct H1 as [H1 H2].
  exists v, (incoherent_sum [f_of_nat 0] (fun _ => (fone, fzero)) 1 v). cbv zeta. split; [reflexivity|]. split; [reflexivity|]. split; [exact H1|]. split; [|exact H2].
  refine (value_alone eff_ops 0 (st_of eff_ops) (ns_of eff_ops) lib1 E Hk T (FPdf KProd) [num 3] 0 0 1 2 fone [mkReg (FPdf KBW) [] [] [] fone] eq_refl _
    (fun _ _ => DOk (fone, fzero)) [Some (num 3); Some (num 4); Some (num 0)] (num 0) 0%Z (fun _ => (fone, fzero)) v eq_refl _ _ PV).
  - split; [repeat constructor|repeat constructor].
  - assert (X : floor_int (fadd fhalf (num 0)) = Some 0%Z) by (vm_compute; reflexivity). exact X.
  - intros i _. reflexivity.
Qed.
Print Assumptions C51_weights_refuted.

(** The normalisation: the integrator of every resonance evaluates the last resonance.  The place where it looks does not
    depend on the number of the resonance, and for the first of two resonances it is not that resonance. *)
Theorem C51_integral_refuted : exists hp ps r rs k, rs <> [] /\ let A := layout hp ps r rs k no_arrays in
  exists c0 c1, (forall i, is_integrator_cursor A 0 i = DOk c1) /\
  is_calculator_cursor A 0 1 = DOk c0 /\ is_calculator_cursor A 0 2 = DOk c1 /\ c0 <> c1.
Proof.
  exists (g_heap (st_of eff_ops)), (g_pdfs (st_of eff_ops)), (is_reg_of (FPdf KProd) [num 3; num 4] 0 0 1 2 fone), [reso 5 6; reso 7 8], 1.
  split; [discriminate|]. cbv zeta.
  exists (end_of (push_regs [is_reg_of (FPdf KProd) [num 3; num 4] 0 0 1 2 fone] no_arrays)), (end_of (push_regs (is_reg_of (FPdf KProd) [num 3; num 4] 0 0 1 2 fone :: [reso 5 6]) no_arrays)).
  split; [|split; [|split]].
  - intro i. apply (integrator_alone (g_heap (st_of eff_ops)) (g_pdfs (st_of eff_ops)) (FPdf KProd) [num 3; num 4] 0 0 1 2 fone 1 [reso 5 6; reso 7 8] i);
      [discriminate|repeat constructor|repeat constructor|reflexivity].
  - vm_compute. reflexivity.
  - vm_compute. reflexivity.
  - intro X. apply (f_equal c_fun) in X. cbv in X. discriminate.
Qed.
Print Assumptions C51_integral_refuted.
