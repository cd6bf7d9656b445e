(** Property theorems for normalisation and for sums, products and maps of PDFs (C18, C20, C21, C23). *)
From Coq Require Import List ZArith String Bool Arith Lia Reals Lra.
From Verif Require Import F64 F64Lemmas F64Err ListAux VariableModel LeafFormulas DeviceModel PdfModel PdfSpec PdfProofs PdfProps
  Reduce NormModel NormSpec NormProofs NormProofs2 NormProofs3 CombineSpec CombineProofs.
From Flocq Require Import BinarySingleNaN.
Import ListNotations.
Open Scope string_scope.
Open Scope nat_scope.
Open Scope list_scope.
Local Notation len := List.length.

(** ** Deciding concrete cases *)
Lemma omap_total : forall {A B} (f : A -> option B) l, (forall a, In a l -> exists b, f a = Some b) -> exists vs, omap f l = Some vs.
Proof.
  induction l as [|a l IH]; intro H; [now exists []|]. destruct (H a (or_introl eq_refl)) as [b Eb]. destruct IH as [vs Ev]; [intros; apply H; now right|].
  exists (b :: vs). cbn [omap]. now rewrite Eb, Ev.
Qed.
Lemma at_point_self : forall x c, at_point x c x = Some c.
Proof. intros x c. unfold at_point, handle_eqb. now rewrite Nat.eqb_refl. Qed.
(** A leaf with one observable whose formula is defined wherever that observable has a value. *)
Lemma integrable_leaf : forall L hp ns fo obs bins id l h0 x,
  nth_error ns id = Some (SLeaf l h0) -> (forall en c, en x = Some c -> exists v, leaf_value L hp h0 en l = Some v) ->
  obs id = [x] -> (Z.leb 0 (get_i hp x) && Z.ltb (get_i hp x) 10 = true) -> (Z.ltb 0 (bins id x) && Z.ltb (bins id x) (2 ^ 31) = true) ->
  integrable L hp ns fo obs bins id.
Proof.
  intros L hp ns fo obs bins id l h0 x En T O I B. apply andb_true_iff in I, B. destruct I as [I1 I2], B as [B1 B2]. exists x. split; [exact O|].
  split; [split; [now apply Z.leb_le|now apply Z.ltb_lt]|]. split; [split; now apply Z.ltb_lt|]. intro norms. unfold cells. apply omap_total. intros b _.
  cbn [value]. rewrite En. eapply T. apply at_point_self.
Qed.
Definition densitiesb (st : gstate) (ns : list snode) (k : nat) : bool :=
  forallb (fun i => match nth_error (g_pdfs st) i with
                    | Some p => match p_fit p with Some fc => metricIsPdf fc | None => false end && negb (p_common p) | None => true end) (tree_ids ns k).
Lemma densitiesb_ok : forall st ns k, densitiesb st ns k = true -> densities st ns k.
Proof.
  intros st ns k H i p Hi Ep. unfold densitiesb in H. rewrite forallb_forall in H. specialize (H i Hi). rewrite Ep in H. apply andb_true_iff in H. destruct H as [H1 H2].
  split; [|now apply negb_true_iff]. destruct (p_fit p) as [fc|]; [|discriminate]. now exists fc.
Qed.
Definition range_same (a b : f64 * f64 * f64) : bool :=
  fsame (fst (fst a)) (fst (fst b)) && fsame (snd (fst a)) (snd (fst b)) && fsame (snd a) (snd b).
Definition ranges_currentb (st : gstate) (ns : list snode) (k : nat) : bool :=
  forallb (fun i => match nth_error (g_pdfs st) i with Some p => list_same range_same (p_ranges p) (normRange (g_heap st) p) | None => true end) (tree_ids ns k).
Lemma range_same_eq : forall a b, range_same a b = true -> a = b.
Proof.
  intros [[a1 a2] a3] [[b1 b2] b3] H. unfold range_same in H. cbn [fst snd] in H. apply andb_true_iff in H. destruct H as [H H3]. apply andb_true_iff in H. destruct H as [H1 H2].
  apply fsame_eq in H1, H2, H3. now subst.
Qed.
Lemma ranges_currentb_ok : forall st ns k, ranges_currentb st ns k = true -> ranges_current st ns k.
Proof.
  intros st ns k H i p Hi Ep. unfold ranges_currentb in H. rewrite forallb_forall in H. specialize (H i Hi). rewrite Ep in H.
  apply (list_same_eq range_same); [exact range_same_eq|exact H].
Qed.
Definition is_nok {A} (x : nres A) : bool := match x with NOk _ => true | _ => false end.
Definition is_nub {A} (x : nres A) : bool := match x with NUB => true | _ => false end.

(** ** C23 *)

(** One observable: when normalize() of PDF k returns, there is one number for each cell, it is the density at the centre of
    that cell, the result is cell width * sum (in the order [red] of the back end), and the factor stored is its inverse.
    For every program, tree, limits, number of cells and mathematics library.  Missing from C23: two or more observables,
    for which it is false (below). *)
Theorem C23_one_dimension_partial : forall ops qs k st ns L red x,
  after (ready ops qs k) = (st, ns) -> k < len ns -> NoDup (tree_ids ns k) -> Forall (quiet ns k) qs ->
  tree_ok st ns k -> ranges_current st ns k -> densities st ns k ->
  (forall i, In i (integrated ns (shares_observables st) (S k) k) -> integrable L (g_heap st) ns (first_obs_of st) (obs_list st) (cell_count st) i) ->
  In k (integrated ns (shares_observables st) (S k) k) -> obs_list st k = [x] ->
  (forall l h0, nth_error ns k = Some (SLeaf l h0) -> forall lo hi, leaf_integral L (g_heap st) l lo hi = None) ->
  normalize L red (g_heap st) (S k) (g_pdfs st, g_arr st) k <> NThrow ->
  exists r ps' A' vs, normalize L red (g_heap st) (S k) (g_pdfs st, g_arr st) k = NOk (r, (ps', A')) /\
    let st' := mkG (g_heap st) (g_hs st) ps' A' in
    len vs = Z.to_nat (cell_count st k x) /\
    (forall b v, nth_error vs b = Some v ->
       value L (g_heap st) (norm_of st') (first_obs_of st) (S k) ns
         (at_point x (centre (get_f (g_heap st) x FLower) (get_f (g_heap st) x FUpper) (cell_count st k x) b)) k = Some v) /\
    r = fmul (fdiv (fsub (get_f (g_heap st) x FUpper) (get_f (g_heap st) x FLower)) (f_of_Z (cell_count st k x))) (red vs) /\
    norm_of st' k = fdiv fone r.
Proof. exact one_dimension. Qed.
Print Assumptions C23_one_dimension_partial.

Definition land_ops : list gop :=
  [GVar (NewObservable "x" (num 0) (num 10)); GVar (NewVariable4 "m" (num 4) (num 0) (num 9)); GVar (NewVariable4 "s" (num 2) (num 1) (num 3));
   GLeaf (LBW 0 1 2); GSetupObservables 0].
Definition land_q : list gop := [GVar (Set_ 1 FValue (CF (num 3)))].
Definition land_all := ready land_ops land_q 0.
Definition land_x : handle := hget (g_hs (st_of land_all)) 0.
Example C23_example :
  after land_all = (st_of land_all, ns_of land_all) /\ 0 < len (ns_of land_all) /\ NoDup (tree_ids (ns_of land_all) 0) /\ Forall (quiet (ns_of land_all) 0) land_q /\
  tree_ok (st_of land_all) (ns_of land_all) 0 /\ ranges_current (st_of land_all) (ns_of land_all) 0 /\ densities (st_of land_all) (ns_of land_all) 0 /\
  integrable lib1 (g_heap (st_of land_all)) (ns_of land_all) (first_obs_of (st_of land_all)) (obs_list (st_of land_all)) (cell_count (st_of land_all)) 0 /\
  integrated (ns_of land_all) (shares_observables (st_of land_all)) 1 0 = [0] /\ obs_list (st_of land_all) 0 = [land_x] /\
  cell_count (st_of land_all) 0 land_x = 100%Z /\
  is_nok (normalize lib1 seq_red (g_heap (st_of land_all)) 1 (g_pdfs (st_of land_all), g_arr (st_of land_all)) 0) = true.
Proof.
  split; [apply after_eq|]. split; [apply Nat.ltb_lt; vm_compute; reflexivity|]. split; [apply nodupb_ok; vm_compute; reflexivity|]. split; [apply Forall_cons; [exact I|apply Forall_nil]|].
  split; [apply tree_okb_ok; vm_compute; reflexivity|]. split; [apply ranges_currentb_ok; vm_compute; reflexivity|]. split; [apply densitiesb_ok; vm_compute; reflexivity|].
  assert (HO : obs_list (st_of land_all) 0 = [land_x]) by (vm_compute; reflexivity).
  split.
  - assert (HN : exists m w h0, nth_error (ns_of land_all) 0 = Some (SLeaf (LBW land_x m w) h0)).
    { assert (X : match nth_error (ns_of land_all) 0 with Some (SLeaf (LBW x _ _) _) => Nat.eqb (h_value x) (h_value land_x) && String.eqb (h_name x) (h_name land_x) | _ => false end = true) by (vm_compute; reflexivity).
      destruct (nth_error (ns_of land_all) 0) as [[[] h0| | | | |]|] eqn:EN; try discriminate X. clear X.
      match goal with H : _ = Some (SLeaf (LBW ?a ?b ?c) ?d) |- _ => exists b, c, d; cut (a = land_x); [intros <-; reflexivity|]; pose (z := a) end.
      assert (Y : option_map node_obs (nth_error (ns_of land_all) 0) = Some [land_x]) by (vm_compute; reflexivity). rewrite EN in Y. cbn [option_map node_obs leaf_obs] in Y. exact (f_equal (fun o => match o with Some (h :: _) => h | _ => z end) Y). }
    destruct HN as (m & w & h0 & HN). eapply integrable_leaf; [exact HN| |exact HO|vm_compute; reflexivity|vm_compute; reflexivity].
    intros en c Hc. unfold leaf_value; cbn [leaf_value_in]. rewrite Hc. cbn [obind]. eexists. reflexivity.
  - split; [vm_compute; reflexivity|]. split; [exact HO|]. split; [vm_compute; reflexivity|]. vm_compute. reflexivity.
Qed.

(** Any schedule of the parallel reduction gives the sum of the cells up to the rounding of its additions. *)
Theorem C23_any_schedule : forall n l r, reduces n l r -> is_finite r = true ->
  Forall (fun x => is_finite x = true) l /\
  (Rabs (B2R r - Rsum (reals l)) <= ((1 + uro) ^ n - 1) * Rsum (map Rabs (reals l)))%R.
Proof. exact reduces_error. Qed.
Print Assumptions C23_any_schedule.
Example C23_any_schedule_example : exists n, reduces n [num 3; num 4; num 5] (seq_red [num 3; num 4; num 5]) /\
  is_finite (seq_red [num 3; num 4; num 5]) = true /\ reduces 1 [num 5; num 3] (fadd (num 3) (num 5)).
Proof.
  destruct (seq_red_schedule [num 3; num 4; num 5]) as [n H]. exists n. split; [exact H|]. split; [vm_compute; reflexivity|].
  apply (red_order _ [num 3; num 5]); [apply Permutation.perm_swap|]. change [num 3; num 5] with ([num 3] ++ [num 5]). exact (red_plus 0 0 [num 3] [num 5] (num 3) (num 5) (red_one _) (red_one _)).
Qed.

(** False for two observables: every dimension is written to the place of the first observable, so the density reads a
    number that was never written. *)
Theorem C23_two_dimensions_refuted : exists ops k st ns L red,
  after (ready ops [] k) = (st, ns) /\ k < len ns /\ NoDup (tree_ids ns k) /\ tree_ok st ns k /\ ranges_current st ns k /\ densities st ns k /\ schedule red /\
  len (obs_list st k) = 2 /\ pdf_value L st ns [Some fone; Some fone] k <> None /\
  normalize L red (g_heap st) (S k) (g_pdfs st, g_arr st) k = NUB.
Proof.
  set (ops := [GVar (NewObservable "x" (num 0) (num 10)); GVar (NewObservable "y" (num 0) (num 10)); GVar (NewVariable4 "m" (num 4) (num 0) (num 9));
    GVar (NewVariable4 "s" (num 2) (num 1) (num 3)); GVar (NewVariable2 "c" fhalf); GLeaf (LCorrGaussian 0 1 2 3 2 3 4); GSetupObservables 0]).
  exists ops, 0, (st_of (ready ops [] 0)), (ns_of (ready ops [] 0)), lib1, seq_red.
  split; [apply after_eq|]. split; [apply Nat.ltb_lt; vm_compute; reflexivity|]. split; [apply nodupb_ok; vm_compute; reflexivity|].
  split; [apply tree_okb_ok; vm_compute; reflexivity|]. split; [apply ranges_currentb_ok; vm_compute; reflexivity|]. split; [apply densitiesb_ok; vm_compute; reflexivity|].
  split; [exact seq_red_schedule|]. split; [vm_compute; reflexivity|].
  split.
  - assert (X : match pdf_value lib1 (st_of (ready ops [] 0)) (ns_of (ready ops [] 0)) [Some fone; Some fone] 0 with Some _ => true | None => false end = true) by (vm_compute; reflexivity).
    destruct (pdf_value lib1 (st_of (ready ops [] 0)) (ns_of (ready ops [] 0)) [Some fone; Some fone] 0); [discriminate|discriminate].
  - assert (X : is_nub (normalize lib1 seq_red (g_heap (st_of (ready ops [] 0))) 1 (g_pdfs (st_of (ready ops [] 0)), g_arr (st_of (ready ops [] 0))) 0) = true) by (vm_compute; reflexivity).
    destruct (normalize lib1 seq_red (g_heap (st_of (ready ops [] 0))) 1 (g_pdfs (st_of (ready ops [] 0)), g_arr (st_of (ready ops [] 0))) 0); try discriminate. reflexivity.
Qed.
Print Assumptions C23_two_dimensions_refuted.

(** The factors normalize() leaves in a whole tree of one-dimensional PDFs, and that evaluation then uses them. *)
Theorem C23_normalised_tree_partial : forall ops qs k st ns L red,
  after (ready ops qs k) = (st, ns) -> k < len ns -> NoDup (tree_ids ns k) -> Forall (quiet ns k) qs ->
  tree_ok st ns k -> ranges_current st ns k -> densities st ns k ->
  (forall i, In i (integrated ns (shares_observables st) (S k) k) -> integrable L (g_heap st) ns (first_obs_of st) (obs_list st) (cell_count st) i) ->
  (normalize L red (g_heap st) (S k) (g_pdfs st, g_arr st) k = NThrow /\
     exists i nm, In i (integrated ns (shares_observables st) (S k) k) /\ no_integral L red (g_heap st) ns (first_obs_of st) (obs_list st) (cell_count st) nm i) \/
  exists r ps' A', normalize L red (g_heap st) (S k) (g_pdfs st, g_arr st) k = NOk (r, (ps', A')) /\
    let st' := mkG (g_heap st) (g_hs st) ps' A' in
    normed L red (g_heap st) ns (first_obs_of st) (obs_list st) (cell_count st) (shares_observables st) (S k) (norm_of st') k /\
    (In k (integrated ns (shares_observables st) (S k) k) -> integral L red (g_heap st) ns (first_obs_of st) (obs_list st) (cell_count st) (norm_of st') k r) /\
    (forall e v fuel, S k <= fuel -> pdf_value L st' ns e k = Some v ->
       exists c, callFunction fuel L A' e cur0 = DOk (v, c) /\ getNormalization A' cur0 0 = DOk (norm_of st' k)).
Proof. exact normalize_program. Qed.
Print Assumptions C23_normalised_tree_partial.

(** ** C18 *)

(** The device evaluates an AddPdf by the formula [add_in] in floating point, from the values and factors of its
    components, whatever is in the tree. *)
Theorem C18_device_formula_partial : forall ops k st ns L e ws ks vs v fuel,
  after (ops ++ [GSetIndices k]) = (st, ns) -> nth_error ns k = Some (SAdd ws ks) -> tree_ok st ns k ->
  Forall2 (fun i v => pdf_value L st ns e i = Some v) ks vs ->
  add_in f64_arith (map (fun w => get_f (g_heap st) w FValue) ws) (combine vs (map (norm_of st) ks)) = Some v -> S k <= fuel ->
  exists c, callFunction fuel L (g_arr st) e cur0 = DOk (v, c).
Proof. exact add_at_root. Qed.
Print Assumptions C18_device_formula_partial.

(** The same formula over the real numbers: N-1 weights. *)
Theorem C18_unit_components_give_unit : forall axes ws cs, len cs = S (len ws) -> Forall (unit_over axes) cs ->
  integral_over axes (mixture ws cs) = 1%R.
Proof. exact mixture_unit. Qed.
Print Assumptions C18_unit_components_give_unit.
(** The last weight is one minus the sum of the others. *)
Theorem C18_last_weight : forall axes ws cs c, len ws = len cs ->
  integral_over axes (mixture ws (cs ++ [c])) =
  (Rsum (map (fun wc => fst wc * integral_over axes (fun p => fst (snd wc) p * snd (snd wc))) (combine ws cs)) +
   (1 - Rsum ws) * integral_over axes (fun p => fst c p * snd c))%R.
Proof. exact mixture_last. Qed.
Print Assumptions C18_last_weight.
(** N weights: the weighted mean. *)
Theorem C18_weighted_mean : forall axes ws cs, len ws = len cs -> Rsum ws <> 0%R ->
  integral_over axes (mixture ws cs) =
  (Rsum (map (fun wc => fst wc * integral_over axes (fun p => fst (snd wc) p * snd (snd wc))) (combine ws cs)) / Rsum ws)%R.
Proof. exact mixture_mean. Qed.
Print Assumptions C18_weighted_mean.

Open Scope R_scope.
Definition r_axis : axis := (0%nat, 2, [1; 3]).
Example C18_example : unit_over [r_axis] ((fun p => p 0%nat), / 8) /\ unit_over [r_axis] ((fun p => 1), / 4) /\
  integral_over [r_axis] (mixture [/ 3] [((fun p => p 0%nat), / 8); ((fun p => 1), / 4)]) = 1.
Proof.
  assert (U1 : unit_over [r_axis] ((fun p => p 0%nat), / 8)) by (unfold unit_over, integral_over, Rsum; cbn; field).
  assert (U2 : unit_over [r_axis] ((fun p => 1), / 4)) by (unfold unit_over, integral_over, Rsum; cbn; field).
  split; [exact U1|]. split; [exact U2|]. apply C18_unit_components_give_unit; [reflexivity|]. now repeat constructor.
Qed.
Close Scope R_scope.

(** normalize() of an AddPdf leaves every component with its own factor and the AddPdf itself with 1, so with the two
    theorems above a tree over one observable is normalised. *)
Theorem C18_normalize_components_partial : forall ops qs k st ns L red ws ks,
  after (ready ops qs k) = (st, ns) -> nth_error ns k = Some (SAdd ws ks) -> NoDup (tree_ids ns k) -> Forall (quiet ns k) qs ->
  tree_ok st ns k -> ranges_current st ns k -> densities st ns k ->
  (forall i, In i (integrated ns (shares_observables st) (S k) k) -> integrable L (g_heap st) ns (first_obs_of st) (obs_list st) (cell_count st) i) ->
  normalize L red (g_heap st) (S k) (g_pdfs st, g_arr st) k <> NThrow ->
  exists r ps' A', normalize L red (g_heap st) (S k) (g_pdfs st, g_arr st) k = NOk (r, (ps', A')) /\
    let st' := mkG (g_heap st) (g_hs st) ps' A' in
    norm_of st' k = fone /\
    Forall (normed L red (g_heap st) ns (first_obs_of st) (obs_list st) (cell_count st) (shares_observables st) k (norm_of st')) ks.
Proof.
  intros ops qs k st ns L red ws ks E En ND Q TO RC DE HI NT. assert (Hk : k < len ns) by (apply nth_error_Some; congruence).
  destruct (normalize_program ops qs k st ns L red E Hk ND Q TO RC DE HI) as [[T _]|(r & ps' & A' & EN & N & _)]; [contradiction|].
  exists r, ps', A'. split; [exact EN|]. cbv zeta in *. cbn [normed] in N. rewrite En in N. exact N.
Qed.
Print Assumptions C18_normalize_components_partial.

(** What the program's AddPdf integrates to over both observables, computed on a grid of cells of width 1 in floating point
    (all numbers in the examples below are exact). *)
Definition square (st : gstate) (ns : list snode) (A : arrays) (k : nat) (cs : list f64) : dres (list f64) :=
  dmap (fun p => ' (v, _) <- callFunction (S k) lib1 A [Some (fst p); Some (snd p)] cur0 ;; DOk v) (list_prod cs cs).
Definition halves (n : nat) : list f64 := map (fun i => fadd (f_of_nat i) fhalf) (seq 0 n).
Definition total_is (k : nat) (n : nat) (st : gstate) (ns : list snode) (x : f64) : bool :=
  match normalize lib1 seq_red (g_heap st) (S k) (g_pdfs st, g_arr st) k with
  | NOk (_, (ps', A')) => match square st ns A' k (halves n) with DOk vs => fsame (seq_red vs) x | _ => false end
  | _ => false
  end.
Lemma total_is_ok : forall k n st ns x, total_is k n st ns x = true -> exists r ps' A' vs,
  normalize lib1 seq_red (g_heap st) (S k) (g_pdfs st, g_arr st) k = NOk (r, (ps', A')) /\ square st ns A' k (halves n) = DOk vs /\ seq_red vs = x.
Proof.
  intros k n st ns x X. unfold total_is in X.
  destruct (normalize lib1 seq_red (g_heap st) (S k) (g_pdfs st, g_arr st) k) as [[r [ps' A']]| | |]; try discriminate.
  destruct (square st ns A' k (halves n)) as [vs| |] eqn:ES; try discriminate. apply fsame_eq in X. now exists r, ps', A', vs.
Qed.
(** False when the components have different observables: each is normalised over its own, not over those of the AddPdf.
    Step functions of x and of y on [0,2]: the sum integrates to 2 over the square. *)
Theorem C18_different_observables_refuted : exists ops k st ns r ps' A' vs,
  after (ready ops [] k) = (st, ns) /\ k < len ns /\ NoDup (tree_ids ns k) /\ tree_ok st ns k /\ ranges_current st ns k /\ densities st ns k /\
  map (fun h => (fsame (get_f (g_heap st) h FLower) fzero, fsame (get_f (g_heap st) h FUpper) (num 2))) (obs_list st k) = [(true, true); (true, true)] /\
  normalize lib1 seq_red (g_heap st) (S k) (g_pdfs st, g_arr st) k = NOk (r, (ps', A')) /\
  square st ns A' k (halves 2) = DOk vs /\ seq_red vs = num 2.
Proof.
  set (ops := [GVar (NewObservable "x" (num 0) (num 2)); GVar (NewObservable "y" (num 0) (num 2)); GVar (NewVariable2 "a" (num 0)); GVar (NewVariable2 "f" fhalf);
    GLeaf (LStep 0 2 1); GLeaf (LStep 1 2 1); GAdd2 3 0 1; GSetupObservables 2]).
  exists ops, 2. rewrite after_eq. exists (st_of (ready ops [] 2)), (ns_of (ready ops [] 2)).
  assert (X : total_is 2 2 (st_of (ready ops [] 2)) (ns_of (ready ops [] 2)) (num 2) = true) by (vm_compute; reflexivity).
  destruct (total_is_ok _ _ _ _ _ X) as (r & ps' & A' & vs & EN & ES & ET). exists r, ps', A', vs.
  split; [reflexivity|]. split; [apply Nat.ltb_lt; vm_compute; reflexivity|]. split; [apply nodupb_ok; vm_compute; reflexivity|].
  split; [apply tree_okb_ok; vm_compute; reflexivity|]. split; [apply ranges_currentb_ok; vm_compute; reflexivity|]. split; [apply densitiesb_ok; vm_compute; reflexivity|].
  split; [vm_compute; reflexivity|]. split; [exact EN|]. split; [exact ES|exact ET].
Qed.
Print Assumptions C18_different_observables_refuted.

Definition wrong_after_norm (k : nat) (st : gstate) (ns : list snode) (e : event) : bool :=
  match normalize lib1 seq_red (g_heap st) (S k) (g_pdfs st, g_arr st) k with
  | NOk (_, (ps', A')) => match pdf_value lib1 (mkG (g_heap st) (g_hs st) ps' A') ns e k with Some v => negb (gives (S k) A' e (Some v)) | None => false end
  | _ => false end.
Lemma wrong_after_norm_ok : forall k st ns e, wrong_after_norm k st ns e = true -> exists r ps' A' v,
  normalize lib1 seq_red (g_heap st) (S k) (g_pdfs st, g_arr st) k = NOk (r, (ps', A')) /\
  pdf_value lib1 (mkG (g_heap st) (g_hs st) ps' A') ns e k = Some v /\ forall c, callFunction (S k) lib1 A' e cur0 <> DOk (v, c).
Proof.
  intros k st ns e X. unfold wrong_after_norm in X.
  destruct (normalize lib1 seq_red (g_heap st) (S k) (g_pdfs st, g_arr st) k) as [[r [ps' A']]| | |]; try discriminate.
  destruct (pdf_value lib1 (mkG (g_heap st) (g_hs st) ps' A') ns e k) as [v|] eqn:EV; [|discriminate].
  exists r, ps', A', v. split; [reflexivity|]. split; [exact EV|]. intros c H. apply gives_ok in H. rewrite H in X. discriminate.
Qed.
(** False when the same PDF object is used twice as a component: only its second place in the arrays gets the factor. *)
Theorem C18_shared_component_refuted : exists ops k st ns r ps' A' e v,
  after (ready ops [] k) = (st, ns) /\ k < len ns /\ tree_ok st ns k /\ ranges_current st ns k /\ densities st ns k /\
  normalize lib1 seq_red (g_heap st) (S k) (g_pdfs st, g_arr st) k = NOk (r, (ps', A')) /\
  pdf_value lib1 (mkG (g_heap st) (g_hs st) ps' A') ns e k = Some v /\
  forall c, callFunction (S k) lib1 A' e cur0 <> DOk (v, c).
Proof.
  exists shared_ops, 1. rewrite after_eq. exists (st_of (ready shared_ops [] 1)), (ns_of (ready shared_ops [] 1)).
  assert (X : wrong_after_norm 1 (st_of (ready shared_ops [] 1)) (ns_of (ready shared_ops [] 1)) [Some fone] = true) by (vm_compute; reflexivity).
  destruct (wrong_after_norm_ok _ _ _ _ X) as (r & ps' & A' & v & EN & EV & NE). exists r, ps', A', [Some fone], v.
  split; [reflexivity|]. split; [apply Nat.ltb_lt; vm_compute; reflexivity|].
  split; [apply tree_okb_ok; vm_compute; reflexivity|]. split; [apply ranges_currentb_ok; vm_compute; reflexivity|]. split; [apply densitiesb_ok; vm_compute; reflexivity|].
  split; [exact EN|]. split; [exact EV|exact NE].
Qed.
Print Assumptions C18_shared_component_refuted.

(** ** C20 *)

(** The device evaluates a ProdPdf as the product of value * factor of its components. *)
Theorem C20_device_formula_partial : forall ops k st ns L e ks vs fuel,
  after (ops ++ [GSetIndices k]) = (st, ns) -> nth_error ns k = Some (SProd ks) -> tree_ok st ns k ->
  Forall2 (fun i v => pdf_value L st ns e i = Some v) ks vs -> S k <= fuel ->
  exists c, callFunction fuel L (g_arr st) e cur0 = DOk (prod_in f64_arith (combine vs (map (norm_of st) ks)), c).
Proof. exact prod_at_root. Qed.
Print Assumptions C20_device_formula_partial.

(** Over the real numbers: components on pairwise disjoint sets of observables, any number of observables each; the
    integral of the product over all of them is the product of the integrals, and 1 if each is 1. *)
Theorem C20_integral_factorises : forall l, separated l ->
  integral_over (flat_map fst l) (product (map snd l)) =
  fold_right Rmult 1%R (map (fun x => integral_over (fst x) (fun p => fst (snd x) p * snd (snd x))%R) l).
Proof. exact product_factorises. Qed.
Print Assumptions C20_integral_factorises.
Theorem C20_unit_components_give_unit : forall l, separated l -> Forall (fun x => unit_over (fst x) (snd x)) l ->
  integral_over (flat_map fst l) (product (map snd l)) = 1%R.
Proof. exact product_unit. Qed.
Print Assumptions C20_unit_components_give_unit.
Open Scope R_scope.
Definition r_axis2 : axis := (1%nat, 1, [5; 6; 7]).
Example C20_example : let l := [([r_axis], ((fun p => p 0%nat), / 8)); ([r_axis2], ((fun p => p 1%nat), / 18))] in
  separated l /\ Forall (fun x => unit_over (fst x) (snd x)) l.
Proof.
  cbv zeta. split.
  - constructor; [| |constructor; [| |constructor]].
    + intros p q H. apply (H r_axis). now left.
    + intros x y [<-|[]] [<-|[]]. discriminate.
    + intros p q H. apply (H r_axis2). now left.
    + intros x y _ [].
  - repeat constructor; unfold unit_over, integral_over, Rsum; cbn; field.
Qed.
Close Scope R_scope.

(** The constructor detects an overlap exactly when two components next to each other have an observable in common (and no
    component asked for separate normalisation). *)
Theorem C20_overlap_detection_partial : forall ops st ns ks st', after ops = (st, ns) -> gstep st (GProd ks) = (st', GDone) ->
  (shares_observables st' (len ns) = true <->
   (exists l1 a b l2, ks = l1 ++ a :: b :: l2 /\ exists g h, In g (obs_list st a) /\ In h (obs_list st b) /\ handle_eqb g h = true) /\
   Forall (fun c => separate_norm (g_pdfs st) c = false) ks).
Proof. exact overlap_detection. Qed.
Print Assumptions C20_overlap_detection_partial.
(** It then normalises the product as a whole: all factors below are 1 and its own factor is one over its integral. *)
Theorem C20_overlap_normalised_partial : forall ops qs k st ns L red ks,
  after (ready ops qs k) = (st, ns) -> nth_error ns k = Some (SProd ks) -> shares_observables st k = true -> NoDup (tree_ids ns k) -> Forall (quiet ns k) qs ->
  tree_ok st ns k -> ranges_current st ns k -> densities st ns k ->
  integrable L (g_heap st) ns (first_obs_of st) (obs_list st) (cell_count st) k ->
  normalize L red (g_heap st) (S k) (g_pdfs st, g_arr st) k <> NThrow ->
  exists r ps' A', normalize L red (g_heap st) (S k) (g_pdfs st, g_arr st) k = NOk (r, (ps', A')) /\
    let st' := mkG (g_heap st) (g_hs st) ps' A' in
    grid_integral L red (g_heap st) ns (first_obs_of st) (obs_list st) (cell_count st) (norm_of st') k r /\
    Forall (fun i => norm_of st' i = fone) (flat_map (subtree k ns) ks).
Proof.
  intros ops qs k st ns L red ks E En SH ND Q TO RC DE HI NT. assert (Hk : k < len ns) by (apply nth_error_Some; congruence).
  assert (IN : integrated ns (shares_observables st) (S k) k = [k]) by (cbn [integrated]; rewrite En, SH; reflexivity).
  destruct (normalize_program ops qs k st ns L red E Hk ND Q TO RC DE) as [[T _]|(r & ps' & A' & EN & N & R & _)]; [|contradiction|].
  { intros i Hi. rewrite IN in Hi. destruct Hi as [<-|[]]. exact HI. }
  exists r, ps', A'. split; [exact EN|]. cbv zeta in *. cbn [normed] in N. rewrite En, SH in N. split; [|apply N].
  assert (K : In k (integrated ns (shares_observables st) (S k) k)) by (rewrite IN; now left). specialize (R K). unfold integral in R. rewrite En in R. exact R.
Qed.
Print Assumptions C20_overlap_normalised_partial.
Definition over_ops : list gop :=
  [GVar (NewObservable "x" (num 0) (num 10)); GVar (NewVariable4 "m" (num 4) (num 0) (num 9)); GVar (NewVariable4 "s" (num 2) (num 1) (num 3));
   GLeaf (LGaussian 0 1 2); GLeaf (LBW 0 1 2); GProd [0; 1]; GSetupObservables 2].
Example C20_overlap_example : let r := ready over_ops [] 2 in
  match nth_error (ns_of r) 2 with Some (SProd ks) => ks | _ => [] end = [0; 1] /\ shares_observables (st_of r) 2 = true /\ NoDup (tree_ids (ns_of r) 2) /\
  tree_ok (st_of r) (ns_of r) 2 /\ ranges_current (st_of r) (ns_of r) 2 /\ densities (st_of r) (ns_of r) 2 /\
  is_nok (normalize lib1 seq_red (g_heap (st_of r)) 3 (g_pdfs (st_of r), g_arr (st_of r)) 2) = true.
Proof.
  cbv zeta. split; [vm_compute; reflexivity|]. split; [vm_compute; reflexivity|]. split; [apply nodupb_ok; vm_compute; reflexivity|].
  split; [apply tree_okb_ok; vm_compute; reflexivity|]. split; [apply ranges_currentb_ok; vm_compute; reflexivity|]. split; [apply densitiesb_ok; vm_compute; reflexivity|].
  vm_compute. reflexivity.
Qed.

Definition shareb (la lb : list handle) : bool := existsb (fun g => existsb (fun h => handle_eqb g h) lb) la.
Lemma shareb_ok : forall la lb, shareb la lb = true -> exists g h, In g la /\ In h lb /\ handle_eqb g h = true.
Proof.
  intros la lb H. apply existsb_exists in H. destruct H as (g & Hg & H). apply existsb_exists in H. destruct H as (h & Hh & H). now exists g, h.
Qed.
Definition is_prod (n : option snode) (ks : list nat) : bool :=
  match n with Some (SProd l) => if list_eq_dec Nat.eq_dec l ks then true else false | _ => false end.
Lemma is_prod_ok : forall n ks, is_prod n ks = true -> n = Some (SProd ks).
Proof. intros [[]|] ks H; try discriminate. cbn [is_prod] in H. destruct (list_eq_dec Nat.eq_dec kids ks); [now subst|discriminate]. Qed.
(** False when the components that share an observable are not next to each other: f(x) g(y) f(x), with f the step at 2 on
    [0,4], is normalised factor by factor and integrates to 1/2. *)
Theorem C20_not_adjacent_refuted : exists ops k st ns r ps' A' vs ks,
  after (ready ops [] k) = (st, ns) /\ k < len ns /\ nth_error ns k = Some (SProd ks) /\ NoDup (tree_ids ns k) /\ tree_ok st ns k /\ ranges_current st ns k /\ densities st ns k /\
  (exists l1 a l2 b l3, ks = l1 ++ a :: l2 ++ b :: l3 /\ exists g h, In g (obs_list st a) /\ In h (obs_list st b) /\ handle_eqb g h = true) /\
  shares_observables st k = false /\
  map (fun h => (fsame (get_f (g_heap st) h FLower) fzero, fsame (get_f (g_heap st) h FUpper) (num 4))) (obs_list st k) = [(true, true); (true, true)] /\
  normalize lib1 seq_red (g_heap st) (S k) (g_pdfs st, g_arr st) k = NOk (r, (ps', A')) /\
  square st ns A' k (halves 4) = DOk vs /\ seq_red vs = fhalf.
Proof.
  set (ops := [GVar (NewObservable "x" (num 0) (num 4)); GVar (NewObservable "y" (num 0) (num 4)); GVar (NewVariable2 "a" (num 2));
    GLeaf (LStep 0 2 1); GLeaf (LStep 1 2 1); GLeaf (LStep 0 2 1); GProd [0; 1; 2]; GSetupObservables 3]).
  exists ops, 3. rewrite after_eq. exists (st_of (ready ops [] 3)), (ns_of (ready ops [] 3)).
  assert (X : total_is 3 4 (st_of (ready ops [] 3)) (ns_of (ready ops [] 3)) fhalf = true) by (vm_compute; reflexivity).
  destruct (total_is_ok _ _ _ _ _ X) as (r & ps' & A' & vs & EN & ES & ET). exists r, ps', A', vs, [0; 1; 2].
  split; [reflexivity|]. split; [apply Nat.ltb_lt; vm_compute; reflexivity|].
  split.
  { apply is_prod_ok. vm_compute. reflexivity. }
  split; [apply nodupb_ok; vm_compute; reflexivity|].
  split; [apply tree_okb_ok; vm_compute; reflexivity|]. split; [apply ranges_currentb_ok; vm_compute; reflexivity|]. split; [apply densitiesb_ok; vm_compute; reflexivity|].
  split.
  { exists [], 0, [1], 2, []. split; [reflexivity|]. apply shareb_ok. vm_compute. reflexivity. }
  split; [vm_compute; reflexivity|]. split; [vm_compute; reflexivity|]. split; [exact EN|]. split; [exact ES|exact ET].
Qed.
Print Assumptions C20_not_adjacent_refuted.

(** ** C21 *)

(** MappedPdf: with the map function giving mv and floor(0.5 + mv) = t, a valid component number, the value is value *
    factor of component t, whatever the others are, and the cursor ends behind the last component (at the metric). *)
Theorem C21_selected_component_partial : forall ops k st ns L e m ts mv t j v fuel,
  after (ops ++ [GSetIndices k]) = (st, ns) -> nth_error ns k = Some (SMapped m ts) -> tree_ok st ns k ->
  pdf_value L st ns e m = Some mv -> floor_int (fadd fhalf mv) = Some (Z.of_nat t) -> nth_error ts t = Some j -> pdf_value L st ns e j = Some v -> S k <= fuel ->
  exists c, callFunction fuel L (g_arr st) e cur0 = DOk (fmul v (norm_of st j), c) /\
            nth_error (a_fun (g_arr st)) (c_fun c) = Some (FMetric (metric_of st k)).
Proof. exact mapped_at_root. Qed.
Print Assumptions C21_selected_component_partial.
(** ex_ops: a map over two targets, one a mixture of products, with a component used in both. *)
Example C21_example : let st := st_of ex_all in let ns := ns_of ex_all in
  match nth_error ns 8 with Some (SMapped m ts) => m :: ts | _ => [] end = [7; 6; 2] /\ tree_ok st ns 8 /\
  match pdf_value lib1 st ns [Some (num 8); Some (num 2)] 7 with Some mv => match floor_int (fadd fhalf mv) with Some z => Z.eqb z 1 | None => false end | None => false end = true /\
  match pdf_value lib1 st ns [Some (num 8); Some (num 2)] 2 with Some v => f_isfinite v | None => false end = true.
Proof.
  cbv zeta. split; [vm_compute; reflexivity|]. split; [apply tree_okb_ok; vm_compute; reflexivity|]. split; vm_compute; reflexivity.
Qed.
