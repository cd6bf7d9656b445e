(** Property theorems for parameter files and lists of numbers (C37, C38). *)
From Coq Require Import List Bool Ascii Arith Reals ZArith Lia Lra.
From Flocq Require Import Core BinarySingleNaN Relative.
From Verif Require Import F64 F64Lemmas F64Err ListAux IoModel IoSpec IoProofs.
Import ListNotations.
Open Scope nat_scope.

(** ** C37 *)
(** A file written for the parameters ws and read for the parameters ps, in whatever order and with whatever names in only
    one of the two: every parameter gets the numbers that were written under its name, as [rr] of what was written;
    the others keep theirs.  (show, strtod and numch: printing and parsing of numbers.) *)
Theorem C37_round_trip_partial : forall show strtod numch rr ws ps fuel, (forall c, is_ws c = true -> numch c = false) ->
  NoDup (map p_name ws) -> NoDup (map p_name ps) -> Forall (param_ok show strtod numch rr) ws -> length ws < fuel ->
  readFromFile strtod numch fuel (Some (writeToFile show ws)) ps = IoOk (map (restored rr ws) ps).
Proof. intros show strtod numch rr ws ps fuel H. exact (file_round show strtod numch rr H ws ps fuel). Qed.
Print Assumptions C37_round_trip_partial.

Open Scope R_scope.
(** How far the numbers read back are from those written: less than 6 in a million for every normal double ... *)
Theorem C37_precision : forall rr, prints_six_digits rr -> forall x, is_finite x = true -> bpow radix2 (-1021) <= Rabs (B2R x) -> Rabs (B2R (rr x) - B2R x) <= 6 / 1000000 * Rabs (B2R x).
Proof.
  intros rr P x F B. rewrite (P x F). set (r := B2R x) in *. pose proof (relative_error_N_FLX radix10 6 eq_refl (fun z => negb (Z.even z)) r) as E. fold (six_digits r) in E. change (round radix10 (FLX_exp 6) (Znearest (fun z => negb (Z.even z))) r) with (six_digits r) in E.
  assert (T : / 2 * bpow radix10 (- (6) + 1) = 5 / 1000000) by (cbn; lra). rewrite T in E. pose proof uro_small as US. pose proof uro_pos as UP. pose proof (Rabs_pos r) as RP.
  assert (L : Rabs (six_digits r) <= (1 + 5 / 1000000) * Rabs r). { replace (six_digits r) with (six_digits r - r + r) by ring. eapply Rle_trans; [apply Rabs_triang|]. lra. }
  assert (G : bpow radix2 (-1022) <= Rabs (six_digits r)).
  { assert (bpow radix2 (-1021) = 2 * bpow radix2 (-1022)) by (change (-1021)%Z with (1 + -1022)%Z; rewrite bpow_plus; reflexivity). assert (Rabs r - Rabs (six_digits r - r) <= Rabs (six_digits r)).
    { replace (six_digits r) with (r - - (six_digits r - r)) at 2 by ring. eapply Rle_trans; [|apply Rabs_triang_inv]. rewrite Rabs_Ropp. lra. }
    pose proof (bpow_gt_0 radix2 (-1022)). lra. }
  destruct (rnd_rel (six_digits r) G) as (d & Hd & ->). replace (six_digits r * (1 + d) - r) with ((six_digits r - r) + six_digits r * d) by ring. eapply Rle_trans; [apply Rabs_triang|]. rewrite Rabs_mult.
  assert (M : Rabs (six_digits r) * Rabs d <= (1 + 5 / 1000000) * Rabs r * uro) by (apply Rmult_le_compat; try apply Rabs_pos; assumption).
  assert (M2 : (1 + 5 / 1000000) * Rabs r * uro <= 1 / 1000000 * Rabs r). { assert ((1 + 5 / 1000000) * uro <= 1 / 1000000) by nra. replace ((1 + 5 / 1000000) * Rabs r * uro) with ((1 + 5 / 1000000) * uro * Rabs r) by ring. apply Rmult_le_compat_r; assumption. }
  lra.
Qed.
Print Assumptions C37_precision.
(** ... but not equal: 1234567 comes back as 1234570. *)
Lemma six_of : six_digits 1234567 = 1234570.
Proof.
  unfold six_digits, round, scaled_mantissa, cexp.
  assert (M : mag radix10 1234567 = 7%Z :> Z). { apply mag_unique. rewrite Rabs_pos_eq by lra. cbn. lra. }
  rewrite M. change (FLX_exp 6 7) with 1%Z. rewrite (Znearest_imp _ _ 123457%Z).
  - unfold F2R. cbn. lra.
  - cbn. apply Rabs_lt. lra.
Qed.
Theorem C37_exactness_refuted : forall rr, prints_six_digits rr -> B2R (rr (f_of_Z 1234567)) <> B2R (f_of_Z 1234567).
Proof.
  intros rr P. destruct (f_of_Z_exact 1234567 ltac:(lia)) as [E F]. rewrite (P _ F), E, six_of. unfold rnd. change 1234570 with (IZR 1234570). rewrite round_Z by lia. apply IZR_neq. lia.
Qed.
Print Assumptions C37_exactness_refuted.
Close Scope R_scope.

(** A concrete way to print the numbers 0 to 9, for the examples. *)
Definition digit (n : nat) : ascii := ascii_of_nat (48 + n).
Definition show1 (x : f64) : text :=
  match find (fun n => fsame x (f_of_Z (Z.of_nat n))) (seq 0 10) with Some n => [digit n] | None => [ascii_of_nat 105; ascii_of_nat 110; ascii_of_nat 102] end.
Definition numch1 (c : ascii) : bool := let n := nat_of_ascii c in Nat.leb 43 n && Nat.leb n 57.
Definition strtod1 (t : text) : option f64 :=
  match t with [c] => if Nat.leb 48 (nat_of_ascii c) && Nat.leb (nat_of_ascii c) 57 then Some (f_of_Z (Z.of_nat (nat_of_ascii c - 48))) else None | _ => None end.
Definition nm (c : nat) : text := [ascii_of_nat (97 + c); ascii_of_nat (98 + c)].
Definition pr (c : nat) (a b l u : nat) : param := let z := fun n => f_of_Z (Z.of_nat n) in mkP (nm c) (z a) (z b) (z l) (z u).
Lemma numch1_ws : forall c, is_ws c = true -> numch1 c = false.
Proof.
  intros c H. unfold is_ws, numch1 in *. apply orb_true_iff in H. destruct (Nat.leb 43 (nat_of_ascii c)) eqn:E; [|reflexivity]. apply Nat.leb_le in E. exfalso. destruct H as [H|H].
  - apply Nat.eqb_eq in H. lia.
  - apply andb_true_iff in H. destruct H as [_ H]. apply Nat.leb_le in H. lia.
Qed.
Definition printb (x : f64) : bool := match show1 x with [] => false | _ => true end && forallb numch1 (show1 x) && match strtod1 (show1 x) with Some y => fsame y x | None => false end && forallb (fun c => negb (is_ws c)) (show1 x) && Nat.leb (length (show1 x)) 200.
Lemma printb_ok : forall x, printb x = true -> printable show1 strtod1 numch1 (fun x => x) x.
Proof.
  intros x H. unfold printb in H. apply andb_true_iff in H. destruct H as [H H5]. apply andb_true_iff in H. destruct H as [H H4]. apply andb_true_iff in H. destruct H as [H H3]. apply andb_true_iff in H. destruct H as [H1 H2].
  split; [intro E; rewrite E in H1; discriminate|]. split; [exact H2|]. split; [|split; [exact H4|now apply Nat.leb_le]]. destruct (strtod1 (show1 x)) as [y|]; [|discriminate]. f_equal. now apply fsame_eq.
Qed.
Definition paramb (p : param) : bool := printb (p_value p) && printb (p_error p) && printb (p_lower p) && printb (p_upper p).
Lemma pr_ok : forall p, paramb p = true -> p_name p <> [] -> forallb (fun c => negb (is_ws c)) (p_name p) = true -> param_ok show1 strtod1 numch1 (fun x => x) p.
Proof. intros p H N W. unfold paramb in H. apply andb_true_iff in H. destruct H as [H H4]. apply andb_true_iff in H. destruct H as [H H3]. apply andb_true_iff in H. destruct H as [H1 H2]. split; [exact N|]. split; [exact W|]. repeat split; now apply printb_ok. Qed.
Definition written : list param := [pr 0 1 2 3 4; pr 1 5 6 7 8; pr 2 1 1 0 9].
Example C37_example : (forall c, is_ws c = true -> numch1 c = false) /\ NoDup (map p_name written) /\ NoDup (map p_name [pr 4 0 0 0 0; pr 1 0 0 0 0]) /\ Forall (param_ok show1 strtod1 numch1 (fun x => x)) written /\ length written < 10.
Proof.
  split; [exact numch1_ws|]. split; [repeat (constructor; [cbn; intuition discriminate|]); constructor|]. split; [repeat (constructor; [cbn; intuition discriminate|]); constructor|]. split; [|cbn; lia].
  repeat (constructor; [apply pr_ok; [vm_compute; reflexivity|discriminate|reflexivity]|]); constructor.
Qed.
(** Two parameters of the same name: reading stops when as many lines were used as there are names, so that a later
    parameter is not restored. *)
Definition same_names : list param := [pr 0 1 2 3 4; pr 0 1 2 3 4; pr 1 5 6 7 8].
Definition fresh : list param := [pr 0 0 0 0 0; pr 0 0 0 0 0; pr 1 0 0 0 0].
Definition third_value (r : iores (list param)) : option f64 := match r with IoOk ps => option_map p_value (nth_error ps 2) | _ => None end.
Theorem C37_same_names_refuted : exists ws ps, map p_name ws = map p_name ps /\ Forall (param_ok show1 strtod1 numch1 (fun x => x)) ws /\
  exists x, third_value (readFromFile strtod1 numch1 10 (Some (writeToFile show1 ws)) ps) = Some x /\ option_map p_value (nth_error ws 2) <> Some x.
Proof.
  exists same_names, fresh. split; [reflexivity|]. split; [repeat (constructor; [apply pr_ok; [vm_compute; reflexivity|discriminate|reflexivity]|]); constructor|].
  assert (X : match third_value (readFromFile strtod1 numch1 10 (Some (writeToFile show1 same_names)) fresh) with Some x => negb (fsame x (f_of_Z 5)) | None => false end = true) by (vm_compute; reflexivity).
  destruct (third_value _) as [x|]; [|discriminate]. exists x. split; [reflexivity|]. intro E. cbn [option_map nth_error same_names] in E. assert (Y : x = f_of_Z 5) by (exact (f_equal (fun o => match o with Some y => y | None => x end) (eq_sym E))). rewrite Y, fsame_refl in X. discriminate.
Qed.
Print Assumptions C37_same_names_refuted.
(** A file that does not exist: readFromFile never returns (unless a parameter has the empty name). *)
Theorem C37_missing_file_refuted : forall strtod numch ps fuel, NoDup (map p_name ps) -> ~ In [] (map p_name ps) -> readFromFile strtod numch fuel None ps = IoFuel.
Proof.
  intros strtod numch ps fuel ND NI. unfold readFromFile. cbn [IoModel.open]. apply read_stuck. left. destruct (name_map_ok strtod ps ND) as (_ & NN & FN). specialize (FN []). destruct (get (name_map ps) []) as [[i|]|] eqn:E; [|exfalso; now apply (NN [])|reflexivity].
  destruct FN as (p & Ep & En). exfalso. apply NI. rewrite <- En. apply in_map. eapply nth_error_In. exact Ep.
Qed.
Print Assumptions C37_missing_file_refuted.

(** ** C38 *)
Theorem C38_round_trip_partial : forall show strtod numch rr l target fuel, (forall c, is_ws c = true -> numch c = false) -> Forall (printable show strtod numch rr) l -> length l < fuel ->
  readListOfNumbers strtod numch fuel (Some (writeListOfNumbers show l)) target = IoOk (target ++ map rr l).
Proof. intros show strtod numch rr l target fuel H P L. unfold readListOfNumbers. cbn [IoModel.open]. apply (list_round show strtod numch rr H); [now left|exact P|exact L]. Qed.
Print Assumptions C38_round_trip_partial.
Example C38_example : Forall (printable show1 strtod1 numch1 (fun x => x)) [f_of_Z 3; f_of_Z 0; f_of_Z 7].
Proof. repeat (constructor; [apply printb_ok; vm_compute; reflexivity|]). constructor. Qed.
(** A missing file is not reported: the loop never ends (and fills memory). *)
Theorem C38_missing_file_refuted : forall strtod numch fuel target, readListOfNumbers strtod numch fuel None target = IoFuel.
Proof. intros. unfold readListOfNumbers. cbn [IoModel.open]. apply list_stuck. Qed.
Print Assumptions C38_missing_file_refuted.
(** Nor does it end on a number that was written as "inf" (or "nan"). *)
Theorem C38_infinity_refuted : forall show strtod numch x l fuel target, (forall c, is_ws c = true -> numch c = false) ->
  (exists c t, show x = c :: t /\ is_ws c = false /\ numch c = false) -> strtod [] = None ->
  readListOfNumbers strtod numch fuel (Some (writeListOfNumbers show (x :: l))) target = IoFuel.
Proof.
  intros show strtod numch x l fuel target H (c & t & E & W & N) S. unfold readListOfNumbers. cbn [IoModel.open]. destruct fuel as [|fuel]; [reflexivity|]. cbn [list_loop]. unfold writeListOfNumbers. cbn [map concat]. rewrite E. cbn [app].
  unfold read_num. cbn [good i_eof i_fail negb andb i_rest]. rewrite (skip_none _ _ W). cbn [span]. rewrite N, S. cbn [empty i_eof]. apply list_stuck.
Qed.
Print Assumptions C38_infinity_refuted.
(** The last number of a file that does not end with white space is not read. *)
Theorem C38_no_final_space_refuted : forall show strtod numch rr x, printable show strtod numch rr x -> readListOfNumbers strtod numch 2 (Some (show x)) [] = IoOk [].
Proof.
  intros show strtod numch rr x (N & A & S & W & _). unfold readListOfNumbers. cbn [IoModel.open list_loop]. unfold read_num. cbn [good i_eof i_fail negb andb i_rest]. destruct (show x) as [|c t] eqn:E; [congruence|].
  assert (Wc : is_ws c = false) by (cbn [forallb] in W; apply andb_true_iff in W; destruct W as [W _]; now apply negb_true_iff in W). rewrite (skip_none _ _ Wc).
  assert (SP : forall a, forallb numch a = true -> span numch a = (a, [])). { induction a as [|b a IH]; intro Ha; [reflexivity|]. cbn [forallb] in Ha. apply andb_true_iff in Ha. destruct Ha as [H1 H2]. cbn [span]. now rewrite H1, (IH H2). }
  rewrite (SP _ A), S. reflexivity.
Qed.
Print Assumptions C38_no_final_space_refuted.
