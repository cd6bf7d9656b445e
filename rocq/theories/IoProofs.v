(** Proofs for IoModel. *)
From Coq Require Import List Bool Ascii Arith Lia.
From Verif Require Import F64 ListAux IoModel IoSpec.
Import ListNotations.

Lemma ws_space : is_ws space = true. Proof. reflexivity. Qed.
Lemma ws_newline : is_ws newline = true. Proof. reflexivity. Qed.
Lemma text_eqb_eq : forall a b, text_eqb a b = true <-> a = b.
Proof. intros a b. unfold text_eqb. destruct (list_eq_dec ascii_dec a b); split; congruence. Qed.
Lemma text_eqb_refl : forall a, text_eqb a a = true. Proof. intro a. now apply text_eqb_eq. Qed.
Lemma span_all : forall p a c r, forallb p a = true -> p c = false -> span p (a ++ c :: r) = (a, c :: r).
Proof. induction a as [|x a IH]; intros c r H N; cbn [app span]; [now rewrite N|]. cbn [forallb] in H. apply andb_true_iff in H. destruct H as [H1 H2]. now rewrite H1, (IH c r H2 N). Qed.
Lemma skip_none : forall c t, is_ws c = false -> skip_ws (c :: t) = c :: t.
Proof. intros c t H. cbn. now rewrite H. Qed.

Lemma firstn_snoc : forall {A} (l : list A) n x, nth_error l n = Some x -> firstn (S n) l = firstn n l ++ [x].
Proof. induction l as [|a l IH]; intros [|n] x H; try discriminate; cbn in *; [now injection H as ->|]. now rewrite (IH n x H). Qed.
Lemma nth_error_firstn_lt : forall {A} (l : list A) n i, i < n -> nth_error (firstn n l) i = nth_error l i.
Proof. induction l as [|a l IH]; intros [|n] [|i] H; try reflexivity; try lia. cbn. apply IH. lia. Qed.
Lemma nth_ext : forall {A} (l l' : list A), (forall i, nth_error l i = nth_error l' i) -> l = l'.
Proof. induction l as [|a l IH]; intros [|b l'] H; [reflexivity|specialize (H 0); discriminate|specialize (H 0); discriminate|]. pose proof (H 0) as E. cbn in E. injection E as ->. f_equal. apply IH. intro i. exact (H (S i)). Qed.
Lemma find_app : forall {A} (f : A -> bool) a b, find f (a ++ b) = match find f a with Some x => Some x | None => find f b end.
Proof. induction a as [|x a IH]; intro b; cbn; [reflexivity|]. destruct (f x); [reflexivity|apply IH]. Qed.
Lemma NoDup_app_left : forall {A} (a b : list A), NoDup (a ++ b) -> NoDup a.
Proof. induction a as [|x a IH]; intros b H; [constructor|]. cbn in H. inversion H as [|? ? N D]; subst. constructor; [intro I; apply N; apply in_or_app; now left|eapply IH; exact D]. Qed.

Section Io.
Variable show : f64 -> text.
Variable strtod : text -> option f64.
Variable numch : ascii -> bool.
Variable rr : f64 -> f64.
Local Notation printable := (IoSpec.printable show strtod numch rr).
Local Notation param_ok := (IoSpec.param_ok show strtod numch rr).
Local Notation reread := (IoSpec.reread rr).
Local Notation restored := (IoSpec.restored rr).
Hypothesis numch_ws : forall c, is_ws c = true -> numch c = false.

Lemma read_num_at : forall c t x r d, is_ws c = true -> is_ws d = true -> printable x -> t = c :: show x ++ d :: r -> read_num strtod numch (mkI t false false) = (mkI (d :: r) false false, Some (rr x)).
Proof.
  intros c t x r d Hc Hd (N & A & S & W & _) ->. unfold read_num. cbn [good i_eof i_fail negb andb i_rest skip_ws]. rewrite Hc. destruct (show x) as [|a w] eqn:E; [congruence|]. cbn [app].
  assert (Wa : is_ws a = false) by (cbn [forallb] in W; apply andb_true_iff in W; destruct W as [W _]; now apply negb_true_iff in W). rewrite (skip_none _ _ Wa). change (a :: w ++ d :: r) with ((a :: w) ++ d :: r). rewrite (span_all _ _ _ _ A (numch_ws d Hd)), S. reflexivity.
Qed.
Lemma read_num_start : forall x r d, is_ws d = true -> printable x -> read_num strtod numch (mkI (show x ++ d :: r) false false) = (mkI (d :: r) false false, Some (rr x)).
Proof.
  intros x r d Hd (N & A & S & W & _). unfold read_num. cbn [good i_eof i_fail negb andb i_rest]. destruct (show x) as [|a w] eqn:E; [congruence|]. cbn [app].
  assert (Wa : is_ws a = false) by (cbn [forallb] in W; apply andb_true_iff in W; destruct W as [W _]; now apply negb_true_iff in W). rewrite (skip_none _ _ Wa). change (a :: w ++ d :: r) with ((a :: w) ++ d :: r). rewrite (span_all _ _ _ _ A (numch_ws d Hd)), S. reflexivity.
Qed.
Lemma read_word_at : forall n t r d (c : option ascii), n <> [] -> forallb (fun c => negb (is_ws c)) n = true -> is_ws d = true -> match c with Some c => is_ws c = true /\ t = c :: n ++ d :: r | None => t = n ++ d :: r end ->
  read_word (mkI t false false) = (mkI (d :: r) false false, Some n).
Proof.
  intros n t r d c N A Hd H. unfold read_word. cbn [good i_eof i_fail negb andb i_rest]. destruct n as [|a w]; [congruence|].
  assert (Wa : is_ws a = false) by (cbn [forallb] in A; apply andb_true_iff in A; destruct A as [W _]; now apply negb_true_iff in W).
  assert (E : skip_ws t = (a :: w) ++ d :: r) by (destruct c as [c|]; [destruct H as [Hc ->]; cbn [skip_ws]; rewrite Hc|rewrite H]; cbn [app]; now apply skip_none). rewrite E. cbn [app]. change (a :: w ++ d :: r) with ((a :: w) ++ d :: r).
  rewrite span_all by (try exact A; now rewrite Hd). reflexivity.
Qed.
Lemma line_short : forall t n r, length t <= n -> forallb (fun c => negb (Ascii.eqb c newline)) t = true -> line n (t ++ newline :: r) = (r, false, false).
Proof.
  induction t as [|c t IH]; intros n r L F; cbn [app line].
  - reflexivity.
  - cbn [forallb] in F. apply andb_true_iff in F. destruct F as [F1 F2]. apply negb_true_iff in F1. rewrite F1. cbn [length] in L. destruct n as [|n]; [lia|]. apply IH; [lia|exact F2].
Qed.
Lemma no_newline : forall t, forallb (fun c => negb (is_ws c)) t = true -> forallb (fun c => negb (Ascii.eqb c newline)) t = true.
Proof. intros t H. rewrite forallb_forall in *. intros c Hc. specialize (H c Hc). apply negb_true_iff in H. apply negb_true_iff. destruct (Ascii.eqb c newline) eqn:E; [|reflexivity]. apply Ascii.eqb_eq in E. subst c. discriminate. Qed.

(** *** The map of names *)
Lemma put_length : forall m k v, get m k = None -> length (put m k v) = S (length m).
Proof. induction m as [|[k' v'] m IH]; intros k v H; cbn in *; [reflexivity|]. destruct (text_eqb k k'); [discriminate|]. cbn. now rewrite IH. Qed.
Lemma get_put : forall m k v k2, get (put m k v) k2 = if text_eqb k2 k then Some v else get m k2.
Proof.
  induction m as [|[k' v'] m IH]; intros k v k2; cbn [put get]; [reflexivity|]. destruct (text_eqb k k') eqn:E.
  - apply text_eqb_eq in E. subst k'. cbn [get]. now destruct (text_eqb k2 k).
  - cbn [get]. destruct (text_eqb k2 k') eqn:E2; [|apply IH]. destruct (text_eqb k2 k) eqn:E3; [|reflexivity]. apply text_eqb_eq in E2, E3. subst. now rewrite text_eqb_refl in E.
Qed.
Definition find_name (ps : list param) (k : text) (m : option (option nat)) : Prop :=
  match m with
  | Some (Some i) => exists p, nth_error ps i = Some p /\ p_name p = k
  | Some None => ~ In k (map p_name ps)
  | None => ~ In k (map p_name ps)
  end.
Lemma name_map_ok : forall ps, NoDup (map p_name ps) -> length (name_map ps) = length ps /\
  (forall k, get (name_map ps) k <> Some None) /\ forall k, find_name ps k (get (name_map ps) k).
Proof.
  intros ps ND. unfold name_map. set (F := fun (m : nmap) (i : nat) => match nth_error ps i with Some p => put m (p_name p) (Some i) | None => m end).
  assert (G : forall n, n <= length ps -> let m := fold_left F (seq 0 n) [] in
    length m = n /\ forall k, match get m k with Some (Some i) => i < n /\ exists p, nth_error ps i = Some p /\ p_name p = k | Some None => False | None => ~ In k (map p_name (firstn n ps)) end).
  { induction n as [|n IH]; intros Hn m; [split; [reflexivity|]; intro k; cbn; tauto|]. subst m. rewrite seq_S. cbn [plus]. rewrite fold_left_app. cbn [fold_left]. destruct (IH ltac:(lia)) as [IL IG].
    set (m := fold_left F (seq 0 n) []) in *. unfold F. destruct (nth_error ps n) as [p|] eqn:E; [|apply nth_error_None in E; lia].
    assert (FN : firstn (S n) ps = firstn n ps ++ [p]) by (now apply firstn_snoc).
    assert (NI : ~ In (p_name p) (map p_name (firstn n ps))).
    { intro H. rewrite <- (firstn_skipn (S n) ps), FN, !map_app in ND. cbn [map] in ND. rewrite <- app_assoc in ND. apply NoDup_remove_2 in ND. apply ND. apply in_or_app. now left. }
    assert (NG : get m (p_name p) = None).
    { pose proof (IG (p_name p)) as X. destruct (get m (p_name p)) as [[i|]|]; [|contradiction|reflexivity]. exfalso. destruct X as (Li & q & Eq & En). apply NI. rewrite <- En. apply in_map. apply nth_error_In with (n := i). rewrite nth_error_firstn_lt by exact Li. exact Eq. }
    split; [rewrite put_length by exact NG; lia|]. intro k. rewrite get_put. destruct (text_eqb k (p_name p)) eqn:EK.
    - apply text_eqb_eq in EK. subst k. split; [lia|]. now exists p.
    - pose proof (IG k) as X. destruct (get m k) as [[i|]|]; [destruct X as [Li X]; split; [lia|exact X]|contradiction|]. rewrite FN, map_app. intro H. apply in_app_or in H. destruct H as [H|[H|[]]]; [now apply X|]. rewrite H, text_eqb_refl in EK. discriminate. }
  destruct (G (length ps) (Nat.le_refl _)) as [GL GG]. split; [exact GL|]. split.
  - intros k H. pose proof (GG k) as X. rewrite H in X. exact X.
  - intro k. pose proof (GG k) as X. unfold find_name. destruct (get _ k) as [[i|]|]; [apply X|contradiction|]. now rewrite firstn_all in X.
Qed.

(** *** Round trip of parameters *)
Definition good_stream (t : text) (s : istream) : Prop := s = mkI t false false \/ s = mkI (newline :: t) false false.

Lemma param_line_numbers : forall w r, let t := param_line show w ++ r in
  t = p_name w ++ space :: (show (p_value w) ++ space :: (show (p_error w) ++ space :: (show (p_lower w) ++ space :: (show (p_upper w) ++ newline :: r)))).
Proof. intros w r t. unfold t, param_line. cbn [app]. repeat (rewrite <- app_assoc; cbn [app]). reflexivity. Qed.

Lemma NoDup_skip : forall (a b : list text) x, NoDup (a ++ x :: b) -> ~ In x a.
Proof. intros a b x H I. apply NoDup_remove_2 in H. apply H. apply in_or_app. now left. Qed.
Lemma restored_none : forall ws p, ~ In (p_name p) (map p_name ws) -> restored ws p = p.
Proof.
  intros ws p H. unfold restored. destruct (find _ ws) as [w|] eqn:E; [|reflexivity]. apply find_some in E. destruct E as [I E]. apply text_eqb_eq in E. exfalso. apply H. rewrite <- E. now apply in_map.
Qed.
Lemma restored_in : forall ws w p, NoDup (map p_name ws) -> In w ws -> p_name w = p_name p -> restored ws p = reread (p_name p) w.
Proof.
  intros ws w p ND I E. unfold restored. destruct (find _ ws) as [w'|] eqn:F.
  - apply find_some in F. destruct F as [I' E']. apply text_eqb_eq in E'. f_equal. induction ws as [|a ws IH]; [contradiction|]. cbn in ND. inversion ND as [|? ? NI ND']; subst.
    destruct I as [->|I], I' as [->|I']; try reflexivity; [exfalso; apply NI; rewrite E, <- E'; now apply in_map|exfalso; apply NI; rewrite E', <- E; now apply in_map|now apply IH].
  - pose proof (find_none _ _ F w I) as X. cbn in X. rewrite E, text_eqb_refl in X. discriminate.
Qed.

Lemma loop_round : forall ws done ps0 ps m n fuel s buffer, NoDup (map p_name (done ++ ws)) -> NoDup (map p_name ps0) -> Forall param_ok ws -> length ws < fuel ->
  ps = map (restored done) ps0 -> n + length (filter (fun p => negb (existsb (fun w => text_eqb (p_name w) (p_name p)) done)) ps0) = length ps0 -> length ps0 <= length m ->
  (forall k, find_name ps0 k (get m k)) -> good_stream (writeToFile show ws) s ->
  read_loop strtod numch fuel s buffer m n ps = IoOk (map (restored (done ++ ws)) ps0).
Proof.
  induction ws as [|w ws IH]; intros done ps0 ps m n fuel s buffer ND NP OK LF EP NS LM FN GS.
  - destruct fuel as [|fuel]; [lia|]. cbn [read_loop]. rewrite app_nil_r.
    assert (RW : exists b, read_word s = (mkI [] true true, b)) by (destruct GS as [-> | ->]; exists None; reflexivity). destruct RW as [b ->]. cbn [i_eof]. now rewrite EP.
  - inversion OK as [|? ? OW OK']; subst ps. destruct OW as (N1 & N2 & PV & PE & PL & PU). destruct fuel as [|fuel]; [cbn in LF; lia|]. cbn [length] in LF.
    assert (WF : writeToFile show (w :: ws) = p_name w ++ space :: (show (p_value w) ++ space :: (show (p_error w) ++ space :: (show (p_lower w) ++ space :: (show (p_upper w) ++ newline :: writeToFile show ws))))) by (unfold writeToFile; cbn [map concat]; apply param_line_numbers).
    rewrite WF in GS. set (tl4 := show (p_upper w) ++ newline :: writeToFile show ws) in *. set (tl3 := show (p_lower w) ++ space :: tl4) in *. set (tl2 := show (p_error w) ++ space :: tl3) in *. set (tl1 := show (p_value w) ++ space :: tl2) in *.
    cbn [read_loop]. assert (RW : read_word s = (mkI (space :: tl1) false false, Some (p_name w))).
    { destruct GS as [-> | ->]; [apply (read_word_at (p_name w) _ tl1 space None)|apply (read_word_at (p_name w) _ tl1 space (Some newline))]; auto. }
    rewrite RW. cbn [i_eof]. pose proof (FN (p_name w)) as FW.
    assert (ND2 : NoDup (map p_name ((done ++ [w]) ++ ws))) by now rewrite <- app_assoc. replace (done ++ w :: ws) with ((done ++ [w]) ++ ws) by now rewrite <- app_assoc.
    assert (NW : ~ In (p_name w) (map p_name done)) by (rewrite map_app in ND; cbn [map] in ND; eapply NoDup_skip; exact ND).
    (* parameters other than those named like w *)
    assert (OT : forall p, In p ps0 -> p_name p <> p_name w -> restored (done ++ [w]) p = restored done p).
    { intros p Hp Ne. unfold restored. rewrite find_app. destruct (find _ done); [reflexivity|]. cbn [find]. destruct (text_eqb (p_name w) (p_name p)) eqn:E; [apply text_eqb_eq in E; congruence|reflexivity]. }
    assert (ND1 : NoDup (map p_name (done ++ [w]))) by (rewrite map_app in ND2; eapply NoDup_app_left; exact ND2).
    assert (SM : forall p, In p ps0 -> p_name p = p_name w -> restored (done ++ [w]) p = reread (p_name p) w).
    { intros p Hp E. apply restored_in; [exact ND1|apply in_or_app; right; now left|now symmetry]. }
    assert (FOREIGN : forall m', length ps0 <= length m' -> (forall k, find_name ps0 k (get m' k)) -> ~ In (p_name w) (map p_name ps0) ->
      read_loop strtod numch fuel (getline (mkI (space :: tl1) false false)) (p_name w) m' n (map (restored done) ps0) = IoOk (map (restored ((done ++ [w]) ++ ws)) ps0)).
    { intros m' LM' FN' NI. assert (GL : getline (mkI (space :: tl1) false false) = mkI (writeToFile show ws) false false).
      { unfold getline. cbn [good i_eof i_fail negb andb i_rest]. assert (SP : space :: tl1 = (space :: show (p_value w) ++ space :: show (p_error w) ++ space :: show (p_lower w) ++ space :: show (p_upper w)) ++ newline :: writeToFile show ws).
        { unfold tl1, tl2, tl3, tl4. cbn [app]. repeat (rewrite <- app_assoc; cbn [app]). reflexivity. }
        rewrite SP. rewrite line_short; [reflexivity| |].
        - cbn [length]. repeat (rewrite app_length; cbn [length]). destruct PV as (_ & _ & _ & _ & L1), PE as (_ & _ & _ & _ & L2), PL as (_ & _ & _ & _ & L3), PU as (_ & _ & _ & _ & L4). lia.
        - cbn [forallb]. repeat (rewrite forallb_app; cbn [forallb]). destruct PV as (_ & _ & _ & W1 & _), PE as (_ & _ & _ & W2 & _), PL as (_ & _ & _ & W3 & _), PU as (_ & _ & _ & W4 & _). rewrite !no_newline by assumption. reflexivity. }
      rewrite GL. apply IH; auto; [lia| | |now left].
      - apply map_ext_in. intros q Hq. symmetry. apply OT; [exact Hq|]. intro E. apply NI. rewrite <- E. now apply in_map.
      - etransitivity; [|exact NS]. f_equal. f_equal. apply filter_ext_in. intros q Hq. rewrite existsb_app. cbn [existsb]. destruct (text_eqb (p_name w) (p_name q)) eqn:E; [|now rewrite !orb_false_r]. apply text_eqb_eq in E. exfalso. apply NI. rewrite E. now apply in_map. }
    destruct (get m (p_name w)) as [[i|]|] eqn:GM.
    + destruct FW as (p & Ep & En). cbn [fst snd].
      rewrite (read_num_at space (space :: tl1) (p_value w) tl2 space ws_space ws_space PV eq_refl). rewrite (read_num_at space (space :: tl2) (p_error w) tl3 space ws_space ws_space PE eq_refl).
      rewrite (read_num_at space (space :: tl3) (p_lower w) tl4 space ws_space ws_space PL eq_refl). rewrite (read_num_at space (space :: tl4) (p_upper w) (writeToFile show ws) newline ws_space ws_newline PU eq_refl).
      rewrite nth_error_map, Ep. cbn [option_map]. assert (Hp : In p ps0) by (eapply nth_error_In; exact Ep).
      assert (RP : restored done p = p) by (apply restored_none; now rewrite En). rewrite RP.
      assert (UP : upd (map (restored done) ps0) i (mkP (p_name p) (rr (p_value w)) (rr (p_error w)) (rr (p_lower w)) (rr (p_upper w))) = map (restored (done ++ [w])) ps0).
      { apply nth_ext. intro j. destruct (Nat.eq_dec j i) as [->|Nj].
        - rewrite nth_error_upd_same by (rewrite map_length; apply nth_error_Some; congruence). rewrite nth_error_map, Ep. cbn [option_map]. now rewrite (SM p Hp En).
        - rewrite nth_error_upd_other by (intro X; now apply Nj). rewrite !nth_error_map. destruct (nth_error ps0 j) as [q|] eqn:Eq; [|reflexivity]. cbn [option_map]. f_equal. symmetry. apply OT; [eapply nth_error_In; exact Eq|].
          intro E. apply Nj. pose proof (proj1 (NoDup_nth_error (map p_name ps0)) NP j i) as NP'. rewrite !nth_error_map, Eq, Ep in NP'. cbn in NP'. apply NP'; [rewrite map_length; apply nth_error_Some; congruence|]. congruence. }
      rewrite UP.
      assert (CN : S n + length (filter (fun p => negb (existsb (fun w => text_eqb (p_name w) (p_name p)) (done ++ [w]))) ps0) = length ps0).
      { assert (X : length (filter (fun p => negb (existsb (fun w => text_eqb (p_name w) (p_name p)) done)) ps0) = S (length (filter (fun p => negb (existsb (fun w => text_eqb (p_name w) (p_name p)) (done ++ [w]))) ps0))).
        { assert (ED : existsb (fun w => text_eqb (p_name w) (p_name p)) done = false).
          { destruct (existsb _ done) eqn:E; [|reflexivity]. apply existsb_exists in E. destruct E as (d & Hd & E). apply text_eqb_eq in E. exfalso. apply NW. rewrite <- En, <- E. now apply in_map. }
          clear - NP Hp En ED. induction ps0 as [|q ps0 IH]; [contradiction|]. cbn [map] in NP. inversion NP as [|? ? NI NP']; subst. cbn [filter]. rewrite existsb_app. cbn [existsb]. rewrite orb_false_r.
          destruct Hp as [->|Hp].
          - rewrite ED, En, text_eqb_refl. cbn [orb negb length]. f_equal. f_equal. apply filter_ext_in. intros q Hq. rewrite existsb_app. cbn [existsb]. destruct (text_eqb (p_name w) (p_name q)) eqn:E; [|now rewrite orb_false_r]. apply text_eqb_eq in E. exfalso. apply NI. rewrite En, E. now apply in_map.
          - assert (Eq : text_eqb (p_name w) (p_name q) = false). { destruct (text_eqb (p_name w) (p_name q)) eqn:E; [|reflexivity]. apply text_eqb_eq in E. exfalso. apply NI. rewrite <- E, <- En. now apply in_map. }
            rewrite Eq, orb_false_r. destruct (negb _); cbn [length]; rewrite (IH NP' Hp); reflexivity. }
        lia. }
      destruct (Nat.eqb (S n) (length m)) eqn:EB.
      * apply Nat.eqb_eq in EB. assert (FL : length (filter (fun p => negb (existsb (fun w => text_eqb (p_name w) (p_name p)) (done ++ [w]))) ps0) = 0) by lia. apply length_zero_iff_nil in FL.
        f_equal. apply map_ext_in. intros q Hq. assert (In_q : existsb (fun w => text_eqb (p_name w) (p_name q)) (done ++ [w]) = true).
        { destruct (existsb _ _) eqn:E; [reflexivity|]. exfalso. assert (In q []) by (rewrite <- FL; apply filter_In; split; [exact Hq|now rewrite E]). contradiction. }
        unfold restored. rewrite (find_app _ (done ++ [w]) ws). apply existsb_exists in In_q. destruct In_q as (d & Hd & E). destruct (find _ (done ++ [w])) eqn:F; [reflexivity|]. pose proof (find_none _ _ F d Hd) as X. cbn in X. congruence.
      * apply IH; auto; [lia|now right].
    + apply FOREIGN with (m' := m); auto.
    + apply FOREIGN with (m' := put m (p_name w) None); [rewrite put_length by exact GM; lia| |].
      * intro k. rewrite get_put. destruct (text_eqb k (p_name w)) eqn:E; [apply text_eqb_eq in E; subst k; exact FW|apply FN].
      * exact FW.
Qed.

Lemma file_round : forall ws ps fuel, NoDup (map p_name ws) -> NoDup (map p_name ps) -> Forall param_ok ws -> length ws < fuel ->
  readFromFile strtod numch fuel (Some (writeToFile show ws)) ps = IoOk (map (restored ws) ps).
Proof.
  intros ws ps fuel N1 N2 OK LF. unfold readFromFile, IoModel.open. destruct (name_map_ok ps N2) as (L & NN & FN). apply (loop_round ws []); auto.
  - rewrite <- (map_id ps) at 1. apply map_ext. intro p. reflexivity.
  - cbn [existsb negb plus]. clear. induction ps as [|p ps IH]; cbn; [reflexivity|]. now rewrite IH.
  - lia.
  - now left.
Qed.

(** *** Lists *)
Lemma list_round : forall l acc buffer fuel t, (t = writeListOfNumbers show l \/ t = space :: writeListOfNumbers show l) -> Forall printable l -> length l < fuel ->
  list_loop strtod numch fuel (mkI t false false) buffer acc = IoOk (acc ++ map rr l).
Proof.
  induction l as [|x l IH]; intros acc buffer fuel t T P L; (destruct fuel as [|fuel]; [cbn in L; lia|]); cbn [list_loop].
  - assert (E : read_num strtod numch (mkI t false false) = (mkI [] true true, None)) by (destruct T as [-> | ->]; reflexivity). rewrite E. cbn [i_eof map]. now rewrite app_nil_r.
  - inversion P as [|? ? Px Pl]; subst. unfold writeListOfNumbers in T. cbn [map concat] in T. rewrite <- app_assoc in T. cbn [app] in T. fold (writeListOfNumbers show l) in T.
    assert (E : read_num strtod numch (mkI t false false) = (mkI (space :: writeListOfNumbers show l) false false, Some (rr x))).
    { destruct T as [-> | ->]; [now apply read_num_start|]. eapply read_num_at; [| |exact Px|reflexivity]; reflexivity. }
    rewrite E. cbn [i_eof map]. rewrite IH; [|now right|exact Pl|cbn in L; lia]. now rewrite <- app_assoc.
Qed.
End Io.

(** *** Streams that failed without reaching the end *)
Section Stuck.
Variable strtod : text -> option f64.
Variable numch : ascii -> bool.
Lemma list_stuck : forall fuel t b acc, list_loop strtod numch fuel (mkI t false true) b acc = IoFuel.
Proof. induction fuel as [|fuel IH]; intros t b acc; [reflexivity|]. cbn [list_loop read_num good i_eof i_fail negb andb]. apply IH. Qed.
Lemma read_stuck : forall fuel t b m n ps, get m b = None \/ get m b = Some None -> read_loop strtod numch fuel (mkI t false true) b m n ps = IoFuel.
Proof.
  induction fuel as [|fuel IH]; intros t b m n ps H; [reflexivity|]. cbn [read_loop read_word good i_eof i_fail negb andb i_rest]. destruct H as [E|E]; rewrite E; cbn [getline good i_eof i_fail negb andb i_rest]; apply IH.
  - right. rewrite get_put, text_eqb_refl. reflexivity.
  - now right.
Qed.
End Stuck.
