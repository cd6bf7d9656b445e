(** Registration of the parameters and sequences of cost function calls. *)
From Coq Require Import List ZArith String Bool Lia.
From Verif Require Import F64 F64Lemmas ListAux VariableModel LeafFormulas DeviceModel PdfModel PdfSpec FlatProofs EvalProofs HostProofs PdfProofs PdfProofs2 PdfProofs3
  NormModel FitModel FitProofs.
Import ListNotations.
Local Open Scope nat_scope.
Local Notation len := List.length.

(** ** Params::Params *)
Lemma name_index_app : forall us u, existsb (fun v => String.eqb (uname v) (uname u)) us = false -> name_index (us ++ [u]) (uname u) = len us.
Proof.
  induction us as [|a us IH]; intros u H; cbn [app name_index].
  - now rewrite String.eqb_refl.
  - cbn [existsb] in H. apply orb_false_iff in H. destruct H as [H1 H2]. rewrite H1. cbn [List.length]. f_equal. now apply IH.
Qed.
Lemma uname_register : forall hp h, uname (register hp h) = h_name h.
Proof. intros. unfold register. destruct (is_fixed hp h); [reflexivity|]. destruct (feq (get_f hp h FLower) (get_f hp h FUpper)); reflexivity. Qed.
Lemma register_same : forall hp hp' h, (forall f, f <> FFitterIndex -> get_field hp' h f = get_field hp h f) -> register hp' h = register hp h.
Proof. intros hp hp' h H. unfold register, is_fixed, get_f. rewrite !H by discriminate. reflexivity. Qed.

Lemma params_loop_ok : forall made vars hp us hp' us', good made hp -> (forall h, In h vars -> In h made /\ isvar h = true) -> NoDup (map uname us) ->
  params_loop hp us vars = NOk (hp', us') ->
  NoDup (map uname us ++ map h_name vars) /\ us' = us ++ map (register hp) vars /\ good made hp' /\
  (forall i h, nth_error vars i = Some h -> get_fitter_index hp' h = Z.of_nat (len us + i)) /\
  (forall b f, In b made -> f <> FFitterIndex -> get_field hp' b f = get_field hp b f) /\
  (forall b, In b made -> ~ In b vars -> get_field hp' b FFitterIndex = get_field hp b FFitterIndex).
Proof.
  intros made. induction vars as [|h vars IH]; intros hp us hp' us' G IN ND E.
  - injection E as <- <-. cbn [map]. rewrite !app_nil_r. split; [exact ND|]. split; [reflexivity|]. split; [exact G|].
    split; [intros [|i] h X; discriminate|]. now split.
  - cbn [params_loop] in E. destruct (existsb (fun u => String.eqb (uname u) (h_name h)) us) eqn:EX; [discriminate|].
    pose proof (name_index_app us (register hp h)) as NI. rewrite uname_register in NI. rewrite (NI EX) in E.
    destruct (IN h (or_introl eq_refl)) as [Hh V].
    destruct (write_var made hp h FFitterIndex (CI (Z.of_nat (len us))) G Hh V eq_refl) as (hp1 & E1 & G1 & T1 & S1 & O1); [discriminate|].
    unfold set_fitter_index in E. rewrite E1 in E.
    assert (NF : ~ In (h_name h) (map uname us)).
    { intro X. apply in_map_iff in X. destruct X as (u & Eu & Hu). assert (Y : existsb (fun u => String.eqb (uname u) (h_name h)) us = true).
      { apply existsb_exists. exists u. split; [exact Hu|]. now apply String.eqb_eq. } congruence. }
    apply IH in E; [|exact G1|intros x Hx; apply IN; now right|].
    + destruct E as (N2 & EU & G2 & FI & OF & OI). rewrite map_app in N2. cbn [map] in N2. rewrite uname_register in N2. rewrite <- app_assoc in N2. cbn [app] in N2.
      assert (NV : ~ In h vars).
      { intro X. apply NoDup_app_split in N2. destruct N2 as (_ & N2 & _). inversion N2; subst. apply H1. now apply in_map. }
      split; [exact N2|]. split.
      { rewrite EU, <- app_assoc. cbn [app map]. f_equal. f_equal. apply map_ext_in. intros x Hx. apply register_same. intros f Hf. apply O1; [apply IN; now right|tauto]. }
      split; [exact G2|]. split; [|split].
      * intros i x Ex. destruct i as [|i]; cbn [nth_error] in Ex.
        -- injection Ex as <-. unfold get_fitter_index. rewrite (OI h Hh NV), S1. f_equal. lia.
        -- rewrite (FI i x Ex). rewrite app_length. cbn [List.length]. f_equal. lia.
      * intros b f Hb Hf. rewrite OF by assumption. apply O1; tauto.
      * intros b Hb Nb. rewrite OI; [|exact Hb|intro; apply Nb; now right]. apply O1; [exact Hb|]. left. intros ->. apply Nb. now left.
    + rewrite map_app. cbn [map]. rewrite uname_register. apply NoDup_snoc; assumption.
Qed.

(** ** Parameters of the tree *)
Lemma all_pars_in : forall ns ps, match_all ns ps -> forall f id x, In x (all_pars f ps id) ->
  exists i n, In i (subtree f ns id) /\ nth_error ns i = Some n /\ In x (node_pars n).
Proof.
  intros ns ps HM. induction f as [|f IH]; intros id x H; [destruct H|]. cbn [all_pars] in H. destruct (nth_error ps id) as [p|] eqn:Ep; [|destruct H].
  assert (Hn : exists n, nth_error ns id = Some n).
  { destruct HM as [ML _]. destruct (nth_error ns id) eqn:N; [eauto|]. apply nth_error_None in N. apply nth_error_Some_lt in Ep. lia. }
  destruct Hn as [n N]. pose proof HM as [_ M]. destruct (M id n N) as (_ & q & Eq & NM). assert (q = p) by congruence. subst q. cbn [subtree]. rewrite N.
  apply in_app_iff in H. destruct H as [H|H].
  - exists id, n. split; [now left|]. split; [exact N|]. now rewrite <- (node_match_pars _ _ _ NM).
  - destruct NM as [Hc _]. rewrite Hc in H. apply in_flat_map in H. destruct H as (k & Hk & H). destruct (IH k x H) as (i & m & Hi & Em & Hx).
    exists i, m. split; [right; apply in_flat_map; exists k; now split|]. now split.
Qed.
Lemma all_pars_all : forall ns ps, match_all ns ps -> forall f id i n x, In i (subtree f ns id) -> nth_error ns i = Some n -> In x (node_pars n) -> In x (all_pars f ps id).
Proof.
  intros ns ps HM. induction f as [|f IH]; intros id i n x Hi Ei Hx; [destruct Hi|]. cbn [subtree] in Hi. destruct (nth_error ns id) as [m|] eqn:N; [|destruct Hi].
  pose proof HM as [_ M]. destruct (M id m N) as (_ & p & Ep & NM). cbn [all_pars]. rewrite Ep. apply in_app_iff. destruct Hi as [<-|Hi].
  - left. rewrite (node_match_pars _ _ _ NM). congruence.
  - right. destruct NM as [Hc _]. rewrite Hc. apply in_flat_map in Hi. destruct Hi as (k & Hk & Hi). apply in_flat_map. exists k. split; [exact Hk|]. eapply IH; eauto.
Qed.
Lemma all_pars_lens : forall f ps ps' id, map lens ps = map lens ps' -> all_pars f ps id = all_pars f ps' id.
Proof.
  induction f as [|f IH]; intros ps ps' id H; [reflexivity|]. cbn [all_pars]. destruct (nth_error ps id) as [p|] eqn:Ep.
  - destruct (lens_nth _ _ _ _ H Ep) as (p' & Ep' & El). rewrite Ep'. destruct El as [E1 E2]. rewrite E1, E2. f_equal.
    apply flat_map_ext. intro. now apply IH.
  - now rewrite (lens_none _ _ _ H Ep).
Qed.

(** What is fixed by the construction of Params. *)
Definition static (made : list handle) (ps : pdfs) (q : params) : Prop :=
  NoDup (q_vars q) /\ (forall h, In h (q_vars q) -> In h made /\ isvar h = true) /\
  (forall h, In h (q_vars q) -> forall hp w, updateVariable (S (q_pdf q)) hp ps (q_pdf q) (h_name h) w = set_f hp h FValue w).
Definition indexed (hp : heap) (q : params) : Prop := forall i h, nth_error (q_vars q) i = Some h -> get_fitter_index hp h = Z.of_nat i.
Definition finv (made : list handle) (q : params) (st : gstate) : Prop := good made (g_heap st) /\ static made (g_pdfs st) q /\ indexed (g_heap st) q.

Lemma static_lens : forall made ps ps' q, map lens ps = map lens ps' -> static made ps q -> static made ps' q.
Proof.
  intros made ps ps' q H (A & B & C). split; [exact A|]. split; [exact B|]. intros h Hh hp w. rewrite <- (C h Hh). rewrite !updateVariable_fold.
  now rewrite (all_pars_lens _ _ _ _ H).
Qed.
Lemma hinv_good : forall hp hs ns, hinv hp hs ns -> exists made, good made hp /\ incl hs made /\ (forall n h, In n ns -> In h (node_pars n) -> In h made /\ isvar h = true).
Proof.
  intros hp hs ns (made & A & B & C & D). exists made. split; [|now split]. split; [exact A|]. eapply Forall_impl; [|exact B]. intros h (L & T & _). now split.
Qed.
Lemma get_i_field : forall hp hp' h, get_field hp' h FIndex = get_field hp h FIndex -> get_i hp' h = get_i hp h.
Proof. intros. unfold get_i. now rewrite H. Qed.

Lemma NoDup_map_eq_inj : forall {A B} (f : A -> B) l x y, NoDup (map f l) -> In x l -> In y l -> f x = f y -> x = y.
Proof.
  intros A B f l x y. induction l as [|a l IH]; intros ND Hx Hy E; [destruct Hx|]. cbn in ND. inversion ND; subst. destruct Hx as [->|Hx], Hy as [->|Hy]; auto.
  - exfalso. apply H1. rewrite E. now apply in_map.
  - exfalso. apply H1. rewrite <- E. now apply in_map.
Qed.
Lemma params_new_ok : forall ops k st ns st1 q, after ops = (st, ns) -> k < len ns -> params_new st k = NOk (st1, q) ->
  exists made, finv made q st1 /\ good made (g_heap st) /\ incl (g_hs st) made /\
    q_pdf q = k /\ q_vars q = getParameters (g_pdfs st) k /\ NoDup (map h_name (q_vars q)) /\
    q_user q = map (register (g_heap st)) (q_vars q) /\
    g_pdfs st1 = g_pdfs st /\ g_hs st1 = g_hs st /\ g_arr st1 = g_arr st /\
    (forall b f, In b made -> f <> FFitterIndex -> get_field (g_heap st1) b f = get_field (g_heap st) b f) /\
    (forall i n h, In i (tree_ids ns k) -> nth_error ns i = Some n -> In h (node_pars n) -> In h (q_vars q) /\ In h made).
Proof.
  intros ops k st ns st1 q E Hk P. destruct (getParameters_ok ops k st ns E Hk) as (l & EG & SND & CMP & _).
  assert (El : l = getParameters (g_pdfs st) k).
  { cbn [gstep] in EG. destruct (Nat.ltb k (len (g_pdfs st))); [|discriminate]. injection EG as <-. reflexivity. }
  subst l. destruct (hinv_good _ _ _ (after_hinv ops st ns E)) as (made & G & IH & PI). pose proof (after_inv _ _ _ E) as (_ & HM & _).
  unfold params_new in P. destruct (params_loop (g_heap st) [] (getParameters (g_pdfs st) k)) as [[hp' us']| | |] eqn:EL; try discriminate. cbn [nbind] in P. injection P as <- <-.
  assert (IN : forall h, In h (getParameters (g_pdfs st) k) -> In h made /\ isvar h = true).
  { intros h Hh. destruct (SND h Hh) as (i & n & _ & En & Hn). apply (PI n h); [eapply nth_error_In; eauto|exact Hn]. }
  destruct (params_loop_ok made _ _ [] hp' us' G IN (NoDup_nil _) EL) as (ND & EU & G' & FI & OF & OI). cbn [map app] in ND.
  assert (TREE : forall i n h, In i (tree_ids ns k) -> nth_error ns i = Some n -> In h (node_pars n) -> In h (getParameters (g_pdfs st) k) /\ In h made).
  { intros i n h Hi En Hh. destruct (CMP i n h Hi En Hh) as (g & Hg & Eg). destruct (PI n h (nth_error_In _ _ En) Hh) as [Mh _]. destruct (IN g Hg) as [Mg _].
    apply Nat.eqb_eq in Eg. destruct (cell_inj made (g_heap st) g h FValue FValue (h_value g) G Mg Mh eq_refl) as [-> _]; [cbn; now rewrite Eg|]. now split. }
  exists made. cbn [q_pdf q_vars q_user g_pdfs g_hs g_arr g_heap]. split.
  { split; [exact G'|]. split.
    - split; [eapply NoDup_map_inv; exact ND|]. split; [exact IN|]. intros h Hh hp w. cbn [q_pdf g_pdfs q_vars] in *. rewrite updateVariable_fold. apply fold_name.
      + destruct (SND h Hh) as (i & n & Hi & En & Hn). eapply all_pars_all; eauto.
      + reflexivity.
      + intros x Hx Nx. destruct (all_pars_in _ _ HM _ _ _ Hx) as (i & n & Hi & En & Hn). destruct (TREE i n x Hi En Hn) as [Lx _].
        apply (NoDup_map_eq_inj h_name (getParameters (g_pdfs st) k) x h); assumption.
    - intros i h Eh. exact (FI i h Eh). }
  split; [exact G|]. split; [exact IH|]. split; [reflexivity|]. split; [reflexivity|]. split; [exact ND|]. split; [exact EU|].
  split; [reflexivity|]. split; [reflexivity|]. split; [reflexivity|]. split; [exact OF|]. exact TREE.
Qed.
