(** Proofs about sums and products over grids. *)
From Coq Require Import List Reals Lra Lia Arith FunctionalExtensionality.
From Verif Require Import F64 Reduce CombineSpec.
Import ListNotations.
Open Scope R_scope.

Lemma Rsum_cons : forall a l, Rsum (a :: l) = a + Rsum l.
Proof. reflexivity. Qed.
Lemma Rsum_map_ext : forall {T} (f g : T -> R) l, (forall x, In x l -> f x = g x) -> Rsum (map f l) = Rsum (map g l).
Proof. intros T f g l H. f_equal. now apply map_ext_in. Qed.
Lemma Rsum_map_plus : forall {T} (f g : T -> R) l, Rsum (map (fun x => f x + g x) l) = Rsum (map f l) + Rsum (map g l).
Proof. induction l as [|a l IH]; cbn [map]; [unfold Rsum; cbn; lra|]. rewrite !Rsum_cons, IH. lra. Qed.
Lemma Rsum_map_scal : forall {T} (f : T -> R) k l, Rsum (map (fun x => k * f x) l) = k * Rsum (map f l).
Proof. induction l as [|a l IH]; cbn [map]; [unfold Rsum; cbn; lra|]. rewrite !Rsum_cons, IH. lra. Qed.

Lemma grid_ext : forall axes f g p, (forall q, f q = g q) -> grid_sum axes f p = grid_sum axes g p.
Proof.
  induction axes as [|[[o w] cs] t IH]; intros f g p H; cbn [grid_sum]; [apply H|]. apply Rsum_map_ext. intros c _. f_equal. now apply IH.
Qed.
Lemma grid_plus : forall axes f g p, grid_sum axes (fun q => f q + g q) p = grid_sum axes f p + grid_sum axes g p.
Proof.
  induction axes as [|[[o w] cs] t IH]; intros f g p; cbn [grid_sum]; [reflexivity|]. rewrite <- Rsum_map_plus. apply Rsum_map_ext. intros c _. rewrite IH. lra.
Qed.
Lemma grid_scal : forall axes k f p, grid_sum axes (fun q => k * f q) p = k * grid_sum axes f p.
Proof.
  induction axes as [|[[o w] cs] t IH]; intros k f p; cbn [grid_sum]; [reflexivity|]. rewrite <- Rsum_map_scal. apply Rsum_map_ext. intros c _. rewrite IH. lra.
Qed.
Lemma grid_zero : forall axes p, grid_sum axes (fun _ => 0) p = 0.
Proof. intros. pose proof (grid_scal axes 0 (fun _ => 0) p) as H. rewrite Rmult_0_l in H. rewrite <- H. apply grid_ext. intros _. lra. Qed.

(** ** AddPdf *)
Definition term (w : R) (c : comp) (p : point) : R := w * fst c p * snd c.
Lemma at_pt_cons : forall p c cs, at_pt p (c :: cs) = (fst c p, snd c) :: at_pt p cs.
Proof. reflexivity. Qed.
Lemma weighted_R : forall ws cs p s t, weighted_in R_arith ws (at_pt p cs) s t =
  (s + Rsum (map (fun wc => term (fst wc) (snd wc) p) (combine ws cs)), t + Rsum (map fst (combine ws cs))).
Proof.
  induction ws as [|w ws IH]; intros cs p s t; [cbn [weighted_in combine map]; unfold Rsum; cbn [fold_right]; f_equal; lra|].
  destruct cs as [|c cs]; [cbn [weighted_in at_pt combine map]; unfold Rsum; cbn [fold_right map]; f_equal; lra|].
  rewrite at_pt_cons. cbn [weighted_in combine]. rewrite IH. cbn [map fst snd]. rewrite !Rsum_cons. unfold term. cbn [R_arith add mul fst snd]. f_equal; lra.
Qed.
Lemma combine_fst : forall {A B} (l : list A) (m : list B), (length l <= length m)%nat -> map fst (combine l m) = l.
Proof. induction l as [|a l IH]; intros m H; [reflexivity|]. destruct m; [cbn in H; lia|]. cbn. f_equal. apply IH. cbn in H. lia. Qed.
Lemma grid_sum_terms : forall axes (wcs : list (R * comp)) p,
  grid_sum axes (fun q => Rsum (map (fun wc => term (fst wc) (snd wc) q) wcs)) p =
  Rsum (map (fun wc => fst wc * grid_sum axes (fun q => fst (snd wc) q * snd (snd wc)) p) wcs).
Proof.
  intros axes. induction wcs as [|[w c] l IH]; intro p; cbn [map].
  - unfold Rsum. cbn [fold_right]. apply grid_zero.
  - rewrite Rsum_cons, <- IH, <- grid_scal, <- grid_plus. apply grid_ext. intro q. rewrite Rsum_cons. unfold term. cbn [fst snd]. lra.
Qed.
Definition sum_of (axes : list axis) (ws : list R) (cs : list comp) : R :=
  Rsum (map (fun wc => fst wc * integral_over axes (fun p => fst (snd wc) p * snd (snd wc))) (combine ws cs)).
Lemma mixture_ext : forall ws cs p, length ws = length cs -> Rsum ws <> 0 ->
  mixture ws cs p = Rsum (map (fun wc => term (fst wc) (snd wc) p) (combine ws cs)) * / Rsum ws.
Proof.
  intros ws cs p H N. unfold mixture, add_in. cbn [R_arith zero one]. rewrite weighted_R. unfold at_pt at 1. rewrite map_length, H, Nat.eqb_refl. cbn [div R_arith].
  rewrite combine_fst by lia. unfold Rdiv. now rewrite !Rplus_0_l.
Qed.
Lemma mixture_mean : forall axes ws cs, length ws = length cs -> Rsum ws <> 0 ->
  integral_over axes (mixture ws cs) = sum_of axes ws cs / Rsum ws.
Proof.
  intros axes ws cs H N. unfold integral_over, sum_of. rewrite (grid_ext axes _ _ _ (fun q => mixture_ext ws cs q H N)).
  rewrite (grid_ext axes _ (fun q => / Rsum ws * Rsum (map (fun wc => term (fst wc) (snd wc) q) (combine ws cs))) _ (fun q => Rmult_comm _ _)).
  rewrite grid_scal, grid_sum_terms. unfold integral_over, Rdiv. ring.
Qed.
Lemma combine_firstn_app : forall {A B} (l : list A) (m : list B) c, length l = length m -> combine l (m ++ [c]) = combine l m.
Proof. induction l as [|a l IH]; intros m c H; [reflexivity|]. destruct m; [discriminate|]. cbn. f_equal. apply IH. now injection H. Qed.
Lemma mixture_rest : forall ws cs c p, length ws = length cs ->
  mixture ws (cs ++ [c]) p = Rsum (map (fun wc => term (fst wc) (snd wc) p) (combine ws cs)) + term (1 - Rsum ws) c p.
Proof.
  intros ws cs c p H. unfold mixture, add_in. cbn [R_arith zero one]. rewrite weighted_R. unfold at_pt. rewrite map_length, app_length. cbn [length].
  destruct (Nat.eqb_spec (length ws) (length cs + 1)); [lia|].
  rewrite map_app. cbn [map]. rewrite nth_error_app2 by (rewrite map_length; lia). rewrite map_length, H, Nat.sub_diag. cbn [nth_error add mul sub R_arith].
  rewrite combine_firstn_app by exact H. rewrite combine_fst by lia. unfold term. cbn [fst snd]. rewrite !Rplus_0_l. reflexivity.
Qed.
Lemma mixture_last : forall axes ws cs c, length ws = length cs ->
  integral_over axes (mixture ws (cs ++ [c])) = sum_of axes ws cs + (1 - Rsum ws) * integral_over axes (fun p => fst c p * snd c).
Proof.
  intros axes ws cs c H. unfold integral_over, sum_of. rewrite (grid_ext axes _ _ _ (fun q => mixture_rest ws cs c q H)).
  rewrite grid_plus, grid_sum_terms. f_equal. rewrite <- grid_scal. apply grid_ext. intro q. unfold term. ring.
Qed.
Lemma sum_of_units : forall axes ws cs, length ws = length cs -> Forall (unit_over axes) cs -> sum_of axes ws cs = Rsum ws.
Proof.
  unfold sum_of. induction ws as [|w ws IH]; intros cs H F; [reflexivity|]. destruct cs as [|c cs]; [discriminate|]. inversion F as [|? ? U F']. subst.
  cbn [combine map]. rewrite !Rsum_cons. cbn [fst snd]. unfold unit_over in U. rewrite U, IH; [lra| |assumption]. now injection H.
Qed.
Lemma mixture_unit : forall axes ws cs, length cs = S (length ws) -> Forall (unit_over axes) cs -> integral_over axes (mixture ws cs) = 1.
Proof.
  intros axes ws cs H F. destruct (exists_last (l := cs)) as (cs' & c & ->); [intro X; subst; discriminate|].
  rewrite app_length in H. cbn in H. apply Forall_app in F. destruct F as [F1 F2]. inversion F2 as [|? ? U _]. subst. unfold unit_over in U.
  rewrite mixture_last by lia. rewrite U, (sum_of_units axes ws cs') by (assumption || lia). lra.
Qed.

(** ** ProdPdf *)
Lemma grid_app : forall a b f p, grid_sum (a ++ b) f p = grid_sum a (grid_sum b f) p.
Proof. induction a as [|[[o w] cs] t IH]; intros b f p; cbn [grid_sum app]; [reflexivity|]. apply Rsum_map_ext. intros c _. now rewrite IH. Qed.
Lemma set_other : forall p o c i, i <> o -> set_pt p o c i = p i.
Proof. intros. unfold set_pt. destruct (Nat.eqb_spec i o); [contradiction|reflexivity]. Qed.
(** A factor that does not look at the observables summed over comes out. *)
Lemma grid_factor : forall b f g p, (forall q c a, In a b -> f (set_pt q (ax_obs a) c) = f q) -> grid_sum b (fun q => f q * g q) p = f p * grid_sum b g p.
Proof.
  induction b as [|[[o w] cs] t IH]; intros f g p H; cbn [grid_sum]; [reflexivity|]. rewrite <- Rsum_map_scal. apply Rsum_map_ext. intros c _.
  rewrite IH; [|intros q c' a Ha; apply H; now right]. pose proof (H p c (o, w, cs) (or_introl eq_refl)) as E. cbn [ax_obs fst] in E. rewrite E. ring.
Qed.
(** A sum over all the observables a function looks at does not depend on the starting point. *)
Lemma grid_depends : forall b f extra p q, (forall x y, (forall a, In a (extra ++ b) -> x (ax_obs a) = y (ax_obs a)) -> f x = f y) ->
  (forall a, In a extra -> p (ax_obs a) = q (ax_obs a)) -> grid_sum b f p = grid_sum b f q.
Proof.
  induction b as [|[[o w] cs] t IH]; intros f extra p q H E; cbn [grid_sum].
  - apply H. intros a Ha. rewrite app_nil_r in Ha. now apply E.
  - apply Rsum_map_ext. intros c _. f_equal. apply (IH f (extra ++ [(o, w, cs)])).
    + intros x y XY. apply H. intros a Ha. apply XY. rewrite <- app_assoc. exact Ha.
    + intros a Ha. apply in_app_or in Ha. unfold set_pt. destruct (Nat.eqb_spec (ax_obs a) o); [reflexivity|]. destruct Ha as [Ha|[<-|[]]]; [now apply E|]. now contradiction n.
Qed.
Lemma prod_R : forall cs p r, fold_left (fun r q => mul R_arith r (mul R_arith (fst q) (snd q))) (at_pt p cs) r = r * product cs p.
Proof.
  unfold product, prod_in. induction cs as [|c cs IH]; intros p r; [cbn; ring|]. rewrite at_pt_cons. cbn [fold_left]. rewrite IH, (IH p (mul R_arith _ _)). cbn [R_arith one mul fst snd]. ring.
Qed.
Lemma product_cons : forall c cs p, product (c :: cs) p = fst c p * snd c * product cs p.
Proof. intros. unfold product at 1. unfold prod_in. rewrite at_pt_cons. cbn [fold_left]. rewrite prod_R. cbn [R_arith one mul fst snd]. ring. Qed.

Definition Rprod (l : list R) : R := fold_right Rmult 1 l.
(** Components with their own axes. *)
Inductive separated : list (list axis * comp) -> Prop :=
| sep_nil : separated []
| sep_cons : forall ax c l, depends_on ax (fst c) -> disjoint_axes ax (flat_map fst l) -> separated l -> separated ((ax, c) :: l).
Lemma product_depends : forall l, separated l -> depends_on (flat_map fst l) (product (map snd l)).
Proof.
  induction 1 as [|ax c l D DI S IH]; intros p q H; [reflexivity|]. cbn [map snd flat_map fst] in *. rewrite !product_cons. f_equal; [f_equal|].
  - apply D. intros a Ha. apply H. apply in_or_app. now left.
  - apply IH. intros a Ha. apply H. apply in_or_app. now right.
Qed.
Lemma product_factorises : forall l, separated l ->
  integral_over (flat_map fst l) (product (map snd l)) =
  Rprod (map (fun x => integral_over (fst x) (fun p => fst (snd x) p * snd (snd x))) l).
Proof.
  unfold integral_over. induction 1 as [|ax c l D DI S IH]; [reflexivity|]. cbn [map snd flat_map fst]. unfold Rprod in *. cbn [fold_right]. rewrite <- IH. clear IH.
  rewrite grid_app.
  rewrite (grid_ext ax _ (fun q => grid_sum (flat_map fst l) (product (map snd l)) origin_pt * (fst c q * snd c)) origin_pt).
  - rewrite grid_scal. ring.
  - intro q. rewrite (grid_ext (flat_map fst l) _ (fun p => (fst c p * snd c) * product (map snd l) p) q) by (intro p; apply product_cons).
    rewrite (grid_factor (flat_map fst l) (fun p => fst c p * snd c)).
    + rewrite Rmult_comm. f_equal. apply (grid_depends (flat_map fst l) _ []); [|intros a []]. exact (product_depends l S).
    + intros p k a Ha. f_equal. apply D. intros b Hb. apply set_other. now apply DI.
Qed.
Lemma product_unit : forall l, separated l -> Forall (fun x => unit_over (fst x) (snd x)) l -> integral_over (flat_map fst l) (product (map snd l)) = 1.
Proof.
  intros l S F. rewrite product_factorises by exact S. clear S. unfold Rprod. induction F as [|x l U F IH]; [reflexivity|]. cbn [map fold_right]. transitivity (1 * 1); [apply f_equal2; [exact U|exact IH]|lra].
Qed.
