(** Evaluation and normalisation of the smoothed histogram. *)
From Coq Require Import List ZArith Bool Lia Reals Lra.
From Flocq Require Import Core BinarySingleNaN.
From Verif Require Import F64 F64Lemmas F64Err ListAux BinModel BinSpec BinProofs BinGeom PdfModel PdfSpec LeafFormulas FormulaSpec SmoothModel SmoothSpec SmoothProofs.
From Verif Require LeafGen.
Import ListNotations.
Open Scope Z_scope.

Lemma omap_all : forall {A B} (f : A -> option B) l, (forall a, In a l -> exists b, f a = Some b) ->
  exists bs, omap f l = Some bs /\ forall i a b, nth_error l i = Some a -> f a = Some b -> nth_error bs i = Some b.
Proof.
  intros A B f. induction l as [|a l IH]; intro H; [exists []; split; [reflexivity|intros [|i]; discriminate]|].
  destruct (H a (or_introl eq_refl)) as [b Eb]. destruct IH as (bs & E1 & E2); [intros; apply H; now right|].
  exists (b :: bs). cbn [omap]. rewrite Eb, E1. split; [reflexivity|]. intros [|i] a' b' Ha Hb; cbn in *.
  - injection Ha as <-. now rewrite Hb in Eb.
  - eapply E2; eauto.
Qed.
Lemma omap_length : forall {A B} (f : A -> option B) l bs, omap f l = Some bs -> length bs = length l.
Proof.
  intros A B f. induction l as [|a l IH]; intros bs E; cbn [omap] in E; [now injection E as <-|].
  destruct (f a), (omap f l) as [t|]; try discriminate. injection E as <-. cbn. now rewrite (IH t).
Qed.
Lemma cell_of : forall sizes g, Forall (fun s => 1 <= s) sizes -> 0 <= g < zproduct sizes ->
  exists c, cell sizes c /\ global_of sizes c = g.
Proof.
  intros sizes g H Hg. assert (L : exists l, globalToLocal sizes g = BOk l).
  { clear Hg. revert g. induction H as [|s ss Hs H IH]; intro g; [now exists []|]. cbn [globalToLocal]. destruct (Z.eqb_spec s 0); [lia|].
    destruct (IH (g / s)) as [r ->]. cbn. eexists. reflexivity. }
  destruct L as [l El]. exists l. split; [|now apply (global_of_globalToLocal sizes g l)].
  pose proof (locals_in_range _ _ _ H El) as F. unfold cell. clear - F. induction F; constructor; auto.
Qed.

Section Smoothed.
Context {T : Type} (Ar : LeafGen.ops T).
Variables (hist : list T) (sizes : list Z) (s : T).
Hypothesis HS : Forall (fun n => 1 <= n) sizes.
Hypothesis HL : Z.of_nat (length hist) = zproduct sizes.
Theorem smoothed_ok : exists sm, smoothed Ar hist sizes s = Some sm /\ length sm = length hist /\
  forall c, cell sizes c -> exists ns, NoDup ns /\ (forall d, In d ns <-> neighbour sizes c d) /\
    zread sm (global_of sizes c) =
    Some (weighted_mean Ar (content (LeafGen.o_zero Ar) hist sizes c) (map (content (LeafGen.o_zero Ar) hist sizes) ns) s).
Proof.
  unfold smoothed. destruct (omap_all (smooth_bin Ar hist sizes s) (map Z.of_nat (seq 0 (length hist)))) as (sm & E1 & E2).
  { intros g Hg. apply in_map_iff in Hg. destruct Hg as (i & <- & Hi). apply in_seq in Hi.
    destruct (cell_of sizes (Z.of_nat i) HS) as (c & Hc & <-); [lia|].
    destruct (smooth_bin_ok Ar hist sizes c Hc HL s) as (ns & _ & _ & E). eexists. exact E. }
  exists sm. split; [exact E1|]. split; [apply omap_length in E1; now rewrite map_length, seq_length in E1|].
  intros c Hc. destruct (smooth_bin_ok Ar hist sizes c Hc HL s) as (ns & A1 & A2 & A3). exists ns. split; [exact A1|]. split; [exact A2|].
  destruct (cell_range _ _ Hc) as [R1 R2]. unfold zread. destruct (Z.ltb_spec (global_of sizes c) 0); [lia|].
  eapply E2; [|exact A3]. rewrite nth_error_map, (nth_error_nth' _ 0%nat), seq_nth by (rewrite ?seq_length; lia). cbn. f_equal. lia.
Qed.
End Smoothed.

Lemma one_bin : forall k, well_inside k -> LeafGen.o_floor f64_ops (LeafGen.o_div f64_ops (LeafGen.o_sub f64_ops (k_value k) (k_lo k)) (bin_size (k_lo k) (k_up k) (k_bins k))) = Some (k_bin k).
Proof.
  intros [lo up n v k] (U & Hn & I). cbn [k_lo k_up k_bins k_value k_bin] in *. cbn [LeafGen.o_floor LeafGen.o_div LeafGen.o_sub f64_ops].
  pose proof (value_in_bin lo up n U k v I) as E. destruct (inside_limits lo up n U k v I) as [Fv Hv].
  unfold value_to_bin in E. rewrite (clamp_id lo up n U v Fv Hv) in E. unfold floor_to_size_t in E. unfold floor_int.
  set (q := fdiv (fsub v lo) (bin_size lo up n)) in *. destruct (f_isfinite q); cbn [andb] in E; [|discriminate].
  destruct ((0 <=? ffloorZ q) && (ffloorZ q <? 2 ^ 64)); [|discriminate]. injection E as ->. cbv zeta.
  assert (Hk : 0 <= k < n) by apply I.
  destruct (Z.leb_spec (-2147483648) k); [|lia]. destruct (Z.leb_spec k 2147483647); [reflexivity|lia].
Qed.
Lemma bin_number_ok : forall ks ret prev, Forall well_inside ks ->
  LeafGen.bin_number f64_ops (map axis_of ks) ret prev = Some (ret + prev * global_of (map k_bins ks) (map k_bin ks)).
Proof.
  induction ks as [|k ks IH]; intros ret prev H; cbn [map LeafGen.bin_number].
  - rewrite global_of_nil. f_equal. lia.
  - inversion H as [|? ? Hk HR]; subst. unfold axis_of at 1. rewrite one_bin by exact Hk. rewrite IH by exact HR. rewrite global_of_cons. f_equal. ring.
Qed.
Lemma inside_cell : forall ks, Forall well_inside ks -> cell (map k_bins ks) (map k_bin ks).
Proof. induction 1 as [|k ks (U & Hn & I) H IH]; cbn; constructor; [apply I|exact IH]. Qed.
Lemma inside_sizes : forall ks, Forall well_inside ks -> Forall (fun n => 1 <= n) (map k_bins ks).
Proof. induction 1 as [|k ks (U & Hn & I) H IH]; cbn; constructor; [apply U|exact IH]. Qed.

(** Over the reals. *)
Open Scope R_scope.
Lemma sum_acc : forall l a, fold_left Rplus l a = a + fold_left Rplus l 0.
Proof. induction l as [|x l IH]; intro a; cbn; [lra|]. rewrite IH, (IH (0 + x)). lra. Qed.
Lemma sum_bounds : forall l lo hi, (forall x, In x l -> lo <= x <= hi) ->
  INR (length l) * lo <= fold_left Rplus l 0 <= INR (length l) * hi.
Proof.
  induction l as [|x l IH]; intros lo hi H; [cbn; lra|]. cbn [fold_left]. rewrite sum_acc. change (length (x :: l)) with (S (length l)). rewrite S_INR.
  destruct (IH lo hi) as [A B]; [intros; apply H; now right|]. destruct (H x (or_introl eq_refl)). nra.
Qed.
Lemma mean_between : forall h hs s lo hi, 0 <= s -> lo <= h <= hi -> (forall x, In x hs -> lo <= x <= hi) ->
  lo <= weighted_mean R_ops h hs s <= hi.
Proof.
  intros h hs s lo hi Hs Hh H. unfold weighted_mean. cbn [LeafGen.o_div LeafGen.o_add LeafGen.o_mul LeafGen.o_zero LeafGen.o_ofZ R_ops].
  rewrite <- INR_IZR_INZ. destruct (sum_bounds hs lo hi H) as [A B]. pose proof (pos_INR (length hs)) as P.
  set (S := fold_left Rplus hs 0) in *. set (n := INR (length hs)) in *. assert (D : 0 < 1 + n * s) by nra.
  split; apply (Rmult_le_reg_r (1 + n * s) _ _ D); unfold Rdiv; rewrite Rmult_assoc, Rinv_l, Rmult_1_r by lra.
  - assert (lo * n * s <= S * s) by (replace (lo * n) with (n * lo) by ring; apply Rmult_le_compat_r; assumption). lra.
  - assert (S * s <= hi * n * s) by (replace (hi * n) with (n * hi) by ring; apply Rmult_le_compat_r; assumption). lra.
Qed.
Lemma mean_plain : forall h hs, weighted_mean R_ops h hs 0 = h.
Proof. intros. unfold weighted_mean. cbn [LeafGen.o_div LeafGen.o_add LeafGen.o_mul LeafGen.o_zero LeafGen.o_ofZ R_ops]. field. Qed.
Lemma prod_acc : forall l a, fold_left Rmult l a = a * fold_left Rmult l 1.
Proof. induction l as [|x l IH]; intro a; cbn; [lra|]. rewrite IH, (IH (1 * x)). lra. Qed.
Lemma sum_scale : forall l k, fold_left Rplus (map (fun x => x * k) l) 0 = fold_left Rplus l 0 * k.
Proof. induction l as [|x l IH]; intro k; cbn; [lra|]. rewrite sum_acc, (sum_acc l), IH. lra. Qed.
Lemma normalised_ok : forall steps sm, let i := smooth_integral R_ops (fun l => fold_left Rplus l 0) steps sm in i <> 0 ->
  fold_left Rplus (map (fun v => v * (1 / i) * fold_left Rmult steps 1) sm) 0 = 1.
Proof.
  intros steps sm i Hi. rewrite (map_ext _ (fun v => v * (1 / i * fold_left Rmult steps 1))) by (intro; ring). rewrite sum_scale.
  unfold i, smooth_integral in *. cbn [LeafGen.o_mul R_ops] in *. rewrite prod_acc in *. field.
  split; intro E; apply Hi; rewrite E; ring.
Qed.
