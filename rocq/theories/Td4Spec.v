(** What the user of Amp4Body_TD relies on, in exact arithmetic. *)
From Coq Require Import Reals List ZArith.
From Coquelicot Require Import Complex.
From Verif Require Import FormulaSpec AmpModel AmpSpec Amp4Model Amp4Spec ResolModel ResolSpec Td4Model.
Import ListNotations.
Open Scope R_scope.

Section Spec.
Context {P : Type}.
Notation call := (call (T := R) (P := P)).
(** 1 / sqrt(n) times the sum over the n permutations of the product of the lineshapes and spin factors of the permutation. *)
Definition point_amp (c : call) (a : amplitude) (p : P) : C :=
  Cmult (RtoC (/ sqrt (INR (m_perm a))))
        (Ctotal (m_perm a) (fun j => Cmult (Cproduct (map (fun k => u_ls c k p) (part (m_ls a) (m_perm a) j)))
                                           (Cproduct (map (fun k => RtoC (u_sf c k p)) (part (m_sf a) (m_perm a) j))))).
(** The complex coefficient of an amplitude, and the sum of coefficient times amplitude over a list. *)
Definition coefficient (c : call) (a : amplitude) : C := (u_var c (m_ar a), u_var c (m_ai a)).
Definition Csum (l : list C) : C := fold_right Cplus (RtoC 0) l.
Definition decay (c : call) (l : list amplitude) (p : P) : C := Csum (map (fun a => Cmult (coefficient c a) (point_amp c a p)) l).
(** The two decays: the first one times the square root of the rate ratio. *)
Definition first (c : call) (A : list amplitude) (p : P) : C := Cmult (RtoC (u_rate c)) (decay c A p).
Definition second (c : call) (B : list amplitude) (p : P) : C := decay c B p.
(** The resolution applied to the two. *)
Definition smear (res : R -> R -> R -> R -> R -> R -> R -> R -> R -> R) (c : call) (a b : C) (time sigma : R) : R :=
  res (Cmod a ^ 2 + Cmod b ^ 2) (Cmod a ^ 2 - Cmod b ^ 2) (fst (Cmult a (Cconj b))) (snd (Cmult a (Cconj b))) (u_tau c) time (u_x c) (u_y c) sigma.

(** Calls in which nothing but coefficients, mixing parameters and efficiency changes without being announced, by setDataSize
    (force) or by parametersChanged() of the lineshape. *)
Definition told (before now : call) : Prop :=
  u_force now = true \/
  (u_data now = u_data before /\ (forall k p, u_sf now k p = u_sf before k p) /\
   forall k, u_changed now k = false -> forall p, u_ls now k p = u_ls before k p).
Fixpoint all_told (cs : list call) : Prop := match cs with a :: ((b :: _) as t) => told a b /\ all_told t | _ => True end.
(** A history of a program whose only four-body PDF has these amplitudes; the first call follows setDataSize. *)
Definition td_history (A B : list amplitude) (cs : list (list nat * call)) : Prop :=
  match cs with (_, c) :: _ => u_force c = true | [] => True end /\ all_told (map snd cs) /\
  Forall (fun tc => only_object true (td_amps A B) (fst tc)) cs.
Definition never_generated (cs : list (list nat * call)) : Prop := Forall (fun tc => u_generating (snd tc) = false) cs.
End Spec.

(** Amplitudes with at least one permutation, none twice in a list. *)
Definition td_ok (A B : list amplitude) : Prop :=
  Forall (fun a => m_perm a <> O) A /\ Forall (fun a => m_perm a <> O) B /\ NoDup A /\ NoDup B.
Definition Rsum (l : list R) : R := fold_right Rplus 0 l.
(** The resolution of TruthResolution: the rate itself. *)
Definition truth (coshterm costerm sinhterm sinterm tau time x y sigma : R) : R :=
  truth_rate R_ops (R_lib (fun _ _ => 0)) R_extra coshterm costerm sinhterm sinterm tau time x y.
Definition truth_norm : R -> R -> R -> R -> R -> R -> R -> R := truth_normalization R_ops.
(** All events of a list of batches. *)
Definition all_points {P : Type} (bs : list (batch (T := R) (P := P))) : list P := flat_map b_points bs.
Definition unweighted {P : Type} (b : batch (T := R) (P := P)) : Prop := b_extra b = None.
(** The events of a weighted batch with time, error and weight, and whether they are as many as the vectors. *)
Definition events {P : Type} (b : batch (T := R) (P := P)) : list (P * (R * R * R)) :=
  match b_extra b with Some ex => List.combine (b_points b) ex | None => [] end.
Definition weighted {P : Type} (b : batch (T := R) (P := P)) : Prop := exists ex, b_extra b = Some ex /\ length ex = length (b_points b).
(** The whole number next to a weight in the direction of 0. *)
Definition whole_part (w : R) (z : Z) : Prop := (0 <= w /\ IZR z <= w < IZR z + 1) \/ (w < 0 /\ IZR z - 1 < w <= IZR z).
(** The integral of a batch, and its weight. *)
Definition batch_integral {P : Type} (res : R -> R -> R -> R -> R -> R -> R -> R -> R -> R) (nrm : R -> R -> R -> R -> R -> R -> R -> R)
    (A B : list amplitude) (c : call (T := R) (P := P)) (b : batch (T := R) (P := P)) : R :=
  match b_extra b with
  | None =>
    let sum f := Rsum (map f (b_points b)) in
    nrm (sum (fun p => Cmod (first c A p) ^ 2)) (sum (fun p => Cmod (second c B p) ^ 2))
        (sum (fun p => fst (Cmult (first c A p) (Cconj (second c B p))))) (sum (fun p => snd (Cmult (first c A p) (Cconj (second c B p)))))
        (u_tau c) (u_x c) (u_y c)
  | Some _ => Rsum (map (fun e => let '(p, (time, sigma, w)) := e in smear res c (first c A p) (second c B p) time sigma * w) (events b))
  end.
(** What getSumInitWeights stands for: the number of events; for weighted events the sum of the weights cut down to whole numbers. *)
Definition counts {P : Type} (b : batch (T := R) (P := P)) (n : R) : Prop :=
  match b_extra b with
  | None => n = INR (length (b_points b))
  | Some ex => exists zs, Forall2 whole_part (map snd ex) zs /\ n = IZR (fold_right Z.add 0%Z zs)
  end.
(** Batches whose vectors are equally long and whose weights do not leave the range of an int when added. *)
Definition batch_ok {P : Type} (b : batch (T := R) (P := P)) : Prop :=
  (unweighted b \/ weighted b) /\ Rsum (map (fun e => Rabs (snd (snd e))) (events b)) <= 2147483647.
