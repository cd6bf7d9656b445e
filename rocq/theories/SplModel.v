(** The spline lineshape of four-body amplitude models, src/PDFs/physics/lineshapes/GSpline.cu, for any arithmetic.

    [None] is undefined behaviour: a read of a matrix element that was never written, or of a constant beyond those the lineshape
    registered.  (The program then reads a constant of another function, or memory behind the table of constants.)  fmod, the
    conversion to unsigned int and the inverse of a matrix (Eigen) are parameters. *)
From Coq Require Import List ZArith Bool Arith.
From Verif Require Import AmpModel WaveModel KmModel LineModel.
From Verif Require LeafGen.
Import ListNotations.

Section Spl.
Context {T : Type} (Ar : LeafGen.ops T) (L : LeafGen.mlib T) (fmod : T -> T -> T) (to_uint : T -> nat) (inverse : list (list T) -> list (list T)).
Local Notation "0" := (LeafGen.o_zero Ar).
Local Notation "1" := (LeafGen.o_one Ar).
Local Notation "2" := (LeafGen.o_ofZ Ar 2).
Local Notation "4" := (LeafGen.o_ofZ Ar 4).
Local Notation "6" := (LeafGen.o_ofZ Ar 6).
Local Infix "+" := (LeafGen.o_add Ar).
Local Infix "-" := (LeafGen.o_sub Ar).
Local Infix "*" := (LeafGen.o_mul Ar).
Local Infix "/" := (LeafGen.o_div Ar).
Local Notation "- x" := (LeafGen.o_opp Ar x).
Local Notation "x <= y" := (LeafGen.o_le Ar x y).
Local Notation sqrt := (LeafGen.o_sqrt Ar).
Local Notation exp := (LeafGen.m_exp L).
Local Notation cx := (@cx T).

(** The matrix of make_spline_curvatures, lines 104-111: Matrix(size, size) leaves its elements unwritten; line 109 writes (i+1, 1). *)
Definition cells : Type := nat -> nat -> option T.
Definition put (m : cells) (i j : nat) (x : T) : cells :=
  fun i' j' => if Nat.eqb i' i && Nat.eqb j' j then Some x else m i' j'.
Definition spline_step (size : nat) (m : cells) (i : nat) : cells :=
  let m := put m i i 4 in
  if Nat.eqb i (size - 1) then m else put (put m i (i + 1)%nat 1) (i + 1)%nat 1%nat 1.
Definition spline_matrix (size : nat) : cells := fold_left (spline_step size) (seq 0%nat size) (fun _ _ => None).
(** All elements, or [None] when one was not written. *)
Fixpoint all_written {A : Type} (l : list (option A)) : option (list A) :=
  match l with
  | [] => Some []
  | Some x :: r => match all_written r with Some y => Some (x :: y) | None => None end
  | None :: _ => None
  end.
Definition rows (size : nat) (m : cells) : option (list (list T)) :=
  all_written (map (fun i => all_written (map (m i) (seq 0%nat size))) (seq 0%nat size)).
Definition dot (u v : list T) : T := fold_left (fun a p => a + fst p * snd p) (combine u v) 0.
(** make_spline_curvatures, lines 102-126.  The spacing divides by the number of bins.  Below two bins the size wraps around. *)
Definition curvatures (s_min s_max : T) (nbins : nat) (vs : list T) : option (list T) :=
  if Nat.ltb nbins 2 then None
  else
  let size := (nbins - 2)%nat in
  match rows size (spline_matrix size) with
  | None => None
  | Some m =>
      let v := fun i => nth i vs 0 in
      let l := map (fun i => v (i + 2)%nat - 2 * v (i + 1)%nat + v i) (seq 0%nat size) in
      let mtv := fun i => dot (nth i (inverse m) []) l in
      let spacing := (s_min - s_max) / LeafGen.o_ofZ Ar (Z.of_nat nbins) in
      Some (map (fun j => match j with
                          | O => 0
                          | S i => if Nat.ltb i size then 6 * mtv i / (spacing * spacing) else 0
                          end) (seq 0%nat (List.length vs)))
  end.

(** The constructor, lines 128-164: the constants of the lineshape, [Throws] where it throws.  The values are not registered. *)
Inductive made : Type := Throws | Undefined | Made (constants : list T).
Definition gspline (mpair radius s_min s_max : T) (nbins : nat) (values : list T) : made :=
  if Nat.eqb nbins (List.length values)
  then match curvatures s_min s_max nbins values with
       | None => Undefined
       | Some c => Made ([mpair; radius; s_min; s_max; LeafGen.o_ofZ Ar (Z.of_nat nbins)] ++ c)
       end
  else Throws.

(** getSpline, lines 31-61; constant 4, the number of bins, is the argument [nbins] *)
Definition get_spline (cs : list T) (nbins : nat) (x : T) (continued : bool) : option T :=
  let at_ := fun i => nth_error cs i in
  match at_ 2%nat, at_ 3%nat with
  | Some s_min, Some s_max =>
      if x <= s_min then match at_ 5%nat with Some y => Some (if continued then y else 0) | None => None end
      else if s_max <= x then match at_ (5 + nbins - 1)%nat with Some y => Some (if continued then y else 0) | None => None end
      else
        let spacing := (s_max - s_min) / (LeafGen.o_ofZ Ar (Z.of_nat nbins) - 1) in
        let dx := fmod (x - s_min) spacing in
        let bin := to_uint ((x - s_min) / spacing) in
        match at_ (5 + bin)%nat, at_ (5 + bin + 1)%nat, at_ (5 + bin + nbins)%nat, at_ (5 + bin + nbins + 1)%nat with
        | Some y0, Some y1, Some f0, Some f1 =>
            Some (y0 + dx * ((y1 - y0) / spacing - (f1 + 2 * f0) * spacing / 6) + dx * dx * f0 + dx * dx * dx * (f1 - f0) / (6 * spacing))
        | _, _, _, _ => None
        end
  | _, _ => None
  end.
(** Q2, lines 14-16 *)
Definition spline_q2 (s s1 s2 : T) : T := s / 4 - (s1 + s2) / 2 + (s1 - s2) * (s1 - s2) / (4 * s).
(** kFactor, lines 63-67 *)
Definition k_factor (mass width : T) : T :=
  let gamma := mass * sqrt (mass * mass + width * width) in
  sqrt (2 * sqrt 2 * mass * width * gamma / (pi_const Ar * sqrt (mass * mass + gamma))).
(** Spline_TDP, lines 69-98 *)
Definition spline_line (cs : list T) (nbins : nat) (mass width mpair m1 m2 : T) : option cx :=
  match nth_error cs 1%nat, get_spline cs nbins (mpair * mpair) true, get_spline cs nbins (mass * mass) false with
  | Some radius, Some at_s, Some at_m =>
      let s := mpair * mpair in
      let q2 := LeafGen.o_abs Ar (spline_q2 s (m1 * m1) (m2 * m2)) in
      let bf := exp (- q2 * (radius * radius) / 2) in
      let width_shape := width * at_s in
      let width_norm := width * at_m in
      let running := if LeafGen.o_eq Ar width_norm 0 then 0 else width * width_shape / width_norm in
      Some (c_div Ar (k_factor mass width * bf, 0) (mass * mass - s, - mass * running))
  | _, _, _ => None
  end.

End Spl.
