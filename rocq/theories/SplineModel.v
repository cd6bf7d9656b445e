(** The cubic spline resonance, resonances/Spline.cu and detail/ComplexUtils.h, and the tabulated width of the GSpline
    lineshape, lineshapes/GSpline.cu, for any arithmetic.

    [None] is undefined behaviour: a read or write outside an array.  The cursor is not modelled here: a spline reads its own
    constants and parameters, which are the lists of its object. *)
From Coq Require Import List ZArith Bool Arith.
From Verif Require Import AmpModel Amp4Model.
From Verif Require LeafGen.
Import ListNotations.

Section Spline.
Context {T : Type} (Ar : LeafGen.ops T).
Local Notation "0" := (LeafGen.o_zero Ar).
Local Notation "1" := (LeafGen.o_one Ar).
Local Notation "2" := (LeafGen.o_ofZ Ar 2).
Local Notation "3" := (LeafGen.o_ofZ Ar 3).
Local Notation "6" := (LeafGen.o_ofZ Ar 6).
Local Notation half := (LeafGen.o_half Ar).
Local Infix "+" := (LeafGen.o_add Ar).
Local Infix "-" := (LeafGen.o_sub Ar).
Local Infix "*" := (LeafGen.o_mul Ar).
Local Infix "/" := (LeafGen.o_div Ar).
Local Notation "x < y" := (LeafGen.o_lt Ar x y).

(** ** ComplexUtils.h:20-96: second derivatives of the spline, for one of the two components (real and imaginary part are
    treated by the same statements).  The arrays are functions of the index: [x], [y] have n elements.
    0.99e30 is the double 219824158875781 * 2^52. *)
Section Derivative.
Variables (n : nat) (x y : nat -> T).
Definition big : T := LeafGen.o_lit Ar 219824158875781 52.
Definition yp1 : T := 2 * (y 1%nat - y 0%nat) / (x 1%nat - x 0%nat).
Definition ypn : T := 2 * (y (n - 1)%nat - y (n - 2)%nat) / (x (n - 1)%nat - x (n - 2)%nat).
(** (y2[i], u[i]) after the decomposition loop, lines 34-65, for i < n - 1. *)
Fixpoint dec (i : nat) : T * T :=
  match i with
  | O => if big < yp1 then (0, 0)
         else (LeafGen.o_opp Ar half, 3 / (x 1%nat - x 0%nat) * ((y 1%nat - y 0%nat) / (x 1%nat - x 0%nat) - yp1))
  | S j => let sig := (x (S j) - x j) / (x (S (S j)) - x j) in
           let p := sig * fst (dec j) + 2 in
           let u := (y (S (S j)) - y (S j)) / (x (S (S j)) - x (S j)) - (y (S j) - y j) / (x (S j) - x j) in
           ((sig - 1) / p, (6 * u / (x (S (S j)) - x j) - sig * snd (dec j)) / p)
  end.
(** y2[n - 1], lines 67-86. *)
Definition top : T :=
  let qn := if big < ypn then 0 else half in
  let un := if big < ypn then 0 else
            3 / (x (n - 1)%nat - x (n - 2)%nat) * (ypn - (y (n - 1)%nat - y (n - 2)%nat) / (x (n - 1)%nat - x (n - 2)%nat)) in
  (un - qn * snd (dec (n - 2))) / (qn * fst (dec (n - 2)) + 1).
(** The backsubstitution, lines 88-93: y2[n - 1 - d]. *)
Fixpoint back (d : nat) : T :=
  match d with O => top | S d' => fst (dec (n - 1 - d)%nat) * back d' + snd (dec (n - 1 - d)%nat) end.
Definition second (k : nat) : T := back (n - 1 - k).
End Derivative.

(** ** Spline::Spline, Spline.cu:89-113 *)
(** The object: its constants (cyclic index, doSwap, nKnobs, then the limits) and the values of its parameters (real and
    imaginary part of the coefficients, in turn). *)
Record spline : Type := mkSpline { s_cyc : nat; s_swap : bool; s_n : nat; s_knots : list T; s_coefs : list (T * T) }.
(** The loop runs over the real parts. *)
Definition make (limits reals imags : list T) (cyc : nat) (symm : bool) : option spline :=
  if Nat.leb (length reals) (length limits) && Nat.leb (length reals) (length imags)
  then Some (mkSpline cyc symm (length limits) (firstn (length reals) limits) (combine reals imags)) else None.

(** ** Spline::recalculateCache, Spline.cu:115-134 *)
(** cDeriatives[2 * 100], Spline.cu:10: one table for the program.  Each pair is (real part, imaginary part) of one knot. *)
Definition table0 : list (T * T) := repeat (0, 0) 100.
(** x and y have nKnobs elements, zero where no parameter is; complex_derivative reads x[1], x[n - 2]. *)
Definition recalc (t : list (T * T)) (s : spline) : option (list (T * T)) :=
  if Nat.ltb (s_n s) 2 then None else
  let x k := nth k (s_knots s) 0 in
  let re k := fst (nth k (s_coefs s) (0, 0)) in
  let im k := snd (nth k (s_coefs s) (0, 0)) in
  if Nat.leb (s_n s) (length t)
  then Some (map (fun k => (second (s_n s) x re k, second (s_n s) x im k)) (seq 0 (s_n s)) ++ skipn (s_n s) t) else None.

(** ** cubicspline, Spline.cu:12-83 *)
(** The while loop, lines 40-44: [r] limits are left from number [k] on. *)
Fixpoint scan (knots : list T) (m : T) (r k : nat) : option nat :=
  match r with
  | O => Some k
  | S r' => x <-- nth_error knots k ;; if m < x then Some k else scan knots m r' (S k)
  end.
(** One component, lines 60-73. *)
Definition cubic (xlo xhi ylo yhi dlo dhi m acc : T) : T :=
  let dm := xhi - xlo in
  let aa := (xhi - m) / dm in
  let bb := 1 - aa in
  let aa3 := aa * aa * aa in
  let bb3 := bb * bb * bb in
  acc + aa * ylo + bb * yhi + ((aa3 - aa) * dlo + (bb3 - bb) * dhi) * (dm * dm) / 6.
(** One iteration of the loop, lines 38-78. *)
Definition run (t : list (T * T)) (s : spline) (m : T) (ret : T * T) : option (T * T) :=
  khi <-- scan (s_knots s) m (s_n s) 0%nat ;;
  if Nat.ltb 0 khi && Nat.ltb khi (s_n s) then
    let klo := (khi - 1)%nat in
    ylo <-- nth_error (s_coefs s) klo ;; yhi <-- nth_error (s_coefs s) khi ;;
    dlo <-- nth_error t klo ;; dhi <-- nth_error t khi ;;
    xhi <-- nth_error (s_knots s) khi ;; xlo <-- nth_error (s_knots s) klo ;;
    Some (cubic xlo xhi (fst ylo) (fst yhi) (fst dlo) (fst dhi) m (fst ret), cubic xlo xhi (snd ylo) (snd yhi) (snd dlo) (snd dhi) m (snd ret))
  else Some ret.
(** mAB and mAC, lines 22-32. *)
Definition mAB (s : spline) (m12 m13 m23 : T) : T := match s_cyc s with 1%nat => m13 | 2%nat => m23 | _ => m12 end.
Definition mAC (s : spline) (m12 m13 m23 : T) : T := match s_cyc s with 1%nat => m12 | 2%nat => m12 | _ => m13 end.
(** khiAC is never increased: the second iteration starts at 0 again. *)
Definition value (t : list (T * T)) (s : spline) (m12 m13 m23 : T) : option (T * T) :=
  r <-- run t s (mAB s m12 m13 m23) (0, 0) ;;
  if s_swap s then run t s (mAC s m12 m13 m23) r else Some r.

(** ** GSpline *)
(** make_spline_curvatures, GSpline.cu:102-126, for at least two values.  [solve] stands for the multiplication with the inverse
    of the matrix filled in lines 104-111 (by Eigen): any function that returns as many numbers as it is given. *)
Definition differences (vals : list T) : list T :=
  map (fun i => nth (i + 2) vals 0 - 2 * nth (i + 1) vals 0 + nth i vals 0) (seq 0 (length vals - 2)).
Definition curvatures (solve : list T -> list T) (smin smax : T) (vals : list T) : list T :=
  let spacing := (smin - smax) / of_nat Ar (length vals) in
  let mtv := solve (differences vals) in
  map (fun i => if Nat.eqb i 0 || Nat.leb (length vals - 1) i then 0 else 6 * nth (i - 1) mtv 0 / (spacing * spacing)) (seq 0 (length vals)).
(** The constants of a GSpline lineshape: Mpair (Lineshape.cu:33), radius, s_min, s_max, nBins, and the curvatures computed
    from the values at the knots, GSpline.cu:128-162.  The values themselves are not registered. *)
Definition gspline_constants (solve : list T -> list T) (mpair radius smin smax : T) (vals : list T) : list T :=
  [mpair; radius; smin; smax; of_nat Ar (length vals)] ++ curvatures solve smin smax vals.
(** getSpline, GSpline.cu:31-60, with [cs] the constants from those of the lineshape on (what follows them are other
    functions' constants).  The bin [b] and the distance [dx] (fmod) are parameters, given x. *)
Definition get_spline (cs : list T) (bin_of : T -> T -> nat) (fmod : T -> T -> T) (x : T) (continued : bool) (nbins : nat) : option T :=
  smin <-- nth_error cs 2 ;; smax <-- nth_error cs 3 ;;
  if LeafGen.o_le Ar x smin then (v <-- nth_error cs 5 ;; Some (if continued then v else 0))
  else if LeafGen.o_le Ar smax x then (v <-- nth_error cs (5 + nbins - 1) ;; Some (if continued then v else 0))
  else
    let spacing := (smax - smin) / (of_nat Ar nbins - 1) in
    let dx := fmod (x - smin) spacing in
    let bin := bin_of (x - smin) spacing in
    m0 <-- nth_error cs (5 + bin) ;; m1 <-- nth_error cs (5 + bin + 1) ;;
    f0 <-- nth_error cs (5 + bin + nbins) ;; f1 <-- nth_error cs (5 + bin + nbins + 1) ;;
    Some (m0 + dx * ((m1 - m0) / spacing - (f1 + 2 * f0) * spacing / 6) + dx * dx * f0 + dx * dx * dx * (f1 - f0) / (6 * spacing)).
End Spline.
