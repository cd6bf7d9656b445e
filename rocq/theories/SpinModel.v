(** The spin factors of four-body decays: include/goofit/PDFs/physics/detail/SpinHelper.h, src/PDFs/physics/SpinFactors.cu, for any
    arithmetic.  ZEMACH is defined (SpinFactors.cu:81), the other branches are left out, and so are the moves of the cursors. *)
From Coq Require Import List ZArith.
From Verif Require LeafGen.
Import ListNotations.

Section Spin.
Context {T : Type} (Ar : LeafGen.ops T).
Local Notation "0" := (LeafGen.o_zero Ar).
Local Notation "1" := (LeafGen.o_one Ar).
Local Notation "2" := (LeafGen.o_ofZ Ar 2).
Local Notation "3" := (LeafGen.o_ofZ Ar 3).
Local Notation "4" := (LeafGen.o_ofZ Ar 4).
Local Notation "9" := (LeafGen.o_ofZ Ar 9).
Local Infix "+" := (LeafGen.o_add Ar).
Local Infix "-" := (LeafGen.o_sub Ar).
Local Infix "*" := (LeafGen.o_mul Ar).
Local Infix "/" := (LeafGen.o_div Ar).
Local Notation "- x" := (LeafGen.o_opp Ar x).
Local Notation sqrt := (LeafGen.o_sqrt Ar).
Local Notation m1 := (LeafGen.o_opp Ar (LeafGen.o_one Ar)).

(** ** SpinHelper.h *)
(** class gpuLVec, lines 15-71 *)
Record vec : Type := Vec { vX : T; vY : T; vZ : T; vE : T }.
(** Dot, line 37 *)
Definition dot (a b : vec) : T := vE a * vE b - vX a * vX b - vY a * vY b - vZ a * vZ b.
(** Mag2 and M, lines 43-44 *)
Definition mag2 (a : vec) : T := dot a a.
Definition mass (a : vec) : T := sqrt (mag2 a).
(** operators +, -, *, lines 50-75 *)
Definition vadd (a b : vec) : vec := Vec (vX a + vX b) (vY a + vY b) (vZ a + vZ b) (vE a + vE b).
Definition vsub (a b : vec) : vec := Vec (vX a - vX b) (vY a - vY b) (vZ a - vZ b) (vE a - vE b).
Definition vscale (a : vec) (k : T) : vec := Vec (vX a * k) (vY a * k) (vZ a * k) (vE a * k).
(** class ZTspin1, lines 77-84 *)
Definition ztspin1 (q p : vec) (m : T) : vec := vsub q (vscale (vscale p (dot q p)) (1 / (m * m))).
(** class SpinSumV, lines 86-97: Dot and Sandwich *)
Definition sumv_dot (p : vec) (m : T) (r : vec) : vec := vadd (vscale r m1) (vscale p (dot p r / (m * m))).
Definition sumv_sandwich (p : vec) (m : T) (l r : vec) : T := dot l (sumv_dot p m r).
(** class SpinSumT, lines 99-113: Sandwich *)
Definition sumt_sandwich (p : vec) (m : T) (lm ln ra rb : vec) : T :=
  let manb := sumv_sandwich p m lm ra * sumv_sandwich p m ln rb in
  let mbna := sumv_sandwich p m lm rb * sumv_sandwich p m ln ra in
  let mnab := sumv_sandwich p m lm ln * sumv_sandwich p m ra rb in
  1 / 2 * (manb + mbna) - 1 / 3 * mnab.
(** class SymmLorentzMatrix, lines 210-376: four rows; the constructor from a vector, difference, multiple, makeGmunu, Contract *)
Record mat : Type := Mat { rX : vec; rY : vec; rZ : vec; rE : vec }.
Definition outer (p : vec) : mat := Mat (vscale p (vX p)) (vscale p (vY p)) (vscale p (vZ p)) (vscale p (vE p)).
Definition msub (a b : mat) : mat := Mat (vsub (rX a) (rX b)) (vsub (rY a) (rY b)) (vsub (rZ a) (rZ b)) (vsub (rE a) (rE b)).
Definition mscale (a : mat) (k : T) : mat := Mat (vscale (rX a) k) (vscale (rY a) k) (vscale (rZ a) k) (vscale (rE a) k).
Definition gmunu : mat := Mat (Vec m1 0 0 0) (Vec 0 m1 0 0) (Vec 0 0 m1 0) (Vec 0 0 0 1).
Definition contract (m : mat) (v : vec) : vec :=
  vsub (vsub (vsub (vscale (rE m) (vE v)) (vscale (rX m) (vX v))) (vscale (rY m) (vY v))) (vscale (rZ m) (vZ v)).
(** class ZTspin2, lines 383-404 *)
Definition ztspin2 (q p : vec) (m : T) : mat :=
  let t := ztspin1 q p m in
  let uu := mscale (outer p) (1 / (m * m)) in
  msub (outer t) (mscale (msub gmunu uu) (1 / 3 * mag2 t)).
(** LeviCivita of three vectors, lines 422-442; line 425 multiplies by -1. *)
Definition levi (a b c : vec) : vec :=
  Vec (vY a * (vE b * vZ c - vZ b * vE c) + vZ a * (vY b * vE c - vE b * vY c) + vE a * (vZ b * vY c - vY b * vZ c))
      (vX a * (vZ b * vE c - vE b * vZ c) + vZ a * (vE b * vX c - vX b * vE c) + vE a * (vX b * vZ c - vZ b * vX c))
      (vX a * (vE b * vY c - vY b * vE c) + vY a * (vX b * vE c - vE b * vX c) + vE a * (vY b * vX c - vX b * vY c))
      (m1 * vX a * (vY b * vZ c - vZ b * vY c) - vY a * (vZ b * vX c - vX b * vZ c) - vZ a * (vX b * vY c - vY b * vX c)).

(** ** SpinFactors.cu *)
(** enum class SF_4Body, SpinFactors.h:18-35 *)
Inductive sf : Type :=
  | DtoPP1_PtoSP2 | DtoPP1_PtoVP2 | DtoV1V2_S | DtoV1V2_P | DtoV1V2_D | DtoAP1_AtoVP2 | DtoAP1_AtoVP2D | DtoVS | DtoV1P1
  | DtoAP1_AtoSP2 | DtoTP1 | FF_12_34_L1 | FF_12_34_L2 | FF_123_4_L1 | FF_123_4_L2 | ONE.
(** Lines 105-110 and the like: the square of the momentum times the radius of the mother *)
Definition z_square (s ma mb radius : T) : T :=
  let q2 := s / 4 - (ma + mb) / 2 + (ma - mb) * (ma - mb) / (4 * s) in q2 * radius * radius.
(** FF_12_34_L1, lines 93-116 *)
Definition ff_12_34_L1 (r : T) (P1 P2 P3 P4 : vec) : T :=
  let z2 := z_square (mag2 (vadd (vadd (vadd P1 P2) P3) P4)) (mag2 (vadd P1 P2)) (mag2 (vadd P3 P4)) r in sqrt (1 / (1 + z2)).
(** FF_12_34_L2, lines 118-140 *)
Definition ff_12_34_L2 (r : T) (P1 P2 P3 P4 : vec) : T :=
  let z2 := z_square (mag2 (vadd (vadd (vadd P1 P2) P3) P4)) (mag2 (vadd P1 P2)) (mag2 (vadd P3 P4)) r in sqrt (1 / (z2 * z2 + 3 * z2 + 9)).
(** FF_123_4_L1, lines 142-164 *)
Definition ff_123_4_L1 (r : T) (P1 P2 P3 P4 : vec) : T :=
  let z2 := z_square (mag2 (vadd (vadd (vadd P1 P2) P3) P4)) (mag2 (vadd (vadd P1 P2) P3)) (mag2 P4) r in sqrt (1 / (1 + z2)).
(** FF_123_4_L2, lines 166-188 *)
Definition ff_123_4_L2 (r : T) (P1 P2 P3 P4 : vec) : T :=
  let z2 := z_square (mag2 (vadd (vadd (vadd P1 P2) P3) P4)) (mag2 (vadd (vadd P1 P2) P3)) (mag2 P4) r in sqrt (1 / (z2 * z2 + 3 * z2 + 9)).
(** DtoPP1_PtoVP2_VtoP3P4, lines 190-218 *)
Definition d_pp1_pv (P1 P2 P3 P4 : vec) : T :=
  let pV := vadd P3 P4 in let qV := vsub P3 P4 in
  let pP := vadd pV P2 in let qP := vsub pV P2 in
  dot (ztspin1 qP pP (mass pP)) (ztspin1 qV pV (mass pV)).
(** DtoV1V2_V1toP1P2_V2toP3P4_S, lines 220-250 *)
Definition d_vv_s (P1 P2 P3 P4 : vec) : T :=
  let pV1 := vadd P1 P2 in let qV1 := vsub P1 P2 in let pV2 := vadd P3 P4 in let qV2 := vsub P3 P4 in
  let MV1 := sqrt (dot pV1 pV1) in let MV2 := sqrt (dot pV2 pV2) in
  dot qV1 qV2 - dot qV1 pV1 * dot pV1 qV2 / (MV1 * MV1) - dot qV1 pV2 * dot pV2 qV2 / (MV2 * MV2)
  + dot qV1 pV1 * dot pV1 pV2 * dot pV2 qV2 / (MV1 * MV1 * MV2 * MV2).
(** DtoV1V2_V1toP1P2_V2toP3P4_P, lines 252-286 *)
Definition d_vv_p (P1 P2 P3 P4 : vec) : T :=
  let pV1 := vadd P1 P2 in let qV1 := vsub P2 P1 in let pV2 := vadd P3 P4 in let qV2 := vsub P4 P3 in
  let pD := vadd pV1 pV2 in let qD := vsub pV1 pV2 in
  let MV1 := sqrt (dot pV1 pV1) in let MV2 := sqrt (dot pV2 pV2) in
  - dot (levi pD (ztspin1 qD pD (mass pD)) (ztspin1 qV1 pV1 MV1)) (ztspin1 qV2 pV2 MV2).
(** DtoV1V2_V1toP1P2_V2toP3P4_D, lines 288-330 *)
Definition d_vv_d (P1 P2 P3 P4 : vec) : T :=
  let pV1 := vadd P1 P2 in let qV1 := vsub P1 P2 in let pV2 := vadd P3 P4 in let qV2 := vsub P3 P4 in
  let pD := vadd pV1 pV2 in let qD := vsub pV1 pV2 in
  dot (ztspin1 qV1 pV1 (mass pV1)) (contract (ztspin2 qD pD (mass pD)) (ztspin1 qV2 pV2 (mass pV2))).
(** DtoV1P1_V1toV2P2_V2toP3P4, lines 332-375 *)
Definition d_v1p1 (P1 P2 P3 P4 : vec) : T :=
  let pV1 := vadd (vadd P2 P3) P4 in let pV2 := vadd P3 P4 in let qV1 := vsub (vadd P3 P4) P2 in let qV2 := vsub P3 P4 in
  let pD := vadd pV1 P1 in let qD := vsub pV1 P1 in
  dot (levi pV1 (ztspin1 qV1 pV1 (mass pV1)) (ztspin1 qV2 pV2 (mass pV2)))
      (sumv_dot pV1 (mass pV1) (ztspin1 qD pD (mass pD))).
(** DtoVS_VtoP1P2_StoP3P4, lines 377-412 *)
Definition d_vs (P1 P2 P3 P4 : vec) : T :=
  let pS := vadd P3 P4 in let pV := vadd P1 P2 in let qV := vsub P1 P2 in
  let pD := vadd pV pS in let qD := vsub pV pS in
  dot (ztspin1 qD pD (mass pD)) (ztspin1 qV pV (mass pV)).
(** DtoAP1_AtoSP2_StoP3P4, lines 414-448 *)
Definition d_ap1_sp2 (P1 P2 P3 P4 : vec) : T :=
  let pS := vadd P3 P4 in let pA := vadd P2 pS in let qA := vsub pS P2 in
  let pD := vadd pA P1 in let qD := vsub pA P1 in
  dot (ztspin1 qD pD (mass pD)) (ztspin1 qA pA (mass pA)).
(** DtoAP1_AtoVP2_VtoP3P4, lines 450-486 *)
Definition d_ap1_vp2 (P1 P2 P3 P4 : vec) : T :=
  let pV := vadd P3 P4 in let qV := vsub P3 P4 in let pA := vadd P2 pV in
  let pD := vadd P1 pA in let qD := vsub pA P1 in
  - dot (ztspin1 qD pD (mass pD)) (sumv_dot pA (mass pA) (ztspin1 qV pV (mass pV))).
(** DtoAP1_AtoVP2Dwave_VtoP3P4, lines 488-526 *)
Definition d_ap1_vp2_d (P1 P2 P3 P4 : vec) : T :=
  let pV := vadd P3 P4 in let qV := vsub P3 P4 in let pA := vadd P2 pV in let qA := vsub P2 pV in
  let pD := vadd P1 pA in let qD := vsub pA P1 in
  dot (ztspin1 qD pD (mass pD)) (contract (ztspin2 qA pA (mass pA)) (ztspin1 qV pV (mass pV))).
(** DtoTP1_TtoVP2_VtoP3P4, lines 528-568; t2T is not used. *)
Definition d_tp1 (P1 P2 P3 P4 : vec) : T :=
  let pV := vadd P3 P4 in let qV := vsub P3 P4 in let pT := vadd P2 pV in let qT := vsub pV P2 in
  let pD := vadd P1 pT in let qD := vsub pT P1 in
  let tV := ztspin1 qV pV (mass pV) in
  let tD := ztspin1 qD pD (mass pD) in
  let t1T := ztspin1 qT pT (mass pT) in
  let tmp := levi t1T pT (sumv_dot pT (mass pT) tV) in
  sumt_sandwich pT (mass pT) tD tD tmp t1T + 1 / 3 * dot tD tD / dot pT pT * sumt_sandwich pT (mass pT) pD pD tmp t1T.
(** The function the constructor chooses, lines 589-669; [c0] is its constant 0 *)
Definition spin_factor (k : sf) (c0 : T) (P1 P2 P3 P4 : vec) : T :=
  match k with
  | DtoPP1_PtoSP2 => 1
  | DtoPP1_PtoVP2 => d_pp1_pv P1 P2 P3 P4
  | DtoV1V2_S => d_vv_s P1 P2 P3 P4
  | DtoV1V2_P => d_vv_p P1 P2 P3 P4
  | DtoV1V2_D => d_vv_d P1 P2 P3 P4
  | DtoAP1_AtoVP2 => d_ap1_vp2 P1 P2 P3 P4
  | DtoAP1_AtoVP2D => d_ap1_vp2_d P1 P2 P3 P4
  | DtoVS => d_vs P1 P2 P3 P4
  | DtoV1P1 => d_v1p1 P1 P2 P3 P4
  | DtoAP1_AtoSP2 => d_ap1_sp2 P1 P2 P3 P4
  | DtoTP1 => d_tp1 P1 P2 P3 P4
  | FF_12_34_L1 => ff_12_34_L1 c0 P1 P2 P3 P4
  | FF_12_34_L2 => ff_12_34_L2 c0 P1 P2 P3 P4
  | FF_123_4_L1 => ff_123_4_L1 c0 P1 P2 P3 P4
  | FF_123_4_L2 => ff_123_4_L2 c0 P1 P2 P3 P4
  | ONE => 1
  end.
(** The four momenta are those of the particles [p1] to [p4] (the constants 1 to 4) in the array of the event, lines 97-103.
    [None]: a number of a particle beyond the array. *)
Definition spin_value (k : sf) (c0 : T) (event : list vec) (p1 p2 p3 p4 : nat) : option T :=
  match nth_error event p1, nth_error event p2, nth_error event p3, nth_error event p4 with
  | Some P1, Some P2, Some P3, Some P4 => Some (spin_factor k c0 P1 P2 P3 P4)
  | _, _, _, _ => None
  end.
(** The constructor without a mass, SpinFactors.h:58-59: constant 0 is 1.86484 *)
Definition default_c0 : T := LeafGen.o_lit Ar 2099623182276399 (-50).
End Spin.
