(** Property theorems for variables, observables and unbinned data sets (C01-C05). *)
From Coq Require Import List ZArith String Bool Arith Lia Reals.
From Verif Require Import F64 F64Lemmas ListAux VariableModel VariableSpec VariableProofs DataSetModel DataSetSpec
  DataSetProofs GridSpec GridProofs DataSetProofs2.
Import ListNotations.
Open Scope nat_scope.

(** ** C01 *)

(** Every answer of an unbinned data set (values read, counts, exported matrices, exceptions) in every history is the
    answer of the list-of-events specification [DataSetSpec.spec_run]. *)
Theorem C01_unbinned_is_list_of_events : forall hp obs ops, Forall op_ok ops ->
  snd (drun (hp, new_dataset obs) ops) = snd (spec_run obs (mkSpec hp []) ops).
Proof. exact unbinned_is_list_of_events. Qed.
Print Assumptions C01_unbinned_is_list_of_events.

(** A call that throws leaves the stored events as they were. *)
Theorem C01_throw_keeps_events : forall hp obs h o e, Forall op_ok h -> adds_event o = true ->
  answer (after hp obs h) o = RThrow e ->
  forall q, (exists v i, q = DGetValue v i) \/ q = DGetNumEvents \/ q = DToMatrix ->
  answer (fst (dstep (after hp obs h) o)) q = answer (after hp obs h) q.
Proof. exact throw_keeps_events. Qed.
Print Assumptions C01_throw_keeps_events.

(** A concrete program: two observables and an event number. *)
Definition ex_vstate : vstate :=
  fst (vrun vinit [NewObservable "x" (f_of_Z 0) (f_of_Z 10); NewObservable "y" (f_of_Z (-5)) (f_of_Z 5);
                   NewEventNumber "n" fzero f_maxint;
                   Set_ 0 FNumBins (CN 2); Set_ 1 FNumBins (CN 3)]).
Definition ex_heap := fst ex_vstate.
Definition ex_obs := snd ex_vstate.
Definition ex_history : list dop :=
  [DAddEventValues [f_of_Z 1; f_of_Z 2; f_of_Z 0]; DAddEventValues [f_of_Z 3; f_of_Z 20; f_of_Z 1];
   DAddEventValues [f_of_Z 4; f_of_Z (-1); f_of_Z 1]; DFromMatrix 2 [[f_of_Z 5; f_of_Z 0]] false].

Definition ex_n : handle := nth 2 ex_obs (mkHandle "" 0 0 0 0 (XObservable 0 false)).

Example C01_example :
  Forall op_ok ex_history /\
  snd (drun (ex_heap, new_dataset ex_obs) (ex_history ++ [DGetNumEvents; DGetValue ex_n 2])) =
    [ROk; RThrow EOutOfRange; ROk; ROk; RNum 3; RVal (f_of_Z 2)].
Proof.
  split; [repeat constructor|].
  apply (list_same_eq dout_same dout_same_eq). vm_compute. reflexivity.
Qed.

(** ** C02 *)

(** addEvent accepts exactly the events whose every observable is acceptable ([acceptable] speaks about the numbers the
    doubles stand for: equal limits are not checked, otherwise lower <= value <= upper and NaN fails), otherwise it
    throws OutOfRange and changes nothing. *)
Theorem C02_accept_iff_in_range : forall hp obs h, Forall op_ok h ->
  let st := after hp obs h in
  (answer st DAddEvent = ROk <->
   Forall (fun o => acceptable (get_f (fst st) o FLower) (get_f (fst st) o FUpper) (get_f (fst st) o FValue)) obs) /\
  (answer st DAddEvent = ROk \/ answer st DAddEvent = RThrow EOutOfRange) /\
  (answer st DAddEvent = RThrow EOutOfRange -> fst (dstep st DAddEvent) = st).
Proof. exact addEvent_accept_iff. Qed.
Print Assumptions C02_accept_iff_in_range.

(** The range check itself, for all doubles. *)
Theorem C02_range_check : forall lo up v, in_range lo up v = true <-> acceptable lo up v.
Proof. exact in_range_acceptable. Qed.
Print Assumptions C02_range_check.

Example C02_example_nan : in_range (f_of_Z 0) (f_of_Z 10) fnan = false /\ in_range (f_of_Z 3) (f_of_Z 3) fnan = true
  /\ in_range (f_of_Z 0) (f_of_Z 10) (f_of_Z 10) = true /\ in_range (finf true) (finf false) (finf false) = true
  /\ in_range fnan (f_of_Z 10) (f_of_Z 3) = false.
Proof. vm_compute. auto. Qed.

(** ** C03 *)

(** Every program over handles gives the outputs of the specification in which a handle just names a quantity. *)
Theorem C03_handles_are_names : forall ops, snd (vrun vinit ops) = snd (srun sinit ops).
Proof. exact handles_refine_quantities. Qed.
Print Assumptions C03_handles_are_names.

(** What is written through a handle is read through every equal handle. *)
Theorem C03_write_read_alias : forall ops a b f v hp hs,
  fst (vrun vinit ops) = (hp, hs) ->
  snd (vstep (hp, hs) (Equal a b)) = OVal (CB true) ->
  snd (vstep (hp, hs) (Set_ a f v)) = ODone ->
  snd (vstep (fst (vstep (hp, hs) (Set_ a f v))) (Get b f)) = OVal v.
Proof. exact alias_read. Qed.
Print Assumptions C03_write_read_alias.

(** Writing through a handle changes nothing that is read through a handle to another quantity, and no other field. *)
Theorem C03_write_frame : forall ops a b f g v hp hs,
  fst (vrun vinit ops) = (hp, hs) ->
  (snd (vstep (hp, hs) (Equal a b)) = OVal (CB false) \/ f <> g) ->
  snd (vstep (hp, hs) (Set_ a f v)) = ODone ->
  snd (vstep (fst (vstep (hp, hs) (Set_ a f v))) (Get b g)) = snd (vstep (hp, hs) (Get b g)).
Proof. exact frame_read. Qed.
Print Assumptions C03_write_frame.

Example C03_example :
  let prog := [NewVariable4 "a" (f_of_Z 1) (f_of_Z 0) (f_of_Z 9); NewVariable4 "a" (f_of_Z 1) (f_of_Z 0) (f_of_Z 9);
               Copy 0; Set_ 2 FValue (CF (f_of_Z 7))] in
  snd (vrun vinit (prog ++ [Get 0 FValue; Get 1 FValue; Equal 0 2; Equal 0 1; EqualAll 0 2])) =
  [ODone; ODone; ODone; ODone; OVal (CF (f_of_Z 7)); OVal (CF (f_of_Z 1)); OVal (CB true); OVal (CB false); OVal (CB true)].
Proof. apply (list_same_eq output_same output_same_eq). vm_compute. reflexivity. Qed.

(** Variable.h:170 documents Variable(n, v, err) as "a free variable without limits"; it is created fixed. *)
Theorem C03_free_variable_constructor_refuted : exists n v e,
  snd (vrun vinit [NewVariable3 n v e; Get 0 FFixed]) = [ODone; OVal (CB true)].
Proof.
  exists "a"%string, (f_of_Z 1), (f_of_Z 1).
  apply (list_same_eq output_same output_same_eq). vm_compute. reflexivity.
Qed.
Print Assumptions C03_free_variable_constructor_refuted.

(** ** C04 *)

(** fillWithGrid on a new data set whose grid points pass the range check: the number of events is the product of the
    bin counts, and coordinate j of event k is the closed form [grid_coordinate]. *)
Theorem C04_fillWithGrid : forall hp obs,
  separated hp obs ->
  (forall k, k < grid_size hp obs -> row_in_range hp obs (grid_event hp obs k) = true) ->
  exists hp' d', fillWithGrid hp (new_dataset obs) = (hp', d', Ok tt) /\
    d_num d' = grid_size hp obs /\
    (forall k j o, k < grid_size hp obs -> nth_error obs j = Some o ->
       getValue d' o k = Ok (grid_coordinate hp obs k j o)).
Proof. exact fillWithGrid_api. Qed.
Print Assumptions C04_fillWithGrid.

(** The observables a program can build are [separated]. *)
Theorem C04_reachable_separated : forall ops hp hs obs,
  fst (vrun vinit ops) = (hp, hs) -> incl obs hs -> NoDup (map h_value obs) ->
  Forall is_observable obs -> separated hp obs.
Proof. exact reachable_separated. Qed.
Print Assumptions C04_reachable_separated.

(** Each combination of local bins belongs to exactly one event number k. *)
Theorem C04_each_cell_once : forall (sizes : list nat) (cell : list nat),
  Forall2 lt cell sizes ->
  exists! k, k < product sizes /\
    forall j b, nth_error sizes j = Some b -> nth_error cell j = Some ((k / product (firstn j sizes)) mod b).
Proof. exact grid_cell_unique. Qed.
Print Assumptions C04_each_cell_once.

(** An event number that starts at 0 takes the values 0, 1, 2, ... exactly (up to 2^53). *)
Theorem C04_event_number_counts : forall k, (Z.of_nat k <= 2^53)%Z -> count_from (f_of_Z 0) k = f_of_Z (Z.of_nat k).
Proof. exact count_from_zero. Qed.
Print Assumptions C04_event_number_counts.

Example C04_example :
  separated ex_heap ex_obs /\
  (forall k, k < grid_size ex_heap ex_obs -> row_in_range ex_heap ex_obs (grid_event ex_heap ex_obs k) = true) /\
  grid_size ex_heap ex_obs = 6 /\
  grid_event ex_heap ex_obs 3 = [f_of_ZE 15 (-1); f_of_Z 0; f_of_Z 3].
Proof.
  split; [|split; [|split]].
  - apply (reachable_separated [NewObservable "x" (f_of_Z 0) (f_of_Z 10); NewObservable "y" (f_of_Z (-5)) (f_of_Z 5);
                   NewEventNumber "n" fzero f_maxint;
                   Set_ 0 FNumBins (CN 2); Set_ 1 FNumBins (CN 3)] ex_heap ex_obs ex_obs).
    + unfold ex_heap, ex_obs, ex_vstate. apply surjective_pairing.
    + apply incl_refl.
    + assert (E : map h_value ex_obs = [0; 5; 10]) by (cbv; reflexivity). rewrite E.
      repeat constructor; simpl; intuition discriminate.
    + repeat constructor; eexists; eexists; reflexivity.
  - intros k Hk.
    assert (E : grid_size ex_heap ex_obs = 6) by (vm_compute; reflexivity). rewrite E in Hk.
    assert (F : forallb (fun k => row_in_range ex_heap ex_obs (grid_event ex_heap ex_obs k)) (seq 0 6) = true)
      by (vm_compute; reflexivity).
    rewrite forallb_forall in F. apply F. apply in_seq. lia.
  - vm_compute. reflexivity.
  - apply (list_same_eq fsame fsame_eq). vm_compute. reflexivity.
Qed.

(** The event number is not reset: filling, clearing and filling again numbers the events from where it stopped. *)
Definition refill (hp : heap) (obs : list handle) : heap * dataset * res unit :=
  let '(hp1, d1, _) := fillWithGrid hp (new_dataset obs) in fillWithGrid hp1 (clear d1).
Theorem C04_event_number_restart_refuted : exists hp obs o,
  separated hp obs /\ In o obs /\ isEventNumber o = true /\ get_f hp o FValue = fzero /\
  getValue (snd (fst (refill hp obs))) o 0 = Ok (f_of_Z 6).
Proof.
  exists ex_heap, ex_obs, ex_n. split; [apply C04_example|]. split; [right; right; left; reflexivity|].
  split; [reflexivity|]. split; [apply fsame_eq; vm_compute; reflexivity|].
  assert (E : match getValue (snd (fst (refill ex_heap ex_obs))) ex_n 0 with Ok x => fsame x (f_of_Z 6) | _ => false end = true)
    by (vm_compute; reflexivity).
  destruct (getValue (snd (fst (refill ex_heap ex_obs))) ex_n 0) as [x|]; [|discriminate].
  apply fsame_eq in E. subst. reflexivity.
Qed.
Print Assumptions C04_event_number_restart_refuted.

(** ** C05 *)

(** Importing a matrix ([wi]: the event-index row is left out) into a data set with any history, all events in range:
    the exported matrix is the old one with the new columns appended; the index row continues the count. *)
Theorem C05_import_export : forall hp obs h (wi fl : bool) cols,
  Forall op_ok h -> obs <> [] ->
  let st := after hp obs h in
  let old := e_events (fst (spec_run obs (mkSpec hp []) h)) in
  let new := if wi then with_running_index (List.length old) cols else cols in
  let rows := List.length obs - (if wi then 1 else 0) in
  separated (fst st) obs ->
  Forall (fun c => List.length c = rows) cols ->
  forallb (row_in_range (fst st) obs) new = true ->
  answer st (DFromMatrix rows cols fl) = ROk /\
  answer (fst (dstep st (DFromMatrix rows cols fl))) DToMatrix = RMat (columns (List.length obs) (old ++ new)) /\
  answer st DToMatrix = RMat (columns (List.length obs) old).
Proof. exact import_export. Qed.
Print Assumptions C05_import_export.

(** With filtering, exactly the events in range are kept, in order. *)
Theorem C05_import_filtered : forall hp obs h (wi : bool) cols,
  Forall op_ok h -> obs <> [] ->
  let st := after hp obs h in
  let old := e_events (fst (spec_run obs (mkSpec hp []) h)) in
  let new := if wi then with_running_index (List.length old) cols else cols in
  let rows := List.length obs - (if wi then 1 else 0) in
  separated (fst st) obs ->
  Forall (fun c => List.length c = rows) cols ->
  answer st (DFromMatrix rows cols true) = ROk /\
  answer (fst (dstep st (DFromMatrix rows cols true))) DToMatrix
  = RMat (columns (List.length obs) (old ++ filter (row_in_range (fst st) obs) new)).
Proof. exact import_filtered. Qed.
Print Assumptions C05_import_filtered.

Example C05_example :
  separated (fst (after ex_heap ex_obs [])) ex_obs /\
  snd (drun (ex_heap, new_dataset ex_obs)
        [DFromMatrix 2 [[f_of_Z 1; f_of_Z 2]; [f_of_Z 11; f_of_Z 2]; [f_of_Z 3; f_of_Z 4]] true; DToMatrix]) =
  [ROk; RMat [[f_of_Z 1; f_of_Z 3]; [f_of_Z 2; f_of_Z 4]; [f_of_Z 0; f_of_Z 2]]].
Proof.
  split; [apply C04_example|].
  apply (list_same_eq dout_same dout_same_eq). vm_compute. reflexivity.
Qed.
