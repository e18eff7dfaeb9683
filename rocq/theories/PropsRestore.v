(** C93: what has to be saved of a machine, and how it is restored. *)

From Coq Require Import List Arith NArith Bool.
From Verif Require Import Types Static Dispatch Runtime Spec DispatchFacts Semantics Reach ReachFacts Graph Examples Demo
  Restore RestoreFacts RestoreDemo.
Import ListNotations.

(** A machine in state [s], made with [d0] and given later the dependencies [ds] (newest
    first): without history and created objects, with no event waiting, every region at a
    place and as many regions active as in a new machine. A new machine, given the later
    dependencies in their order and set region by region, is in that state. *)
Theorem C93_restored : forall V W (cb : cbfun V W) env root m vnone ds d0 s w fuel,
  running cb env root m vnone ds d0 s -> restorable env root ->
  rt_queue s = [] -> (forall r, region_exists env root r -> exists pl, at_place m s r = Some pl) ->
  (region_exists env root 1 -> active m s = length (initial_states env root)) ->
  length (initial_states env root) < fuel ->
  session cb m vnone fuel d0 w (restoring m ds s) = Done (repeat OUnit (length (restoring m ds s))) (anew w s).
Proof. exact @machine_restored. Qed.
Print Assumptions C93_restored.

(** From then on it answers every sequence of calls as the saved machine does, with the
    same calls of user code, the same final state and the same undefined behaviour. *)
Theorem C93_behaves : forall V W (cb : cbfun V W) env root m vnone ds d0 s fuel ks,
  running cb env root m vnone ds d0 s -> restorable env root ->
  rt_queue s = [] -> (forall r, region_exists env root r -> exists pl, at_place m s r = Some pl) ->
  (region_exists env root 1 -> active m s = length (initial_states env root)) ->
  length (initial_states env root) < fuel ->
  session cb m vnone fuel d0 (rt_world s) (restoring m ds s ++ ks) =
  later (length (rt_trace s)) (repeat OUnit (length (restoring m ds s))) (run cb m vnone fuel ks s).
Proof. exact @machine_behaves. Qed.
Print Assumptions C93_behaves.

(** Every condition is needed. History is not set by set. *)
Theorem C93_history_refuted : exists cb env root before ks, lost cb env root before
  (fun env root m s => makes_nothing env root /\ saveable env root m s) ks.
Proof. exact history_lost. Qed.
Print Assumptions C93_history_refuted.
(** The number of active regions is not set by set. *)
Theorem C93_regions_refuted : exists cb env root before ks, lost cb env root before
  (fun env root m s => restorable env root /\ rt_queue s = [] /\
     (forall r, region_exists env root r -> exists pl, at_place m s r = Some pl)) ks.
Proof. exact regions_lost. Qed.
Print Assumptions C93_regions_refuted.
(** Waiting events cannot be handed over. *)
Theorem C93_waiting_refuted : exists cb env root before ks, lost cb env root before
  (fun env root m s => restorable env root /\
     (forall r, region_exists env root r -> exists pl, at_place m s r = Some pl) /\
     (region_exists env root 1 -> active m s = length (initial_states env root))) ks.
Proof. exact queue_lost. Qed.
Print Assumptions C93_waiting_refuted.
(** Created objects are missing: the next event may use a null pointer. *)
Theorem C93_objects_refuted : exists cb env root before ks, lost cb env root before
  (fun env root m s => no_history env root /\ saveable env root m s /\
     session cb m 0 300 0 (rt_world s) (restoring m [0] s ++ ks) = Undef UBNull) ks.
Proof. exact objects_lost. Qed.
Print Assumptions C93_objects_refuted.

Example C93_applies : restorable Kept.env 50.
Proof. exact kept_restorable. Qed.
Example C93_applies_state : demo_state ex_cb Kept.env 50 Kept.before (fun m s =>
  saveable Kept.env 50 m s /\ at_place m s 0 = Some (11, SState 2) /\ at_place m s 1 = Some (50, SState 22) /\
  deps_run Kept.before [0] = [8; 7; 0] /\
  restoring m [8; 7; 0] s = [KSetDep 7; KSetDep 8; KSet 0 11 (SState 2); KSet 1 50 (SState 22)] /\
  length (rt_trace s) = 4 /\
  answers (run ex_cb m 0 300 Kept.after_ s) = Some [T; T; T; F; T]).
Proof. exact kept_saveable. Qed.
