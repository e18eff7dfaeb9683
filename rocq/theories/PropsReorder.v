(** C67: the order of rows. *)

From Coq Require Import List Arith NArith Bool.
From Verif Require Import Types Static Dispatch Runtime Dsl Examples IndexFacts Spec DispatchFacts Semantics Safe SafeObjects SafeDemo
  Reorder ReorderRun ReorderFacts ReorderSwap ReorderCheck ReorderDemo.
Import ListNotations.

(** C67. Two programs whose tables have the same rows, with the same order of initial
    states in each class and the same order of candidates in each place, cannot be told
    apart: the same answers, exceptions, undefined behaviour, calls of user code with the
    same arguments in the same order, world, waiting events, places, history and objects;
    the numbers that status prints are those of the same places. *)
Theorem C67_same_candidates : forall V W (cb : cbfun V W) vnone env env' root m m',
  compile env root = Some m -> compile env' root = Some m' ->
  same_rows env env' -> same_candidates env env' root -> stays_inside env root ->
  forall fuel d w ks, matching_run m m' (session cb m vnone fuel d w ks) (session cb m' vnone fuel d w ks).
Proof. exact @session_reordered. Qed.
Print Assumptions C67_same_candidates.

(** So it is if neighbouring independent rows are exchanged, any number of times, without
    change to the order of the initial states. *)
Theorem C67_reordered : forall V W (cb : cbfun V W) vnone env env' root m m',
  compile env root = Some m -> compile env' root = Some m' ->
  reordered env env' -> stays_inside env root ->
  forall fuel d w ks, matching_run m m' (session cb m vnone fuel d w ks) (session cb m' vnone fuel d w ks).
Proof. exact @session_exchanged. Qed.
Print Assumptions C67_reordered.

(** The compiler accepts both or neither. *)
Theorem C67_accepted : forall env env' root, reordered env env' ->
  (exists m, compile env root = Some m) <-> (exists m', compile env' root = Some m').
Proof. exact reordered_compiles. Qed.
Print Assumptions C67_accepted.

(** A check for given exchanges. *)
Theorem C67_check : forall l env env', exchanges env l = Some env' -> reordered env env'.
Proof. exact exchanges_sound. Qed.
Print Assumptions C67_check.

Example C67_applies : exists env' m m' outs s,
  exchanges first_env steps = Some env' /\ reordered first_env env' /\ stays_inside first_env 50 /\
  compile first_env 50 = Some m /\ compile env' 50 = Some m' /\
  (table env' 50 <> table first_env 50 /\ table env' 11 <> table first_env 11 /\ mc_flat m' <> mc_flat m) /\
  session ex_cb m 0 300 0 0 demo_calls = Done outs s /\ length (rt_trace s) = 8.
Proof.
  assert (H : match exchanges first_env steps with
    | Some env' =>
      match compile first_env 50, compile env' 50 with
      | Some m, Some m' =>
          (table env' 50 <> table first_env 50 /\ table env' 11 <> table first_env 11 /\ mc_flat m' <> mc_flat m) /\
          match session ex_cb m 0 300 0 0 demo_calls with Done _ s => length (rt_trace s) = 8 | _ => False end
      | _, _ => False
      end
    | None => False
    end) by (vm_compute; repeat split; discriminate).
  destruct (exchanges first_env steps) as [env'|] eqn:E; [|contradiction].
  destruct (compile first_env 50) as [m|], (compile env' 50) as [m'|] eqn:E'; try contradiction. destruct H as [H1 H2].
  destruct (session _ _ _ _ _ _ _) as [outs s| | |] eqn:Es; try contradiction. exists env', m, m', outs, s.
  split; [reflexivity|]. split; [eapply exchanges_sound; exact E|]. split; [apply stays_intro; vm_compute; reflexivity|].
  split; [reflexivity|]. split; [exact E'|]. split; [exact H1|]. split; [exact Es|exact H2].
Qed.

(** The conditions are needed.  Rows for one event in one place, *)
Theorem C67_same_place_refuted : exists env env' root,
  (exchanged_by (fun c r1 r2 => outside env r1 r2 /\ inner_apart env c r1 r2 /\ written_alike env c r1 r2) env env' /\
   forall c, initial_states env' c = initial_states env c) /\
  stays_inside env root /\ told_apart env env' root.
Proof. exists same_ev, same_ev', 50. split; [exact same_ev_exchanged|]. split; [apply stays_intro; vm_compute; reflexivity|exact same_ev_told]. Qed.
Print Assumptions C67_same_place_refuted.
(** rows that mark initial states of two regions, *)
Theorem C67_initial_refuted : exists env env' root,
  exchanged_by (independent env) env env' /\ stays_inside env root /\ told_apart env env' root.
Proof. exists regions, regions', 50. split; [exact regions_exchanged|]. split; [apply stays_intro; vm_compute; reflexivity|exact regions_told]. Qed.
Print Assumptions C67_initial_refuted.
(** rows into composites, *)
Theorem C67_into_composite_refuted : exists env env' root,
  (exchanged_by (fun c r1 r2 => apart env c r1 r2 /\ inner_apart env c r1 r2 /\ written_alike env c r1 r2) env env' /\
   forall c, initial_states env' c = initial_states env c) /\
  stays_inside env root /\ told_apart env env' root.
Proof. exists into, into', 50. split; [exact into_exchanged|]. split; [apply stays_intro; vm_compute; reflexivity|exact into_told]. Qed.
Print Assumptions C67_into_composite_refuted.
(** rows that name composites whose internal rows meet in one place, *)
Theorem C67_internal_refuted : exists env env' root,
  (exchanged_by (fun c r1 r2 => apart env c r1 r2 /\ outside env r1 r2 /\ written_alike env c r1 r2) env env' /\
   forall c, initial_states env' c = initial_states env c) /\
  stays_inside env root /\ told_apart env env' root.
Proof. exists inners, inners', 50. split; [exact inners_exchanged|]. split; [apply stays_intro; vm_compute; reflexivity|exact inners_told]. Qed.
Print Assumptions C67_internal_refuted.
(** and rows of a class with internal rows that write one place in two ways, cannot be
    exchanged. *)
Theorem C67_written_refuted : exists env env' root,
  (exchanged_by (fun c r1 r2 => apart env c r1 r2 /\ outside env r1 r2 /\ inner_apart env c r1 r2) env env' /\
   forall c, initial_states env' c = initial_states env c) /\
  stays_inside env root /\ told_apart env env' root.
Proof. exists marked, marked', 50. split; [exact marked_exchanged|]. split; [apply stays_intro; vm_compute; reflexivity|exact marked_told]. Qed.
Print Assumptions C67_written_refuted.
