(** C60: the amalgamated header include/hsm/gen/hsm.h. *)

From Coq Require Import List Arith NArith Bool.
From Verif Require Import Types Static Dispatch Runtime Dsl Examples Spec DispatchFacts Semantics
  Amalgam AmalgamFacts AmalgamRun AmalgamQueue AmalgamDemo.
Import ListNotations.

(** C60. Programs for which the amalgamated header does what the other headers do:
    everything compiles, every call has the same answer (except that process_event has
    none), the same user code is called with the same arguments in the same order, and
    regions, history and objects are the same after every sequence of calls. *)
Theorem C60_agrees : forall V W (cb : cbfun V W) vnone env root m,
  compile env root = Some m -> alike env root -> none_has_no_data cb ->
  forall fuel d w ks, (forall k, In k ks -> without_set k) ->
  am_compile env root = Some m /\
  same_result (answers_alike ks) (session cb m vnone fuel d w ks) (am_session cb m vnone fuel d w ks).
Proof. exact @session_alike. Qed.
Print Assumptions C60_agrees.
Theorem C60_check : forall env root, alike_check env root = true -> alike env root.
Proof. exact alike_ok. Qed.
Print Assumptions C60_check.

Example C60_applies_agrees : alike_check like_env 50 = true /\
  exists m outs s, compile like_env 50 = Some m /\
    session calm m 0 300 0 0 [pe 6; pe 2; pe 1; pe 5; pe 3; pe 4; KSetDep 3; pe 1; KStatus] = Done outs s /\
    length (rt_trace s) = 8.
Proof.
  split; [reflexivity|]. destruct (compile like_env 50) as [m|] eqn:E; [|discriminate]. exists m.
  assert (H : match compile like_env 50 with Some m =>
    match session calm m 0 300 0 0 [pe 6; pe 2; pe 1; pe 5; pe 3; pe 4; KSetDep 3; pe 1; KStatus] with
    | Done _ s => length (rt_trace s) = 8 | _ => False end | None => False end) by (vm_compute; reflexivity).
  rewrite E in H. destruct (session _ _ _ _ _ _ _) as [outs s| | |]; try contradiction. exists outs, s. auto.
Qed.

(** None of the four conditions can be dropped. *)
Theorem C60_deferring_refuted : exists env root,
  only_composites env root /\ distinct_types env root /\ root_apart env root /\ told_apart env root.
Proof. exists defer_env, 50. exact defer_needed. Qed.
Print Assumptions C60_deferring_refuted.
Theorem C60_leaf_rows_refuted : exists env root,
  distinct_types env root /\ root_apart env root /\ nothing_deferred env root /\ told_apart env root.
Proof. exists leaf_env, 50. exact leaf_needed. Qed.
Print Assumptions C60_leaf_rows_refuted.
Theorem C60_same_types_refuted : exists env root,
  only_composites env root /\ root_apart env root /\ nothing_deferred env root /\ told_apart env root.
Proof. exists twin_env, 50. exact types_needed. Qed.
Print Assumptions C60_same_types_refuted.
Theorem C60_shared_places_refuted : exists env root,
  only_composites env root /\ distinct_types env root /\ nothing_deferred env root /\ told_apart env root.
Proof. exists exit_env, 50. exact apart_needed. Qed.
Print Assumptions C60_shared_places_refuted.
(** It accepts a composite as initial state of the root. *)
Theorem C60_accepts_refuted : exists env root m, am_compile env root = Some m /\ alike env root /\ compile env root = None.
Proof.
  exists initial_env, 50. destruct (am_compile initial_env 50) as [m|] eqn:E; [|discriminate]. exists m.
  split; [reflexivity|]. split; [now apply alike_ok|reflexivity].
Qed.
Print Assumptions C60_accepts_refuted.

(** Its internal rows are those of the composites. *)
Theorem C60_internal : forall env root m, compile env root = Some m -> forall x, In x (am_internal m) <->
  exists c i s, is_state env root (SState c) /\ composite env c /\ In i (internals env c) /\
    written_in env c s /\ x = mkXrow c s (i_ev i) (i_guard i) (i_act i) s true.
Proof. exact internal_rows. Qed.
Print Assumptions C60_internal.
Example C60_applies_internal : exists m, compile exit_env 50 = Some m /\ length (am_internal m) = 6.
Proof. destruct (compile exit_env 50) as [m|] eqn:E; [|discriminate]. exists m. split; [reflexivity|]. inversion E. reflexivity. Qed.

(** Deferral.  A region 0 that defers the event and all waiting events: the oldest
    waiting event is recalled, deferred again, and so comes last, although nothing was
    handled; with the other headers the queue is [rt_queue s ++ [(e, v)]] (C19). *)
Theorem C60_rotation : forall V W (cb : cbfun V W) vnone env root m,
  compile env root = Some m -> am_compile env root = Some m ->
  forall fuel d w ks outs s fuel' e v pl,
  am_session cb m vnone fuel d w ks = Done outs s -> 0 < active m s -> 0 < fuel' -> at_place m s 0 = Some pl ->
  (forall x, In x (rt_queue s ++ [(e, v)]) -> candidate env root (fst x) pl CDefer) ->
  am_process_event cb m vnone fuel' e v s =
  Done v (with_queue s (match rt_queue s with [] => [(e, v)] | x :: q => q ++ [(e, v); x] end)).
Proof. exact @rotates. Qed.
Print Assumptions C60_rotation.

(** First in, last out. *)
Example C60_applies_rotation : exists m outs s, compile defer_env 50 = Some m /\ am_compile defer_env 50 = Some m /\
  am_session calm m 0 300 0 0 [pe 2] = Done outs s /\
  active m s = 1 /\ at_place m s 0 = Some (50, SState 1) /\ rt_queue s = [(EUser 2, 0)] /\
  In CDefer (cands m (EUser 2) (50, SState 1)) /\ In CDefer (cands m (EUser 3) (50, SState 1)) /\
  am_process_event calm m 0 300 (EUser 3) 5 s = Done 5 (with_queue s [(EUser 3, 5); (EUser 2, 0)]).
Proof. apply am_demo_intro. vm_compute. repeat split; auto. Qed.
(** A refused event recalls one, too: other headers C07, C20. *)
Theorem C60_refusal_recalls_refuted : exists env root m ks outs s e v s1 s2,
  compile env root = Some m /\ am_compile env root = Some m /\ am_session calm m 0 300 0 0 ks = Done outs s /\
  rt_queue s <> [] /\
  process_event calm m 0 300 e v s = Done (false, v) s1 /\ rt_queue s1 = rt_queue s /\
  am_process_event calm m 0 300 e v s = Done v s2 /\ rt_queue s2 = [].
Proof.
  destruct (am_demo_intro refuse_env 50 [pe 2; pe 2; pe 1] (fun m s => exists s1 s2, rt_queue s <> [] /\
    process_event calm m 0 300 (EUser 3) 5 s = Done (false, 5) s1 /\ rt_queue s1 = rt_queue s /\
    am_process_event calm m 0 300 (EUser 3) 5 s = Done 5 s2 /\ rt_queue s2 = [])) as (m & outs & s & H1 & H2 & H3 & s1 & s2 & H).
  { vm_compute. eexists. eexists. split; [discriminate|]. repeat split. }
  exists refuse_env, 50, m, [pe 2; pe 2; pe 1], outs, s, (EUser 3), 5, s1, s2. auto.
Qed.
Print Assumptions C60_refusal_recalls_refuted.
