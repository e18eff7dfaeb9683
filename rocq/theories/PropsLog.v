(** C64: what the output of hsm::log says. *)

From Coq Require Import List Arith NArith Bool.
From Verif Require Import Types Static Dispatch Runtime Dsl Examples Spec Semantics Reach StaticFacts Safe Graph GraphDemo
  Log LogFacts LogDemo.
Import ListNotations.

(** C64. If every row logs first, no on_exit throws and there is no history, then the lines
    are one walk along the rows for each region, put together: each region starts in its
    initial state and is where its last line says. *)
Theorem C64_log : forall V W env root m, compile env root = Some m ->
  forall (cb : cbfun V W) f, logs_transitions env root f -> exits_quietly cb -> no_history env root ->
  forall vnone fuel d w ks outs s, few_regions env root -> never_sets ks ->
  session cb m vnone fuel d w ks = Done outs s ->
  exists l, map snd l = output f (rt_trace s) /\ Forall (fun t => region_exists env root (fst t)) l /\
    forall r pl, at_place m s r = Some pl ->
      exists i, nth_error (initial_states env root) r = Some i /\ walk env root (root, i) (of_region r l) pl.
Proof. exact @session_log. Qed.
Print Assumptions C64_log.

(** One region: the state is the target of the last line, and unless a row starts at a
    composite each line starts where the one before ended. *)
Theorem C64_last : forall V W env root m, compile env root = Some m ->
  forall (cb : cbfun V W) f, logs_transitions env root f -> exits_quietly cb -> no_history env root ->
  forall vnone fuel d w ks outs s, single env root -> never_sets ks ->
  session cb m vnone fuel d w ks = Done outs s ->
  forall p q, at_place m s 0 = Some (p, q) -> exists i, first_initial env root = Some i /\
    walk env root (root, i) (output f (rt_trace s)) (p, q) /\
    q = match rev (output f (rt_trace s)) with [] => i | (_, _, b) :: _ => b end /\
    (no_composite_source env root -> connected i (output f (rt_trace s)) q).
Proof. exact @session_log_single. Qed.
Print Assumptions C64_last.

(** None of the conditions can go.  With a history the last line names the initial state of
    the composite, wherever the region is; *)
Theorem C64_history_refuted : exists env root m (cb : cbfun nat nat) ks outs s p q l a e b,
  compile env root = Some m /\ logs_transitions env root 0 /\ exits_quietly cb /\ single env root /\ never_sets ks /\
  session cb m 0 300 0 0 ks = Done outs s /\ at_place m s 0 = Some (p, q) /\
  output 0 (rt_trace s) = l ++ [(a, e, b)] /\ b <> q.
Proof. exact history_refuted. Qed.
Print Assumptions C64_history_refuted.
(** if on_exit throws, the region has moved and nothing is logged; *)
Theorem C64_throwing_exit_refuted : exists env root m (cb : cbfun nat nat) ks outs s p q l a e b,
  compile env root = Some m /\ logs_transitions env root 0 /\ single env root /\ no_history env root /\ never_sets ks /\
  session cb m 0 300 0 0 ks = Done outs s /\ at_place m s 0 = Some (p, q) /\
  output 0 (rt_trace s) = l ++ [(a, e, b)] /\ b <> q.
Proof. exact thrown_refuted. Qed.
Print Assumptions C64_throwing_exit_refuted.
(** and a row from a composite names the composite, not the state that is left. *)
Theorem C64_connected_refuted : exists env root m (cb : cbfun nat nat) ks outs s p q i,
  compile env root = Some m /\ logs_transitions env root 0 /\ exits_quietly cb /\ single env root /\ no_history env root /\
  never_sets ks /\ session cb m 0 300 0 0 ks = Done outs s /\ first_initial env root = Some i /\
  at_place m s 0 = Some (p, q) /\ ~ connected i (output 0 (rt_trace s)) q.
Proof. exact composite_refuted. Qed.
Print Assumptions C64_connected_refuted.

Example C64_applies : single Logging.env 50 /\ no_history Logging.env 50 /\ no_composite_source Logging.env 50 /\
  logs_transitions Logging.env 50 0 /\ exits_quietly agrees /\
  exists m outs s, compile Logging.env 50 = Some m /\ session agrees m 0 300 0 0 [pe 1; pe 3; pe 1; pe 2] = Done outs s /\
  at_place m s 0 = Some (50, SState 1) /\
  output 0 (rt_trace s) = [(SState 1, EUser 1, SState 2); (SState 2, EUser 3, SState 2); (SState 2, EUser 2, SState 1)].
Proof. exact logging. Qed.
Example C64_applies_regions : logged agrees Examples.Defer.env 50 [pe 2; pe 4; pe 1] (fun outs m s =>
  (Nat.leb (max_initials m) 255 = true /\ has_history m = false) /\
  at_place m s 0 = Some (50, SState 1) /\ at_place m s 1 = Some (50, SState 22) /\
  output 0 (rt_trace s) = [(SState 21, EUser 4, SState 22); (SState 1, EUser 1, SState 2); (SState 2, EUser 2, SState 1)]).
Proof. exact deferred_session. Qed.
