(** C95: when only the newest dependency counts. *)

From Coq Require Import List Arith NArith Bool.
From Verif Require Import Types Static Dispatch Runtime Spec DispatchFacts Semantics Reach ReachFacts Dsl Examples Demo
  Newest NewestFacts NewestDemo.
Import ListNotations.

(** The guards do not look at the dependency and change nothing when they refuse. Two
    machines in the same state (but for the tables and the guards asked so far) with the same
    newest dependency behave alike, whatever their older dependencies are: the same answers,
    the same calls of actions, on_entry, on_exit and the handler with the same arguments, and
    the same undefined behaviour, for every sequence of calls. *)
Theorem C95_newest : forall V W (cb : cbfun V W) env root m vnone d l l' d0 d0' s s',
  ignores_dependency cb -> refuses_silently cb ->
  running cb env root m vnone (d :: l) d0 s -> running cb env root m vnone (d :: l') d0' s' -> same_but_guards s s' ->
  forall fuel ks, same_run (run cb m vnone fuel ks s) (run cb m vnone fuel ks s').
Proof. exact @newest_counts. Qed.
Print Assumptions C95_newest.

(** Of several calls of set_dependency in a row only the last counts. *)
Theorem C95_overwritten : forall V W (cb : cbfun V W) env root m vnone ds d0 s,
  ignores_dependency cb -> refuses_silently cb -> running cb env root m vnone ds d0 s ->
  forall l d fuel ks, same_run
    (without (length l) (run cb m vnone fuel (map (@KSetDep V) l ++ KSetDep d :: ks) s))
    (run cb m vnone fuel (KSetDep d :: ks) s).
Proof. exact @overwritten. Qed.
Print Assumptions C95_overwritten.

(** Setting the newest dependency again changes nothing. *)
Theorem C95_again : forall V W (cb : cbfun V W) env root m vnone d l d0 s,
  ignores_dependency cb -> refuses_silently cb -> running cb env root m vnone (d :: l) d0 s ->
  forall fuel ks, same_run (without 1 (run cb m vnone fuel (KSetDep d :: ks) s)) (run cb m vnone fuel ks s).
Proof. exact @set_again. Qed.
Print Assumptions C95_again.

(** A guard that looks at the dependency: a dependency that was set and replaced before any
    event was processed still enables a row, and its action gets that dependency. *)
Theorem C95_dependent_refuted : exists cb env root, refuses_silently cb /\
  demo_state cb env root [] (fun m s => deps_run (V := nat) [] [0] = [0] /\
  (exists s', run cb m 0 300 [KSetDep 7; KSetDep 0; pe 1] s = Done [OUnit; OUnit; OBool true] s' /\
     map (fun k => a_dep (k_args k)) (rt_trace s') = [0; 7; 7]) /\
  exists s', run cb m 0 300 [KSetDep 0; pe 1] s = Done [OUnit; OBool false] s').
Proof. exists seven_cb, Gate.env, 50. split; [exact seven_silent|exact seven_remembered]. Qed.
Print Assumptions C95_dependent_refuted.

(** A guard that changes something when it refuses: it is asked again. *)
Theorem C95_counting_refuted : exists cb env root, ignores_dependency cb /\
  demo_state cb env root [] (fun m s =>
  (exists s', run cb m 0 300 [KSetDep 0; pe 1] s = Done [OUnit; OBool true] s') /\
  exists s', run cb m 0 300 [pe 1] s = Done [OBool false] s').
Proof. exists second_cb, Gate.env, 50. split; [exact second_ignores|exact second_asked]. Qed.
Print Assumptions C95_counting_refuted.

Example C95_guards : ignores_dependency ex_cb /\ refuses_silently ex_cb.
Proof. split; [exact ex_ignores|exact ex_silent]. Qed.
(** The refusing guard of [Guards] is asked once by the one machine and three times by the other. *)
Example C95_applies : demo_states ex_cb Guards.env 50 [KSetDep 7; KSetDep 0] [] (fun m s s' => same_but_guards s s' /\
  deps_run (V := nat) [KSetDep 7; KSetDep 0] [0] = [0; 7; 0] /\
  exists t t', run ex_cb m 0 300 [pe 3; pe 1] s = Done [OBool false; OBool true] t /\
    run ex_cb m 0 300 [pe 3; pe 1] s' = Done [OBool false; OBool true] t' /\
    length (rt_trace t) = 4 /\ length (rt_trace t') = 2 /\ rt_tabs t <> rt_tabs t').
Proof. exact guards_alike. Qed.
