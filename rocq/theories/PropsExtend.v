(** C61: rows that are added for one event. *)

From Coq Require Import List Arith NArith Bool.
From Verif Require Import Types Static Dispatch Runtime Dsl Examples Spec Amalgam AmalgamDemo Extend ExtendFacts ExtendRun ExtendDemo.
Import ListNotations.

(** C61. Rows for an event that the program did not have, added anywhere in the tables
    between states that the tables name before them, change nothing for clients that do
    not send this event: the same answers, exceptions and undefined behaviour, the same
    calls of user code with the same arguments in the same order, the same regions,
    history, waiting events and objects. *)
Theorem C61_other_events : forall V W (cb : cbfun V W) vnone e env env' root m m',
  compile env root = Some m -> compile env' root = Some m' ->
  extends e env env' -> e <> ENone -> ~ event_of env root e ->
  forall fuel d w ks, (forall k, In k ks -> does_not_send e k) ->
  same_result eq (session cb m vnone fuel d w ks) (session cb m' vnone fuel d w ks).
Proof. exact @session_extends. Qed.
Print Assumptions C61_other_events.

Example C61_applies : extends (EUser 9) less_env more_env /\ exists m m' outs s,
  compile less_env 50 = Some m /\ compile more_env 50 = Some m' /\
  session ex_cb m 0 300 0 0 [pe 3; pe 2; pe 3; pe 6; pe 4; pe 5; KSetDep 3; pe 6; pe 4; KStatus] = Done outs s /\
  length (rt_trace s) = 5 /\ length (mc_flat m) = 10 /\ length (mc_flat m') = 15.
Proof.
  split; [exact more_extends|].
  assert (H : match compile less_env 50, compile more_env 50 with
    | Some m, Some m' =>
        match session ex_cb m 0 300 0 0 [pe 3; pe 2; pe 3; pe 6; pe 4; pe 5; KSetDep 3; pe 6; pe 4; KStatus] with
        | Done _ s => (length (rt_trace s), length (mc_flat m), length (mc_flat m')) = (5, 10, 15)
        | _ => False
        end
    | _, _ => False
    end) by (vm_compute; reflexivity).
  destruct (compile less_env 50) as [m|], (compile more_env 50) as [m'|]; try contradiction. exists m, m'.
  destruct (session _ _ _ _ _ _ _) as [outs s| | |]; try contradiction. exists outs, s. inversion H. auto 10.
Qed.

(** None of the conditions on the rows can be dropped: a row may not start at a state from
    which no row started, *)
Theorem C61_new_source_refuted : exists env env' root,
  extends_by (fun c b r => r_ev r = EUser 9 /\ ends_known env c b r /\ leads_nowhere env r) env env' /\
  noticed (EUser 9) env env' root.
Proof. exists sink_env, sink_env', 50. split; [exact sink_added|exact sink_noticed]. Qed.
Print Assumptions C61_new_source_refuted.
(** not lead into a composite, *)
Theorem C61_into_composite_refuted : exists env env' root,
  extends_by (fun c b r => r_ev r = EUser 9 /\ starts_known env c b r /\ ends_known env c b r) env env' /\
  noticed (EUser 9) env env' root.
Proof. exists twice_env, twice_env', 50. split; [exact twice_added|exact twice_noticed]. Qed.
Print Assumptions C61_into_composite_refuted.
(** not name a new state, *)
Theorem C61_new_state_refuted : exists env env' root,
  extends_by (fun c b r => r_ev r = EUser 9 /\ starts_known env c b r /\ leads_nowhere env r) env env' /\
  noticed (EUser 9) env env' root.
Proof. exists fresh_env, fresh_env', 50. split; [exact fresh_added|exact fresh_noticed]. Qed.
Print Assumptions C61_new_state_refuted.
(** and not name the initial state of a class with internal rows without its mark. *)
Theorem C61_other_spelling_refuted : exists env env' root,
  extends_by (fun c b r => r_ev r = EUser 9 /\ starts_known env c b r /\ leads_nowhere env r /\
    exists r1, In r1 b /\ r_tgt r = unmarked (r_src r1)) env env' /\
  noticed (EUser 9) env env' root.
Proof. exists mark_env, mark_env', 50. split; [exact mark_added|exact mark_noticed]. Qed.
Print Assumptions C61_other_spelling_refuted.
