(** C90: programs that can be read as UML state machines behave as such. *)

From Coq Require Import List Arith NArith Bool.
From Verif Require Import Types Static Dispatch Runtime Dsl Examples Programs Spec Semantics Reach Demo BalanceDemo Uml UmlFacts UmlDemo.
Import ListNotations.

(** C90. Uml.v says what a UML state machine with these tables does: the enabled transition
    that starts innermost leaves all states from the innermost active one up to its source,
    runs its action, enters all states from its target down, and completion transitions
    follow until none is enabled.  For programs that meet [uml_like], with guards that change
    nothing and user code that does not throw, every call of process_event after any calls
    (set_current_state excepted) does just that, to the calls of user code, to the event, to
    the data of user code and to the active states; and if it returns false, no transition
    was enabled and nothing was done. *)
Theorem C90_event : forall V W (cb : cbfun V W) says, pure cb says -> throws_nothing cb ->
  forall env root m vnone, compile env root = Some m -> uml_like env root ->
  forall fuel d w ks os s fuel' e v o s', (forall r p q, ~ In (KSet r p q) ks) ->
  session cb m vnone fuel d w ks = Done os s -> do_call_catch cb m vnone fuel' (KProcess e v) s = Done o s' ->
  exists k k' t, in_config m root s k /\ in_config m root s' k' /\ rt_trace s' = rt_trace s ++ t /\
    ((o = OBool true /\ exists v', reacts env root cb says vnone e v k (rt_world s) (deeds t) v' k' (rt_world s')) \/
     (o = OBool false /\ k' = k /\ deeds t = [] /\ stuck env root (holds says v (rt_world s)) e k)).
Proof. exact @event_uml. Qed.
Print Assumptions C90_event.

(** It starts in the initial state, and no completion transition is due. *)
Theorem C90_start : forall V W (cb : cbfun V W) env root m vnone, compile env root = Some m -> uml_like env root ->
  forall fuel d w os s, session cb m vnone fuel d w [] = Done os s ->
  exists i, initial_states env root = [SState i] /\ in_config m root s [i] /\ rt_trace s = [] /\ forall G, stuck env root G ENone [i].
Proof. exact @start_uml. Qed.
Print Assumptions C90_start.

(** A check of the tables that implies [uml_like]. *)
Theorem C90_check : forall env root, uml_ok env root = true -> uml_like env root.
Proof. exact uml_ok_sound. Qed.
Print Assumptions C90_check.

(** The CD player of example/cdplayer is a UML state machine. *)
Theorem C90_player : forall V W (f : callee -> args -> V -> W -> W) says m vnone,
  (forall ty val a v w, f (CGuard ty val) a v w = w) -> (forall ty val v w, says ty val v w = true) ->
  compile CdPlayer.env CdPlayer.CdPlayer = Some m ->
  forall fuel d w ks os s fuel' e v o s', (forall r p q, ~ In (KSet r p q) ks) ->
  session (plain_user f) m vnone fuel d w ks = Done os s -> do_call_catch (plain_user f) m vnone fuel' (KProcess e v) s = Done o s' ->
  exists k k' t, in_config m CdPlayer.CdPlayer s k /\ in_config m CdPlayer.CdPlayer s' k' /\ rt_trace s' = rt_trace s ++ t /\
    ((o = OBool true /\ exists v', reacts CdPlayer.env CdPlayer.CdPlayer (plain_user f) says vnone e v k (rt_world s) (deeds t) v' k' (rt_world s')) \/
     (o = OBool false /\ k' = k /\ deeds t = [] /\ stuck CdPlayer.env CdPlayer.CdPlayer (holds says v (rt_world s)) e k)).
Proof. exact @player_uml. Qed.
Print Assumptions C90_player.

(** Where the library is no UML state machine (one program per line of [uml_like]): on_exit
    of a source written with a star is not called; *)
Theorem C90_marked_refuted : exists (cb : cbfun nat nat) says env ks e up b, pure cb says /\ throws_nothing cb /\ deviates cb says env 50 ks e up b.
Proof. exists ex_cb, by_type, Odd.marked, [], (EUser 1), [], 1. exact (conj ex_pure (conj ex_calm marked_odd)). Qed.
Print Assumptions C90_marked_refuted.
(** nor on_exit of the state inside a composite that is left; *)
Theorem C90_exits_refuted : exists (cb : cbfun nat nat) says env ks e up b, pure cb says /\ throws_nothing cb /\ deviates cb says env 50 ks e up b.
Proof. exists ex_cb, by_type, Odd.around, [pe 1], (EUser 2), [11], 4. exact (conj ex_pure (conj ex_calm around_odd)). Qed.
Print Assumptions C90_exits_refuted.
(** a row of the composite can win against a row of the state in it; *)
Theorem C90_levels_refuted : exists (cb : cbfun nat nat) says env ks e up b, pure cb says /\ throws_nothing cb /\ deviates cb says env 50 ks e up b.
Proof. exists ex_cb, by_type, Odd.outer_first, [pe 1], (EUser 2), [11], 4. exact (conj ex_pure (conj ex_calm outer_first_odd)). Qed.
Print Assumptions C90_levels_refuted.
(** rows of a composite do not apply two levels further in; *)
Theorem C90_depth_refuted : exists (cb : cbfun nat nat) says env ks e up b, pure cb says /\ throws_nothing cb /\ deviates cb says env 50 ks e up b.
Proof. exists ex_cb, by_type, Odd.nested, [pe 1; pe 3], (EUser 2), [11; 12], 6. exact (conj ex_pure (conj ex_calm nested_odd)). Qed.
Print Assumptions C90_depth_refuted.
(** the anonymous row of a composite does not wait for the states in it; *)
Theorem C90_completion_refuted : exists (cb : cbfun nat nat) says env ks e up b, pure cb says /\ throws_nothing cb /\ deviates cb says env 50 ks e up b.
Proof. exists ex_cb, by_type, Odd.unfinished, [], (EUser 1), [], 1. exact (conj ex_pure (conj ex_calm unfinished_odd)). Qed.
Print Assumptions C90_completion_refuted.
(** of two internal rows that differ in the values of their functors only, one is lost; *)
Theorem C90_types_refuted : exists (cb : cbfun nat nat) says env ks e up b, pure cb says /\ throws_nothing cb /\ deviates cb says env 50 ks e up b.
Proof. exists val_cb, by_value, Odd.merged, [pe 1], (EUser 5), [], 2. exact (conj val_pure (conj val_calm merged_odd)). Qed.
Print Assumptions C90_types_refuted.
(** the anonymous row of the initial state is not taken at the start. *)
Theorem C90_start_refuted : exists env m s, compile env 50 = Some m /\ session ex_cb m 0 300 0 0 [] = Done [] s /\ in_config m 50 s [1] /\ rt_trace s = [] /\
  ~ stuck env 50 (fun _ => true) ENone [1].
Proof. exists Odd.at_start. exact at_start_odd. Qed.
Print Assumptions C90_start_refuted.

(** The theorems have programs: the regression test with an anonymous row in a composite. *)
Example C90_applies : exists m, compile Once.env 50 = Some m /\ uml_like Once.env 50 /\ pure ex_cb by_type /\ throws_nothing ex_cb /\
  exists outs s s' t, session ex_cb m 0 300 0 0 [pe 1] = Done outs s /\ in_config m 50 s [11; 2] /\
    do_call_catch ex_cb m 0 300 (pe 3) s = Done (OBool true) s' /\ in_config m 50 s' [12; 2] /\ rt_trace s' = rt_trace s ++ t /\
    map k_callee (deeds t) = [CAction 0; CAction 0; CAction 42].
Proof.
  eexists. split; [vm_compute; reflexivity|]. split; [apply C90_check; vm_compute; reflexivity|]. split; [exact ex_pure|]. split; [exact ex_calm|].
  eexists. eexists. eexists. eexists. split; [vm_compute; reflexivity|]. split; [exists (11, SState 2); split; [vm_compute; reflexivity|constructor; discriminate]|].
  split; [vm_compute; reflexivity|]. split; [exists (12, SState 2); split; [vm_compute; reflexivity|constructor; discriminate]|].
  split; [vm_compute; reflexivity|]. vm_compute. reflexivity.
Qed.
(** on_entry, on_exit, internal rows of a state and of a composite, guards. *)
Example C90_rich : exists m, compile Busy.env 50 = Some m /\ uml_like Busy.env 50 /\
  exists outs s s' t, session ex_cb m 0 300 0 0 [pe 1; pe 5; pe 6; pe 7; pe 2; pe 3] = Done outs s /\ outs = map OBool [true; true; true; false; true; true] /\
    do_call_catch ex_cb m 0 300 (pe 4) s = Done (OBool true) s' /\ rt_trace s' = rt_trace s ++ t /\
    map k_callee (rt_trace s) = [CAction 1; CEntry 11; CEntry 4; CAction 5; CAction 6; CGuard 0 0; CAction 2; CEntry 5; CAction 4; CEntry 4; CExit 11; CAction 3; CEntry 2] /\
    map k_callee t = [CExit 2; CAction 9].
Proof.
  eexists. split; [vm_compute; reflexivity|]. split; [apply C90_check; vm_compute; reflexivity|].
  eexists. eexists. eexists. eexists. split; [vm_compute; reflexivity|]. split; [reflexivity|]. split; [vm_compute; reflexivity|].
  split; [vm_compute; reflexivity|]. split; vm_compute; reflexivity.
Qed.
