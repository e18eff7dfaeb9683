(** C51, C52, C53: user code that uses the machine it is called from. *)

From Coq Require Import List Arith NArith Bool.
From Verif Require Import Types Static Dispatch Runtime Dsl Examples Spec DispatchFacts Semantics Reach
  Demo Safe SafeDemo Reentry ReentryFacts ReentrySafe ReentryLast ReentryDemo.
Import ListNotations.

(** C51. *)
Theorem C51_conservative : forall V W (cb : cbfun V W) m vnone depth fuel d w ks,
  r_session (plain cb) m vnone (S depth) fuel d w ks = session cb m vnone fuel d w ks.
Proof. exact @plain_session. Qed.
Print Assumptions C51_conservative.
Theorem C51_budget : forall V W (cb : rcbfun V W) m vnone depth depth' fuel fuel' d w ks,
  r_session cb m vnone depth fuel d w ks <> Timeout -> r_session cb m vnone depth' fuel' d w ks <> Timeout ->
  r_session cb m vnone depth fuel d w ks = r_session cb m vnone depth' fuel' d w ks.
Proof. exact @r_session_stable. Qed.
Print Assumptions C51_budget.
Example C51_applies : r_outs (plain ex_cb) Basic.env Basic.Main [pe 4; pe 1; pe 1; is_ Basic.SubSub 1; pe 2]
  = Some [T; T; T; T; T].
Proof. vm_compute. reflexivity. Qed.
Example C51_nested : r_outs Post.cb Post.env 50 [pe 1; is_ 50 3] = Some [T; T].
Proof. vm_compute. reflexivity. Qed.

(** C52. *)
Theorem C52_safe : forall V W (cb : rcbfun V W) env root m, compile env root = Some m ->
  forall vnone depth fuel d w ks, well_formed env root ->
  (forall c a v w, uses (well_typed env root) (cb c a v w)) -> guards_leave_tables cb ->
  Forall (well_typed env root) ks ->
  match r_session cb m vnone depth fuel d w ks with
  | Done _ s => sound_state env root m s
  | Timeout => True
  | _ => False
  end.
Proof. exact @reentrant_safe. Qed.
Print Assumptions C52_safe.
Example C52_applies : well_formed Post.env 50 /\
  (forall c a v w, uses (well_typed Post.env 50) (Post.cb_ok c a v w)) /\ guards_leave_tables Post.cb_ok /\
  (forall c a v w, uses (well_typed Post.env 50) (Post.cb c a v w)) /\ guards_leave_tables Post.cb.
Proof.
  split; [apply well_formed_intro; vm_compute; reflexivity|].
  exact (conj uses_ok (conj leaves_ok (conj uses_cb leaves_cb))).
Qed.
Example C52_run : r_outs Post.cb_ok Post.env 50 [pe 1; pe 2; is_ 50 3; pe 3; KStatus]
  = Some [T; T; F; T; OStatus [(0, 1%N, 0%N, 1%N)]].
Proof. vm_compute. reflexivity. Qed.

(** Both parts of [guards_leave_tables] are needed. *)
Theorem C52_guards_needed_refuted : exists env root m cb ks,
  compile env root = Some m /\ well_formed env root /\
  (forall c a v w, uses (well_typed env root) (cb c a v w)) /\ Forall (well_typed env root) ks /\
  (forall ty val a v w, uses no_event (cb (CGuard ty val) a v w)) /\
  r_session cb m 0 3 3 0 0 ks = Undef UBIndex.
Proof. exact guard_sets_dependency. Qed.
Print Assumptions C52_guards_needed_refuted.
Theorem C52_events_needed_refuted : exists env root m cb ks,
  compile env root = Some m /\ well_formed env root /\
  (forall c a v w, uses (well_typed env root) (cb c a v w)) /\ Forall (well_typed env root) ks /\
  (forall ty val a v w, uses no_dependency (cb (CGuard ty val) a v w)) /\
  r_session cb m 0 3 3 0 0 ks = Undef UBIndex.
Proof. exact guard_causes_dependency. Qed.
Print Assumptions C52_events_needed_refuted.

(** C53.  An event processed by the last callback of a transition is processed as if it
    came right after. *)
Theorem C53_last : forall V W (cb : cbfun V W) env root m, compile env root = Some m ->
  forall f k vnone depth fuel d w ks os s e v pl, well_formed env root ->
  well_typed env root k -> Forall (well_typed env root) ks ->
  r_session (posting f k cb) m vnone depth fuel d w ks = Done os s ->
  ~ region_exists env root 1 -> ~ (exists x, declared env root x /\ x_ev x = ENone) ->
  ~ (exists x c l, declared env root x /\ unmarked (x_src x) = SState c /\ cd_defer (lookup env c) = Some l) ->
  at_place m s 0 = Some pl -> event_of env root e ->
  (forall x o, offered env root e pl (CRow x o) ->
     (exists ty, x_act x = Action ty (ACall f)) /\ entry_call env x = [] /\ initial_entry_call env x = []) ->
  2 <= fuel ->
  r_call (posting f k cb) m vnone (S depth) fuel (KProcess e v) s =
  match do_call_catch cb m vnone fuel (KProcess e v) s with
  | Done (OBool true) s1 =>
      bind (r_call (posting f k cb) m vnone depth fuel k s1) (fun _ s2 => Done (OBool true) s2)
  | r => r
  end.
Proof. exact @session_last. Qed.
Print Assumptions C53_last.
Example C53_last_applies : well_formed Last.env 50 /\ well_typed Last.env 50 (pe 2) /\ ~ region_exists Last.env 50 1 /\
  ~ (exists x, declared Last.env 50 x /\ x_ev x = ENone) /\
  ~ (exists x c l, declared Last.env 50 x /\ unmarked (x_src x) = SState c /\ cd_defer (lookup Last.env c) = Some l) /\
  event_of Last.env 50 (EUser 1) /\
  (forall x o, offered Last.env 50 (EUser 1) (50, SState 1) (CRow x o) ->
     (exists ty, x_act x = Action ty (ACall 1)) /\ entry_call Last.env x = [] /\ initial_entry_call Last.env x = []) /\
  exists x o, offered Last.env 50 (EUser 1) (50, SState 1) (CRow x o).
Proof. exact Last.conditions. Qed.
Example C53_last_run :
  r_after (posting 1 (pe 2) ex_cb) Last.env 50 [pe 3] = Some ([], Some (50, SState 1)) /\
  r_after (posting 1 (pe 2) ex_cb) Last.env 50 [pe 3; pe 1]
    = Some ([CExit 1; CAction 1; CExit 2; CAction 2], Some (50, SState 3)) /\
  r_after (plain ex_cb) Last.env 50 [pe 3; pe 1; pe 2]
    = Some ([CExit 1; CAction 1; CExit 2; CAction 2], Some (50, SState 3)).
Proof. vm_compute. repeat split. Qed.
(** In general an event processed by an action is processed before the action's own
    transition is complete: S3 is entered before S2. *)
Theorem C53_completion_refuted : exists env root cb ks,
  well_formed env root /\ (forall c a v w, uses (well_typed env root) (cb c a v w)) /\ guards_leave_tables cb /\
  r_after cb env root ks =
    Some ([CAction 1; CExit 2; CAction 2; CEntry 3; CEntry 2], Some (50, SState 3)).
Proof.
  exists Post.env, 50, Post.cb, [pe 1]. split; [apply well_formed_intro; vm_compute; reflexivity|].
  split; [exact uses_cb|]. split; [exact leaves_cb|]. vm_compute. reflexivity.
Qed.
Print Assumptions C53_completion_refuted.
(** An event processed by a guard does not stop its row from being taken: S1 is left
    twice, S3 never. *)
Theorem C53_source_refuted : exists env root cb ks,
  well_formed env root /\ (forall c a v w, uses (well_typed env root) (cb c a v w)) /\ guards_leave_tables cb /\
  r_after cb env root ks =
    Some ([CGuard 1 1; CExit 1; CAction 2; CEntry 3; CExit 1; CEntry 2], Some (50, SState 2)).
Proof.
  exists Post.env, 50, Post.cb, [pe 3]. split; [apply well_formed_intro; vm_compute; reflexivity|].
  split; [exact uses_cb|]. split; [exact leaves_cb|]. vm_compute. reflexivity.
Qed.
Print Assumptions C53_source_refuted.
(** Nothing bounds the nesting. *)
Theorem C53_bounded_refuted : exists env root m cb ks,
  compile env root = Some m /\ well_formed env root /\
  (forall c a v w, uses (well_typed env root) (cb c a v w)) /\ Forall (well_typed env root) ks /\
  guards_leave_tables cb /\
  forall depth fuel, r_session cb m 0 depth fuel 0 0 ks = Timeout.
Proof. exact unbounded_nesting. Qed.
Print Assumptions C53_bounded_refuted.
