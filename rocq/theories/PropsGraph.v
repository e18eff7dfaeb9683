(** C59: where the regions can be. *)

From Coq Require Import List Arith NArith Bool.
From Verif Require Import Types Static Dispatch Runtime Dsl Examples Spec DispatchFacts Semantics Reach
  TableFacts Demo Safe SafeDemo Exact Graph GraphExact GraphDemo.
Import ListNotations.

(** C59. A region is only in places it can get to by rows that can be taken, from
    where it was put; between calls ... *)
Theorem C59_between : forall env root m, compile env root = Some m ->
  forall V W (cb : cbfun V W) vnone fuel d w ks outs s r pl, few_regions env root ->
  session cb m vnone fuel d w ks = Done outs s -> at_place m s r = Some pl ->
  visitable env root r (put env root ks r) pl.
Proof. exact session_visitable. Qed.
Print Assumptions C59_between.
(** ... and while an event is handled, whatever user code does. *)
Theorem C59_during : forall env root m, compile env root = Some m ->
  forall V W (cb : cbfun V W) vnone ks ds d0 s r pl, few_regions env root ->
  amid cb m vnone ks ds d0 s -> at_place m s r = Some pl ->
  visitable env root r (put env root ks r) pl.
Proof. exact amid_visitable. Qed.
Print Assumptions C59_during.
(** A set of places that passes the check is never left. *)
Theorem C59_check : forall env root m, compile env root = Some m ->
  forall V W (cb : cbfun V W) vnone ks ds d0 s r R pl, few_regions env root ->
  closed_check m r R = true -> (forall r' p q, In (KSet r' p q) ks -> to_region r' = r -> In (p, q) R) ->
  amid cb m vnone ks ds d0 s -> at_place m s r = Some pl -> In pl R.
Proof. exact amid_closed. Qed.
Print Assumptions C59_check.
(** One region, no history: the region can be found between two calls exactly in the
    places of the graph. *)
Theorem C59_exact : forall env root m, compile env root = Some m -> forall pl,
  single env root -> no_history env root -> well_formed env root ->
  stays env root pl <->
  exists V W (cb : cbfun V W) vnone fuel d w ks outs s, never_throws cb /\ never_sets ks /\
    session cb m vnone fuel d w ks = Done outs s /\ at_place m s 0 = Some pl.
Proof. exact stays_exactly. Qed.
Print Assumptions C59_exact.
Theorem C59_rest_check : forall env root m, compile env root = Some m ->
  forall V W (cb : cbfun V W) vnone fuel d w ks outs s A S pl,
  single env root -> no_history env root -> rest_check m A S = true ->
  never_throws cb -> never_sets ks -> session cb m vnone fuel d w ks = Done outs s ->
  at_place m s 0 = Some pl -> In pl S.
Proof. exact session_rest_check. Qed.
Print Assumptions C59_rest_check.

(** States 2 and 6 can never be entered; region 1 never is in states 1 and 2. *)
Example C59_applies_check : exists m, compile Maze.env 50 = Some m /\
  max_initials m <= 255 /\ closed_check m 0 Maze.arriving = true /\
  In (SState 2) (states m) /\ In (SState 6) (states m).
Proof. apply graph_demo. vm_compute. intuition. Qed.
Example C59_applies_regions : exists m, compile Halls.env 50 = Some m /\
  max_initials m <= 255 /\ closed_check m 1 Halls.second = true /\
  exists outs s, session agrees m 0 300 0 0 [pe 3; pe 1] = Done outs s /\ at_place m s 1 = Some (11, SState 4).
Proof.
  apply graph_demo. vm_compute. split; [repeat constructor|]. split; [reflexivity|]. eexists. eexists. split; reflexivity.
Qed.

(** State 3 is passed through, but the machine does not stay there; it stays in 5. *)
Example C59_applies_exact : single Maze.env 50 /\ no_history Maze.env 50 /\ well_formed Maze.env 50 /\
  stays Maze.env 50 (50, SState 5) /\ ~ stays Maze.env 50 (50, SState 3).
Proof. exact maze_stays. Qed.
