(** C72: a composite as a machine of its own. *)

From Coq Require Import List Arith NArith Bool.
From Verif Require Import Types Static Dispatch Runtime Dsl Examples IndexFacts Spec DispatchFacts Semantics Reach
  Reorder Dead ReorderDemo Part PartFacts PartCheck PartClosed PartDemo.
Import ListNotations.

(** C72. A composite [c] of the machine of [root] whose events and completion have inside
    [c] the candidates they have in the machine of [c] alone.  While the machine of [root] is
    in [c], it and the machine of [c], started in step, answer every sequence of the part's
    events, queries, [set]s and changes of dependency alike, make the same calls of user
    code with the same arguments, and stay in step.  If candidates are repeated in the whole,
    guards that change nothing must be assumed, and only the other calls are the same. *)
Theorem C72_part : forall again E env root c m m',
  compile env root = Some m -> compile env c = Some m' -> self_contained again E env root c ->
  forall V W (cb : cbfun V W) vnone, (again = true -> guards_look cb) ->
  forall pre ds d0 s s' fuel ks, running cb env root m vnone ds d0 s -> running cb env c m' vnone ds d0 s' ->
  in_step again E env root c m m' pre s s' -> Forall (own_call E env root c (length (rt_cur s'))) ks ->
  same_run again E env root c m m' pre (run cb m vnone fuel ks s) (run cb m' vnone fuel ks s').
Proof. exact @run_part. Qed.
Print Assumptions C72_part.

(** So the whole, having just entered [c], behaves as a new machine of [c]. *)
Theorem C72_entered : forall again E env root c m m',
  compile env root = Some m -> compile env c = Some m' -> self_contained again E env root c ->
  forall V W (cb : cbfun V W) vnone, (again = true -> guards_look cb) ->
  forall fuel0 fuel d ks s s', running cb env root m vnone [d] d s -> few_regions env c ->
  construct m' fuel0 d (rt_world s) = Done tt s' -> just_entered env root c m (length (rt_cur s')) s ->
  Forall (own_call E env root c (length (rt_cur s'))) ks ->
  same_run again E env root c m m' (counted again (rt_trace s)) (run cb m vnone fuel ks s) (run cb m' vnone fuel ks s').
Proof. exact @entered_run. Qed.
Print Assumptions C72_entered.

(** It suffices that the other tables lead into the part through [c] only, have no rows about
    the events that start inside, and that no internal rows about the events are offered
    inside; with completion, regions and handler as in the part.  If one row only leads to
    [c], no candidate is repeated. *)
Theorem C72_closed : forall E env root c m m', compile env root = Some m -> compile env c = Some m' ->
  closed E env root c -> fitting E env root c ->
  self_contained true E env root c /\ (doors env c root (table env root) 1 -> self_contained false E env root c).
Proof. exact closed_part. Qed.
Print Assumptions C72_closed.

(** Checks for given programs. *)
Theorem C72_check : forall again evs env root c, part_check again evs env root c = true ->
  self_contained again (fun e => In e evs) env root c.
Proof. exact part_sound. Qed.
Print Assumptions C72_check.
Theorem C72_closed_check : forall evs env root c, closed_check evs env root c = true ->
  closed (fun e => In e evs) env root c /\ fitting (fun e => In e evs) env root c.
Proof. exact closed_sound. Qed.
Print Assumptions C72_closed_check.

(** Two regions, a composite inside, history, deferral, completion, internal rows, two rows
    that lead to [c]. *)
Example C72_applies :
  self_contained true (fun e => In e sub_events) sub_env 50 11 /\ guards_look ex_cb /\
  exists m m' s s', entered sub_events ex_cb sub_env 50 11 m m' sub_calls s s' /\
  exists outs t, run ex_cb m 0 300 sub_calls s = Done outs t /\ length (counted true (rt_trace t)) = 13.
Proof.
  split; [apply part_sound; vm_compute; reflexivity|]. split; [exact ex_look|].
  assert (H : match scene ex_cb sub_events sub_env 50 11 [pe 7; pe 7; pe 2; KSet 1 11 (state 30)] sub_calls with
    Some (inl (Some (_, l)), _) => length l = 13 | _ => False end) by (vm_compute; reflexivity).
  destruct (scene _ _ _ _ _ _ _) as [[[[[o l]|]|] b]|] eqn:E; try contradiction.
  apply scene_facts in E. destruct E as (m & m' & s & s' & X & Ea & _). exists m, m', s, s'. split; [exact X|].
  destruct (run ex_cb m 0 300 sub_calls s) as [outs t| | |]; try discriminate. exists outs, t. split; [reflexivity|].
  unfold view in Ea. cbn [app] in Ea. injection Ea as _ <-. exact H.
Qed.
(** One row leads to [c]: all calls are the same, those of guards too. *)
Example C72_door_applies :
  closed (fun e => In e door_events) door_env 50 11 /\ fitting (fun e => In e door_events) door_env 50 11 /\
  doors door_env 11 50 (table door_env 50) 1 /\
  exists m m' s s', entered door_events ex_cb door_env 50 11 m m' door_calls s s' /\
  exists outs t, run ex_cb m 0 300 door_calls s = Done outs t /\ length (counted true (rt_trace t)) = 9.
Proof.
  assert (C : closed_check door_events door_env 50 11 = true) by (vm_compute; reflexivity). apply closed_sound in C. destruct C as [C1 C2].
  split; [exact C1|]. split; [exact C2|]. split; [exact door_one|].
  assert (H : match scene ex_cb door_events door_env 50 11 [pe 2] door_calls with
    Some (inl (Some (_, l)), _) => length l = 9 | _ => False end) by (vm_compute; reflexivity).
  destruct (scene _ _ _ _ _ _ _) as [[[[[o l]|]|] b]|] eqn:E; try contradiction.
  apply scene_facts in E. destruct E as (m & m' & s & s' & X & Ea & _). exists m, m', s, s'. split; [exact X|].
  destruct (run ex_cb m 0 300 door_calls s) as [outs t| | |]; try discriminate. exists outs, t. split; [reflexivity|].
  unfold view in Ea. cbn [app] in Ea. injection Ea as _ <-. exact H.
Qed.

(** The conditions are needed.  Guards that are asked again may answer otherwise; *)
Theorem C72_guards_refuted : exists E env root c, self_contained true E env root c /\ parts_company false E env root c.
Proof. exists E3, twice, 50, 11. split; [exact twice_contained|exact twice_parts]. Qed.
Print Assumptions C72_guards_refuted.
(** a row outside may start at [c], *)
Theorem C72_rows_at_refuted : exists E env root c,
  (used env root c /\ ~ used env c root /\ one_entrance env root c /\ no_rows_at_pseudo E env root c /\ no_internal_rows E env root c /\
   fitting E env root c) /\ parts_company true E env root c.
Proof. exists E3, above, 50, 11. split; [exact above_fits|exact above_parts]. Qed.
Print Assumptions C72_rows_at_refuted.
(** or at an exit state of [c], *)
Theorem C72_pseudo_refuted : exists E env root c,
  (used env root c /\ ~ used env c root /\ one_entrance env root c /\ no_rows_at E env root c /\ no_internal_rows E env root c /\
   fitting E env root c) /\ parts_company true E env root c.
Proof. exists E34, leaving, 50, 11. split; [exact leaving_fits|exact leaving_parts]. Qed.
Print Assumptions C72_pseudo_refuted.
(** or lead to a composite inside [c], which changes the order of the rows there; *)
Theorem C72_entrance_refuted : exists E env root c,
  (used env root c /\ ~ used env c root /\ no_rows_at E env root c /\ no_rows_at_pseudo E env root c /\ no_internal_rows E env root c /\
   fitting E env root c) /\ parts_company true E env root c.
Proof. exists E34, back_door, 50, 11. split; [exact back_door_fits|exact back_door_parts]. Qed.
Print Assumptions C72_entrance_refuted.
(** internal rows of a composite that is entered through a pseudo state only are not offered
    in the whole; *)
Theorem C72_internal_refuted : exists E env root c,
  (used env root c /\ ~ used env c root /\ one_entrance env root c /\ no_rows_at E env root c /\ no_rows_at_pseudo E env root c /\
   fitting E env root c) /\ parts_company true E env root c.
Proof. exists E34, unnamed_composite, 50, 11. split; [exact unnamed_composite_fits|exact unnamed_composite_parts]. Qed.
Print Assumptions C72_internal_refuted.
(** internal completion takes place only if some table has a row for completion; *)
Theorem C72_completion_refuted : exists E env root c,
  (used env root c /\ own_events E env root c /\ own_choices false E env root c /\ own_regions env root c /\ stays_inside env c /\
   own_handler env root c) /\ parts_company true E env root c.
Proof. exists E3, inner_completion, 50, 11. split; [exact inner_completion_fits|exact inner_completion_parts]. Qed.
Print Assumptions C72_completion_refuted.
(** a history state outside makes moves inside the part undefined that were defined; *)
Theorem C72_regions_refuted : exists E env root c,
  (used env root c /\ own_events E env root c /\ own_choices false E env root c /\ own_completion env root c /\ stays_inside env c /\
   own_handler env root c) /\ parts_company true E env root c.
Proof. exists E3, outer_history, 50, 11. split; [exact outer_history_fits|exact outer_history_parts]. Qed.
Print Assumptions C72_regions_refuted.
(** the handler for unexpected events is the root's. *)
Theorem C72_handler_refuted : exists E env root c,
  (used env root c /\ own_events E env root c /\ own_choices false E env root c /\ own_completion env root c /\ own_regions env root c /\
   stays_inside env c) /\ parts_company true E env root c.
Proof. exists E3, outer_handler, 50, 11. split; [exact outer_handler_fits|exact outer_handler_parts]. Qed.
Print Assumptions C72_handler_refuted.
