(** C71: rows that are never taken. *)

From Coq Require Import List Arith NArith Bool.
From Verif Require Import Types Static Dispatch Runtime Dsl Examples IndexFacts Spec DispatchFacts Semantics Safe SafeObjects SafeDemo
  Reorder Dead ReorderFacts ReorderDemo DeadFacts DeadCheck DeadDemo.
Import ListNotations.

(** C71. Of the candidates of a place those count that come no later than the first deferral
    or row without guard: two programs with the same names in which these are the same
    cannot be told apart. *)
Theorem C71_live : forall V W (cb : cbfun V W) vnone env env' root m m',
  compile env root = Some m -> compile env' root = Some m' ->
  same_frame env env' root -> same_live env env' root -> stays_inside env root ->
  forall fuel d w ks, matching_run m m' (session cb m vnone fuel d w ks) (session cb m' vnone fuel d w ks).
Proof. exact @session_live. Qed.
Print Assumptions C71_live.

(** So a row can be left out if a later row of its table has the same source and event and
    no guard, or its source defers the event; provided that it leads into no composite and
    names no state, event or initial state that is not named elsewhere, and no state with
    internal rows that is not named before. *)
Theorem C71_removed : forall V W (cb : cbfun V W) vnone env env' root m m',
  compile env root = Some m -> compile env' root = Some m' ->
  cleaned env env' -> stays_inside env root ->
  forall fuel d w ks, matching_run m m' (session cb m vnone fuel d w ks) (session cb m' vnone fuel d w ks).
Proof. exact @session_cleaned. Qed.
Print Assumptions C71_removed.

(** The compiler accepts what remains. *)
Theorem C71_accepted : forall env env' root, cleaned env env' ->
  (exists m, compile env root = Some m) -> exists m', compile env' root = Some m'.
Proof. exact cleaned_compiles. Qed.
Print Assumptions C71_accepted.

(** A check for given rows. *)
Theorem C71_check : forall l env env', removals env l = Some env' -> cleaned env env'.
Proof. exact removals_sound. Qed.
Print Assumptions C71_check.

Example C71_applies : exists env' m m' outs s,
  removals long_env unneeded = Some env' /\ cleaned long_env env' /\ stays_inside long_env 50 /\
  compile long_env 50 = Some m /\ compile env' 50 = Some m' /\
  (length (mc_flat m) = 20 /\ length (mc_flat m') = 15) /\
  session ex_cb m 0 300 0 0 long_calls = Done outs s /\ length (rt_trace s) = 9.
Proof.
  assert (H : match removals long_env unneeded with
    | Some env' =>
      match compile long_env 50, compile env' 50 with
      | Some m, Some m' =>
          (length (mc_flat m) = 20 /\ length (mc_flat m') = 15) /\
          match session ex_cb m 0 300 0 0 long_calls with Done _ s => length (rt_trace s) = 9 | _ => False end
      | _, _ => False
      end
    | None => False
    end) by (vm_compute; repeat split).
  destruct (removals long_env unneeded) as [env'|] eqn:E; [|contradiction].
  destruct (compile long_env 50) as [m|], (compile env' 50) as [m'|] eqn:E'; try contradiction. destruct H as [H1 H2].
  destruct (session _ _ _ _ _ _ _) as [outs s| | |] eqn:Es; try contradiction. exists env', m, m', outs, s.
  split; [reflexivity|]. split; [eapply removals_sound; exact E|]. split; [apply stays_intro; vm_compute; reflexivity|].
  split; [reflexivity|]. split; [exact E'|]. split; [exact H1|]. split; [exact Es|exact H2].
Qed.

(** The conditions are needed.  If the later row has a guard, *)
Theorem C71_guarded_refuted : exists env env' root,
  without_by (by_guarded env) env env' /\ stays_inside env root /\ told_apart env env' root.
Proof. exists refusing, refusing', 50. split; [exact refusing_without|]. split; [apply stays_intro; vm_compute; reflexivity|exact refusing_told]. Qed.
Print Assumptions C71_guarded_refuted.
(** or comes first, *)
Theorem C71_earlier_refuted : exists env env' root,
  without_by (by_earlier env) env env' /\ stays_inside env root /\ told_apart env env' root.
Proof. exists early, early', 50. split; [exact early_without|]. split; [apply stays_intro; vm_compute; reflexivity|exact early_told]. Qed.
Print Assumptions C71_earlier_refuted.
(** or the state that defers the event is a composite, *)
Theorem C71_composite_refuted : exists env env' root,
  without_by (by_composite env) env env' /\ stays_inside env root /\ told_apart env env' root.
Proof. exists outer, outer', 50. split; [exact outer_without|]. split; [apply stays_intro; vm_compute; reflexivity|exact outer_told]. Qed.
Print Assumptions C71_composite_refuted.
(** or the row leads into a composite, *)
Theorem C71_entering_refuted : exists env env' root,
  without_by (entering env) env env' /\ stays_inside env root /\ told_apart env env' root.
Proof. exists second, second', 50. split; [exact second_without|]. split; [apply stays_intro; vm_compute; reflexivity|exact second_told]. Qed.
Print Assumptions C71_entering_refuted.
(** or is the first to name a state with internal rows, *)
Theorem C71_turn_refuted : exists env env' root,
  without_by (out_of_turn env) env env' /\ stays_inside env root /\ told_apart env env' root.
Proof. exists first_named, first_named', 50. split; [exact first_named_without|]. split; [apply stays_intro; vm_compute; reflexivity|exact first_named_told]. Qed.
Print Assumptions C71_turn_refuted.
(** or the only one to name its target, it can be noticed. *)
Theorem C71_unnamed_refuted : exists env env' root,
  without_by (unnamed env) env env' /\ stays_inside env root /\ told_apart env env' root.
Proof. exists alone, alone', 50. split; [exact alone_without|]. split; [apply stays_intro; vm_compute; reflexivity|exact alone_told]. Qed.
Print Assumptions C71_unnamed_refuted.
