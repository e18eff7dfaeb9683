(** C24, C25, C44: undefined behaviour. *)

From Coq Require Import List Arith NArith Bool.
From Verif Require Import Types Static Dispatch Runtime Dsl Examples Spec DispatchFacts Semantics Reach
  Demo Safe SafeObjects SafeDemo.
Import ListNotations.

(** C24. *)
Theorem C24_safe : forall V W (cb : cbfun V W) env root m, compile env root = Some m ->
  forall vnone fuel d w ks, well_formed env root -> Forall (well_typed env root) ks ->
  (forall u, session cb m vnone fuel d w ks <> Undef u) /\
  (forall ex s, session cb m vnone fuel d w ks <> Threw ex s).
Proof. exact @session_well_formed. Qed.
Print Assumptions C24_safe.
Theorem C24_safe_calls : forall V W (cb : cbfun V W) env root m, compile env root = Some m ->
  forall vnone fuel ds d0 s k, well_formed env root -> reachable cb m vnone ds d0 s -> well_typed env root k ->
  (forall u, do_call_catch cb m vnone fuel k s <> Undef u) /\
  (forall ex s', do_call_catch cb m vnone fuel k s <> Threw ex s').
Proof. exact @call_well_formed. Qed.
Print Assumptions C24_safe_calls.
Theorem C24_check : forall env root m, compile env root = Some m ->
  check m = true <-> well_formed env root.
Proof. exact @check_decides. Qed.
Print Assumptions C24_check.
(** Without the condition on objects only null pointers are left. *)
Theorem C24_places : forall V W (cb : cbfun V W) env root m, compile env root = Some m ->
  forall vnone fuel d w ks u, well_placed env root -> Forall (well_typed env root) ks ->
  session cb m vnone fuel d w ks = Undef u -> u = UBNull.
Proof. exact @session_well_placed. Qed.
Print Assumptions C24_places.

Example C24_applies_basic : well_formed Basic.env Basic.Main.
Proof. apply well_formed_intro. vm_compute. reflexivity. Qed.
Example C24_applies_regions : well_formed Regions.env Regions.Main.
Proof. apply well_formed_intro. vm_compute. reflexivity. Qed.
Example C24_applies_history : well_formed History.env History.Main.
Proof. apply well_formed_intro. vm_compute. reflexivity. Qed.
Example C24_applies_internal : well_formed Internal.env Internal.Main.
Proof. apply well_formed_intro. vm_compute. reflexivity. Qed.
Example C24_applies_others : well_formed Anonymous.env 50 /\ well_formed Defer.env 50 /\
  well_formed Direct.env 50 /\ well_formed EntryExit.env 50 /\ well_formed Pseudo.env 50 /\
  well_formed History.env0 50 /\ well_formed Guards.env 50 /\ well_formed SetState.env 50 /\
  well_formed Once.env 50 /\ well_formed Unexpected.env 50 /\ well_formed ReturnBool.env 50.
Proof. do 10 (split; [apply well_formed_intro; vm_compute; reflexivity|]). apply well_formed_intro. vm_compute. reflexivity. Qed.
Example C24_applies_places : well_placed Custom.env 50 /\ ~ well_formed Custom.env 50.
Proof. split; [apply well_placed_intro|apply ill_formed_intro]; vm_compute; reflexivity. Qed.
Example C24_applies_calls : forall m, compile Regions.env Regions.Main = Some m ->
  Forall (well_typed Regions.env Regions.Main) [pe 1; KSet 1 Regions.Sub (SState 2); KSetDep 4; KStatus; KIs 9 7 (SState 8)].
Proof. intros m Hm. apply (demo_typed _ _ m _ Hm). vm_compute in Hm. injection Hm as <-. vm_compute. reflexivity. Qed.

(** Every part of the condition is needed. *)
Theorem C24_objects_needed_refuted :
  exists env root cb ks, well_placed env root /\ no_anonymous_deferral env root /\
    goes_wrong cb env root ks UBNull.
Proof.
  exists Wrong.null_guard, 50, ex_cb, [pe 1]. split; [|split].
  - apply well_placed_intro. vm_compute. reflexivity.
  - apply no_anonymous_intro. vm_compute. reflexivity.
  - apply goes_wrong_intro. vm_compute. split; reflexivity.
Qed.
Print Assumptions C24_objects_needed_refuted.
Example C24_null_action : goes_wrong ex_cb Wrong.null_action 50 [pe 1; pe 2] UBNull.
Proof. apply goes_wrong_intro. vm_compute. split; reflexivity. Qed.
Example C24_null_reuse : goes_wrong ex_cb Wrong.null_reuse 50 [pe 1] UBNull.
Proof. apply goes_wrong_intro. vm_compute. split; reflexivity. Qed.
Example C24_null_handler : goes_wrong ex_cb Wrong.null_handler 50 [pe 1; pe 1] UBNull.
Proof. apply goes_wrong_intro. vm_compute. split; reflexivity. Qed.
(** An exception leaves the machine in a state without an object. *)
Example C24_throwing_create : goes_wrong throw_cb Wrong.throwing_create 50 [pe 1; pe 2] UBNull.
Proof. apply goes_wrong_intro. vm_compute. split; reflexivity. Qed.
Theorem C24_anonymous_needed_refuted :
  exists env root cb ks, well_placed env root /\ objects_exist env root /\
    goes_wrong cb env root ks UBNull.
Proof.
  exists Wrong.defers_none, 50, ex_cb, [pe 1]. split; [|split].
  - apply well_placed_intro. vm_compute. reflexivity.
  - apply objects_intro. vm_compute. reflexivity.
  - apply goes_wrong_intro. vm_compute. split; reflexivity.
Qed.
Print Assumptions C24_anonymous_needed_refuted.

(** C25. *)
Theorem C25_uninitialised_refuted : ~ (forall env root cb ks u, ~ goes_wrong cb env root ks u) /\
  exists env root ks, length ks = 2 /\ goes_wrong ex_cb env root ks UBUninit.
Proof.
  assert (H : goes_wrong ex_cb MultiRegionSub.env 50 [pe 1; pe 2] UBUninit).
  { apply goes_wrong_intro. vm_compute. split; reflexivity. }
  split; [intros A; exact (A _ _ _ _ _ H)|]. exists MultiRegionSub.env, 50, [pe 1; pe 2]. split; [reflexivity|exact H].
Qed.
Print Assumptions C25_uninitialised_refuted.
Example C25_history_regions : goes_wrong ex_cb Wrong.history_regions 50 [pe 2] UBIndex.
Proof. apply goes_wrong_intro. vm_compute. split; reflexivity. Qed.
Example C25_source_outside : goes_wrong ex_cb Wrong.source_outside 50 [] UBIndex.
Proof. apply goes_wrong_intro. vm_compute. split; reflexivity. Qed.
Example C25_target_outside : goes_wrong ex_cb Wrong.target_outside 50 [pe 1; pe 1] UBIndex.
Proof. apply goes_wrong_intro. vm_compute. split; reflexivity. Qed.

(** C44.  Missing from the full statement: history entries of regions from 1 on belong
    to their parent.  That is false, see below. *)
Theorem C44_invariant_partial : forall V W (cb : cbfun V W) env root m, compile env root = Some m ->
  forall vnone ds d0 s, well_placed env root -> reachable cb m vnone ds d0 s -> sound_state env root m s.
Proof. exact @reachable_sound. Qed.
Print Assumptions C44_invariant_partial.
Example C44_applies : well_placed Regions.env Regions.Main /\
  demo_state ex_cb Regions.env Regions.Main [pe 1; pe 1; KSetDep 3] (fun m s =>
    map (at_place m s) [0; 1] = [Some (Regions.Sub, SState 1); Some (50, SState 4)]).
Proof.
  split; [apply well_placed_intro; vm_compute; reflexivity|]. apply demo_intro. vm_compute. repeat split.
Qed.

(** The history of a parent may hold places of another parent, from region 1 on. *)
Theorem C44_history_refuted : exists env root,
  well_formed env root /\ demo_state ex_cb env root [pe 1; pe 2] (fun m s =>
    exists p pl, is_parent env root p /\ history_of m s p 1 = Some (code m pl) /\ is_place env root pl /\ fst pl <> p).
Proof. exact history_owner_wrong. Qed.
Print Assumptions C44_history_refuted.
