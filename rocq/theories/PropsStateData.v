(** C87: data members of states. *)

From Coq Require Import List Arith NArith Bool.
From Verif Require Import Types Static Dispatch Runtime Dsl Examples Spec Semantics Reach StaticFacts TableFacts Demo
  UnitExamples StateData StateDataFacts StateDataDemo.
Import ListNotations.

(** C87. What user code finds is what the calls of user code before it left, one after the
    other: the library changes nothing itself and loses nothing, exceptions included. *)
Theorem C87_world : forall V W (cb : cbfun V W) m vnone fuel ks s os s', run cb m vnone fuel ks s = Done os s' ->
  exists t, rt_trace s' = rt_trace s ++ t /\ rt_world s' = world_after_all cb t (rt_world s).
Proof. exact @run_world. Qed.
Print Assumptions C87_world.
Theorem C87_session : forall V W (cb : cbfun V W) env root m vnone, compile env root = Some m -> few_regions env root ->
  forall fuel d w ks os s, session cb m vnone fuel d w ks = Done os s -> rt_world s = world_after_all cb (rt_trace s) w.
Proof. exact @session_world. Qed.
Print Assumptions C87_session.

(** The data members of a state are kept from one call that gets its object to the next:
    [t1] are the calls up to any moment, [t2] calls that do not reach the object. *)
Theorem C87_kept : forall V W D (cb : cbfun V W) env root m vnone, compile env root = Some m ->
  forall q (data : W -> D), members cb env root q data ->
  forall fuel d w ks os s, few_regions env root -> session cb m vnone fuel d w ks = Done os s ->
  forall t1 t2 t3, rt_trace s = t1 ++ t2 ++ t3 -> (forall k, In k t2 -> ~ reaches env root q k) ->
  data (world_after_all cb (t1 ++ t2) w) = data (world_after_all cb t1 w) /\
  (t3 = [] -> data (rt_world s) = data (world_after_all cb t1 w)).
Proof. exact @moments. Qed.
Print Assumptions C87_kept.

(** The turn of a region changes them only if the region is in a place where the event has
    a row with this state as source or target, or one that creates objects of it. *)
Theorem C87_turn : forall V W D (cb : cbfun V W) env root m vnone ds d0, compile env root = Some m ->
  forall q (data : W -> D), members cb env root q data ->
  forall s r e v, handling cb env root m vnone ds d0 s ->
  match try_region cb m r e v s with
  | Done _ s' | Threw _ s' => data (rt_world s') <> data (rt_world s) ->
      exists pl x o, at_place m s r = Some pl /\ candidate env root e pl (CRow x o) /\
        (o = q \/ target_state env x = q \/ exists f, In (CFactory f) (action_calls x) /\ makes env root f q)
  | _ => True
  end.
Proof. exact @turn_data. Qed.
Print Assumptions C87_turn.

(** They never change unless some row has this state as source or target, or the handler of
    unexpected events gets it. *)
Theorem C87_changed : forall V W D (cb : cbfun V W) env root m vnone, compile env root = Some m ->
  forall q (data : W -> D), members cb env root q data -> few_regions env root ->
  forall fuel d w ks os s, session cb m vnone fuel d w ks = Done os s -> data (rt_world s) <> data w ->
  (exists x, (declared env root x \/ declared_internal env root x) /\ (snd (source_place x) = q \/ target_state env x = q)) \/
  cd_unexpected (lookup env root) = true /\ is_state env root q.
Proof. exact @session_data. Qed.
Print Assumptions C87_changed.
(** This can be checked. *)
Theorem C87_out_of_reach : forall V W D (cb : cbfun V W) env root m vnone q (data : W -> D), compile env root = Some m -> few_regions env root ->
  members cb env root q data -> out_of_reach m q = true ->
  forall fuel d w ks os s, session cb m vnone fuel d w ks = Done os s -> data (rt_world s) = data w.
Proof. exact @out_of_reach_data. Qed.
Print Assumptions C87_out_of_reach.

(** The user code of integration/state_data_members.cpp: data are written by on_entry and an
    action, and kept while other calls write the data of other states. *)
Example C87_applies : forall q, members Data.cb Hidden.env 50 q (fun w => Data.data w q).
Proof. exact (data_members Hidden.env 50). Qed.
Example C87_applies_run :
  map (fun q => data_at Hidden.env (SState q) [(Data.Enter, (5, 6)); (Data.Wr, (7, 8)); (Data.Leave, (0, 0))]) [1; 3; 4; 11] =
  [Some 5; Some 7; Some 8; Some 11].
Proof. vm_compute. reflexivity. Qed.

(** An object for every composite that uses a state? No: there is one for the machine, and
    what an action writes in one composite is read in the other. *)
Theorem C87_per_composite_refuted : exists env c1 c2 q m, c1 <> c2 /\ compile env 50 = Some m /\
  child env c1 q /\ child env c2 q /\
  Data.last_event env [(Data.Enter, (0, 0)); (Data.Wr, (7, 8)); (Data.Leave, (0, 0))] Data.R = Some (true, (8, 8)).
Proof.
  exists Shared.env, 11, 12, (SState 3). eexists. split; [discriminate|]. split; [vm_compute; reflexivity|].
  split; [|split; [|vm_compute; reflexivity]]; eexists; (split; [left; reflexivity|]); right; reflexivity.
Qed.
Print Assumptions C87_per_composite_refuted.
(** on_entry of a composite gets the object of the composite? No: it gets the one of the
    initial state, and nobody gets the object of a composite that is not a source. *)
Theorem C87_own_entry_refuted : exists env c m, compile env 50 = Some m /\ few_regions env 50 /\ has_entry env c = true /\
  out_of_reach m (SState c) = true /\
  data_at env (SState c) [(Data.Enter, (5, 6))] = Some c /\ data_at env (SState 3) [(Data.Enter, (5, 6))] = Some 6.
Proof.
  destruct (compile Hidden.env 50) as [m|] eqn:Hm; [|exfalso; vm_compute in Hm; discriminate].
  exists Hidden.env, 11, m. split; [exact Hm|].
  split; [apply (max_few _ _ _ Hm); vm_compute in Hm; inversion Hm; subst; apply Nat.leb_le; vm_compute; reflexivity|].
  vm_compute in Hm. inversion Hm. subst m. vm_compute. repeat split.
Qed.
Print Assumptions C87_own_entry_refuted.
(** The target is the state the region is in afterwards? Not with history: the action gets
    the initial state, the region is in the state restored. *)
Theorem C87_restored_refuted : exists env m os s, compile env 50 = Some m /\
  session Data.cb m (0, 0) 300 0 [] [KProcess Data.Enter (5, 6); KProcess Data.R (7, 8); KProcess Data.Leave (0, 0); KProcess Data.Wr (42, 43)] = Done os s /\
  at_place m s 0 = Some (11, SState 4) /\ Data.data (rt_world s) (SState 4) = 4 /\ Data.data (rt_world s) (SState 3) = 43.
Proof.
  exists Restored.env. eexists. eexists. eexists. split; [vm_compute; reflexivity|]. split; [vm_compute; reflexivity|]. vm_compute. repeat split.
Qed.
Print Assumptions C87_restored_refuted.
