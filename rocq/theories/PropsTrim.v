(** C101: states that no row leads to, and the smallest table. *)

From Coq Require Import List Arith NArith Bool.
From Verif Require Import Types Static Dispatch Runtime IndexFacts Spec Semantics Reach Safe SafeObjects Dsl Examples Demo SafeDemo
  Flat FlatDemo Unnest UnnestProgram UnnestDemo Merge MergeDemo UnnestMerge UnnestMergeDemo Trim TrimFacts TrimNested TrimDemo.
Import ListNotations.

(** The states of [trimmed env root] are those that rows lead to, from the initial state
    on, where a row behind a row without a guard does not count. It compiles if the program
    does; its events are those with a row in such a state. *)
Theorem C101_compiles : forall env root, flat env root -> (exists m, compile env root = Some m) ->
  (exists m', compile (trimmed env root) root = Some m') /\ flat (trimmed env root) root /\
  initial_states (trimmed env root) root = initial_states env root /\
  (forall s, In s (children (trimmed env root) root) <-> gets_to env root s) /\
  (forall e, event_of (trimmed env root) root e <-> exists q r, gets_to env root q /\ In r (rows_for env root q e)).
Proof. exact trimmed_program. Qed.
Print Assumptions C101_compiles.

(** For all user code and all sequences of these events it does the same: the same results,
    calls with the same arguments, user data and state. *)
Theorem C101_trimmed : forall env root m m', compile env root = Some m -> flat env root -> compile (trimmed env root) root = Some m' ->
  exists bound, forall V W (cb : cbfun V W) vnone fuel d w l, bound <= fuel -> Forall (fun ev => event_of (trimmed env root) root (fst ev)) l ->
  exists outs s s' q,
    session cb m vnone fuel d w (map (fun ev => KProcess (fst ev) (snd ev)) l) = Done outs s /\
    session cb m' vnone fuel d w (map (fun ev => KProcess (fst ev) (snd ev)) l) = Done outs s' /\
    rt_trace s' = rt_trace s /\ rt_world s' = rt_world s /\
    at_place m s 0 = Some (root, q) /\ at_place m' s' 0 = Some (root, q).
Proof. exact trimmed_session. Qed.
Print Assumptions C101_trimmed.

(** With it C97 needs no condition on the states of the program: if being entered tells
    none of the states it gets to apart, no one-table program that answers all clients
    alike has fewer states than the trimmed and merged program. *)
Theorem C101_least : forall lab env root m lab2 env2 root2 m2,
  compile env root = Some m -> flat env root -> keeps_kind lab ->
  (forall a b, gets_to env root a -> gets_to env root b -> entries lab env a = entries lab env b) ->
  compile env2 root2 = Some m2 -> flat env2 root2 -> (forall e, event_of env root e -> event_of env2 root2 e) ->
  imitates lab env root m lab2 m2 ->
  length (children (merged lab (trimmed env root) root) root) <= length (children env2 root2).
Proof. exact trimmed_least. Qed.
Print Assumptions C101_least.
Theorem C101_attained : forall lab env root m, compile env root = Some m -> flat env root -> all_events_used env root ->
  exists m', compile (merged lab (trimmed env root) root) root = Some m' /\ flat (merged lab (trimmed env root) root) root /\
  imitates lab env root m lab m'.
Proof. exact trimmed_attained. Qed.
Print Assumptions C101_attained.

(** The same for the programs with composites of C100: the table with the fewest states. *)
Theorem C101_nested : forall lab env root m, compile env root = Some m -> one_region env root -> well_formed env root -> at_once env root ->
  (N.of_nat (S (length (spots env root))) < two64)%N ->
  flat (least_table lab env root) (one env root) /\
  exists m' bound, compile (least_table lab env root) (one env root) = Some m' /\
  forall V W (f : code V W) vnone fuel d w l, bound <= fuel ->
  Forall (fun ev => event_of (trimmed (unnested env root) (one env root)) (one env root) (fst ev)) l ->
  exists outs s s' pl,
    session (behind lab f) m vnone fuel d w (map (fun ev => KProcess (fst ev) (snd ev)) l) = Done outs s /\
    session (behind (carried lab env root) f) m' vnone fuel d w (map (fun ev => KProcess (fst ev) (snd ev)) l) = Done outs s' /\
    map (told (carried lab env root)) (rt_trace s') = map (told lab) (rt_trace s) /\ rt_world s' = rt_world s /\
    is_place env root pl /\ at_place m s 0 = Some pl /\
    at_place m' s' 0 = Some (one env root, stand_in (trimmed (unnested env root) (one env root)) (one env root)
      (equals (carried lab env root) (trimmed (unnested env root) (one env root)) (one env root)) (SState (alias env root pl))).
Proof. exact nested_trimmed. Qed.
Print Assumptions C101_nested.
Theorem C101_nested_least : forall lab env root m lab2 env2 root2 m2,
  compile env root = Some m -> one_region env root -> well_formed env root -> at_once env root ->
  (N.of_nat (S (length (spots env root))) < two64)%N -> keeps_kind lab ->
  compile env2 root2 = Some m2 -> flat env2 root2 -> (forall e, event_of env root e -> event_of env2 root2 e) ->
  imitates lab env root m lab2 m2 ->
  length (children (least_table lab env root) (one env root)) <= length (children env2 root2).
Proof. exact nested_trimmed_least. Qed.
Print Assumptions C101_nested_least.
Theorem C101_nested_attained : forall lab env root m, compile env root = Some m -> one_region env root -> well_formed env root -> at_once env root ->
  (N.of_nat (S (length (spots env root))) < two64)%N -> all_events_used (unnested env root) (one env root) ->
  exists m', compile (least_table lab env root) (one env root) = Some m' /\ flat (least_table lab env root) (one env root) /\
  imitates lab env root m (carried lab env root) m'.
Proof. exact nested_trimmed_attained. Qed.
Print Assumptions C101_nested_attained.

(** An event that has rows only in states the program never gets to is not an event of the
    trimmed program: the client could send it before and cannot now. *)
Theorem C101_events_refuted : exists env root e, flat env root /\ (exists m, compile env root = Some m) /\
  event_of env root e /\ ~ event_of (trimmed env root) root e.
Proof.
  exists waits, 50, (EUser 3). split; [apply flat_intro; vm_compute; reflexivity|]. split; [eexists; vm_compute; reflexivity|]. exact waits_lost.
Qed.
Print Assumptions C101_events_refuted.

(** Five states, three of which the program gets to, two of which are enough. *)
Example C101_applies :
  (exists m, compile islands 50 = Some m) /\ flat islands 50 /\ all_events_used islands 50 /\ keeps_kind Twins.same /\
  (forall a b, gets_to islands 50 a -> gets_to islands 50 b -> entries Twins.same islands a = entries Twins.same islands b) /\
  length (children islands 50) = 5 /\ length (children (trimmed islands 50) 50) = 3 /\
  length (children (merged Twins.same (trimmed islands 50) 50) 50) = 2.
Proof.
  assert (Hf : flat islands 50) by (apply flat_intro; vm_compute; reflexivity).
  split; [eexists; vm_compute; reflexivity|]. split; [exact Hf|]. split; [apply used_intro; [exact Hf|vm_compute; reflexivity]|].
  split; [exact Twins.same_kinds|]. split; [|vm_compute; auto].
  intros a b Ha Hb. apply got_iff in Ha, Hb. vm_compute in Ha, Hb.
  repeat (destruct Ha as [<- | Ha]); try destruct Ha; repeat (destruct Hb as [<- | Hb]); try destruct Hb; reflexivity.
Qed.
(** A composite left by a row from the composite: a table needs three states. *)
Example C101_applies_nested :
  (exists m, compile garage 50 = Some m) /\ one_region garage 50 /\ well_formed garage 50 /\ at_once garage 50 /\
  (N.of_nat (S (length (spots garage 50%nat))) < two64)%N /\ all_events_used (unnested garage 50) (one garage 50) /\
  length (children (unnested garage 50) (one garage 50)) = 5 /\
  length (children (smallest Twins.same garage 50) (one garage 50)) = 4 /\
  length (children (least_table Twins.same garage 50) (one garage 50)) = 3.
Proof.
  split; [eexists; vm_compute; reflexivity|]. split; [apply one_region_intro; vm_compute; reflexivity|].
  split; [apply well_formed_intro; vm_compute; reflexivity|]. split; [apply at_once_intro; vm_compute; reflexivity|].
  split; [vm_compute; reflexivity|]. split; [apply used_intro; [apply flat_intro; vm_compute; reflexivity|vm_compute; reflexivity]|].
  split; [vm_compute; reflexivity|]. split; vm_compute; reflexivity.
Qed.
