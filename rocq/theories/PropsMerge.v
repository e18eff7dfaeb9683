(** C97: states that cannot be told apart can be merged. *)

From Coq Require Import List Arith NArith Bool.
From Verif Require Import Types Static Dispatch Runtime Dsl Examples Spec Semantics Flat FlatFacts FlatDemo Merge MergeFacts MergeRun MergeLeast MergeDemo.
Import ListNotations.

(** The merged program (Merge.v) of a one-table program that compiles compiles, has one
    table and one region, the same initial state and events, and no new states. *)
Theorem C97_compiles : forall lab env root, flat env root -> (exists m, compile env root = Some m) ->
  (exists m', compile (merged lab env root) root = Some m') /\ flat (merged lab env root) root /\
  initial_states (merged lab env root) root = initial_states env root /\
  (forall e, event_of env root e <-> event_of (merged lab env root) root e) /\
  (forall s, In s (children (merged lab env root) root) -> In s (children env root)).
Proof. exact merged_program. Qed.
Print Assumptions C97_compiles.

(** For all user code that is not told the states, and all sequences of events: it answers
    every call alike, calls the same code with the same event, data and dependency, leaves
    the same user data; it is in the state that stands for the state of the program. *)
Theorem C97_merged : forall lab env root m m', compile env root = Some m -> flat env root -> compile (merged lab env root) root = Some m' ->
  exists bound, forall V W (f : code V W) vnone fuel d w l, bound <= fuel -> Forall (fun ev => event_of env root (fst ev)) l ->
  exists outs s s' q,
    session (behind lab f) m vnone fuel d w (map (fun ev => KProcess (fst ev) (snd ev)) l) = Done outs s /\
    session (behind lab f) m' vnone fuel d w (map (fun ev => KProcess (fst ev) (snd ev)) l) = Done outs s' /\
    map (told lab) (rt_trace s') = map (told lab) (rt_trace s) /\ rt_world s' = rt_world s /\
    at_place m s 0 = Some (root, q) /\ at_place m' s' 0 = Some (root, stand_in env root (equals lab env root) q).
Proof. exact merged_session. Qed.
Print Assumptions C97_merged.

(** It is the smallest: if all states can be reached and being entered tells none apart,
    no one-table program that answers all clients alike has fewer states. *)
Theorem C97_least : forall lab env root m lab2 env2 root2 m2,
  compile env root = Some m -> flat env root -> keeps_kind lab ->
  (forall a, In a (children env root) -> led_to lab env root a) ->
  (forall a b, In a (children env root) -> In b (children env root) -> entries lab env a = entries lab env b) ->
  compile env2 root2 = Some m2 -> flat env2 root2 -> (forall e, event_of env root e -> event_of env2 root2 e) ->
  imitates lab env root m lab2 m2 ->
  length (children (merged lab env root) root) <= length (children env2 root2).
Proof. exact merged_least. Qed.
Print Assumptions C97_least.

(** And the merged program is such a program: the smallest number is attained. *)
Theorem C97_attained : forall lab env root m m', compile env root = Some m -> flat env root -> compile (merged lab env root) root = Some m' ->
  imitates lab env root m lab m'.
Proof. exact merged_imitates. Qed.
Print Assumptions C97_attained.

(** Guards and actions are told the source object: user code that looks at it can tell
    the merged program from the program. *)
Theorem C97_told_the_state_refuted : exists lab env root (cb : cbfun unit unit) l r r',
  flat env root /\ all_calls cb env root tt tt l = Some r /\ all_calls cb (merged lab env root) root tt tt l = Some r' /\
  fst (fst r) <> fst (fst r').
Proof. exact looking_tells. Qed.
Print Assumptions C97_told_the_state_refuted.

(** Four states become two; the player of benchmark/simple/hsm.cpp keeps its five. *)
Example C97_applies :
  (exists m, compile Twins.env2 50 = Some m) /\ flat Twins.env2 50 /\
  length (children Twins.env2 50) = 4 /\ length (children (merged Twins.twins Twins.env2 50) 50) = 2 /\
  length (children (merged Twins.same Twins.env2 50) 50) = 4 /\
  length (children (merged Twins.same Player.env 50) 50) = 5.
Proof. split; [eexists; vm_compute; reflexivity|]. split; [apply flat_intro; vm_compute; reflexivity|]. vm_compute. auto. Qed.
Example C97_applies_least : (exists m, compile Twins.env 50 = Some m) /\ flat Twins.env 50 /\ keeps_kind Twins.same /\
  (forall a, In a (children Twins.env 50) -> led_to Twins.same Twins.env 50 a) /\
  (forall a b, In a (children Twins.env 50) -> In b (children Twins.env 50) -> entries Twins.same Twins.env a = entries Twins.same Twins.env b) /\
  length (children (merged Twins.same Twins.env 50) 50) = 2.
Proof.
  split; [eexists; vm_compute; reflexivity|]. split; [apply flat_intro; vm_compute; reflexivity|]. split; [exact Twins.same_kinds|].
  split; [exact Twins.all_led|]. split; [|vm_compute; reflexivity].
  intros a b Ha Hb. vm_compute in Ha, Hb. repeat (destruct Ha as [<- | Ha]); try destruct Ha; repeat (destruct Hb as [<- | Hb]); try destruct Hb; reflexivity.
Qed.
