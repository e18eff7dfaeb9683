(** C100: places of a program with composites that cannot be told apart. *)

From Coq Require Import List Arith NArith Bool.
From Verif Require Import Types Static Dispatch Runtime IndexFacts Spec Semantics Reach Safe SafeObjects Dsl Examples Demo SafeDemo
  Unnest UnnestProgram UnnestDemo Flat FlatDemo Merge MergeDemo UnnestMerge UnnestMergeDemo.
Import ListNotations.

(** A well formed program of C99 that defers no event and has no anonymous row, written as
    one table, is one of the programs of C65, and has the same events. *)
Theorem C100_flat : forall env root m, compile env root = Some m -> one_region env root -> well_formed env root -> at_once env root ->
  flat (unnested env root) (one env root) /\ forall e, event_of env root e <-> event_of (unnested env root) (one env root) e.
Proof. exact nested_flat. Qed.
Print Assumptions C100_flat.

(** Its states can be merged as in C97. For all user code that is not told the states, and
    all sequences of events: both programs end every call with the same result, call the
    same code with the same event, data and dependency, leave the same user data; the
    merged program is in the state that stands for the place of the program. *)
Theorem C100_merged : forall lab env root m, compile env root = Some m -> one_region env root -> well_formed env root -> at_once env root ->
  (N.of_nat (S (length (spots env root))) < two64)%N ->
  flat (smallest lab env root) (one env root) /\
  exists m' bound, compile (smallest lab env root) (one env root) = Some m' /\
  forall V W (f : code V W) vnone fuel d w l, bound <= fuel -> Forall (fun ev => event_of env root (fst ev)) l ->
  exists outs s s' pl,
    session (behind lab f) m vnone fuel d w (map (fun ev => KProcess (fst ev) (snd ev)) l) = Done outs s /\
    session (behind (carried lab env root) f) m' vnone fuel d w (map (fun ev => KProcess (fst ev) (snd ev)) l) = Done outs s' /\
    map (told (carried lab env root)) (rt_trace s') = map (told lab) (rt_trace s) /\ rt_world s' = rt_world s /\
    is_place env root pl /\ at_place m s 0 = Some pl /\
    at_place m' s' 0 = Some (one env root, stand_in (unnested env root) (one env root)
      (equals (carried lab env root) (unnested env root) (one env root)) (SState (alias env root pl))).
Proof. exact nested_merged. Qed.
Print Assumptions C100_merged.

(** If rows lead to all places that rows mention, no one-table program that answers all
    clients as the program with composites does has fewer states. *)
Theorem C100_least : forall lab env root m lab2 env2 root2 m2,
  compile env root = Some m -> one_region env root -> well_formed env root -> at_once env root ->
  (N.of_nat (S (length (spots env root))) < two64)%N -> keeps_kind lab ->
  (forall a, In a (children (unnested env root) (one env root)) -> led_to (carried lab env root) (unnested env root) (one env root) a) ->
  compile env2 root2 = Some m2 -> flat env2 root2 -> (forall e, event_of env root e -> event_of env2 root2 e) ->
  imitates lab env root m lab2 m2 ->
  length (children (smallest lab env root) (one env root)) <= length (children env2 root2).
Proof. exact nested_least. Qed.
Print Assumptions C100_least.

(** And the merged program is such a program: the smallest number is attained. *)
Theorem C100_attained : forall lab env root m m', compile env root = Some m -> one_region env root -> well_formed env root -> at_once env root ->
  (N.of_nat (S (length (spots env root))) < two64)%N -> compile (smallest lab env root) (one env root) = Some m' ->
  imitates lab env root m (carried lab env root) m'.
Proof. exact nested_attained. Qed.
Print Assumptions C100_attained.

(** Four places, of which three are enough. *)
Example C100_applies :
  (exists m, compile stations 50 = Some m) /\ one_region stations 50 /\ well_formed stations 50 /\ at_once stations 50 /\
  (N.of_nat (S (length (spots stations 50%nat))) < two64)%N /\ keeps_kind Twins.same /\
  (forall a, In a (children (unnested stations 50) (one stations 50)) ->
     led_to (carried Twins.same stations 50) (unnested stations 50) (one stations 50) a) /\
  length (children (unnested stations 50) (one stations 50)) = 4 /\
  length (children (smallest Twins.same stations 50) (one stations 50)) = 3.
Proof.
  split; [eexists; vm_compute; reflexivity|]. split; [apply one_region_intro; vm_compute; reflexivity|].
  split; [apply well_formed_intro; vm_compute; reflexivity|]. split; [apply at_once_intro; vm_compute; reflexivity|].
  split; [vm_compute; reflexivity|]. split; [exact Twins.same_kinds|]. split; [apply (led_intro _ _ _ 4); vm_compute; reflexivity|].
  split; vm_compute; reflexivity.
Qed.
