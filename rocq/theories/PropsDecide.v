(** C103: whether two programs answer alike can be decided. *)

From Coq Require Import List Arith NArith Bool.
From Verif Require Import Types Static Dispatch Runtime IndexFacts Spec Semantics Reach Safe SafeObjects Dsl Examples Demo SafeDemo
  Flat FlatDemo Unnest UnnestProgram UnnestDemo Merge MergeDemo UnnestMerge UnnestMergeDemo Trim TrimFacts TrimNested TrimDemo
  Unique UniqueDemo Decide DecideFacts DecideDemo.
Import ListNotations.

(** Whether two one-table programs have the same events. *)
Theorem C103_events : forall env root env2 root2, flat env root -> flat env2 root2 ->
  events_alike env root env2 root2 = true <-> forall e, event_of env root e <-> event_of env2 root2 e.
Proof. exact events_alike_iff. Qed.
Print Assumptions C103_events.

(** If the answer is yes, they give all user code the same answers, for all sequences of
    events: the same results, the same calls as user code sees them, the same data. *)
Theorem C103_yes : forall lab env root m lab2 env2 root2 m2, compile env root = Some m -> flat env root -> compile env2 root2 = Some m2 -> flat env2 root2 ->
  events_alike env root env2 root2 = true -> answers_alike lab env root lab2 env2 root2 = true ->
  exists bound, forall V W (f : code V W) vnone fuel d w l, bound <= fuel -> Forall (fun ev => event_of env root (fst ev)) l ->
  exists outs s s',
    session (behind lab f) m vnone fuel d w (map (fun ev => KProcess (fst ev) (snd ev)) l) = Done outs s /\
    session (behind lab2 f) m2 vnone fuel d w (map (fun ev => KProcess (fst ev) (snd ev)) l) = Done outs s' /\
    map (told lab2) (rt_trace s') = map (told lab) (rt_trace s) /\ rt_world s' = rt_world s.
Proof. exact decide_yes. Qed.
Print Assumptions C103_yes.

(** If the answer is no, there is a sequence of events, and verdicts of the guards, after
    which the results or the calls differ. *)
Theorem C103_no : forall lab env root m lab2 env2 root2 m2, compile env root = Some m -> flat env root -> compile env2 root2 = Some m2 -> flat env2 root2 ->
  keeps_kind lab -> keeps_kind lab2 -> events_alike env root env2 root2 = true -> answers_alike lab env root lab2 env2 root2 = false ->
  exists l bound, Forall (fun ev => event_of env root (fst ev)) l /\ forall fuel, bound <= fuel ->
  exists outs s outs' s',
    session (behind lab verdicts) m [] fuel 0 tt (map (fun ev => KProcess (fst ev) (snd ev)) l) = Done outs s /\
    session (behind lab2 verdicts) m2 [] fuel 0 tt (map (fun ev => KProcess (fst ev) (snd ev)) l) = Done outs' s' /\
    (outs, map (told lab) (rt_trace s)) <> (outs', map (told lab2) (rt_trace s')).
Proof. exact decide_no. Qed.
Print Assumptions C103_no.

(** The same for the programs with composites of C100. *)
Theorem C103_nested_yes : forall lab env root m lab2 env2 root2 m2,
  compile env root = Some m -> one_region env root -> well_formed env root -> at_once env root -> (N.of_nat (S (length (spots env root))) < two64)%N ->
  compile env2 root2 = Some m2 -> one_region env2 root2 -> well_formed env2 root2 -> at_once env2 root2 -> (N.of_nat (S (length (spots env2 root2))) < two64)%N ->
  nested_events_alike env root env2 root2 = true -> nested_answers_alike lab env root lab2 env2 root2 = true ->
  exists bound, forall V W (f : code V W) vnone fuel d w l, bound <= fuel -> Forall (fun ev => event_of env root (fst ev)) l ->
  exists outs s s',
    session (behind lab f) m vnone fuel d w (map (fun ev => KProcess (fst ev) (snd ev)) l) = Done outs s /\
    session (behind lab2 f) m2 vnone fuel d w (map (fun ev => KProcess (fst ev) (snd ev)) l) = Done outs s' /\
    map (told lab2) (rt_trace s') = map (told lab) (rt_trace s) /\ rt_world s' = rt_world s.
Proof. exact nested_yes. Qed.
Print Assumptions C103_nested_yes.
Theorem C103_nested_no : forall lab env root m lab2 env2 root2 m2,
  compile env root = Some m -> one_region env root -> well_formed env root -> at_once env root -> (N.of_nat (S (length (spots env root))) < two64)%N ->
  compile env2 root2 = Some m2 -> one_region env2 root2 -> well_formed env2 root2 -> at_once env2 root2 -> (N.of_nat (S (length (spots env2 root2))) < two64)%N ->
  nested_events_alike env root env2 root2 = true -> keeps_kind lab -> keeps_kind lab2 -> nested_answers_alike lab env root lab2 env2 root2 = false ->
  exists l bound, Forall (fun ev => event_of env root (fst ev)) l /\ forall fuel, bound <= fuel ->
  exists outs s outs' s',
    session (behind lab verdicts) m [] fuel 0 tt (map (fun ev => KProcess (fst ev) (snd ev)) l) = Done outs s /\
    session (behind lab2 verdicts) m2 [] fuel 0 tt (map (fun ev => KProcess (fst ev) (snd ev)) l) = Done outs' s' /\
    (outs, map (told lab) (rt_trace s)) <> (outs', map (told lab2) (rt_trace s')).
Proof. exact nested_no. Qed.
Print Assumptions C103_nested_no.

(** Yes is the answer exactly if the programs answer the probing client alike, which never
    throws; so with composites, too, one client is enough (C102_one_client). *)
Theorem C103_iff : forall lab env root m lab2 env2 root2 m2, compile env root = Some m -> flat env root -> compile env2 root2 = Some m2 -> flat env2 root2 ->
  keeps_kind lab -> keeps_kind lab2 -> events_alike env root env2 root2 = true ->
  answers_alike lab env root lab2 env2 root2 = true <-> imitates lab env root m lab2 m2.
Proof. exact decide_iff. Qed.
Print Assumptions C103_iff.
Theorem C103_nested_iff : forall lab env root m lab2 env2 root2 m2,
  compile env root = Some m -> one_region env root -> well_formed env root -> at_once env root -> (N.of_nat (S (length (spots env root))) < two64)%N ->
  compile env2 root2 = Some m2 -> one_region env2 root2 -> well_formed env2 root2 -> at_once env2 root2 -> (N.of_nat (S (length (spots env2 root2))) < two64)%N ->
  nested_events_alike env root env2 root2 = true -> keeps_kind lab -> keeps_kind lab2 ->
  nested_answers_alike lab env root lab2 env2 root2 = true <-> imitates lab env root m lab2 m2.
Proof. exact nested_iff. Qed.
Print Assumptions C103_nested_iff.
Theorem C103_nested_one_client : forall lab env root m lab2 env2 root2 m2,
  compile env root = Some m -> one_region env root -> well_formed env root -> at_once env root -> (N.of_nat (S (length (spots env root))) < two64)%N ->
  compile env2 root2 = Some m2 -> one_region env2 root2 -> well_formed env2 root2 -> at_once env2 root2 -> (N.of_nat (S (length (spots env2 root2))) < two64)%N ->
  nested_events_alike env root env2 root2 = true -> keeps_kind lab -> keeps_kind lab2 -> imitates lab env root m lab2 m2 ->
  exists bound, forall V W (f : code V W) vnone fuel d w l, bound <= fuel -> Forall (fun ev => event_of env root (fst ev)) l ->
  exists outs s s',
    session (behind lab f) m vnone fuel d w (map (fun ev => KProcess (fst ev) (snd ev)) l) = Done outs s /\
    session (behind lab2 f) m2 vnone fuel d w (map (fun ev => KProcess (fst ev) (snd ev)) l) = Done outs s' /\
    map (told lab2) (rt_trace s') = map (told lab) (rt_trace s) /\ rt_world s' = rt_world s.
Proof. exact nested_one_client. Qed.
Print Assumptions C103_nested_one_client.

(** Yes for a table and a smaller one; no if one guard is left out; no if a row of a
    composite has another action. *)
Example C103_applies : (exists m, compile islands 50 = Some m) /\ flat islands 50 /\ (exists m, compile isles 60 = Some m) /\ flat isles 60 /\
  events_alike islands 50 isles 60 = true /\ answers_alike Twins.same islands 50 Twins.same isles 60 = true /\
  (exists m, compile unguarded 60 = Some m) /\ flat unguarded 60 /\
  events_alike islands 50 unguarded 60 = true /\ answers_alike Twins.same islands 50 Twins.same unguarded 60 = false.
Proof.
  split; [eexists; vm_compute; reflexivity|]. split; [exact islands_flat|]. split; [eexists; vm_compute; reflexivity|]. split; [exact isles_flat|].
  split; [vm_compute; reflexivity|]. split; [vm_compute; reflexivity|]. split; [eexists; vm_compute; reflexivity|].
  split; [apply flat_intro; vm_compute; reflexivity|]. split; vm_compute; reflexivity.
Qed.
Example C103_applies_nested :
  (forall env, In env [garage; yard; wrong] -> (exists m, compile env 50 = Some m) /\ one_region env 50 /\ well_formed env 50 /\ at_once env 50 /\
     (N.of_nat (S (length (spots env 50%nat))) < two64)%N) /\
  nested_events_alike garage 50 yard 50 = true /\ nested_answers_alike Twins.same garage 50 Twins.same yard 50 = true /\
  nested_events_alike garage 50 wrong 50 = true /\ nested_answers_alike Twins.same garage 50 Twins.same wrong 50 = false.
Proof.
  split; [|vm_compute; auto]. intros env [<- | [<- | [<- | []]]];
    (split; [eexists; vm_compute; reflexivity|]; split; [apply one_region_intro; vm_compute; reflexivity|];
     split; [apply well_formed_intro; vm_compute; reflexivity|]; split; [apply at_once_intro; vm_compute; reflexivity|vm_compute; reflexivity]).
Qed.
