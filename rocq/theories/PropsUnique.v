(** C102: programs that answer alike have the same rows, and the smallest table is unique
    up to the names of its states. *)

From Coq Require Import List Arith NArith Bool.
From Verif Require Import Types Static Dispatch Runtime IndexFacts Spec Semantics Reach Safe SafeObjects Dsl Examples Demo SafeDemo
  Flat FlatDemo Unnest UnnestProgram UnnestDemo Merge MergeDemo UnnestMerge UnnestMergeDemo Trim TrimFacts TrimNested TrimDemo
  Unique UniqueFacts UniqueNested UniqueDemo.
Import ListNotations.

(** Two one-table programs that give the probing client the same answers have the same
    rows: their states are related such that related states have, for every event, the same
    guards in the same order with the same calls, which lead to related states. Every state
    that either program gets to is related to one the other gets to. *)
Theorem C102_rows : forall lab env root m lab2 env2 root2 m2, compile env root = Some m -> flat env root -> compile env2 root2 = Some m2 -> flat env2 root2 ->
  keeps_kind lab -> keeps_kind lab2 -> same_event_types env root env2 root2 -> imitates lab env root m lab2 m2 ->
  exists R, same_rows lab env root lab2 env2 root2 R /\
  (forall a, gets_to env root a -> exists b, gets_to env2 root2 b /\ R a b) /\ (forall b, gets_to env2 root2 b -> exists a, gets_to env root a /\ R a b).
Proof. exact rows_alike. Qed.
Print Assumptions C102_rows.

(** Conversely the same rows give the same answers to all user code, and the programs are
    in related states. *)
Theorem C102_answers : forall lab env root m lab2 env2 root2 m2 R, compile env root = Some m -> flat env root -> compile env2 root2 = Some m2 -> flat env2 root2 ->
  same_event_types env root env2 root2 -> same_rows lab env root lab2 env2 root2 R ->
  exists bound, forall V W (f : code V W) vnone fuel d w l, bound <= fuel -> Forall (fun ev => event_of env root (fst ev)) l ->
  exists outs s s' a b,
    session (behind lab f) m vnone fuel d w (map (fun ev => KProcess (fst ev) (snd ev)) l) = Done outs s /\
    session (behind lab2 f) m2 vnone fuel d w (map (fun ev => KProcess (fst ev) (snd ev)) l) = Done outs s' /\
    map (told lab2) (rt_trace s') = map (told lab) (rt_trace s) /\ rt_world s' = rt_world s /\
    at_place m s 0 = Some (root, a) /\ at_place m2 s' 0 = Some (root2, b) /\ R a b.
Proof. exact rows_session. Qed.
Print Assumptions C102_answers.

(** So one client is enough: programs that answer the probing client alike, whose guards
    answer as the event says and which never throws, answer all user code alike, also code
    that throws and code that changes its data. *)
Theorem C102_one_client : forall lab env root m lab2 env2 root2 m2, compile env root = Some m -> flat env root -> compile env2 root2 = Some m2 -> flat env2 root2 ->
  keeps_kind lab -> keeps_kind lab2 -> same_event_types env root env2 root2 -> imitates lab env root m lab2 m2 ->
  exists bound, forall V W (f : code V W) vnone fuel d w l, bound <= fuel -> Forall (fun ev => event_of env root (fst ev)) l ->
  exists outs s s',
    session (behind lab f) m vnone fuel d w (map (fun ev => KProcess (fst ev) (snd ev)) l) = Done outs s /\
    session (behind lab2 f) m2 vnone fuel d w (map (fun ev => KProcess (fst ev) (snd ev)) l) = Done outs s' /\
    map (told lab2) (rt_trace s') = map (told lab) (rt_trace s) /\ rt_world s' = rt_world s.
Proof. exact one_client. Qed.
Print Assumptions C102_one_client.

(** In the trimmed and merged program nothing is left to be removed or merged. *)
Theorem C102_settled : forall lab env root, keeps_kind lab -> flat env root -> entered_alike lab env root ->
  settled lab (merged lab (trimmed env root) root) root /\ entered_alike lab (merged lab (trimmed env root) root) root.
Proof. exact least_settled. Qed.
Print Assumptions C102_settled.

(** Programs of this kind that answer alike are the same table, up to the names of the
    states: the states correspond one to one. *)
Theorem C102_unique : forall lab env root m lab2 env2 root2 m2, compile env root = Some m -> flat env root -> compile env2 root2 = Some m2 -> flat env2 root2 ->
  keeps_kind lab -> keeps_kind lab2 -> same_event_types env root env2 root2 ->
  settled lab env root -> settled lab2 env2 root2 -> entered_alike lab env root -> entered_alike lab2 env2 root2 ->
  imitates lab env root m lab2 m2 -> same_table lab env root lab2 env2 root2.
Proof. exact settled_unique. Qed.
Print Assumptions C102_unique.
Theorem C102_least : forall lab env root m lab2 env2 root2 m2, compile env root = Some m -> flat env root -> compile env2 root2 = Some m2 -> flat env2 root2 ->
  keeps_kind lab -> keeps_kind lab2 -> same_event_types env root env2 root2 -> all_events_used env root -> all_events_used env2 root2 ->
  entered_alike lab env root -> entered_alike lab2 env2 root2 -> imitates lab env root m lab2 m2 ->
  same_table lab (merged lab (trimmed env root) root) root lab2 (merged lab2 (trimmed env2 root2) root2) root2.
Proof. exact least_unique. Qed.
Print Assumptions C102_least.

Theorem C102_count : forall lab env root lab2 env2 root2, same_table lab env root lab2 env2 root2 -> length (children env root) = length (children env2 root2).
Proof. exact same_table_count. Qed.
Print Assumptions C102_count.

(** The same for the programs with composites of C100. *)
Theorem C102_nested : forall lab env root m lab2 env2 root2 m2,
  compile env root = Some m -> one_region env root -> well_formed env root -> at_once env root -> (N.of_nat (S (length (spots env root))) < two64)%N ->
  compile env2 root2 = Some m2 -> one_region env2 root2 -> well_formed env2 root2 -> at_once env2 root2 -> (N.of_nat (S (length (spots env2 root2))) < two64)%N ->
  keeps_kind lab -> keeps_kind lab2 -> same_event_types env root env2 root2 ->
  all_events_used (unnested env root) (one env root) -> all_events_used (unnested env2 root2) (one env2 root2) ->
  imitates lab env root m lab2 m2 ->
  same_table (carried lab env root) (least_table lab env root) (one env root) (carried lab2 env2 root2) (least_table lab2 env2 root2) (one env2 root2).
Proof. exact nested_unique. Qed.
Print Assumptions C102_nested.

(** A table of five states and one of two with other names, with rows in another order. *)
Example C102_applies : exists m m2, compile islands 50 = Some m /\ flat islands 50 /\ compile isles 60 = Some m2 /\ flat isles 60 /\ keeps_kind Twins.same /\
  same_event_types islands 50 isles 60 /\ all_events_used islands 50 /\ all_events_used isles 60 /\
  entered_alike Twins.same islands 50 /\ entered_alike Twins.same isles 60 /\ imitates Twins.same islands 50 m Twins.same m2 /\
  length (children islands 50) = 5 /\ length (children isles 60) = 2.
Proof.
  destruct (compile islands 50) as [m|] eqn:Hm; [|exfalso; vm_compute in Hm; discriminate]. destruct (compile isles 60) as [m2|] eqn:Hm2; [|exfalso; vm_compute in Hm2; discriminate].
  exists m, m2. split; [reflexivity|]. split; [exact islands_flat|]. split; [reflexivity|]. split; [exact isles_flat|]. split; [exact Twins.same_kinds|].
  split; [exact isles_events|]. split; [apply used_intro; [exact islands_flat|vm_compute; reflexivity]|]. split; [apply used_intro; [exact isles_flat|vm_compute; reflexivity]|].
  split; [apply entered_intro; vm_compute; reflexivity|]. split; [apply entered_intro; vm_compute; reflexivity|].
  split; [exact (isles_imitate m m2 Hm Hm2)|]. vm_compute. auto.
Qed.
(** A program with a composite and the table of three states that does the same. *)
Example C102_applies_nested : exists m m2, compile garage 50 = Some m /\ one_region garage 50 /\ well_formed garage 50 /\ at_once garage 50 /\
  (N.of_nat (S (length (spots garage 50%nat))) < two64)%N /\
  let env2 := least_table Twins.same garage 50 in let root2 := one garage 50 in
  compile env2 root2 = Some m2 /\ one_region env2 root2 /\ well_formed env2 root2 /\ at_once env2 root2 /\ (N.of_nat (S (length (spots env2 root2))) < two64)%N /\
  keeps_kind Twins.same /\ keeps_kind (carried Twins.same garage 50) /\ same_event_types garage 50 env2 root2 /\
  all_events_used (unnested garage 50) (one garage 50) /\ all_events_used (unnested env2 root2) (one env2 root2) /\
  imitates Twins.same garage 50 m (carried Twins.same garage 50) m2.
Proof.
  destruct (compile garage 50) as [m|] eqn:Hm; [|exfalso; vm_compute in Hm; discriminate]. destruct (garage_imitated m Hm) as (m2 & Hm2 & Im). exists m, m2.
  split; [reflexivity|]. split; [apply one_region_intro; vm_compute; reflexivity|].
  split; [apply well_formed_intro; vm_compute; reflexivity|]. split; [apply at_once_intro; vm_compute; reflexivity|]. split; [vm_compute; reflexivity|].
  cbv zeta. split; [exact Hm2|]. split; [apply one_region_intro; vm_compute; reflexivity|].
  split; [apply well_formed_intro; vm_compute; reflexivity|]. split; [apply at_once_intro; vm_compute; reflexivity|]. split; [vm_compute; reflexivity|].
  split; [exact Twins.same_kinds|]. split; [apply carried_kind; exact Twins.same_kinds|]. split; [exact garage_events|].
  split; [apply used_intro; [exact garage_flat|vm_compute; reflexivity]|]. split; [apply used_intro; [apply flat_intro; vm_compute; reflexivity|vm_compute; reflexivity]|]. exact Im.
Qed.
