(** Tables written down in two ways. *)

From Coq Require Import List Arith NArith Bool.
From Verif Require Import Types Static Dispatch Runtime IndexFacts Spec Semantics Dsl Examples Demo SafeDemo
  Flat FlatFacts FlatDemo Unnest UnnestProgram UnnestDemo Merge MergeFacts MergeRun MergeLeast MergeDemo UnnestMerge UnnestMergeDemo
  Trim TrimFacts TrimNested TrimDemo Unique UniqueFacts UniqueNested EquivUse.
Import ListNotations.

(** What is left of [islands], with other states and its rows in another order. *)
Definition isles : cenv :=
 [ (60, tbl [ user (state 9) 2 NoGuard (act 20) (state 8);
              user (star_state 8) 1 NoGuard (act 11) (state 9);
              user (state 8) 1 (Guard 2 2) (act 12) (state 9) ]) ].

Section Check.
Variables (lab : naming) (env : cenv) (root : cls) (lab2 : naming) (env2 : cenv) (root2 : cls) (P : list (sref * sref)).
Definition same_rows_b : bool :=
  match first_initial env root, first_initial env2 root2 with
  | Some i, Some i2 => if in_dec pair_dec (i, i2) P then true else false
  | _, _ => false
  end &&
  forallb (fun p => forallb (fun e => agree P (moves lab env root (fst p) e) (moves lab2 env2 root2 (snd p) e)) (all_events env root ++ all_events env2 root2)) P.
Lemma same_rows_intro : same_rows_b = true -> handler_of lab env root = handler_of lab2 env2 root2 -> same_rows lab env root lab2 env2 root2 (fun a b => In (a, b) P).
Proof.
  unfold same_rows_b. rewrite andb_true_iff. intros [I F] H. split; [|split; [|auto]].
  - destruct (first_initial env root) as [i|]; [|discriminate]. destruct (first_initial env2 root2) as [i2|]; [|discriminate].
    exists i, i2. split; [reflexivity|]. split; [reflexivity|]. now destruct (in_dec pair_dec (i, i2) P).
  - intros a b e Hab. rewrite forallb_forall in F. specialize (F (a, b) Hab). rewrite forallb_forall in F. cbn [fst snd] in F.
    destruct (in_dec ev_eq_dec e (all_events env root ++ all_events env2 root2)) as [Ie|Ne].
    + apply F, agree_iff in Ie. revert Ie. apply pairs_impl. intros x y. exact (fun h => h).
    + rewrite in_app_iff in Ne. rewrite (no_moves lab env root a e), (no_moves lab2 env2 root2 b e) by tauto. constructor.
Qed.
End Check.
Definition same_events_b (env : cenv) (root : cls) (env2 : cenv) (root2 : cls) : bool :=
  forallb (fun e => if in_dec ev_eq_dec e (all_events env2 root2) then true else false) (all_events env root) &&
  forallb (fun e => if in_dec ev_eq_dec e (all_events env root) then true else false) (all_events env2 root2).
Lemma same_events_intro env root env2 root2 : flat env root -> flat env2 root2 -> same_events_b env root env2 root2 = true -> same_event_types env root env2 root2.
Proof.
  intros Hf Hf2. unfold same_events_b. rewrite andb_true_iff, !forallb_forall. intros [A B] e. rewrite <- (events_rows env root e Hf), <- (events_rows env2 root2 e Hf2). split; intros H.
  - apply A in H. now destruct (in_dec ev_eq_dec e (all_events env2 root2)).
  - apply B in H. now destruct (in_dec ev_eq_dec e (all_events env root)).
Qed.
Lemma islands_flat : flat islands 50. Proof. apply flat_intro; vm_compute; reflexivity. Qed.
Lemma isles_flat : flat isles 60. Proof. apply flat_intro; vm_compute; reflexivity. Qed.
Lemma isles_events : same_event_types islands 50 isles 60.
Proof. apply same_events_intro; [exact islands_flat|exact isles_flat|vm_compute; reflexivity]. Qed.
Lemma isles_rows : same_rows Twins.same islands 50 Twins.same isles 60
  (fun a b => In (a, b) [(SState 1, SState 8); (SState 2, SState 9); (SState 5, SState 9)]).
Proof. apply same_rows_intro; vm_compute; reflexivity. Qed.
Lemma isles_imitate m m2 : compile islands 50 = Some m -> compile isles 60 = Some m2 -> imitates Twins.same islands 50 m Twins.same m2.
Proof.
  intros Hm Hm2. destruct (rows_session _ _ _ _ _ _ _ _ _ Hm islands_flat Hm2 isles_flat isles_events isles_rows) as (b & B). exists b. intros fuel l Hb Hl.
  destruct (B _ _ verdicts [] fuel 0 tt l Hb Hl) as (outs & s & s' & x & y & H1 & H2 & H3 & _). exists outs, s, s'. auto.
Qed.
Lemma entered_intro lab env root : forallb (fun a => forallb (fun b => if list_eq_dec callee_eq_dec (entries lab env a) (entries lab env b) then true else false) (got env root)) (got env root) = true ->
  entered_alike lab env root.
Proof.
  intros H a b Ha Hb. apply got_iff in Ha, Hb. rewrite forallb_forall in H. specialize (H a Ha). rewrite forallb_forall in H. specialize (H b Hb).
  now destruct (list_eq_dec callee_eq_dec (entries lab env a) (entries lab env b)).
Qed.
(** A program with a composite and its smallest table. *)
Lemma garage_flat : flat (unnested garage 50) (one garage 50). Proof. apply flat_intro; vm_compute; reflexivity. Qed.
Lemma garage_imitated m : compile garage 50 = Some m ->
  exists m2, compile (least_table Twins.same garage 50) (one garage 50) = Some m2 /\ imitates Twins.same garage 50 m (carried Twins.same garage 50) m2.
Proof.
  intros Hm. destruct (nested_trimmed_attained Twins.same garage 50 m Hm) as (m2 & H & _ & I); [apply one_region_intro; vm_compute; reflexivity|
    apply well_formed_intro; vm_compute; reflexivity|apply at_once_intro; vm_compute; reflexivity|vm_compute; reflexivity|
    apply used_intro; [exact garage_flat|vm_compute; reflexivity]|]. eauto.
Qed.
Lemma garage_events : same_event_types garage 50 (least_table Twins.same garage 50) (one garage 50).
Proof.
  destruct (compile garage 50) as [m|] eqn:Hm; [|exfalso; vm_compute in Hm; discriminate].
  assert (Fl : flat (least_table Twins.same garage 50) (one garage 50)) by (apply flat_intro; vm_compute; reflexivity).
  destruct (nested_flat garage 50 m Hm) as [_ Ev]; [apply one_region_intro; vm_compute; reflexivity|
    apply well_formed_intro; vm_compute; reflexivity|apply at_once_intro; vm_compute; reflexivity|].
  intros e. rewrite (Ev e). revert e. change (same_event_types (unnested garage 50) (one garage 50) (least_table Twins.same garage 50) (one garage 50)).
  apply same_events_intro; [exact garage_flat|exact Fl|vm_compute; reflexivity].
Qed.
