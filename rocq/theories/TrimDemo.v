(** Programs with states that no row leads to. *)

From Coq Require Import List Arith NArith Bool.
From Verif Require Import Types Static Dispatch Runtime IndexFacts Spec Semantics Dsl Examples Demo SafeDemo
  Flat FlatFacts FlatDemo Unnest UnnestProgram UnnestDemo Merge MergeFacts MergeRun MergeLeast MergeDemo UnnestMerge UnnestMergeDemo Trim TrimFacts TrimNested.
Import ListNotations.

Definition used_b (env : cenv) (root : cls) : bool :=
  forallb (fun e => existsb (fun r => starts_in (got env root) r && if ev_eq_dec (r_ev r) e then true else false) (table env root)) (all_events env root).
Lemma used_intro env root : flat env root -> used_b env root = true -> all_events_used env root.
Proof.
  intros Hf H e He. apply (event_row env root Hf) in He. destruct He as (r0 & Hr0 & E0). unfold used_b in H. rewrite forallb_forall in H.
  specialize (H e). unfold all_events in H. rewrite in_map_iff in H. specialize (H (Logic.ex_intro _ r0 (conj E0 Hr0))).
  apply existsb_exists in H. destruct H as (r & Hr & H). apply andb_true_iff in H. destruct H as [S E]. apply starts_iff in S.
  exists (unmarked (r_src r)), r. split; [now apply got_iff|]. unfold rows_for. rewrite <- in_rev, filter_In. split; [exact Hr|].
  unfold row_for. destruct (sref_eq_dec _ _); [|congruence]. destruct (ev_eq_dec (r_ev r) e); [reflexivity|discriminate].
Qed.

(** The row to state 3 stands before a row without a guard, so no row leads to the states
    3 and 4. *)
Definition islands : cenv :=
 [ (50, tbl [ user (star_state 1) 1 (Guard 1 1) (act 10) (state 3);
              user (state 1) 1 NoGuard (act 11) (state 2);
              user (state 1) 1 (Guard 2 2) (act 12) (state 5);
              user (state 2) 2 NoGuard (act 20) (state 1);
              user (state 5) 2 NoGuard (act 20) (state 1);
              user (state 3) 1 NoGuard (act 11) (state 4);
              user (state 4) 2 NoGuard NoAction (state 1) ]) ].
(** Event 3 has a row in state 3 only. *)
Definition waits : cenv :=
 [ (50, tbl [ user (star_state 1) 1 NoGuard NoAction (state 2);
              user (state 2) 1 NoGuard NoAction (state 1);
              user (state 3) 3 NoGuard NoAction (state 1) ]) ].
Lemma waits_lost : event_of waits 50 (EUser 3) /\ ~ event_of (trimmed waits 50) 50 (EUser 3).
Proof.
  assert (Hf : flat waits 50) by (apply flat_intro; vm_compute; reflexivity). split.
  - apply (event_row waits 50 Hf). eexists. split; [right; right; left; reflexivity|reflexivity].
  - intros H. apply (event_row _ 50 (trimmed_flat waits 50 Hf)) in H. destruct H as (r & Hr & E). vm_compute in Hr.
    repeat (destruct Hr as [<- | Hr]; [discriminate|]). destruct Hr.
Qed.
(** A composite that is left by a row from the composite and by exit states. *)
Definition garage : cenv :=
 [ (4, mkCdef None None true true false None true);
   (11, mkCdef (Some [ user (star_state 4) 3 NoGuard (act 30) (state 5);
                       user (state 5) 3 (Guard 1 1) (act 31) (state 6);
                       user (state 6) 3 (Guard 1 1) (act 31) (state 5) ])
               (Some [mkIrow (EUser 8) NoGuard (act 80)]) true true false None true);
   (50, mkCdef (Some [ user (star_state 1) 1 NoGuard (act 10) (state 11);
                       user (state 11) 4 NoGuard (act 40) (state 1);
                       user (exit 11 5) 2 NoGuard (act 20) (state 1);
                       user (exit 11 6) 2 NoGuard (act 20) (state 1) ]) None false false true None true) ].
