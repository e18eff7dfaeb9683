(** Programs for PropsDead.v. *)

From Coq Require Import List Arith NArith Bool.
From Verif Require Import Types Static Dispatch Runtime Dsl Examples IndexFacts Spec DispatchFacts Semantics Safe SafeObjects SafeDemo
  Reorder Dead ReorderCheck ReorderDemo DeadCheck.
Import ListNotations.
Local Notation "s + e '-->' t" := (se_to (st_event s (EUser e)) t) (at level 50, e at level 49).
Definition guarded_row (s : sref) (e : nat) (g : guard) (t : sref) : row := seg_to (st_eg s (event_guard (EUser e) g)) t.

(** Two regions, a composite, internal rows, history, deferral; three rows that are never
    taken: one of the composite's is deferred (6 in 8), one of the composite's and one of the
    root's are overridden. *)
Definition long_env : cenv :=
 [ (8, mkCdef None (Some [mkIrow (EUser 7) Examples.ok (calls 3)]) true true false (Some [EUser 6]) true);
   (11, mkCdef (Some [ star_state 7 + 3 --> state 8; state 8 + 4 --> state 9; state 8 + 6 --> state 9; guarded_row (state 9) 3 Examples.ok (state 9);
                       state 9 + 3 --> state 8; star_state 20 + 3 --> state 21; state 9 + 6 --> state 8 ])
        (Some [mkIrow (EUser 4) NoGuard (calls 1)]) true true false None true);
   (50, mkCdef (Some [ star_state 1 + 2 --> state 11; state 11 + 5 --> state 1; star_state 30 + 3 --> state 31;
                       state 31 + 3 --> state 31; state 31 + 3 --> state 30; state 1 + 6 --> history 11 ])
        None false false true None true) ].
Definition unneeded : list (cls * nat) := [(11, 2); (11, 2); (50, 3)].
Definition long_calls : list (call nat) :=
  [pe 3; pe 2; pe 3; pe 6; pe 7; pe 4; pe 3; pe 3; pe 5; KSetDep 3; pe 6; pe 4; pe 3; KStatus].

(** * Conditions *)
(** The later row has a guard; *)
Definition by_guarded (env : cenv) (c : cls) (l1 : list row) (r : row) (l2 : list row) : Prop :=
  (exists r2, In r2 l2 /\ r_src r2 = r_src r /\ r_ev r2 = r_ev r) /\
  enters_nothing env r /\ named (l1 ++ l2) r /\ in_turn env c l1 r.
(** the row without guard comes first; *)
Definition by_earlier (env : cenv) (c : cls) (l1 : list row) (r : row) (l2 : list row) : Prop :=
  (exists r2, In r2 l1 /\ r_src r2 = r_src r /\ r_ev r2 = r_ev r /\ r_guard r2 = NoGuard) /\
  enters_nothing env r /\ named (l1 ++ l2) r /\ in_turn env c l1 r.
(** the source that defers the event is a composite; *)
Definition by_composite (env : cenv) (c : cls) (l1 : list row) (r : row) (l2 : list row) : Prop :=
  (exists k, unmarked (r_src r) = SState k /\ In (r_ev r) (defers env k)) /\
  enters_nothing env r /\ named (l1 ++ l2) r /\ in_turn env c l1 r.
(** the row leads into a composite; *)
Definition entering (env : cenv) (c : cls) (l1 : list row) (r : row) (l2 : list row) : Prop :=
  never_taken env l2 r /\ named (l1 ++ l2) r /\ in_turn env c l1 r.
(** the row is the first to name a state with internal rows. *)
Definition out_of_turn (env : cenv) (c : cls) (l1 : list row) (r : row) (l2 : list row) : Prop :=
  never_taken env l2 r /\ enters_nothing env r /\ named (l1 ++ l2) r.

(** * Programs *)
Definition refusing : cenv :=
 [ (50, tbl [ star_state 1 + 3 --> state 2; star_state 1 + 2 --> state 2; guarded_row (star_state 1) 2 Examples.fail (state 3) ]) ].
Definition refusing' : cenv :=
 [ (50, tbl [ star_state 1 + 3 --> state 2; guarded_row (star_state 1) 2 Examples.fail (state 3) ]) ].
Definition early : cenv :=
 [ (50, tbl [ star_state 1 + 2 --> state 2; star_state 1 + 3 --> state 3; star_state 1 + 2 --> state 3 ]) ].
Definition early' : cenv :=
 [ (50, tbl [ star_state 1 + 2 --> state 2; star_state 1 + 3 --> state 3 ]) ].
Definition deferring_sub : cdef := mkCdef (Some [ star_state 7 + 3 --> state 8 ]) None false false false (Some [EUser 4]) true.
Definition outer : cenv :=
 [ (11, deferring_sub); (50, tbl [ star_state 1 + 2 --> state 11; state 11 + 5 --> state 1; state 11 + 4 --> state 1; state 1 + 4 --> state 1 ]) ].
Definition outer' : cenv :=
 [ (11, deferring_sub); (50, tbl [ star_state 1 + 2 --> state 11; state 11 + 5 --> state 1; state 1 + 4 --> state 1 ]) ].
Definition second : cenv :=
 [ (11, sub_rows);
   (50, tbl [ star_state 1 + 2 --> state 11; state 11 + 3 --> state 1; state 1 + 5 --> state 11; state 1 + 5 --> state 1 ]) ].
Definition second' : cenv :=
 [ (11, sub_rows); (50, tbl [ star_state 1 + 2 --> state 11; state 11 + 3 --> state 1; state 1 + 5 --> state 1 ]) ].
Definition first_named : cenv :=
 [ (11, sub11); (12, sub12);
   (50, tbl [ star_state 1 + 1 --> entry 11 7; state 1 + 2 --> entry 12 20; guarded_row (state 12) 6 Examples.ok (state 1);
              state 11 + 5 --> state 1; state 12 + 6 --> state 1 ]) ].
Definition first_named' : cenv :=
 [ (11, sub11); (12, sub12);
   (50, tbl [ star_state 1 + 1 --> entry 11 7; state 1 + 2 --> entry 12 20; state 11 + 5 --> state 1; state 12 + 6 --> state 1 ]) ].

Ltac checked := first [apply enters_iff|apply named_iff|apply turn_iff|apply never_iff]; vm_compute; reflexivity.
Ltac all_checked := repeat (match goal with |- _ /\ _ => split end); checked.
Lemma refusing_without : without_by (by_guarded refusing) refusing refusing'.
Proof.
  exists 50, [star_state 1 + 3 --> state 2], (star_state 1 + 2 --> state 2), [guarded_row (star_state 1) 2 Examples.fail (state 3)].
  split; [reflexivity|]. split; [reflexivity|]. split; [unfold refusing, refusing'; one_class|]. split; [|vm_compute; reflexivity].
  split; [eexists; split; [left; reflexivity|auto]|]. all_checked.
Qed.
Lemma refusing_told : told_apart refusing refusing' 50.
Proof. eapply (told_intro _ _ _ [pe 2]); [vm_compute; reflexivity|discriminate]. Qed.
Lemma early_without : without_by (by_earlier early) early early'.
Proof.
  exists 50, [star_state 1 + 2 --> state 2; star_state 1 + 3 --> state 3], (star_state 1 + 2 --> state 3), [].
  split; [reflexivity|]. split; [reflexivity|]. split; [unfold early, early'; one_class|]. split; [|vm_compute; reflexivity].
  split; [eexists; split; [left; reflexivity|auto]|]. all_checked.
Qed.
Lemma early_told : told_apart early early' 50.
Proof. eapply (told_intro _ _ _ [pe 2]); [vm_compute; reflexivity|discriminate]. Qed.
Lemma outer_without : without_by (by_composite outer) outer outer'.
Proof.
  exists 50, [star_state 1 + 2 --> state 11; state 11 + 5 --> state 1], (state 11 + 4 --> state 1), [state 1 + 4 --> state 1].
  split; [reflexivity|]. split; [reflexivity|]. split; [unfold outer, outer'; one_class|]. split; [|vm_compute; reflexivity].
  split; [exists 11; split; [reflexivity|now left]|]. all_checked.
Qed.
Lemma outer_told : told_apart outer outer' 50.
Proof. eapply (told_intro _ _ _ [pe 2; pe 4]); [vm_compute; reflexivity|discriminate]. Qed.
Lemma second_without : without_by (entering second) second second'.
Proof.
  exists 50, [star_state 1 + 2 --> state 11; state 11 + 3 --> state 1], (state 1 + 5 --> state 11), [state 1 + 5 --> state 1].
  split; [reflexivity|]. split; [reflexivity|]. split; [unfold second, second'; one_class|]. split; [|vm_compute; reflexivity].
  unfold entering. all_checked.
Qed.
Lemma second_told : told_apart second second' 50.
Proof. eapply (told_intro _ _ _ [pe 2; pe 3]); [vm_compute; reflexivity|discriminate]. Qed.
Lemma first_named_without : without_by (out_of_turn first_named) first_named first_named'.
Proof.
  exists 50, [star_state 1 + 1 --> entry 11 7; state 1 + 2 --> entry 12 20], (guarded_row (state 12) 6 Examples.ok (state 1)),
    [state 11 + 5 --> state 1; state 12 + 6 --> state 1].
  split; [reflexivity|]. split; [reflexivity|]. split; [unfold first_named, first_named'; one_class|]. split; [|vm_compute; reflexivity].
  unfold out_of_turn. all_checked.
Qed.
Lemma first_named_told : told_apart first_named first_named' 50.
Proof. eapply (told_intro _ _ _ [pe 2; pe 4]); [vm_compute; reflexivity|discriminate]. Qed.

(** A row that alone names its target. *)
Definition unnamed (env : cenv) (c : cls) (l1 : list row) (r : row) (l2 : list row) : Prop :=
  never_taken env l2 r /\ enters_nothing env r /\ in_turn env c l1 r.
Definition alone : cenv := [ (50, tbl [ star_state 1 + 2 --> state 3; star_state 1 + 2 --> state 2 ]) ].
Definition alone' : cenv := [ (50, tbl [ star_state 1 + 2 --> state 2 ]) ].
Lemma alone_without : without_by (unnamed alone) alone alone'.
Proof.
  exists 50, [], (star_state 1 + 2 --> state 3), [star_state 1 + 2 --> state 2].
  split; [reflexivity|]. split; [reflexivity|]. split; [unfold alone, alone'; one_class|]. split; [|vm_compute; reflexivity].
  unfold unnamed. all_checked.
Qed.
Lemma alone_told : told_apart alone alone' 50.
Proof.
  assert (H : match compile alone 50, compile alone' 50 with
    | Some m, Some m' =>
        match session ex_cb m 0 300 0 0 [KSet 0 50 (SState 3)], session ex_cb m' 0 300 0 0 [KSet 0 50 (SState 3)] with
        | Done _ _, Undef _ => True
        | _, _ => False
        end
    | _, _ => False
    end) by (vm_compute; exact I).
  destruct (compile alone 50) as [m|] eqn:E, (compile alone' 50) as [m'|] eqn:E'; try contradiction.
  exists nat, nat, ex_cb, 0, m, m', 300, 0, 0, [KSet 0 50 (SState 3)]. split; [exact E|]. split; [exact E'|].
  intros R. revert H. now destruct R.
Qed.
