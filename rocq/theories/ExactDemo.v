(** Machines for PropsExact.v. *)

From Coq Require Import List Arith NArith Bool.
From Verif Require Import Types Static Dispatch Runtime Dsl Examples Spec DispatchFacts Semantics Reach
  TableFacts ProcessFacts Demo Safe SafeObjects SafeDemo Exact ExactIff.
Import ListNotations.

Definition exactly_b (env : cenv) (root : cls) : option bool :=
  match compile env root with
  | Some m => if Nat.leb (max_initials m) 255 then Some (exact_check m) else None
  | None => None
  end.

Lemma exactly_intro env root : exactly_b env root = Some true -> exactly_safe env root.
Proof.
  unfold exactly_b. destruct (compile env root) as [m|] eqn:Hm; [|discriminate].
  destruct (Nat.leb (max_initials m) 255) eqn:E; [|discriminate]. apply Nat.leb_le in E. intros H. inversion H as [H'].
  apply (exact_check_decides env root m Hm); [eapply max_few; eauto|exact H'].
Qed.
Lemma inexactly_intro env root : exactly_b env root = Some false -> ~ exactly_safe env root.
Proof.
  unfold exactly_b. destruct (compile env root) as [m|] eqn:Hm; [|discriminate].
  destruct (Nat.leb (max_initials m) 255) eqn:E; [|discriminate]. apply Nat.leb_le in E. intros H. inversion H as [H'].
  intros X. apply (exact_check_decides env root m Hm) in X; [congruence|eapply max_few; eauto].
Qed.

(** All hypotheses at once, for machines without anonymous rows. *)
Lemma harmless_intro env root :
  match compile env root with
  | Some m => Nat.leb (max_initials m) 255 && negb (has_anonymous m) && exact_check m
  | None => false
  end = true ->
  exists m, compile env root = Some m /\ few_regions env root /\ no_anonymous_deferral env root /\
    never_undefined env root m.
Proof.
  destruct (compile env root) as [m|] eqn:Hm; [|discriminate]. rewrite !andb_true_iff. intros [[H1 H2] H3].
  apply Nat.leb_le in H1. pose proof (max_few _ _ _ Hm H1) as Hf.
  assert (Ha : no_anonymous_deferral env root).
  { intros Hx. apply (anonymous_iff _ _ _ Hm) in Hx. rewrite Hx in H2. discriminate. }
  exists m. split; [reflexivity|]. split; [exact Hf|]. split; [exact Ha|].
  apply exact_iff; auto. now apply (exact_check_decides env root m Hm).
Qed.

(** Machines that are not well formed but cannot go wrong. *)
Module Harmless.
Import Wrong.
(** A row to a place outside the machine, and a row with a guard whose target has
    no object: a row declared later always is taken instead. *)
Definition shadowed : cenv :=
 [ (7, no_ctor);
   (50, tbl [ e (star_state 1) 1 (entry 13 1);
              seg_to (st_eg (state 1) (event_guard (EUser 1) ok)) (state 7);
              e (state 1) 1 (state 2); e (state 2) 1 (state 1) ]) ].
(** The state without object expects every event. *)
Definition expects : cenv :=
 [ (2, no_ctor);
   (50, mkCdef (Some [ e (star_state 1) 1 (state 2); e (state 2) 1 (state 1) ]) None false false true None true) ].
(** History, and a class without initial states whose row is never taken: its
    source defers the event. *)
Definition dead_end : cenv :=
 [ (5, mkCdef None None false false false (Some [EUser 4]) true);
   (11, tbl [ e (star_state 1) 1 (state 2) ]);
   (12, tbl [ e (state 5) 4 (state 6) ]);
   (50, tbl [ e (star_state 3) 1 (state 11); e (state 11) 2 (state 3); e (state 3) 3 (history 11);
              e (state 3) 5 (direct 12 5) ]) ].
End Harmless.

(** Two regions; class 12 has no initial states.  While region 0 is in it, a row
    taken by region 1 leaves no active region, and the next event is unexpected
    in S3, which has a row for every event but no object. *)
Module Asleep.
Import Wrong.
Definition env (ctor : bool) : cenv :=
 [ (3, mkCdef None None false false false None ctor);
   (12, tbl [ e (state 3) 1 (state 3); e (state 3) 2 (state 3) ]);
   (50, mkCdef (Some [ e (star_state 1) 1 (direct 12 3); e (state 3) 1 (state 1); e (state 3) 2 (state 1);
                       e (star_state 5) 2 (state 6); e (state 6) 1 (state 5) ]) None false false true None true) ].
End Asleep.
