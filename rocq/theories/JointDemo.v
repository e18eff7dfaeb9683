(** A program with two regions, and the two programs with one region each. *)

From Coq Require Import List Arith NArith Bool Lia.
From Verif Require Import Types Static Dispatch Runtime Dsl Examples Spec Semantics Graph Flat FlatFacts FlatDemo Joint JointFacts JointApart.
Import ListNotations.

Definition table_check (env : cenv) (root : cls) : bool :=
  forallb (flat_row env) (table env root) && Nat.leb 1 (length (initial_states env root)) && Nat.leb (length (initial_states env root)) 255 &&
  forallb (fun cd => flat_class (snd cd)) env.
Lemma table_intro env root : table_check env root = true -> one_table env root.
Proof.
  unfold table_check. rewrite !andb_true_iff, forallb_forall, !Nat.leb_le. intros (((H1 & H2) & H2') & H3). split.
  - intros r Hr. specialize (H1 r Hr). unfold flat_row in H1. rewrite !andb_true_iff, !leaf_iff in H1.
    destruct H1 as ((A & B) & C). split; [|auto]. destruct (ev_eq_dec (r_ev r) ENone); [discriminate|assumption].
  - lia.
  - intros c. unfold internals. clear H1 H2 H2'. induction env as [|[c' d] l IH]; [repeat split|]. cbn [forallb snd] in H3.
    apply andb_true_iff in H3. destruct H3 as [A B]. cbn [lookup]. destruct (Nat.eq_dec c c'); [|auto].
    unfold flat_class in A. rewrite !andb_true_iff in A. destruct A as ((A1 & A2) & A3).
    destruct (cd_internal d); [discriminate|]. destruct (cd_defer d); [discriminate|]. auto.
Qed.

Module Two.
Definition rows (a b : sref) : list row :=
 [ mkRow a (EUser 1) (Guard 1 1) (Action 3 (ACall 3)) (SState 2);
   mkRow (SState 2) (EUser 2) NoGuard NoAction (SState 1);
   mkRow (SState 2) (EUser 1) (Guard 2 2) (Action 4 (ACall 4)) (SState 1);
   mkRow b (EUser 1) NoGuard (Action 5 (ACall 5)) (SState 4);
   mkRow (SState 4) (EUser 3) (Guard 2 2) (Action 6 (ACall 6)) (SState 3);
   mkRow (SState 4) (EUser 1) NoGuard NoAction (SState 2) ].
Definition with_rows (l : list row) : cenv :=
 [ (2, mkCdef None None true true false None true); (4, mkCdef None None true false false None true); (3, mkCdef None None false true false None true);
   (50, mkCdef (Some l) None false false true None true) ].
Definition env := with_rows (rows (SInitial WState 1) (SInitial WState 3)).
Definition env1 := with_rows (rows (SInitial WState 1) (SState 3)).
Definition env2 := with_rows (rows (SState 1) (SInitial WState 3)).
(** Guard 1 says yes, guard 2 says no. *)
Definition cb : cbfun nat nat := fun c _ v w => match c with CGuard 2 _ => Ret false (S v) (S w) | _ => Ret true v (S w) end.
Definition G (ty val : nat) (_ : args) : bool := negb (Nat.eqb ty 2).
Lemma cb_says : guards_say cb G.
Proof. intros ty val a v w. destruct ty as [|[|[|ty]]]; cbn; eauto. Qed.
Lemma cb_steady : never_throws cb.
Proof. intros c a v w n v' w'. unfold cb. destruct c as [ty val|f|f|f|c|c|]; try discriminate. destruct ty as [|[|[|ty]]]; discriminate. Qed.

(** Action 3 throws. *)
Definition throwing : cbfun nat nat := fun c _ v w => match c with CAction 3 => Raise 7 v w | _ => Ret true v w end.
Lemma throwing_says : guards_say throwing (fun _ _ _ => true).
Proof. intros ty val a v w. cbn. eauto. Qed.
(** The guards say no until action 3 was called. *)
Definition looking : cbfun nat nat := fun c _ v w =>
  match c with CGuard 1 _ => Ret true v w | CGuard _ _ => Ret (Nat.eqb w 1) v w | CAction 3 => Ret true v 1 | _ => Ret true v w end.
Lemma looking_steady : never_throws looking.
Proof.
  intros c a v w n v' w'. unfold looking. destruct c as [ty val|k|f|f|c|c|]; try discriminate.
  - destruct ty as [|[|ty]]; discriminate.
  - destruct k as [|[|[|[|k]]]]; discriminate.
Qed.
(** Both regions have a guarded row for event 1. *)
Definition rows' (a b : sref) : list row :=
 [ mkRow a (EUser 1) (Guard 1 1) (Action 3 (ACall 3)) (SState 2);
   mkRow b (EUser 1) (Guard 2 2) NoAction (SState 4) ].
Definition env' := with_rows (rows' (SInitial WState 1) (SInitial WState 3)).
Definition env1' := with_rows (rows' (SInitial WState 1) (SState 3)).
Definition env2' := with_rows (rows' (SState 1) (SInitial WState 3)).

Definition parts_b (env env1 env2 : cenv) : bool :=
  (if list_eq_dec sref_eq_dec (initial_states env 50) [SState 1; SState 3] then true else false) && flat_check env1 50 && flat_check env2 50.
Lemma parts_intro (a a' b b' : sref) env env1 env2 m1 m2 (l : sref -> sref -> list row) : env = with_rows (l a b) -> env1 = with_rows (l a b') -> env2 = with_rows (l a' b) ->
  map unmark (l a b') = map unmark (l a b) -> map unmark (l a' b) = map unmark (l a b) ->
  first_initial env1 50 = Some (SState 1) -> first_initial env2 50 = Some (SState 3) ->
  parts_b env env1 env2 = true -> compile env1 50 = Some m1 -> compile env2 50 = Some m2 -> parts_of env 50 [(env1, 50, m1); (env2, 50, m2)].
Proof.
  intros -> -> -> H1 H2 I1 I2 H C1 C2. unfold parts_b in H. rewrite !andb_true_iff in H. destruct H as ((H3 & H4) & H5). unfold parts_of.
  destruct (list_eq_dec _ _ _) as [E|]; [rewrite E|discriminate].
  constructor; [|constructor; [|constructor]]; (split; [|assumption]); (split; [now apply flat_intro|assumption|assumption]).
Qed.
Lemma parts m1 m2 : compile env1 50 = Some m1 -> compile env2 50 = Some m2 -> parts_of env 50 [(env1, 50, m1); (env2, 50, m2)].
Proof.
  intros. apply (parts_intro (SInitial WState 1) (SState 1) (SInitial WState 3) (SState 3) env env1 env2 m1 m2 rows); auto; vm_compute; reflexivity.
Qed.
Lemma parts' m1 m2 : compile env1' 50 = Some m1 -> compile env2' 50 = Some m2 -> parts_of env' 50 [(env1', 50, m1); (env2', 50, m2)].
Proof.
  intros. apply (parts_intro (SInitial WState 1) (SState 1) (SInitial WState 3) (SState 3) env' env1' env2' m1 m2 rows'); auto; vm_compute; reflexivity.
Qed.
End Two.

Lemma throwing_lags : exists env root m parts, compile env root = Some m /\ one_table env root /\ parts_of env root parts /\
  exists cb : cbfun nat nat, guards_say cb (fun _ _ _ => true) /\
  exists e env' root' m' outs s os s', nth_error parts 1 = Some (env', root', m') /\ event_of env root e /\
    session cb m 0 300 8 0 [KProcess e 0] = Done outs s /\ session cb m' 0 300 8 0 [KProcess e 0] = Done os s' /\
    at_place m s 1 = Some (root, SState 3) /\ at_place m' s' 0 = Some (root', SState 4).
Proof.
  destruct (compile Two.env 50) as [m|] eqn:E; [|vm_compute in E; discriminate].
  destruct (compile Two.env1 50) as [m1|] eqn:E1; [|vm_compute in E1; discriminate].
  destruct (compile Two.env2 50) as [m2|] eqn:E2; [|vm_compute in E2; discriminate].
  exists Two.env, 50, m, [(Two.env1, 50, m1); (Two.env2, 50, m2)]. split; [exact E|]. split; [apply table_intro; vm_compute; reflexivity|].
  split; [now apply Two.parts|]. exists Two.throwing. split; [exact Two.throwing_says|].
  assert (K : match compile Two.env 50, compile Two.env2 50 with
    | Some m, Some m2 => match session Two.throwing m 0 300 8 0 [KProcess (EUser 1) 0], session Two.throwing m2 0 300 8 0 [KProcess (EUser 1) 0] with
      | Done _ s, Done _ s' => at_place m s 1 = Some (50, SState 3) /\ at_place m2 s' 0 = Some (50, SState 4)
      | _, _ => False end | _, _ => False end) by (vm_compute; auto).
  rewrite E, E2 in K. destruct (session _ m _ _ _ _ _) as [outs s| | |] eqn:D; try contradiction.
  destruct (session _ m2 _ _ _ _ _) as [os s'| | |] eqn:D'; try contradiction.
  exists (EUser 1), Two.env2, 50, m2, outs, s, os, s'. split; [reflexivity|]. split; [|tauto].
  eexists (row_in 50 _). split; [left; exists 50; eexists; split; [constructor|split; [left; reflexivity|reflexivity]]|reflexivity].
Qed.
Lemma looking_differs : exists env root m parts, compile env root = Some m /\ one_table env root /\ parts_of env root parts /\
  exists cb : cbfun nat nat, never_throws cb /\
  exists e env' root' m' outs s os s', nth_error parts 1 = Some (env', root', m') /\ event_of env root e /\
    session cb m 0 300 8 0 [KProcess e 0] = Done outs s /\ session cb m' 0 300 8 0 [KProcess e 0] = Done os s' /\
    at_place m s 1 = Some (root, SState 4) /\ at_place m' s' 0 = Some (root', SState 3).
Proof.
  destruct (compile Two.env' 50) as [m|] eqn:E; [|vm_compute in E; discriminate].
  destruct (compile Two.env1' 50) as [m1|] eqn:E1; [|vm_compute in E1; discriminate].
  destruct (compile Two.env2' 50) as [m2|] eqn:E2; [|vm_compute in E2; discriminate].
  exists Two.env', 50, m, [(Two.env1', 50, m1); (Two.env2', 50, m2)]. split; [exact E|]. split; [apply table_intro; vm_compute; reflexivity|].
  split; [now apply Two.parts'|]. exists Two.looking. split; [exact Two.looking_steady|].
  assert (K : match compile Two.env' 50, compile Two.env2' 50 with
    | Some m, Some m2 => match session Two.looking m 0 300 8 0 [KProcess (EUser 1) 0], session Two.looking m2 0 300 8 0 [KProcess (EUser 1) 0] with
      | Done _ s, Done _ s' => at_place m s 1 = Some (50, SState 4) /\ at_place m2 s' 0 = Some (50, SState 3)
      | _, _ => False end | _, _ => False end) by (vm_compute; auto).
  rewrite E, E2 in K. destruct (session _ m _ _ _ _ _) as [outs s| | |] eqn:D; try contradiction.
  destruct (session _ m2 _ _ _ _ _) as [os s'| | |] eqn:D'; try contradiction.
  exists (EUser 1), Two.env2', 50, m2, outs, s, os, s'. split; [reflexivity|]. split; [|tauto].
  eexists (row_in 50 _). split; [left; exists 50; eexists; split; [constructor|split; [left; reflexivity|reflexivity]]|reflexivity].
Qed.
