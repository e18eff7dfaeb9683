(** The check of [Amalgam.alike] and machines for PropsAmalgam.v. *)

From Coq Require Import List Arith NArith Bool Lia.
From Verif Require Import Types Static Dispatch Runtime Dsl Examples ListFacts IndexFacts Spec DispatchFacts
  FlattenFacts Semantics Amalgam AmalgamFacts AmalgamRun AmalgamQueue.
Import ListNotations.

(** ** The check *)
Lemma lookup_in env c : lookup env c = plain \/ In (c, lookup env c) env.
Proof.
  induction env as [|[c' d] env IH]; [now left|]. cbn [lookup]. destruct (Nat.eq_dec c c') as [->|]; [right; now left|].
  destruct IH as [->|IH]; [now left|right; now right].
Qed.
Lemma composites_ok env root : composites_check env = true -> only_composites env root.
Proof.
  intros H c i _ Hi. unfold composites_check in H. rewrite forallb_forall in H. unfold internals in Hi.
  destruct (lookup_in env c) as [E|E]; [rewrite E in Hi; destruct Hi|]. specialize (H _ E). cbn [snd] in H. unfold composite.
  destruct (cd_table (lookup env c)); [discriminate|]. destruct (cd_internal (lookup env c)) as [[|? ?]|]; [destruct Hi|discriminate|destruct Hi].
Qed.
Lemma repetition_free_ok l : repetition_free l = true -> NoDup l.
Proof.
  induction l as [|a l IH]; intros H; [constructor|]. cbn in H. apply andb_true_iff in H. destruct H as [H1 H2].
  constructor; [|now apply IH]. destruct (in_dec irow_type_dec a l); [discriminate|assumption].
Qed.
Lemma types_ok env root : types_check env = true -> distinct_types env root.
Proof.
  intros H c _. unfold types_check in H. rewrite forallb_forall in H.
  destruct (lookup_in env c) as [E|E]; [unfold internals; rewrite E; constructor|]. specialize (H _ E). now apply repetition_free_ok in H.
Qed.
Lemma written_ends env c s : written_in env c s -> In s (ends env c).
Proof. intros (r & Hr & H). apply in_flat_map. exists r. split; [exact Hr|]. cbn. intuition. Qed.
Lemma apart_ok env root : apart_check env root = true -> root_apart env root.
Proof.
  intros H c i j s t _ Hne Hi Hj He Hs Ht Hp. unfold apart_check in H. rewrite forallb_forall in H.
  destruct (lookup_in env c) as [E|E]; [unfold internals in Hj; rewrite E in Hj; destruct Hj|]. specialize (H _ E). cbn [fst] in H.
  apply orb_true_iff in H. destruct H as [H|H]; [apply Nat.eqb_eq in H; contradiction|].
  rewrite forallb_forall in H. specialize (H i Hi). rewrite forallb_forall in H. specialize (H j Hj).
  destruct (ev_eq_dec (i_ev i) (i_ev j)); [|contradiction]. cbn [negb orb] in H.
  rewrite forallb_forall in H. specialize (H s (written_ends _ _ _ Hs)). rewrite forallb_forall in H. specialize (H t (written_ends _ _ _ Ht)).
  destruct (place_eq_dec _ _); [discriminate|contradiction].
Qed.
Lemma defer_ok env root : defer_check env = true -> nothing_deferred env root.
Proof.
  intros H c e _ He. unfold defer_check in H. rewrite forallb_forall in H. unfold defers in He.
  destruct (lookup_in env c) as [E|E]; [rewrite E in He; destruct He|]. specialize (H _ E). cbn [snd] in H.
  destruct (cd_defer (lookup env c)) as [[|? ?]|]; [destruct He|discriminate|destruct He].
Qed.
Lemma alike_ok env root : alike_check env root = true -> alike env root.
Proof.
  unfold alike_check. rewrite !andb_true_iff. intros [[[H1 H2] H3] H4].
  constructor; [now apply composites_ok|now apply types_ok|now apply apart_ok|now apply defer_ok].
Qed.

(** ** Telling the versions apart *)
Lemma same_machine env root m m' : compile env root = Some m -> am_compile env root = Some m' -> m' = m.
Proof.
  unfold compile, am_compile. destruct (flatten _ _ _) as [fl|]; [|discriminate]. destruct (accepted _), (am_accepted _); congruence.
Qed.
(** User code without data for the anonymous event: guard type 0 refuses. *)
Definition calm : cbfun nat nat := fun c a v w =>
  match c with
  | CGuard ty _ => Ret (negb (Nat.eqb ty 0)) v w
  | _ => Ret true v (S w)
  end.
Lemma calm_none : none_has_no_data calm.
Proof. intros c a v w b v' w' _ H. destruct c; inversion H; reflexivity. Qed.
(** What is compared: places, queue, callbacks. *)
Definition seen (s : rt nat nat) := (rt_cur s, rt_queue s, map k_callee (rt_trace s)).
Definition both (env : cenv) (root : cls) (ks : list (call nat)) :=
  match compile env root, am_compile env root with
  | Some m, Some _ =>
      match session calm m 0 300 0 0 ks, am_session calm m 0 300 0 0 ks with
      | Done _ s, Done _ s' => Some (seen s, seen s')
      | _, _ => None
      end
  | _, _ => None
  end.
Lemma told_intro env root ks a b : (forall k, In k ks -> without_set k) -> both env root ks = Some (a, b) -> a <> b -> told_apart env root.
Proof.
  intros Hks H Hne. unfold both in H. destruct (compile env root) as [m|] eqn:Hm; [|discriminate].
  destruct (am_compile env root) as [m'|] eqn:Ha; [|discriminate]. pose proof (same_machine _ _ _ _ Hm Ha). subst m'.
  exists nat, nat, calm, 0, m, 300, 0, 0, ks. split; [exact Hm|]. split; [exact Ha|]. split; [exact calm_none|]. split; [exact Hks|].
  intros R. revert H. destruct R as [o o' s s' _ S|x s s' _|u|]; try discriminate. intros H. inversion H; subst. apply Hne. destruct S. unfold seen. congruence.
Qed.

Definition row s e t := se_to (st_event s (EUser e)) t.
Definition calls n := Action n (ACall n).
(** A state that defers two events. *)
Definition defer_env : cenv :=
 [ (1, mkCdef None None false false false (Some [EUser 2; EUser 3]) true);
   (50, tbl [ row (star_state 1) 1 (state 2); row (state 2) 2 (state 3); row (state 2) 3 (state 4); row (state 4) 2 (state 1) ]) ].
(** Internal rows of a state that is not a composite. *)
Definition leaf_env : cenv :=
 [ (2, mkCdef None (Some [mkIrow (EUser 1) NoGuard (calls 1)]) false false false None true);
   (50, tbl [ row (star_state 1) 2 (state 2); row (state 1) 1 (state 3) ]) ].
(** Two internal rows of the same type (the same function called with another value). *)
Definition twin_env : cenv :=
 [ (11, mkCdef (Some [ row (star_state 7) 3 (state 8) ])
        (Some [mkIrow (EUser 1) NoGuard (Action 1 (ACall 1)); mkIrow (EUser 1) NoGuard (Action 1 (ACall 2))]) false false false None true);
   (50, tbl [ row (star_state 1) 2 (state 11) ]) ].
(** The root and class 11 have internal rows for state 8 of class 11: the root's table
    names it by an exit. *)
Definition exit_env : cenv :=
 [ (11, mkCdef (Some [ row (star_state 7) 3 (state 8) ]) (Some [mkIrow (EUser 1) NoGuard (calls 1)]) false false false None true);
   (50, mkCdef (Some [ row (star_state 1) 2 (state 11); row (exit 11 8) 4 (state 2) ])
        (Some [mkIrow (EUser 1) NoGuard (calls 2)]) false false false None true) ].
(** The root's initial state is a composite. *)
Definition initial_env : cenv :=
 [ (11, tbl [ row (star_state 7) 3 (state 8) ]); (50, tbl [ row (star_state 11) 2 (state 1) ]) ].
(** A guard refuses while something is deferred. *)
Definition refuse_env : cenv :=
 [ (1, mkCdef None None false false false (Some [EUser 2]) true);
   (50, tbl [ row (star_state 1) 1 (state 2); seg_to (st_eg (state 2) (event_guard (EUser 3) fail)) (state 3);
              row (state 3) 2 (state 1) ]) ].
(** Where the versions agree. *)
Definition like_env : cenv :=
 [ (11, mkCdef (Some [ row (star_state 7) 3 (state 8); st_to (state 8) (state 9); row (star_state 20) 3 (state 21) ])
        (Some [mkIrow (EUser 1) fail (calls 1); mkIrow (EUser 1) NoGuard (calls 3); mkIrow (EUser 5) Examples.ok (calls 1)]) true true false None true);
   (50, mkCdef (Some [ row (star_state 1) 2 (state 11); row (exit 11 9) 4 (history 11); row (star_state 30) 3 (state 31) ])
        (Some [mkIrow (EUser 6) NoGuard (calls 2)]) false false true None true) ].

Ltac known := intros k Hk; repeat (destruct Hk as [<-|Hk]; [exact I|]); destruct Hk.
Lemma defer_needed : only_composites defer_env 50 /\ distinct_types defer_env 50 /\ root_apart defer_env 50 /\ told_apart defer_env 50.
Proof.
  split; [now apply composites_ok|]. split; [now apply types_ok|]. split; [now apply apart_ok|].
  eapply (told_intro _ _ [pe 2; pe 3]); [known|vm_compute; reflexivity|discriminate].
Qed.
Lemma leaf_needed : distinct_types leaf_env 50 /\ root_apart leaf_env 50 /\ nothing_deferred leaf_env 50 /\ told_apart leaf_env 50.
Proof.
  split; [now apply types_ok|]. split; [now apply apart_ok|]. split; [now apply defer_ok|].
  eapply (told_intro _ _ [pe 2; pe 1]); [known|vm_compute; reflexivity|discriminate].
Qed.
Lemma types_needed : only_composites twin_env 50 /\ root_apart twin_env 50 /\ nothing_deferred twin_env 50 /\ told_apart twin_env 50.
Proof.
  split; [now apply composites_ok|]. split; [now apply apart_ok|]. split; [now apply defer_ok|].
  eapply (told_intro _ _ [pe 2; pe 1]); [known|vm_compute; reflexivity|discriminate].
Qed.
Lemma apart_needed : only_composites exit_env 50 /\ distinct_types exit_env 50 /\ nothing_deferred exit_env 50 /\ told_apart exit_env 50.
Proof.
  split; [now apply composites_ok|]. split; [now apply types_ok|]. split; [now apply defer_ok|].
  eapply (told_intro _ _ [pe 2; pe 3; pe 1]); [known|vm_compute; reflexivity|discriminate].
Qed.

Lemma internal_rows env root m : compile env root = Some m -> forall x, In x (am_internal m) <->
  exists c i s, is_state env root (SState c) /\ composite env c /\ In i (internals env c) /\
    written_in env c s /\ x = mkXrow c s (i_ev i) (i_guard i) (i_act i) s true.
Proof. intros Hm. destruct (compile_comp _ _ _ Hm) as (Hc & <- & <-). exact (am_internal_iff m Hc). Qed.

(** The amalgamated version of [Demo.demo]. *)
Definition am_demo (env : cenv) (root : cls) (ks : list (call nat)) : option (machine * rt nat nat) :=
  match compile env root, am_compile env root with
  | Some m, Some _ => match am_session calm m 0 300 0 0 ks with Done _ s => Some (m, s) | _ => None end
  | _, _ => None
  end.
Lemma am_demo_intro env root ks (P : machine -> rt nat nat -> Prop) :
  match am_demo env root ks with Some (m, s) => P m s | None => False end ->
  exists m outs s, compile env root = Some m /\ am_compile env root = Some m /\ am_session calm m 0 300 0 0 ks = Done outs s /\ P m s.
Proof.
  unfold am_demo. destruct (compile env root) as [m|] eqn:Hm; [|contradiction].
  destruct (am_compile env root) as [m'|] eqn:Ha; [|contradiction]. pose proof (same_machine _ _ _ _ Hm Ha). subst m'.
  destruct (am_session _ _ _ _ _ _ _) as [outs s| | |] eqn:Es; try contradiction. intros H. exists m, outs, s. auto.
Qed.
