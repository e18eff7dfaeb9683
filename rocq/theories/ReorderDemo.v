(** Programs for PropsReorder.v. *)

From Coq Require Import List Arith NArith Bool.
From Verif Require Import Types Static Dispatch Runtime Dsl Examples IndexFacts Spec DispatchFacts Semantics Safe SafeObjects SafeDemo
  Reorder ReorderCheck.
Import ListNotations.
Local Notation "s + e '-->' t" := (se_to (st_event s (EUser e)) t) (at level 50, e at level 49).

Lemma stays_intro env root :
  match compile env root with Some m => placed_check m | None => false end = true -> stays_inside env root.
Proof. intros H. apply well_placed_intro in H. destruct H as [_ H _ _ _]. exact H. Qed.

(** Two regions, a composite with two regions, internal rows of the composite and of a
    state, history, deferral, a handler for unexpected events. *)
Definition calls (n : nat) := Action n (ACall n).
Definition first_env : cenv :=
 [ (8, mkCdef None (Some [mkIrow (EUser 7) Examples.ok (calls 3)]) true true false (Some [EUser 6]) true);
   (11, mkCdef (Some [ star_state 7 + 3 --> state 8; state 8 + 4 --> state 9; state 9 + 3 --> state 8;
                       star_state 20 + 3 --> state 21 ])
        (Some [mkIrow (EUser 4) NoGuard (calls 1)]) true true false None true);
   (50, mkCdef (Some [ star_state 1 + 2 --> state 11; state 11 + 5 --> state 1; star_state 30 + 3 --> state 31;
                       state 31 + 3 --> state 30; state 1 + 6 --> history 11 ])
        None false false true None true) ].
Definition steps : list (cls * nat) := [(50, 2); (50, 1); (11, 1)].
Definition demo_calls : list (call nat) :=
  [pe 3; pe 2; pe 3; pe 6; pe 7; pe 4; pe 3; pe 5; KSetDep 3; pe 6; pe 4; KStatus].

(** Telling them apart. *)
Definition visible (m : machine) (s : rt nat nat) :=
  (map k_callee (rt_trace s), map (at_place m s) (seq 0 (length (rt_cur s)))).
Definition pair_of (env env' : cenv) (root : cls) (ks : list (call nat)) :=
  match compile env root, compile env' root with
  | Some m, Some m' =>
      match session ex_cb m 0 300 0 0 ks, session ex_cb m' 0 300 0 0 ks with
      | Done _ s, Done _ s' => Some (visible m s, visible m' s')
      | _, _ => None
      end
  | _, _ => None
  end.
Lemma told_intro env env' root ks a b : pair_of env env' root ks = Some (a, b) -> a <> b -> told_apart env env' root.
Proof.
  intros H Hne. unfold pair_of in H. destruct (compile env root) as [m|] eqn:Hm; [|discriminate].
  destruct (compile env' root) as [m'|] eqn:Hm'; [|discriminate].
  exists nat, nat, ex_cb, 0, m, m', 300, 0, 0, ks. split; [exact Hm|]. split; [exact Hm'|].
  intros R. revert H. destruct R as [o o' s s' E S|x s s' _|u|]; try discriminate. intros H. injection H as <- <-. apply Hne.
  unfold visible. rewrite (ms_trace _ _ _ _ S), (ms_length _ _ _ _ S). f_equal. apply map_ext. intros r. symmetry. apply (ms_place _ _ _ _ S).
Qed.

(** Two rows for one event in one place. *)
Definition same_ev : cenv := [ (50, tbl [ star_state 1 + 2 --> state 2; star_state 1 + 2 --> state 3 ]) ].
Definition same_ev' : cenv := [ (50, tbl [ star_state 1 + 2 --> state 3; star_state 1 + 2 --> state 2 ]) ].
(** Rows of two regions. *)
Definition regions : cenv := [ (50, tbl [ star_state 1 + 2 --> state 2; star_state 3 + 3 --> state 4 ]) ].
Definition regions' : cenv := [ (50, tbl [ star_state 3 + 3 --> state 4; star_state 1 + 2 --> state 2 ]) ].
(** A row into a composite, and a row that starts at the composite. *)
Definition sub_rows : cdef := tbl [ star_state 7 + 3 --> state 8 ].
Definition into : cenv :=
 [ (11, sub_rows); (50, tbl [ star_state 1 + 4 --> state 1; state 1 + 2 --> state 11; state 11 + 3 --> state 1 ]) ].
Definition into' : cenv :=
 [ (11, sub_rows); (50, tbl [ star_state 1 + 4 --> state 1; state 11 + 3 --> state 1; state 1 + 2 --> state 11 ]) ].
(** Two composites with internal rows for one event; the one writes an exit of the other. *)
Definition sub11 : cdef :=
  mkCdef (Some [ star_state 7 + 3 --> state 8; exit 12 20 + 3 --> state 8 ]) (Some [mkIrow (EUser 4) NoGuard (calls 1)]) false false false None true.
Definition sub12 : cdef :=
  mkCdef (Some [ star_state 20 + 3 --> state 21 ]) (Some [mkIrow (EUser 4) NoGuard (calls 2)]) false false false None true.
Definition inners : cenv :=
 [ (11, sub11); (12, sub12);
   (50, tbl [ star_state 1 + 1 --> entry 11 7; state 1 + 2 --> entry 12 20; state 11 + 5 --> state 1; state 12 + 6 --> state 1 ]) ].
Definition inners' : cenv :=
 [ (11, sub11); (12, sub12);
   (50, tbl [ star_state 1 + 1 --> entry 11 7; state 1 + 2 --> entry 12 20; state 12 + 6 --> state 1; state 11 + 5 --> state 1 ]) ].

(** The conditions that hold in each case. *)
Definition all_but_apart env (c : cls) r1 r2 := outside env r1 r2 /\ inner_apart env c r1 r2 /\ written_alike env c r1 r2.
Definition all_but_outside env c r1 r2 := apart env c r1 r2 /\ inner_apart env c r1 r2 /\ written_alike env c r1 r2.
Definition all_but_inner env c r1 r2 := apart env c r1 r2 /\ outside env r1 r2 /\ written_alike env c r1 r2.
Ltac checked := first [apply apart_iff|apply outside_iff|apply inner_iff|apply written_iff]; vm_compute; reflexivity.
Ltac one_class := intros k Hk; cbn [lookup]; repeat (destruct (Nat.eq_dec k _); [try contradiction; try reflexivity|]); reflexivity.
Lemma initials_intro env env' c : (forall k, k <> c -> lookup env' k = lookup env k) ->
  initial_states env' c = initial_states env c -> forall k, initial_states env' k = initial_states env k.
Proof.
  intros H E k. destruct (Nat.eq_dec k c) as [->|Hk]; [exact E|]. unfold initial_states, mentioned, table. now rewrite (H k Hk).
Qed.
Lemma same_ev_exchanged : exchanged_by (all_but_apart same_ev) same_ev same_ev' /\ forall c, initial_states same_ev' c = initial_states same_ev c.
Proof.
  split; [|apply (initials_intro _ _ 50); [unfold same_ev, same_ev'; one_class|vm_compute; reflexivity]]. exists 50, [], (star_state 1 + 2 --> state 2), (star_state 1 + 2 --> state 3), [].
  split; [reflexivity|]. split; [reflexivity|]. split; [unfold same_ev, same_ev'; one_class|]. repeat split; checked.
Qed.
Lemma same_ev_told : told_apart same_ev same_ev' 50.
Proof. eapply (told_intro _ _ _ [pe 2]); [vm_compute; reflexivity|discriminate]. Qed.
Lemma regions_exchanged : exchanged_by (independent regions) regions regions'.
Proof.
  exists 50, [], (star_state 1 + 2 --> state 2), (star_state 3 + 3 --> state 4), [].
  split; [reflexivity|]. split; [reflexivity|]. split; [unfold regions, regions'; one_class|]. split; checked.
Qed.
Lemma regions_told : told_apart regions regions' 50.
Proof. eapply (told_intro _ _ _ [pe 2]); [vm_compute; reflexivity|discriminate]. Qed.
Lemma into_exchanged : exchanged_by (all_but_outside into) into into' /\ forall c, initial_states into' c = initial_states into c.
Proof.
  split; [|apply (initials_intro _ _ 50); [unfold into, into'; one_class|vm_compute; reflexivity]]. exists 50, [star_state 1 + 4 --> state 1], (state 1 + 2 --> state 11), (state 11 + 3 --> state 1), [].
  split; [reflexivity|]. split; [reflexivity|]. split; [unfold into, into'; one_class|]. repeat split; checked.
Qed.
Lemma into_told : told_apart into into' 50.
Proof. eapply (told_intro _ _ _ [pe 2; pe 3]); [vm_compute; reflexivity|discriminate]. Qed.
Lemma inners_exchanged : exchanged_by (all_but_inner inners) inners inners' /\ forall c, initial_states inners' c = initial_states inners c.
Proof.
  split; [|apply (initials_intro _ _ 50); [unfold inners, inners'; one_class|vm_compute; reflexivity]].
  exists 50, [star_state 1 + 1 --> entry 11 7; state 1 + 2 --> entry 12 20], (state 11 + 5 --> state 1), (state 12 + 6 --> state 1), [].
  split; [reflexivity|]. split; [reflexivity|]. split; [unfold inners, inners'; one_class|]. repeat split; checked.
Qed.
Lemma inners_told : told_apart inners inners' 50.
Proof. eapply (told_intro _ _ _ [pe 2; pe 4]); [vm_compute; reflexivity|discriminate]. Qed.
(** The initial state of composite 20 is a composite, once with the mark and once without.
    The internal row of 20 stands for a row at each of the two; only the one without the
    mark calls on_entry of state 5. *)
Definition marked_rows : list row := [ state 3 + 5 --> state 1 ].
Definition marked_with (l : list row) : cenv :=
 [ (1, tbl [ star_state 5 + 4 --> state 6 ]); (5, mkCdef None None true false false None true);
   (20, mkCdef (Some (l ++ marked_rows)) (Some [mkIrow (EUser 9) NoGuard (calls 1)]) false false false None true);
   (50, tbl [ star_state 10 + 1 --> state 20; state 20 + 6 --> state 10 ]) ].
Definition marked := marked_with [ star_state 1 + 2 --> state 3; state 1 + 3 --> state 4 ].
Definition marked' := marked_with [ state 1 + 3 --> state 4; star_state 1 + 2 --> state 3 ].
Definition all_but_written env c r1 r2 := apart env c r1 r2 /\ outside env r1 r2 /\ inner_apart env c r1 r2.
Lemma marked_exchanged : exchanged_by (all_but_written marked) marked marked' /\ forall c, initial_states marked' c = initial_states marked c.
Proof.
  split; [|apply (initials_intro _ _ 20); [unfold marked, marked', marked_with; one_class|vm_compute; reflexivity]].
  exists 20, [], (star_state 1 + 2 --> state 3), (state 1 + 3 --> state 4), marked_rows.
  split; [reflexivity|]. split; [reflexivity|]. split; [unfold marked, marked', marked_with; one_class|]. repeat split; checked.
Qed.
Lemma marked_told : told_apart marked marked' 50.
Proof. eapply (told_intro _ _ _ [pe 1; pe 9]); [vm_compute; reflexivity|discriminate]. Qed.
