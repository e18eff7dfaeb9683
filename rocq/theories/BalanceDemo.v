(** Machines for C86. *)

From Coq Require Import List Arith NArith Bool Lia.
From Verif Require Import Types Static Dispatch Runtime Dsl Examples Spec Semantics Reach StaticFacts TableFacts Demo
  Balance BalanceFacts.
Import ListNotations.

Definition with_calls (l : list row) : cdef := mkCdef (Some l) None true true false None true.
Definition leaf_calls : cdef := mkCdef None None true true false None true.
Definition go s n t := se_to (st_event s (EUser n)) t.

Lemma ex_cb_quiet : only_guards_throw ex_cb.
Proof. intros k a v w n v' w' H. destruct k; discriminate. Qed.
(** Guards that throw. *)
Definition guard_cb : cbfun nat nat := fun k a v w => match k with CGuard 6 _ => Raise 6 v w | _ => ex_cb k a v w end.
Lemma guard_cb_throws : only_guards_throw guard_cb.
Proof. intros k a v w n v' w' H. destruct k; try discriminate. left. eauto. Qed.

(** State 2 and the composite 11 have on_entry and on_exit and are entered and left by
    name. Two regions: 1 <-> 2 and 3 -> 11 -> 3. *)
Module Even.
Definition env : cenv :=
 [ (2, leaf_calls); (11, with_calls [ go (star_state 4) 5 (state 5); go (state 5) 5 (state 4) ]);
   (50, tbl [ go (star_state 1) 1 (state 2); go (state 2) 1 (state 1); go (state 2) 3 (state 2);
              seg_to (st_eg (state 2) (event_guard (EUser 4) bang)) (state 1);
              go (star_state 3) 2 (state 11); go (state 11) 2 (state 3); go (state 11) 6 (state 11) ]) ].
End Even.

(** A session, what it counts for class [c]: entries, regions at the start, exits, regions
    at the end. *)
Definition tally (cb : cbfun nat nat) (env : cenv) (root c : cls) (ks : list (call nat)) : option (nat * nat * nat * nat) :=
  match compile env root with
  | None => None
  | Some m => match session cb m 0 300 0 0 ks with
              | Done _ s => Some (times (CEntry c) (rt_trace s), length (filter (fun i => at_class c (root, i)) (initial_states env root)),
                                  times (CExit c) (rt_trace s), regions_at m s c)
              | _ => None
              end
  end.
Definition more_out (t : option (nat * nat * nat * nat)) : bool :=
  match t with Some (en, st, ex, now) => Nat.ltb (en + st) (ex + now) | None => false end.
Definition more_in (t : option (nat * nat * nat * nat)) : bool :=
  match t with Some (en, st, ex, now) => Nat.ltb (ex + now) (en + st) | None => false end.

Definition uneven_out (cb : cbfun nat nat) env root c ks : Prop :=
  exists m outs s, compile env root = Some m /\ few_regions env root /\ has_entry env c = true /\ has_exit env c = true /\
  session cb m 0 300 0 0 ks = Done outs s /\
  times (CEntry c) (rt_trace s) + length (filter (fun i => at_class c (root, i)) (initial_states env root)) <
  times (CExit c) (rt_trace s) + regions_at m s c.
Definition uneven_in (cb : cbfun nat nat) env root c ks : Prop :=
  exists m outs s, compile env root = Some m /\ few_regions env root /\ has_entry env c = true /\ has_exit env c = true /\
  session cb m 0 300 0 0 ks = Done outs s /\
  times (CExit c) (rt_trace s) + regions_at m s c <
  times (CEntry c) (rt_trace s) + length (filter (fun i => at_class c (root, i)) (initial_states env root)).

Definition narrow (env : cenv) (root : cls) : bool := match compile env root with Some m => Nat.leb (max_initials m) 255 | None => false end.
Lemma uneven_out_intro cb env root c ks : narrow env root && has_entry env c && has_exit env c && more_out (tally cb env root c ks) = true -> uneven_out cb env root c ks.
Proof.
  rewrite !andb_true_iff. intros [[[N He] Hx] H]. unfold narrow in N. unfold tally in H. destruct (compile env root) as [m|] eqn:Hm; [|discriminate].
  destruct (session cb m 0 300 0 0 ks) as [outs s|? ?|?|] eqn:E; try discriminate. apply Nat.ltb_lt in H. apply Nat.leb_le in N.
  exists m, outs, s. split; [exact Hm|]. split; [eapply max_few; eauto|]. auto.
Qed.
Lemma uneven_in_intro cb env root c ks : narrow env root && has_entry env c && has_exit env c && more_in (tally cb env root c ks) = true -> uneven_in cb env root c ks.
Proof.
  rewrite !andb_true_iff. intros [[[N He] Hx] H]. unfold narrow in N. unfold tally in H. destruct (compile env root) as [m|] eqn:Hm; [|discriminate].
  destruct (session cb m 0 300 0 0 ks) as [outs s|? ?|?|] eqn:E; try discriminate. apply Nat.ltb_lt in H. apply Nat.leb_le in N.
  exists m, outs, s. split; [exact Hm|]. split; [eapply max_few; eauto|]. auto.
Qed.

(** Not entered by name: on_entry is left out. *)
Module In.
Definition marked := [ (2, leaf_calls); (50, tbl [ go (star_state 1) 1 (initial 2); go (state 2) 2 (state 1) ]) ].
Definition sub := with_calls [ go (star_state 4) 5 (state 5) ].
Definition entry_ := [ (11, sub); (50, tbl [ go (star_state 1) 1 (entry 11 4); go (state 11) 2 (state 1) ]) ].
Definition direct_ := [ (11, sub); (50, tbl [ go (star_state 1) 1 (direct 11 4); go (state 11) 2 (state 1) ]) ].
Definition history_ := [ (11, sub); (50, tbl [ go (star_state 1) 1 (history 11); go (state 11) 2 (state 1) ]) ].
(** A composite 12 inside of 11: leaving 12 leads back into 11. *)
Definition nested := [ (12, tbl [ go (star_state 6) 5 (state 6) ]);
   (11, with_calls [ go (star_state 4) 1 (state 12); go (state 12) 2 (state 4) ]);
   (50, tbl [ go (star_state 1) 1 (entry 12 6); go (state 1) 9 (state 11) ]) ].
Definition plain := [ (2, leaf_calls); (50, tbl [ sea_to (st_ea (star_state 1) (event_action (EUser 1) boom)) (state 2); go (state 2) 2 (state 1) ]) ].
End In.

(** Not left by name: on_exit is left out, or on_entry runs without entering. *)
Module Out.
Definition marked := [ (2, leaf_calls); (50, tbl [ go (star_state 2) 1 (state 1); go (state 1) 1 (state 2) ]) ].
Definition around := [ (2, leaf_calls); (11, tbl [ go (star_state 2) 5 (state 5) ]);
   (50, tbl [ go (star_state 1) 1 (state 11); go (state 11) 2 (state 1) ]) ].
Definition direct_ := [ (2, leaf_calls); (11, tbl [ go (star_state 4) 1 (state 2) ]);
   (50, tbl [ go (star_state 1) 1 (state 11); go (direct 11 2) 2 (state 1) ]) ].
Definition exit_ := [ (2, leaf_calls); (11, tbl [ go (star_state 4) 1 (state 2) ]);
   (50, tbl [ go (star_state 1) 1 (state 11); go (exit 11 2) 2 (state 1) ]) ].
(** A composite 12 inside of 11: entering 12 leads out of 11. *)
Definition nested := [ (12, tbl [ go (star_state 6) 5 (state 6) ]);
   (11, with_calls [ go (star_state 4) 1 (state 12) ]);
   (50, tbl [ go (star_state 1) 1 (state 11) ]) ].
(** An internal row in composite 11, in whose table the composite 12 is a state; 12 starts
    in 2. *)
Definition internal := [ (2, leaf_calls); (12, tbl [ go (star_state 2) 5 (state 6) ]);
   (11, mkCdef (Some [ go (star_state 4) 1 (state 12) ]) (Some [plus_event (EUser 7)]) false false false None true);
   (50, tbl [ go (star_state 1) 1 (entry 11 12); go (state 1) 9 (state 11) ]) ].
End Out.
