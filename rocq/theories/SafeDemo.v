(** Machines that violate one of the conditions of Safe.v, for PropsSafe.v. *)

From Coq Require Import List Arith NArith Bool.
From Verif Require Import Types Static Dispatch Runtime Dsl Examples IndexFacts Spec DispatchFacts Semantics Reach
  RefineFacts StaticFacts ProcessFacts Safe SafeFacts SafeObjects Demo.
Import ListNotations.

Definition typed_b (m : machine) (k : call nat) : bool :=
  match k with
  | KProcess e _ => memb ev_eq_dec e (events m)
  | KSet _ p q => memb Nat.eq_dec p (parents m) && memb sref_eq_dec q (states m)
  | _ => true
  end.
Lemma typed_b_iff m k : typed_b m k = true <-> typed m k.
Proof.
  destruct k as [e v|r p q|p|r p q|d|]; cbn; try tauto.
  - apply memb_iff.
  - now rewrite andb_true_iff, !memb_iff.
Qed.
Lemma demo_typed env root m ks : compile env root = Some m -> forallb (typed_b m) ks = true ->
  Forall (well_typed env root) ks.
Proof.
  intros Hm H. apply Forall_forall. intros k Hk. rewrite forallb_forall in H.
  apply (typed_iff env root m k Hm). now apply typed_b_iff, H.
Qed.

(** Legal calls run into undefined behaviour [u]. *)
Definition goes_wrong (cb : cbfun nat nat) (env : cenv) (root : cls) (ks : list (call nat)) (u : ub) : Prop :=
  exists m, compile env root = Some m /\ Forall (well_typed env root) ks /\
    session cb m 0 300 0 0 ks = Undef u.

Lemma goes_wrong_intro cb env root ks u :
  match compile env root with
  | Some m => forallb (typed_b m) ks = true /\ session cb m 0 300 0 0 ks = Undef u
  | None => False
  end -> goes_wrong cb env root ks u.
Proof.
  destruct (compile env root) as [m|] eqn:Hm; [|intros []]. intros [H1 H2].
  exists m. split; [exact Hm|]. split; [|exact H2]. eapply demo_typed; eauto.
Qed.

Lemma well_formed_intro env root : match compile env root with Some m => check m | None => false end = true ->
  well_formed env root.
Proof.
  destruct (compile env root) as [m|] eqn:Hm; [|discriminate]. now apply (check_decides env root m Hm).
Qed.
Lemma ill_formed_intro env root : match compile env root with Some m => negb (check m) | None => false end = true ->
  ~ well_formed env root.
Proof.
  destruct (compile env root) as [m|] eqn:Hm; [|discriminate]. intros H W.
  apply (check_decides env root m Hm) in W. now rewrite W in H.
Qed.
Lemma well_placed_intro env root :
  match compile env root with Some m => placed_check m | None => false end = true -> well_placed env root.
Proof.
  destruct (compile env root) as [m|] eqn:Hm; [|discriminate]. now apply (placed_check_decides env root m Hm).
Qed.
Lemma no_anonymous_intro env root :
  match compile env root with Some m => placed_check m && anonymous_check m | None => false end = true ->
  no_anonymous_deferral env root.
Proof.
  destruct (compile env root) as [m|] eqn:Hm; [|discriminate].
  destruct (compiled_itself env root m Hm) as (Hm' & He & Hr).
  rewrite andb_true_iff, (placed_check_wpm m Hm'). intros [H1 H2].
  rewrite <- He, <- Hr. apply (anonm_iff m Hm'). now apply (anonymous_check_iff m Hm').
Qed.
Lemma objects_intro env root :
  match compile env root with Some m => placed_check m && objects_check m | None => false end = true ->
  objects_exist env root.
Proof.
  destruct (compile env root) as [m|] eqn:Hm; [|discriminate].
  destruct (compiled_itself env root m Hm) as (Hm' & He & Hr).
  rewrite andb_true_iff, (placed_check_wpm m Hm'). intros [H1 H2].
  rewrite <- He, <- Hr. apply (objm_iff m Hm'). now apply (objects_check_iff m Hm').
Qed.

Module Wrong.
Definition e s n t := se_to (st_event s (EUser n)) t.
Definition no_ctor := mkCdef None None false false false None false.
Definition null_guard : cenv :=
 [ (2, no_ctor); (50, tbl [ seg_to (st_eg (star_state 1) (event_guard (EUser 1) ok)) (state 2) ]) ].
Definition null_action : cenv :=
 [ (2, no_ctor); (50, tbl [ e (star_state 1) 1 (state 2);
                            sea_to (st_ea (state 2) (event_action (EUser 2) act)) (state 1) ]) ].
Definition null_reuse : cenv :=
 [ (2, no_ctor);
   (50, tbl [ sea_to (st_ea (star_state 1) (event_action (EUser 1) (Action 3 (AReuse 3)))) (state 2) ]) ].
Definition null_handler : cenv :=
 [ (2, no_ctor);
   (50, mkCdef (Some [ e (star_state 1) 1 (state 2) ]) None false false true None true) ].
Definition defers_none : cenv :=
 [ (2, mkCdef None None false false false (Some [ENone]) true);
   (50, tbl [ e (star_state 1) 1 (state 2); st_to (state 2) (state 1) ]) ].
Definition source_outside : cenv :=
 [ (12, tbl [ e (star_state 1) 1 (state 2) ]);
   (50, tbl [ e (star_state 1) 1 (state 2); e (exit 12 2) 2 (state 2) ]) ].
Definition target_outside : cenv := [ (50, tbl [ e (star_state 1) 1 (entry 13 1) ]) ].
Definition history_regions : cenv :=
 [ (11, tbl [ e (star_state 1) 1 (state 2) ]);
   (50, tbl [ e (star_state 3) 1 (state 4); e (star_state 5) 2 (history 11) ]) ].
(** The action creating S2 throws after the machine has moved to S2. *)
Definition throwing_create : cenv :=
 [ (2, no_ctor);
   (50, tbl [ sea_to (st_ea (star_state 1) (event_action (EUser 1)
                (Action 5 (AChain [ACall 666; ACreate 1])))) (state 2);
              sea_to (st_ea (state 2) (event_action (EUser 2) act)) (state 1) ]) ].
(** Two regions and two regions in the sub machine. *)
Definition history_owner : cenv :=
 [ (11, tbl [ e (star_state 1) 3 (state 2); e (star_state 21) 3 (state 22) ]);
   (50, tbl [ e (star_state 3) 1 (state 11); e (star_state 5) 2 (state 6); e (state 6) 4 (history 11) ]) ].
End Wrong.

Lemma history_owner_wrong : exists env root,
  well_formed env root /\ demo_state ex_cb env root [pe 1; pe 2] (fun m s =>
    exists p pl, is_parent env root p /\ history_of m s p 1 = Some (code m pl) /\ is_place env root pl /\ fst pl <> p).
Proof.
  exists Wrong.history_owner, 50. split; [apply well_formed_intro; vm_compute; reflexivity|].
  assert (A : demo_state ex_cb Wrong.history_owner 50 [pe 1; pe 2] (fun m s =>
     memb Nat.eq_dec 11 (parents m) = true /\ memb place_eq_dec (50, SState 5) (places m) = true /\
     history_of m s 11 1 = Some (code m (50, SState 5)))).
  { apply demo_intro. vm_compute. repeat split. }
  destruct A as (m & s & Hm & F & R & H1 & H2 & H3). exists m, s. split; [exact Hm|]. split; [exact F|]. split; [exact R|].
  apply memb_iff in H1. apply memb_iff in H2. destruct (compile_comp _ _ _ Hm) as (Hc & He & Hr).
  apply (parent_iff m Hc) in H1. apply (in_places_iff m Hc) in H2. rewrite He, Hr in H1, H2.
  exists 11, (50, SState 5). repeat (split; [assumption|]). discriminate.
Qed.
