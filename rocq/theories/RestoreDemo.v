(** Programs for PropsRestore.v. *)

From Coq Require Import List Arith NArith Bool Lia.
From Verif Require Import Types Static Dispatch Runtime ListFacts IndexFacts Spec
  DispatchFacts FlattenFacts Semantics RefineFacts StaticFacts TermFacts Reach ReachFacts TableFacts
  QueryFacts ProcessFacts Dsl Examples Demo Graph GraphDemo StateData Restore RestoreFacts.
Import ListNotations.

Fixpoint makesb (b : abody) : bool :=
  match b with ACreate _ => true | AChain l => existsb makesb l | _ => false end.
Lemma makesb_false b : makesb b = false -> ~ makes b.
Proof.
  induction b as [f|f|f|l IH] using abody_ind2; cbn [makesb]; intros H M; inversion M as [|b' l' Hb M']; subst; try discriminate.
  rewrite Forall_forall in IH. apply (IH b' Hb); [|exact M'].
  destruct (makesb b') eqn:E; [|reflexivity]. assert (existsb makesb l = true) by (apply existsb_exists; eauto). congruence.
Qed.
Definition quiet_row (x : xrow) : bool := match x_act x with Action _ b => negb (makesb b) | _ => true end.
Definition quiet_rows (m : machine) : bool :=
  forallb quiet_row (mc_flat m) && forallb quiet_row (flat_map (internal_of_pair (mc_env m)) (state_pairs m)).
Definition makes_nothing (env : cenv) (root : cls) : Prop :=
  forall x ty b, declared env root x \/ declared_internal env root x -> x_act x = Action ty b -> ~ makes b.
Lemma quiet_intro env root m : compile env root = Some m -> quiet_rows m = true -> makes_nothing env root.
Proof.
  intros Hm H. compiled Hm. unfold quiet_rows in H. rewrite andb_true_iff, !forallb_forall in H. destruct H as [H1 H2].
  intros x ty b D E. apply makesb_false.
  assert (Q : quiet_row x = true) by (destruct D as [D|D]; [apply H1; now apply (flat_declared m Hc)|apply H2; now apply (internal_all_iff m Hc)]).
  unfold quiet_row in Q. rewrite E in Q. now apply negb_true_iff in Q.
Qed.

(** What a client sees of a run. *)
Definition answers {V W} (r : res V W (list out)) : option (list out) := match r with Done os _ => Some os | _ => None end.
(** The restored machine and the saved one, given the same calls. *)
Definition apart (cb : cbfun nat nat) (m : machine) (ds : list dep) (s : rt nat nat) (ks : list (call nat)) : Prop :=
  answers (session cb m 0 300 0 (rt_world s) (restoring m ds s ++ ks)) <>
  answers (later (length (rt_trace s)) (repeat OUnit (length (restoring m ds s))) (run cb m 0 300 ks s)).
Definition placed_everywhere {V W} (m : machine) (s : rt V W) : bool :=
  forallb (fun r => match at_place m s r with Some _ => true | None => false end) (seq 0 (max_initials m)).
Lemma placed_everywhere_intro {V W} env root m (s : rt V W) : compile env root = Some m -> placed_everywhere m s = true ->
  forall r, region_exists env root r -> exists pl, at_place m s r = Some pl.
Proof.
  intros Hm H r Hr. apply (region_exists_max env root m Hm) in Hr. unfold placed_everywhere in H. rewrite forallb_forall in H.
  specialize (H r ltac:(apply in_seq; lia)). destruct (at_place m s r) as [pl|]; [eauto|discriminate].
Qed.

(** What has to hold of a state that can be saved. *)
Definition saveable {V W} env root (m : machine) (s : rt V W) : Prop :=
  rt_queue s = [] /\ (forall r, region_exists env root r -> exists pl, at_place m s r = Some pl) /\
  (region_exists env root 1 -> active m s = length (initial_states env root)).

(** A composite with two regions in a machine with two regions; an entry, an exit, a
    guard, an internal row and a handler of unexpected events. *)
Module Kept.
Definition env : cenv :=
 [ (2, mkCdef None (Some [plus_ea (event_action (EUser 5) act)]) true true false None true);
   (11, tbl [ sea_to (st_ea (star_state 1) (event_action (EUser 2) act)) (state 2); se_to (st_event (star_state 7) (EUser 9)) (state 7) ]);
   (50, mkCdef (Some
     [ seg_to (st_eg (star_state 1) (event_guard (EUser 1) ok)) (state 11); se_to (st_event (state 11) (EUser 3)) (state 1);
       sea_to (st_ea (star_state 21) (event_action (EUser 2) act)) (state 22); se_to (st_event (state 22) (EUser 4)) (state 21) ])
     None false false true None true) ].
Definition before : list (call nat) := [pe 1; KSetDep 7; pe 2; KSetDep 8].
Definition after_ : list (call nat) := [pe 5; pe 4; pe 3; pe 9; pe 1].
End Kept.
Lemma kept_restorable : restorable Kept.env 50.
Proof.
  destruct (compile Kept.env 50) as [m|] eqn:Hm; [|vm_compute in Hm; discriminate].
  assert (E : option_map (fun m => (has_history m, quiet_rows m)) (compile Kept.env 50) = Some (false, true)) by (vm_compute; reflexivity).
  rewrite Hm in E. injection E as E1 E2. split; [eapply no_history_intro; eauto|]. exact (quiet_intro _ _ _ Hm E2).
Qed.
Lemma kept_saveable : demo_state ex_cb Kept.env 50 Kept.before (fun m s =>
  saveable Kept.env 50 m s /\ at_place m s 0 = Some (11, SState 2) /\ at_place m s 1 = Some (50, SState 22) /\
  deps_run Kept.before [0] = [8; 7; 0] /\
  restoring m [8; 7; 0] s = [KSetDep 7; KSetDep 8; KSet 0 11 (SState 2); KSet 1 50 (SState 22)] /\
  length (rt_trace s) = 4 /\
  answers (run ex_cb m 0 300 Kept.after_ s) = Some [T; T; T; F; T]).
Proof.
  destruct (compile Kept.env 50) as [m|] eqn:Hm; [|vm_compute in Hm; discriminate].
  assert (D : demo_state ex_cb Kept.env 50 Kept.before (fun m s => rt_queue s = [] /\ placed_everywhere m s = true /\
     active m s = length (initial_states Kept.env 50) /\ at_place m s 0 = Some (11, SState 2) /\ at_place m s 1 = Some (50, SState 22) /\
     deps_run Kept.before [0] = [8; 7; 0] /\
     restoring m [8; 7; 0] s = [KSetDep 7; KSetDep 8; KSet 0 11 (SState 2); KSet 1 50 (SState 22)] /\
     length (rt_trace s) = 4 /\
     answers (run ex_cb m 0 300 Kept.after_ s) = Some [T; T; T; F; T])).
  { apply demo_intro. vm_compute. repeat split. }
  destruct D as (m' & s & H1 & H2 & H3 & Q1 & Q2 & Q3 & Q). exists m', s. split; [exact H1|]. split; [exact H2|]. split; [exact H3|].
  split; [|exact Q]. split; [exact Q1|]. split; [eapply placed_everywhere_intro; eauto|auto].
Qed.

(** The composite remembers its state while the machine is elsewhere. *)
Module Past.
Definition env : cenv :=
 [ (11, tbl [ se_to (st_event (star_state 1) (EUser 1)) (state 2) ]);
   (50, tbl [ se_to (st_event (star_state 1) (EUser 1)) (state 11); se_to (st_event (state 11) (EUser 3)) (state 1);
              se_to (st_event (state 1) (EUser 2)) (history 11) ]) ].
End Past.
(** The root has one region, the composite two. *)
Module Wide.
Definition env : cenv :=
 [ (11, tbl [ se_to (st_event (star_state 1) (EUser 3)) (state 1); se_to (st_event (star_state 2) (EUser 2)) (state 3) ]);
   (50, tbl [ se_to (st_event (star_state 1) (EUser 1)) (state 11) ]) ].
End Wide.

Definition lost (cb : cbfun nat nat) env root before (side : cenv -> cls -> machine -> rt nat nat -> Prop) ks : Prop :=
  demo_state cb env root before (fun m s => side env root m s /\ apart cb m (deps_run before [0]) s ks).
Lemma lost_intro cb env root before (side : cenv -> cls -> machine -> rt nat nat -> Prop) (check : machine -> rt nat nat -> Prop) ks :
  (forall m s, compile env root = Some m -> check m s -> side env root m s) ->
  demo_state cb env root before (fun m s => check m s /\ apart cb m (deps_run before [0]) s ks) ->
  lost cb env root before side ks.
Proof. intros C (m & s & H1 & H2 & H3 & H4 & H5). exists m, s. auto 6. Qed.

Lemma past_lost : lost ex_cb Past.env 50 [pe 1; pe 1; pe 3]
  (fun env root m s => makes_nothing env root /\ saveable env root m s) [pe 2; is_ 11 2].
Proof.
  apply (lost_intro _ _ _ _ _ (fun m s => quiet_rows m = true /\ rt_queue s = [] /\ placed_everywhere m s = true /\ max_initials m = 1)).
  - intros m s Hm (A & B & C & D). split; [eapply quiet_intro; eauto|]. split; [exact B|]. split; [eapply placed_everywhere_intro; eauto|].
    intros X. apply (region_exists_max _ _ _ Hm) in X. lia.
  - apply demo_intro. vm_compute. repeat split. discriminate.
Qed.
Lemma wide_lost : lost ex_cb Wide.env 50 [pe 1; KSet 1 11 (SState 2)]
  (fun env root m s => restorable env root /\ rt_queue s = [] /\ (forall r, region_exists env root r -> exists pl, at_place m s r = Some pl))
  [pe 2; KIs 1 11 (SState 3)].
Proof.
  apply (lost_intro _ _ _ _ _ (fun m s => has_history m = false /\ quiet_rows m = true /\ rt_queue s = [] /\ placed_everywhere m s = true)).
  - intros m s Hm (A0 & A & B & C). split; [split; [eapply no_history_intro; eauto|exact (quiet_intro _ _ _ Hm A)]|]. split; [exact B|]. eapply placed_everywhere_intro; eauto.
  - apply demo_intro. vm_compute. repeat split. discriminate.
Qed.
Lemma waiting_lost : lost ex_cb Defer.env 50 [pe 2]
  (fun env root m s => restorable env root /\ (forall r, region_exists env root r -> exists pl, at_place m s r = Some pl) /\
     (region_exists env root 1 -> active m s = length (initial_states env root)))
  [pe 1; is_ 50 1].
Proof.
  apply (lost_intro _ _ _ _ _ (fun m s => has_history m = false /\ quiet_rows m = true /\ placed_everywhere m s = true /\ active m s = length (initial_states Defer.env 50))).
  - intros m s Hm (A0 & A & B & C). split; [split; [eapply no_history_intro; eauto|exact (quiet_intro _ _ _ Hm A)]|]. split; [eapply placed_everywhere_intro; eauto|auto].
  - apply demo_intro. vm_compute. repeat split. discriminate.
Qed.
Lemma made_lost : lost ex_cb Custom.env 50 [pe 1]
  (fun env root m s => no_history env root /\ saveable env root m s /\
     session ex_cb m 0 300 0 (rt_world s) (restoring m [0] s ++ [pe 2]) = Undef UBNull) [pe 2].
Proof.
  apply (lost_intro _ _ _ _ _ (fun m s => has_history m = false /\ rt_queue s = [] /\ placed_everywhere m s = true /\ max_initials m = 1 /\
     session ex_cb m 0 300 0 (rt_world s) (restoring m [0] s ++ [pe 2]) = Undef UBNull)).
  - intros m s Hm (A & B & C & D & E). split; [eapply no_history_intro; eauto|]. split; [|exact E]. split; [exact B|]. split; [eapply placed_everywhere_intro; eauto|].
    intros X. apply (region_exists_max _ _ _ Hm) in X. lia.
  - apply demo_intro. vm_compute. repeat split. discriminate.
Qed.
Lemma history_lost : exists cb env root before ks, lost cb env root before
  (fun env root m s => makes_nothing env root /\ saveable env root m s) ks.
Proof. do 5 eexists. exact past_lost. Qed.
Lemma regions_lost : exists cb env root before ks, lost cb env root before
  (fun env root m s => restorable env root /\ rt_queue s = [] /\
     (forall r, region_exists env root r -> exists pl, at_place m s r = Some pl)) ks.
Proof. do 5 eexists. exact wide_lost. Qed.
Lemma queue_lost : exists cb env root before ks, lost cb env root before
  (fun env root m s => restorable env root /\
     (forall r, region_exists env root r -> exists pl, at_place m s r = Some pl) /\
     (region_exists env root 1 -> active m s = length (initial_states env root))) ks.
Proof. do 5 eexists. exact waiting_lost. Qed.
Lemma objects_lost : exists cb env root before ks, lost cb env root before
  (fun env root m s => no_history env root /\ saveable env root m s /\
     session cb m 0 300 0 (rt_world s) (restoring m [0] s ++ ks) = Undef UBNull) ks.
Proof. do 5 eexists. exact made_lost. Qed.
