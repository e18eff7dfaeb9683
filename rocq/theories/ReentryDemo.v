(** Machines whose user code uses them, for PropsReentry.v. *)

From Coq Require Import List Arith NArith Bool.
From Verif Require Import Types Static Dispatch Runtime Dsl Examples Spec DispatchFacts Semantics Reach
  TermFacts Demo Safe SafeObjects SafeDemo Reentry ReentryFacts ReentrySafe
  ReentryLast ProcessFacts QueryFacts.
Import ListNotations.

Notation rprog := (prog nat nat).
Definition post (n : nat) (w : nat) (p : nat -> rprog) : rprog := PUse (KProcess (EUser n) 0) w (fun _ => p).

(** The calls of user code and the place of region 0 after a session. *)
Definition r_after (cb : rcbfun nat nat) env root ks : option (list callee * option place) :=
  match compile env root with
  | Some m => match r_session cb m 0 9 300 0 0 ks with
              | Done _ s => Some (map k_callee (rt_trace s), at_place m s 0)
              | _ => None
              end
  | None => None
  end.
Definition r_outs (cb : rcbfun nat nat) env root ks : option (list out) :=
  match compile env root with
  | Some m => match r_session cb m 0 9 300 0 0 ks with Done os _ => Some os | _ => None end
  | None => None
  end.

(** S1 -e1/a-> S2 -e2/b-> S3, S1 -e3/b-> S1, S1 -e3 [g]-> S2 (tried first), S1 -e2/b-> S3, S3 -e4/c-> S3,
    all states with on_entry and on_exit. *)
Module Post.
Definition both := mkCdef None None true true false None true.
Definition env : cenv :=
 [ (1, both); (2, both); (3, both);
   (50, mkCdef (Some
     [ sea_to (st_ea (star_state 1) (event_action (EUser 1) (Action 1 (ACall 1)))) (state 2);
       sea_to (st_ea (state 2) (event_action (EUser 2) (Action 2 (ACall 2)))) (state 3);
       sea_to (st_ea (state 1) (event_action (EUser 3) (Action 2 (ACall 2)))) (state 1);
       seg_to (st_eg (state 1) (event_guard (EUser 3) (Guard 1 1))) (state 2);
       sea_to (st_ea (state 1) (event_action (EUser 2) (Action 2 (ACall 2)))) (state 3);
       sea_to (st_ea (state 3) (event_action (EUser 4) (Action 3 (ACall 3)))) (state 3) ])
     None false false true None true) ].

(** a processes e2; g processes e2 and holds; c processes e4. *)
Definition cb : rcbfun nat nat := fun c a v w =>
  match c with
  | CAction 1 => post 2 w (fun w => PRet true v w)
  | CGuard _ _ => post 2 w (fun w => PRet true v w)
  | CAction 3 => post 4 w (fun w => PRet true v w)
  | _ => PRet true v w
  end.
(** b sets the dependency; g does so itself and does not hold. *)
Definition cb_dep : rcbfun nat nat := fun c a v w =>
  match c with
  | CAction 2 => PUse (KSetDep 7) w (fun _ w => PRet true v w)
  | CGuard _ _ => PUse (KSetDep 7) w (fun _ w => PRet false v w)
  | _ => PRet true v w
  end.
(** b sets the dependency; g processes e2 and does not hold. *)
Definition cb_dep2 : rcbfun nat nat := fun c a v w =>
  match c with
  | CAction 2 => PUse (KSetDep 7) w (fun _ w => PRet true v w)
  | CGuard _ _ => post 2 w (fun w => PRet false v w)
  | _ => PRet true v w
  end.
(** b sets the dependency, processes e4 (with c calling status) and moves the
    machine to S1; g asks where the machine is. *)
Definition cb_ok : rcbfun nat nat := fun c a v w =>
  match c with
  | CAction 2 => PUse (KSetDep 7) w (fun _ w => post 4 w (fun w =>
                 PUse (KSet 0 50 (SState 1)) w (fun _ w => PRet true v w)))
  | CAction 3 => PUse KStatus w (fun _ w => PRet true v w)
  | CGuard _ _ => PUse (KIs 0 50 (SState 1)) w (fun o w =>
                    match o with OBool b => PRet b v w | OExn x => PRaise x w | _ => PRet false v w end)
  | _ => PRet true v w
  end.
End Post.

Ltac prove_uses :=
  repeat match goal with
  | |- uses _ (match ?x with _ => _ end) => destruct x
  | |- uses _ (post _ _ _) => unfold post
  | |- uses _ (PUse _ _ _) => apply us_use; [|intros]
  | |- uses _ (PRet _ _ _) => apply us_ret
  | |- uses _ (PRaise _ _) => apply us_raise
  end.

Lemma post_typed : forall m, compile Post.env 50 = Some m ->
  forall k, In k [pe 2; pe 4; KSetDep 7; KStatus; KIs 0 50 (SState 1); KSet 0 50 (SState 1)] ->
  well_typed Post.env 50 k.
Proof.
  intros m Hm. assert (F : Forall (well_typed Post.env 50) [pe 2; pe 4; KSetDep 7; KStatus; KIs 0 50 (SState 1); KSet 0 50 (SState 1)]).
  { apply (demo_typed _ _ m _ Hm). vm_compute in Hm. injection Hm as <-. vm_compute. reflexivity. }
  intros k. now apply Forall_forall.
Qed.
Lemma post_compiles : exists m, compile Post.env 50 = Some m.
Proof.
  assert (H : compile Post.env 50 <> None) by (vm_compute; discriminate).
  destruct (compile Post.env 50); [eauto|congruence].
Qed.
Lemma uses_ok : forall c a v w, uses (well_typed Post.env 50) (Post.cb_ok c a v w).
Proof.
  destruct post_compiles as [m Hm]. pose proof (post_typed m Hm) as T.
  intros c a v w. unfold Post.cb_ok. prove_uses; apply T; cbn; tauto.
Qed.
Lemma uses_cb : forall c a v w, uses (well_typed Post.env 50) (Post.cb c a v w).
Proof.
  destruct post_compiles as [m Hm]. pose proof (post_typed m Hm) as T.
  intros c a v w. unfold Post.cb. prove_uses; apply T; cbn; tauto.
Qed.
Lemma uses_dep : forall c a v w, uses (well_typed Post.env 50) (Post.cb_dep c a v w).
Proof.
  destruct post_compiles as [m Hm]. pose proof (post_typed m Hm) as T.
  intros c a v w. unfold Post.cb_dep. prove_uses; apply T; cbn; tauto.
Qed.
Lemma uses_dep2 : forall c a v w, uses (well_typed Post.env 50) (Post.cb_dep2 c a v w).
Proof.
  destruct post_compiles as [m Hm]. pose proof (post_typed m Hm) as T.
  intros c a v w. unfold Post.cb_dep2. prove_uses; apply T; cbn; tauto.
Qed.
Lemma leaves_ok : guards_leave_tables Post.cb_ok.
Proof.
  split; [|right]; intros; unfold Post.cb_ok; prove_uses; intro; try discriminate.
Qed.
Lemma leaves_cb : guards_leave_tables Post.cb.
Proof. split; [|left]; intros; unfold Post.cb; prove_uses; intro; discriminate. Qed.

(** c processes the event that calls c: no number of nested calls is enough. *)
Module Recursion.
Definition m : machine := Eval vm_compute in
  match compile Post.env 50 with Some m => m | None => mkMachine [] 0 [] end.
Definition start : rt nat nat := Eval vm_compute in
  match r_session Post.cb m 0 1 300 0 0 [KSet 0 50 (SState 3)] with
  | Done _ s => s
  | _ => mkRt [] [] [] 0 [] [] [] 0 []
  end.
Lemma one_step use f : (forall tr, use (pe 4) (with_user start 0 tr) = Timeout) ->
  forall tr, g_call_catch (rinvoke use Post.cb) m 0 (S (S f)) (pe 4) (with_user start 0 tr) = Timeout.
Proof. intros H tr. vm_compute in H. vm_compute. rewrite H. reflexivity. Qed.
Lemma never depth f : forall tr, r_call Post.cb m 0 depth (S (S f)) (pe 4) (with_user start 0 tr) = Timeout.
Proof. induction depth as [|depth IH]; intros tr; [reflexivity|]. cbn [r_call]. now apply one_step. Qed.
Lemma session_never depth fuel : r_session Post.cb m 0 depth fuel 0 0 [KSet 0 50 (SState 3); pe 4] = Timeout.
Proof.
  assert (E : forall f, r_session Post.cb m 0 depth (S (S f)) 0 0 [KSet 0 50 (SState 3); pe 4] = Timeout).
  { intros f. unfold r_session.
    assert (C : construct (V := nat) m (S (S f)) 0 0 = Done tt (with_cur start [Some 0%N])) by (vm_compute; reflexivity).
    rewrite C. cbn [bind r_run]. destruct depth as [|d]; [reflexivity|].
    assert (K : r_call Post.cb m 0 (S d) (S (S f)) (KSet 0 50 (SState 3)) (with_cur start [Some 0%N]) = Done OUnit (with_user start 0 []))
      by (vm_compute; reflexivity).
    rewrite K. cbn [bind]. now rewrite never. }
  pose proof (r_session_more Post.cb m 0 depth depth fuel (S (S fuel)) 0 0 [KSet 0 50 (SState 3); pe 4]
    (le_n _) ltac:(auto)) as X. unfold extends in X. rewrite E in X.
  destruct (r_session Post.cb m 0 depth fuel 0 0 [KSet 0 50 (SState 3); pe 4]); auto;
    symmetry; apply X; discriminate.
Qed.
End Recursion.

Lemma post_wf : well_formed Post.env 50.
Proof. apply well_formed_intro. vm_compute. reflexivity. Qed.
Lemma post_machine : compile Post.env 50 = Some Recursion.m.
Proof. vm_compute. reflexivity. Qed.
Lemma pe3_typed : Forall (well_typed Post.env 50) [pe 3].
Proof. apply (demo_typed _ _ Recursion.m _ post_machine). vm_compute. reflexivity. Qed.

Lemma guard_sets_dependency : exists env root m cb ks,
  compile env root = Some m /\ well_formed env root /\
  (forall c a v w, uses (well_typed env root) (cb c a v w)) /\ Forall (well_typed env root) ks /\
  (forall ty val a v w, uses no_event (cb (CGuard ty val) a v w)) /\
  r_session cb m 0 3 3 0 0 ks = Undef UBIndex.
Proof.
  exists Post.env, 50, Recursion.m, Post.cb_dep, [pe 3].
  refine (conj post_machine (conj post_wf (conj uses_dep (conj pe3_typed (conj _ _))))).
  - intros. unfold Post.cb_dep. prove_uses. intro. discriminate.
  - vm_compute. reflexivity.
Qed.
Lemma guard_causes_dependency : exists env root m cb ks,
  compile env root = Some m /\ well_formed env root /\
  (forall c a v w, uses (well_typed env root) (cb c a v w)) /\ Forall (well_typed env root) ks /\
  (forall ty val a v w, uses no_dependency (cb (CGuard ty val) a v w)) /\
  r_session cb m 0 3 3 0 0 ks = Undef UBIndex.
Proof.
  exists Post.env, 50, Recursion.m, Post.cb_dep2, [pe 3].
  refine (conj post_machine (conj post_wf (conj uses_dep2 (conj pe3_typed (conj _ _))))).
  - intros. unfold Post.cb_dep2. prove_uses. intro. discriminate.
  - vm_compute. reflexivity.
Qed.
Lemma unbounded_nesting : exists env root m cb ks,
  compile env root = Some m /\ well_formed env root /\
  (forall c a v w, uses (well_typed env root) (cb c a v w)) /\ Forall (well_typed env root) ks /\
  guards_leave_tables cb /\
  forall depth fuel, r_session cb m 0 depth fuel 0 0 ks = Timeout.
Proof.
  exists Post.env, 50, Recursion.m, Post.cb, [KSet 0 50 (SState 3); pe 4].
  refine (conj post_machine (conj post_wf (conj uses_cb (conj _ (conj leaves_cb Recursion.session_never))))).
  apply (demo_typed _ _ Recursion.m _ post_machine). vm_compute. reflexivity.
Qed.

(** S1 -e1/f-> S2 -e2/f-> S3, where S1 and S2 have on_exit. *)
Module Last.
Definition leave := mkCdef None None false true false None true.
Definition env : cenv :=
 [ (1, leave); (2, leave);
   (50, tbl
     [ se_to (st_event (star_state 3) (EUser 3)) (state 1);
       sea_to (st_ea (state 1) (event_action (EUser 1) (Action 1 (ACall 1)))) (state 2);
       sea_to (st_ea (state 2) (event_action (EUser 2) (Action 2 (ACall 2)))) (state 3) ]) ].
Definition m : machine := Eval vm_compute in match compile env 50 with Some m => m | None => mkMachine [] 0 [] end.
Lemma compiles : compile env 50 = Some m.
Proof. vm_compute. reflexivity. Qed.
Lemma conditions : well_formed env 50 /\ well_typed env 50 (pe 2) /\ ~ region_exists env 50 1 /\
  ~ (exists x, declared env 50 x /\ x_ev x = ENone) /\
  ~ (exists x c l, declared env 50 x /\ unmarked (x_src x) = SState c /\ cd_defer (lookup env c) = Some l) /\
  event_of env 50 (EUser 1) /\
  (forall x o, offered env 50 (EUser 1) (50, SState 1) (CRow x o) ->
     (exists ty, x_act x = Action ty (ACall 1)) /\ entry_call env x = [] /\ initial_entry_call env x = []) /\
  exists x o, offered env 50 (EUser 1) (50, SState 1) (CRow x o).
Proof.
  split; [apply well_formed_intro; vm_compute; reflexivity|].
  assert (F : Forall (well_typed env 50) [pe 2; pe 1]).
  { apply (demo_typed _ _ m _ compiles). vm_compute. reflexivity. }
  split; [now inversion F|]. rewrite <- (parallel_iff _ _ _ compiles), <- (anonymous_iff _ _ _ compiles), <- (deferred_iff _ _ _ compiles).
  split; [vm_compute; discriminate|]. split; [vm_compute; discriminate|]. split; [vm_compute; discriminate|].
  split; [inversion F as [|? ? _ F2]; subst; now inversion F2|].
  assert (O : forall c, offered env 50 (EUser 1) (50, SState 1) c <-> In c (cands m (EUser 1) (50, SState 1))).
  { intros c. now rewrite <- (offered_iff m compiles). }
  split.
  - intros x o H. apply O in H. vm_compute in H. destruct H as [H|[]]. injection H as <- <-.
    split; [exists 1; reflexivity|]. split; reflexivity.
  - do 2 eexists. apply O. vm_compute. left. reflexivity.
Qed.
End Last.
