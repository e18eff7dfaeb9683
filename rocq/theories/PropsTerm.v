(** C18, C45: termination, divergence, determinism. *)

From Coq Require Import List Arith NArith Bool Lia.
From Verif Require Import Types Static Dispatch Runtime Dsl Examples Spec DispatchFacts Semantics Reach
  TermFacts LoopFacts TermRank TrapFacts TermProg TermMeta Safe SafeDemo Demo.
Import ListNotations.

(** C18. If a rank decreases along every anonymous row, all calls terminate: there
    is a bound that holds for all guards and actions, in every reachable state. *)
Theorem C18_terminates : forall env root m, compile env root = Some m -> few_regions env root ->
  forall rank, ranked env root rank ->
  exists bound, forall V W (cb : cbfun V W) vnone fuel ds d0 s k, bound <= fuel ->
    reachable cb m vnone ds d0 s -> do_call_catch cb m vnone fuel k s <> Timeout.
Proof. exact rank_bounds_calls. Qed.
Print Assumptions C18_terminates.
(** Whole sessions. *)
Theorem C18_sessions_terminate : forall env root m, compile env root = Some m -> few_regions env root ->
  forall rank, ranked env root rank ->
  exists bound, forall V W (cb : cbfun V W) vnone fuel d w ks, bound <= fuel ->
    session cb m vnone fuel d w ks <> Timeout.
Proof. exact rank_bounds_sessions. Qed.
Print Assumptions C18_sessions_terminate.
(** With C24: every session of a well formed machine with a rank has a result. *)
Theorem C18_total : forall env root m, compile env root = Some m ->
  forall rank, ranked env root rank -> well_formed env root ->
  exists bound, forall V W (cb : cbfun V W) vnone fuel d w ks, bound <= fuel ->
    Forall (well_typed env root) ks -> exists os s, session cb m vnone fuel d w ks = Done os s.
Proof. exact rank_total. Qed.
Print Assumptions C18_total.
(** Divergence.  The regions have their turns with [e], region [i] takes a row, and
    then all regions are in a set of places that have an anonymous row without
    guard, and that no anonymous row leads out of: process_event does not return. *)
Theorem C18_never_returns : forall V W (cb : cbfun V W) env root m vnone ds d0 s,
  running cb env root m vnone ds d0 s -> forall n C, trap env root n C ->
  (exists x, declared env root x /\ x_ev x = ENone) ->
  forall e v i v1 s1 v2 s2 v3 s3, turns cb m e 0 v s i v1 s1 -> i < active m s ->
  try_region cb m i e v1 s1 = Done (Some Fired, v2) s2 ->
  turns cb m e (S i) v2 s2 (active m s) v3 s3 -> caught m n C s3 ->
  forall fuel b v' s', process_event cb m vnone fuel e v s <> Done (b, v') s'.
Proof. exact @trap_never_returns. Qed.
Print Assumptions C18_never_returns.
(** If the user code does not throw and the machine is well formed it runs on,
    whatever the budget. *)
Theorem C18_runs_forever : forall V W (cb : cbfun V W) env root m vnone ds d0 s,
  running cb env root m vnone ds d0 s -> forall n C, trap env root n C ->
  (exists x, declared env root x /\ x_ev x = ENone) ->
  forall e v i v1 s1 v2 s2 v3 s3, turns cb m e 0 v s i v1 s1 -> i < active m s ->
  try_region cb m i e v1 s1 = Done (Some Fired, v2) s2 ->
  turns cb m e (S i) v2 s2 (active m s) v3 s3 -> caught m n C s3 ->
  well_formed env root -> never_throws cb -> event_of env root e ->
  forall fuel, process_event cb m vnone fuel e v s = Timeout.
Proof. exact @trap_runs_forever. Qed.
Print Assumptions C18_runs_forever.

Definition chain : cenv :=
 [ (50, tbl [ mkRow (SInitial WState 1) (EUser 1) NoGuard NoAction (SState 2);
              mkRow (SState 2) ENone ok NoAction (SState 3); mkRow (SState 3) ENone NoGuard NoAction (SState 4);
              mkRow (SState 4) ENone fail NoAction (SState 5) ]) ].
Definition chain_rank (pl : place) : nat := match snd pl with SState c => 9 - c | _ => 0 end.
Example C18_applies_rank : exists m, compile chain 50 = Some m /\ ranked chain 50 chain_rank /\ well_formed chain 50.
Proof.
  destruct (compile chain 50) as [m|] eqn:Hm; [|vm_compute in Hm; discriminate].
  assert (Hw : well_formed chain 50) by (apply well_formed_intro; vm_compute; reflexivity).
  exists m. split; [reflexivity|]. split; [|exact Hw].
  apply (rank_check_sound chain 50 m chain_rank Hm); [apply Hw|].
  vm_compute in Hm. injection Hm as <-. vm_compute. reflexivity.
Qed.
Definition wheel : cenv :=
 [ (50, tbl [ mkRow (SInitial WState 1) (EUser 1) NoGuard NoAction (SState 2);
              mkRow (SState 2) ENone NoGuard act (SState 3);
              mkRow (SState 3) ENone NoGuard act (SState 2) ]) ].
Example C18_applies_cycle : exists m s, running ex_cb wheel 50 m 0 [0] 0 s /\
  forall fuel, process_event ex_cb m 0 fuel (EUser 1) 0 s = Timeout.
Proof.
  apply (demo_forever wheel 50 1 [(50, SState 2); (50, SState 3)] (EUser 1) 0);
    [apply well_formed_intro; vm_compute; reflexivity|].
  vm_compute. repeat split.
Qed.

(** C45. Results do not depend on the budget. *)
Theorem C45_call : forall V W (cb : cbfun V W) m vnone k s fuel fuel',
  do_call cb m vnone fuel k s <> Timeout -> do_call cb m vnone fuel' k s <> Timeout ->
  do_call cb m vnone fuel k s = do_call cb m vnone fuel' k s.
Proof. exact @call_budget. Qed.
Print Assumptions C45_call.
Theorem C45_session : forall V W (cb : cbfun V W) m vnone d w ks fuel fuel',
  session cb m vnone fuel d w ks <> Timeout -> session cb m vnone fuel' d w ks <> Timeout ->
  session cb m vnone fuel d w ks = session cb m vnone fuel' d w ks.
Proof. exact @session_budget. Qed.
Print Assumptions C45_session.
(** More budget never takes a result away. *)
Theorem C45_more : forall V W (cb : cbfun V W) m vnone d w ks fuel fuel', fuel <= fuel' ->
  session cb m vnone fuel d w ks <> Timeout ->
  session cb m vnone fuel' d w ks = session cb m vnone fuel d w ks.
Proof. exact @session_more. Qed.
Print Assumptions C45_more.
(** The rules of Semantics.v, which know no budget, allow one behaviour of
    process_event, and it is the one computed. *)
Theorem C45_rules : forall V W (cb : cbfun V W) env root m vnone ds d0 s,
  running cb env root m vnone ds d0 s -> forall fuel e v vds rp s',
  process cb m ds vnone d0 e v s vds rp s' ->
  match process_event cb m vnone fuel e v s with
  | Done (b, v') s1 => rp = Returned b v' /\ s1 = s'
  | Threw ex s1 => exists n, ex = XUser n /\ rp = Exception n /\ s1 = s'
  | Undef _ | Timeout => True
  end.
Proof. exact @rules_decide. Qed.
Print Assumptions C45_rules.
(** Guards with side effects, exceptions, histories: nothing else is an input. *)
Theorem C45_rules_one : forall V W (cb : cbfun V W) m ds vnone d0 e v s vds rp s',
  process cb m ds vnone d0 e v s vds rp s' ->
  forall vds2 rp2 s2, process cb m ds vnone d0 e v s vds2 rp2 s2 -> vds2 = vds /\ rp2 = rp /\ s2 = s'.
Proof. exact @process_det. Qed.
Print Assumptions C45_rules_one.

Example C45_applies : exists m s, compile chain 50 = Some m /\
  session ex_cb m 0 300 0 0 [pe 1] = Done [T] s /\ session ex_cb m 0 2 0 0 [pe 1] = Timeout.
Proof.
  destruct (compile chain 50) as [m|] eqn:Hm; [|vm_compute in Hm; discriminate]. exists m.
  vm_compute in Hm. injection Hm as <-. eexists. split; [reflexivity|]. split; vm_compute; reflexivity.
Qed.
