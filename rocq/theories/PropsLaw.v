(** C89: a law that holds for the rows holds for all runs. *)

From Coq Require Import List Arith NArith ZArith Bool.
From Verif Require Import Types Static Dispatch Runtime Dsl Examples Programs Spec Semantics Reach StaticFacts TableFacts Demo
  Balance BalanceDemo Law LawFacts LawDemo.
Import ListNotations.

(** C89. Weights [psi] of the callees and values [phi] of the places.  If for every row, in
    every place where it is tried, the calls of the row weigh what the move adds, then the
    calls of every run weigh what the run adds, in all regions together. *)
Theorem C89_law : forall V W (cb : cbfun V W) env root m vnone ds d0 s phi psi,
  running cb env root m vnone ds d0 s -> known_targets env root ->
  forall fuel ks os s', (forall r p q, ~ In (KSet r p q) ks) -> run cb m vnone fuel ks s = Done os s' ->
  lawful env root phi psi -> only_guards_throw cb ->
  exists t, rt_trace s' = rt_trace s ++ t /\ (total psi t = level m phi s' - level m phi s)%Z.
Proof. exact @run_law. Qed.
Print Assumptions C89_law.

(** If the calls weigh at most that, whatever the first of them that are made, then so do
    the calls of every run, whatever throws. *)
Theorem C89_bound : forall V W (cb : cbfun V W) env root m vnone ds d0 s phi psi,
  running cb env root m vnone ds d0 s -> known_targets env root ->
  forall fuel ks os s', (forall r p q, ~ In (KSet r p q) ks) -> run cb m vnone fuel ks s = Done os s' ->
  bounded env root phi psi ->
  exists t, rt_trace s' = rt_trace s ++ t /\ (total psi t <= level m phi s' - level m phi s)%Z.
Proof. exact @run_bound. Qed.
Print Assumptions C89_bound.

(** From construction on: the initial states of the root are where it starts. *)
Theorem C89_session : forall V W (cb : cbfun V W) env root m vnone phi psi,
  compile env root = Some m -> few_regions env root -> known_targets env root ->
  forall fuel d w ks os s, (forall r p q, ~ In (KSet r p q) ks) -> session cb m vnone fuel d w ks = Done os s ->
  (lawful env root phi psi -> only_guards_throw cb ->
   (total psi (rt_trace s) = level m phi s - sum (map (fun i => phi (root, i)) (initial_states env root)))%Z) /\
  (bounded env root phi psi ->
   (total psi (rt_trace s) <= level m phi s - sum (map (fun i => phi (root, i)) (initial_states env root)))%Z).
Proof.
  exact (fun V W cb env root m vnone phi psi Hm F K fuel d w ks os s Hk H =>
    conj (session_law cb env root m vnone phi psi Hm F K fuel d w ks os s Hk H) (session_bound cb env root m vnone phi psi Hm F K fuel d w ks os s Hk H)).
Qed.
Print Assumptions C89_session.

(** The conditions can be checked on the compiled machine. *)
Theorem C89_checks : forall env root m phi psi, compile env root = Some m ->
  (known_ok m = true <-> known_targets env root) /\ (lawful_ok m phi psi = true <-> lawful env root phi psi) /\
  (bounded_ok m phi psi = true <-> bounded env root phi psi).
Proof.
  exact (fun env root m phi psi Hm => conj (known_ok_iff env root m Hm) (conj (lawful_ok_iff env root m phi psi Hm) (bounded_ok_iff env root m phi psi Hm))).
Qed.
Print Assumptions C89_checks.

(** The regression test should_execute_anonymous_transition_once.cpp, for all sessions: the
    action of the anonymous row runs at most once, whatever throws, and if no action
    throws, it has run if and only if the machine is in S2 or S3 of SubState2. *)
Theorem C89_once : forall V W (cb : cbfun V W) m vnone, compile Once.env 50 = Some m ->
  forall fuel d w ks os s, (forall r p q, ~ In (KSet r p q) ks) -> session cb m vnone fuel d w ks = Done os s ->
  times (CAction 42) (rt_trace s) <= 1 /\
  (only_guards_throw cb -> (times (CAction 42) (rt_trace s) = 1 <-> at_place m s 0 = Some (12, SState 2) \/ at_place m s 0 = Some (12, SState 3))).
Proof. exact @once_law. Qed.
Print Assumptions C89_once.

(** The CD player: the drawer has been moved out once more than in if the player is in
    Open, and as often otherwise. *)
Theorem C89_drawer : forall V W (cb : cbfun V W) m vnone, compile CdPlayer.env CdPlayer.CdPlayer = Some m ->
  forall fuel d w ks os s, (forall r p q, ~ In (KSet r p q) ks) -> session cb m vnone fuel d w ks = Done os s -> only_guards_throw cb ->
  times (CAction (CdPlayer.fn CdPlayer.open_drawer)) (rt_trace s) + times (CAction (CdPlayer.fn CdPlayer.stop_and_open)) (rt_trace s) =
  times (CAction (CdPlayer.fn CdPlayer.close_drawer)) (rt_trace s) +
  match at_place m s 0 with Some (_, q) => if sref_eq_dec q (SState CdPlayer.Open) then 1 else 0 | None => 0 end.
Proof. exact @drawer_law. Qed.
Print Assumptions C89_drawer.

(** The law does not survive an action that throws (the move stays, later calls are not
    made): the weight is missing. *)
Theorem C89_throws_refuted : exists (cb : cbfun nat nat) env m phi psi outs s, compile env 50 = Some m /\ known_ok m = true /\ lawful_ok m phi psi = true /\
  session cb m 0 300 0 0 [pe 1] = Done outs s /\
  (total psi (rt_trace s) < level m phi s - sum (map (fun i => phi (50%nat, i)) (initial_states env 50%nat)))%Z.
Proof.
  exists throw_cb, Chain.env. eexists. exists Chain.phi, Chain.psi. eexists. eexists. split; [vm_compute; reflexivity|]. split; [vm_compute; reflexivity|]. split; [vm_compute; reflexivity|].
  split; [vm_compute; reflexivity|]. vm_compute. reflexivity.
Qed.
Print Assumptions C89_throws_refuted.
(** Nor set_current_state: the action that runs once runs twice. *)
Theorem C89_set_refuted : exists (cb : cbfun nat nat) m outs s, only_guards_throw cb /\ compile Once.env 50 = Some m /\
  session cb m 0 300 0 0 [pe 2; KSet 0 50 (SState 1); pe 2] = Done outs s /\ times (CAction 42) (rt_trace s) = 2.
Proof.
  exists ex_cb. eexists. eexists. eexists. split; [exact ex_cb_quiet|]. split; [vm_compute; reflexivity|]. split; vm_compute; reflexivity.
Qed.
Print Assumptions C89_set_refuted.

(** C89_once and C89_drawer have machines and sessions; two regions with a law: *)
Example C89_applies : exists m, compile Once.env 50 = Some m /\
  (exists outs s, session ex_cb m 0 300 0 0 [pe 1; pe 3; pe 4] = Done outs s /\ times (CAction 42) (rt_trace s) = 1 /\ at_place m s 0 = Some (12, SState 3)) /\
  (exists outs s, session ex_cb m 0 300 0 0 [pe 1] = Done outs s /\ times (CAction 42) (rt_trace s) = 0 /\ at_place m s 0 = Some (11, SState 2)).
Proof.
  eexists. split; [vm_compute; reflexivity|]. split; eexists; eexists; (split; [vm_compute; reflexivity|]); vm_compute; auto.
Qed.
Example C89_regions : exists m, compile Devices.env 50 = Some m /\ few_regions Devices.env 50 /\
  known_targets Devices.env 50 /\ lawful Devices.env 50 Devices.phi Devices.psi /\
  (exists outs s, session ex_cb m 0 300 0 0 [pe 1; pe 2; pe 2; pe 1; pe 1] = Done outs s /\
    total Devices.psi (rt_trace s) = 2%Z /\ level m Devices.phi s = 2%Z /\ times (CAction 1) (rt_trace s) = 3).
Proof.
  destruct (compile Devices.env 50) as [m|] eqn:Hm; [|exfalso; vm_compute in Hm; discriminate].
  exists m. split; [reflexivity|]. split; [apply (max_few _ _ _ Hm); vm_compute in Hm; inversion Hm; subst; apply Nat.leb_le; vm_compute; reflexivity|].
  destruct (C89_checks Devices.env 50 m Devices.phi Devices.psi Hm) as (K & L & _). vm_compute in Hm. inversion Hm. subst m.
  split; [apply K; vm_compute; reflexivity|]. split; [apply L; vm_compute; reflexivity|].
  eexists. eexists. split; [vm_compute; reflexivity|]. vm_compute. auto.
Qed.
Example C89_player : exists m, compile CdPlayer.env CdPlayer.CdPlayer = Some m /\
  (exists outs s, session ex_cb m 0 300 0 0 [pe 2; pe 2; pe 1; pe 4; pe 2] = Done outs s /\
    at_place m s 0 = Some (CdPlayer.CdPlayer, SState CdPlayer.Open) /\ times (CAction 2) (rt_trace s) = 1 /\ times (CAction 6) (rt_trace s) = 1 /\ times (CAction 3) (rt_trace s) = 1).
Proof. eexists. split; [vm_compute; reflexivity|]. eexists. eexists. split; [vm_compute; reflexivity|]. vm_compute. auto. Qed.
