(** Machines for PropsLog.v. *)

From Coq Require Import List Arith NArith Bool Lia.
From Verif Require Import Types Static Dispatch Runtime ListFacts IndexFacts Spec
  DispatchFacts FlattenFacts Semantics RefineFacts StaticFacts TermFacts Reach ReachFacts TableFacts
  QueryFacts Dsl Examples Demo Safe SafeDemo Exact Graph GraphExact GraphDemo Log LogFacts.
Import ListNotations.

(** One computation that shows logs_transitions. *)
Definition row_logs (f : nat) (x : xrow) : bool :=
  match action_calls x with
  | CAction g :: rest => Nat.eqb g f && negb (existsb (fun c => match c with CAction h => Nat.eqb h f | _ => false end) rest)
  | _ => false
  end.
Definition all_constructible (env : cenv) : bool := forallb (fun t => cd_defctor (snd t)) env.
Lemma constructible env q : all_constructible env = true -> default_constructible env q = true.
Proof.
  intros H. assert (L : forall c, cd_defctor (lookup env c) = true).
  { intros c. clear q. induction env as [|[c' d] l IH]; [reflexivity|]. cbn [all_constructible forallb snd] in H.
    apply andb_true_iff in H. destruct H as [H1 H2]. cbn [lookup]. destruct (Nat.eq_dec c c'); [exact H1|auto]. }
  unfold default_constructible. destruct q; auto.
Qed.
Lemma logs_intro env root m f : compile env root = Some m -> forallb (row_logs f) (mc_flat m) = true ->
  all_constructible env = true -> logs_transitions env root f.
Proof.
  intros Hm H Hd. split; [|intros; now apply constructible]. intros x Hx. compiled Hm.
  apply (flat_declared m Hc) in Hx. rewrite forallb_forall in H. specialize (H x Hx). unfold row_logs in H.
  destruct (action_calls x) as [|[|g| | | | |] rest]; try discriminate. apply andb_true_iff in H. destruct H as [E N].
  apply Nat.eqb_eq in E. subst g. exists rest. split; [reflexivity|]. intros I. apply negb_true_iff in N.
  assert (existsb (fun c => match c with CAction h => Nat.eqb h f | _ => false end) rest = true).
  { apply existsb_exists. exists (CAction f). split; [exact I|apply Nat.eqb_refl]. }
  congruence.
Qed.
Lemma plain_sources env root m : compile env root = Some m ->
  forallb (fun x => match x_src x with SState c => negb (is_composite env c) | _ => true end) (mc_flat m) = true ->
  no_composite_source env root.
Proof.
  intros Hm H x c Hx Es Hcomp. compiled Hm. apply (flat_declared m Hc) in Hx. rewrite forallb_forall in H. specialize (H x Hx).
  rewrite Es in H. unfold is_composite, composite in *. destruct (cd_table (lookup (mc_env m) c)); [discriminate|now apply Hcomp].
Qed.
Lemma agrees_exits : exits_quietly agrees.
Proof. discriminate. Qed.

(** transition_logging.cpp, and an internal row that logs. *)
Module Logging.
Definition log := Action 0 (ACall 0).
Definition row s e t := sea_to (st_ea s (event_action (EUser e) log)) (state t).
Definition env : cenv :=
 [ (2, mkCdef None (Some [mkIrow (EUser 3) NoGuard log]) false false false None true);
   (50, mkCdef (Some [ row (star_state 1) 1 2; row (state 2) 2 1 ]) None false false true None true) ].
End Logging.
(** A class whose on_exit throws. *)
Module Thrown.
Definition env : cenv :=
 [ (2, mkCdef None None false true false None true);
   (50, tbl [ Logging.row (star_state 1) 1 2; Logging.row (state 2) 2 3 ]) ].
Definition cb : cbfun nat nat := fun c _ v w => match c with CExit _ => Raise 7 v w | _ => Ret true v w end.
End Thrown.

Lemma no_sets_pe ks : (forall k, In k ks -> exists e, k = pe e) -> never_sets ks.
Proof. intros H r p q I. destruct (H _ I) as (e & E). discriminate. Qed.
Ltac no_sets := apply no_sets_pe; cbn; intros k H; repeat (destruct H as [<-|H]; [eauto|]); destruct H.

(** The hypotheses of C64 and one session. *)
Definition logged (cb : cbfun nat nat) (env : cenv) (root : cls) (ks : list (call nat)) (P : list out -> machine -> rt nat nat -> Prop) : Prop :=
  exists m outs s, compile env root = Some m /\ logs_transitions env root 0 /\ never_sets ks /\
    session cb m 0 300 0 0 ks = Done outs s /\ P outs m s.
Lemma logged_intro cb env root ks (P : list out -> machine -> rt nat nat -> Prop) : never_sets ks ->
  match compile env root with
  | Some m => match session cb m 0 300 0 0 ks with
              | Done outs s => forallb (row_logs 0) (mc_flat m) = true /\ all_constructible env = true /\ P outs m s
              | _ => False
              end
  | None => False
  end -> logged cb env root ks P.
Proof.
  intros Hn H. destruct (compile env root) as [m|] eqn:Hm; [|contradiction].
  destruct (session cb m 0 300 0 0 ks) as [outs s| | |] eqn:E; try contradiction. destruct H as (H1 & H2 & H3).
  exists m, outs, s. split; [exact Hm|]. split; [eapply logs_intro; eauto|]. auto.
Qed.

Lemma logging_session : logged agrees Logging.env 50 [pe 1; pe 3; pe 1; pe 2] (fun outs m s =>
  (max_initials m <= 1 /\ has_history m = false /\
   forallb (fun x => match x_src x with SState c => negb (is_composite Logging.env c) | _ => true end) (mc_flat m) = true) /\
  at_place m s 0 = Some (50, SState 1) /\
  output 0 (rt_trace s) = [(SState 1, EUser 1, SState 2); (SState 2, EUser 3, SState 2); (SState 2, EUser 2, SState 1)]).
Proof. apply logged_intro; [no_sets|]. vm_compute. repeat split; repeat constructor. Qed.
Lemma logging : single Logging.env 50 /\ no_history Logging.env 50 /\ no_composite_source Logging.env 50 /\
  logs_transitions Logging.env 50 0 /\ exits_quietly agrees /\
  exists m outs s, compile Logging.env 50 = Some m /\ session agrees m 0 300 0 0 [pe 1; pe 3; pe 1; pe 2] = Done outs s /\
  at_place m s 0 = Some (50, SState 1) /\
  output 0 (rt_trace s) = [(SState 1, EUser 1, SState 2); (SState 2, EUser 3, SState 2); (SState 2, EUser 2, SState 1)].
Proof.
  destruct logging_session as (m & outs & s & Hm & Hl & Hn & E & (H1 & H2 & H3) & H4 & H5).
  split; [eapply single_intro; eauto|]. split; [eapply no_history_intro; eauto|]. split; [eapply plain_sources; eauto|].
  split; [exact Hl|]. split; [exact agrees_exits|]. exists m, outs, s. auto.
Qed.
(** defer_events.cpp: two regions. *)
Lemma deferred_session : logged agrees Examples.Defer.env 50 [pe 2; pe 4; pe 1] (fun outs m s =>
  (Nat.leb (max_initials m) 255 = true /\ has_history m = false) /\
  at_place m s 0 = Some (50, SState 1) /\ at_place m s 1 = Some (50, SState 22) /\
  output 0 (rt_trace s) = [(SState 21, EUser 4, SState 22); (SState 1, EUser 1, SState 2); (SState 2, EUser 2, SState 1)]).
Proof. apply logged_intro; [no_sets|]. vm_compute. repeat split; repeat constructor. Qed.

Lemma history_line : logged agrees Examples.History.env 50 [pe 1; pe 1; pe 2] (fun outs m s =>
  max_initials m <= 1 /\ at_place m s 0 = Some (11, SState 2) /\
  exists l a e, output 0 (rt_trace s) = l ++ [(a, e, SState 1)]).
Proof.
  apply logged_intro; [no_sets|]. vm_compute. repeat split; repeat constructor.
  exists [(SState 1, EUser 1, SState 1); (SState 1, EUser 1, SState 2)]. eexists. eexists. reflexivity.
Qed.
Lemma thrown_line : logged Thrown.cb Thrown.env 50 [pe 1; pe 2] (fun outs m s =>
  (max_initials m <= 1 /\ has_history m = false) /\ outs = [OBool true; OExn (XUser 7)] /\
  at_place m s 0 = Some (50, SState 3) /\ output 0 (rt_trace s) = [(SState 1, EUser 1, SState 2)]).
Proof. apply logged_intro; [no_sets|]. vm_compute. repeat split; repeat constructor. Qed.
Lemma composite_line : logged agrees Examples.Basic.env Examples.Basic.Main [pe 4; pe 1; pe 2] (fun outs m s =>
  (max_initials m <= 1 /\ has_history m = false) /\
  at_place m s 0 = Some (Examples.Basic.Main, SState 1) /\
  output 0 (rt_trace s) = [(SState 1, EUser 4, SState 1); (SState 1, EUser 1, SState 2); (SState 11, EUser 2, SState 1)]).
Proof. apply logged_intro; [no_sets|]. vm_compute. repeat split; repeat constructor. Qed.

Lemma history_refuted : exists env root m (cb : cbfun nat nat) ks outs s p q l a e b,
  compile env root = Some m /\ logs_transitions env root 0 /\ exits_quietly cb /\ single env root /\ never_sets ks /\
  session cb m 0 300 0 0 ks = Done outs s /\ at_place m s 0 = Some (p, q) /\
  output 0 (rt_trace s) = l ++ [(a, e, b)] /\ b <> q.
Proof.
  destruct history_line as (m & outs & s & Hm & Hl & Hn & E & H1 & H2 & l & a & e & H3).
  exists Examples.History.env, 50, m, agrees, [pe 1; pe 1; pe 2], outs, s, 11, (SState 2), l, a, e, (SState 1).
  split; [exact Hm|]. split; [exact Hl|]. split; [exact agrees_exits|]. split; [eapply single_intro; eauto|].
  split; [exact Hn|]. split; [exact E|]. split; [exact H2|]. split; [exact H3|discriminate].
Qed.
Lemma thrown_refuted : exists env root m (cb : cbfun nat nat) ks outs s p q l a e b,
  compile env root = Some m /\ logs_transitions env root 0 /\ single env root /\ no_history env root /\ never_sets ks /\
  session cb m 0 300 0 0 ks = Done outs s /\ at_place m s 0 = Some (p, q) /\
  output 0 (rt_trace s) = l ++ [(a, e, b)] /\ b <> q.
Proof.
  destruct thrown_line as (m & outs & s & Hm & Hl & Hn & E & (H1 & H1') & _ & H2 & H3).
  exists Thrown.env, 50, m, Thrown.cb, [pe 1; pe 2], outs, s, 50, (SState 3), [], (SState 1), (EUser 1), (SState 2).
  split; [exact Hm|]. split; [exact Hl|]. split; [eapply single_intro; eauto|]. split; [eapply no_history_intro; eauto|].
  split; [exact Hn|]. split; [exact E|]. split; [exact H2|]. split; [exact H3|discriminate].
Qed.
Lemma composite_refuted : exists env root m (cb : cbfun nat nat) ks outs s p q i,
  compile env root = Some m /\ logs_transitions env root 0 /\ exits_quietly cb /\ single env root /\ no_history env root /\
  never_sets ks /\ session cb m 0 300 0 0 ks = Done outs s /\ first_initial env root = Some i /\
  at_place m s 0 = Some (p, q) /\ ~ connected i (output 0 (rt_trace s)) q.
Proof.
  destruct composite_line as (m & outs & s & Hm & Hl & Hn & E & (H1 & H1') & H2 & H3).
  exists Examples.Basic.env, Examples.Basic.Main, m, agrees, [pe 4; pe 1; pe 2], outs, s, Examples.Basic.Main, (SState 1), (SState 1).
  split; [exact Hm|]. split; [exact Hl|]. split; [exact agrees_exits|]. split; [eapply single_intro; eauto|].
  split; [eapply no_history_intro; eauto|]. split; [exact Hn|]. split; [exact E|]. split; [reflexivity|]. split; [exact H2|].
  rewrite H3. cbn [connected]. intros (_ & _ & H & _). discriminate.
Qed.
