(** The library hands user data around and does not look at it. *)

From Coq Require Import List Arith NArith Bool Lia.
From Verif Require Import Types Static Dispatch Runtime.
Import ListNotations.

(** Two sorts of user data, related. *)
Section Data.
Context {V V' W W' : Type}.
Variable RV : V -> V' -> Prop.
Variable RW : W -> W' -> Prop.

(** Answers of user code that are related: the same verdict or the same exception. *)
Inductive same_answer : cbres V W -> cbres V' W' -> Prop :=
| sa_ret b v v' w w' : RV v v' -> RW w w' -> same_answer (Ret b v w) (Ret b v' w')
| sa_raise n v v' w w' : RV v v' -> RW w w' -> same_answer (Raise n v w) (Raise n v' w').
Definition related_user (cb : cbfun V W) (cb' : cbfun V' W') : Prop :=
  forall c a v v' w w', RV v v' -> RW w w' -> same_answer (cb c a v w) (cb' c a v' w').

Definition same_waiting (x : ev * V) (x' : ev * V') : Prop := fst x = fst x' /\ RV (snd x) (snd x').
Record same_called (k : called V) (k' : called V') : Prop := mkSameCalled {
  sc_callee : k_callee k = k_callee k';
  sc_args : k_args k = k_args k';
  sc_payload : RV (k_payload k) (k_payload k') }.
(** Equal but for the user data, which are related. *)
Record same_but_data (s : rt V W) (s' : rt V' W') : Prop := mkSbd {
  sb_cur : rt_cur s = rt_cur s';
  sb_hist : rt_hist s = rt_hist s';
  sb_queue : Forall2 same_waiting (rt_queue s) (rt_queue s');
  sb_regions : rt_regions s = rt_regions s';
  sb_live : rt_live s = rt_live s';
  sb_tabs : rt_tabs s = rt_tabs s';
  sb_htabs : rt_htabs s = rt_htabs s';
  sb_world : RW (rt_world s) (rt_world s');
  sb_trace : Forall2 same_called (rt_trace s) (rt_trace s') }.
Inductive same_call : call V -> call V' -> Prop :=
| sk_process e v v' : RV v v' -> same_call (KProcess e v) (KProcess e v')
| sk_is r p q : same_call (KIs r p q) (KIs r p q)
| sk_parent p : same_call (KParentIs p) (KParentIs p)
| sk_set r p q : same_call (KSet r p q) (KSet r p q)
| sk_dep d : same_call (KSetDep d) (KSetDep d)
| sk_status : same_call KStatus KStatus.
(** The same way of ending. *)
Inductive same_end {A A'} (RA : A -> A' -> Prop) : res V W A -> res V' W' A' -> Prop :=
| se_done a a' s s' : RA a a' -> same_but_data s s' -> same_end RA (Done a s) (Done a' s')
| se_threw x s s' : same_but_data s s' -> same_end RA (Threw x s) (Threw x s')
| se_undef u : same_end RA (Undef u) (Undef u)
| se_timeout : same_end RA Timeout Timeout.

Lemma se_bind {A A' B B'} (RA : A -> A' -> Prop) (RB : B -> B' -> Prop) r r' k k' :
  same_end RA r r' -> (forall a a' s s', RA a a' -> same_but_data s s' -> same_end RB (k a s) (k' a' s')) ->
  same_end RB (bind r k) (bind r' k').
Proof. intros H K. destruct H; cbn; try constructor; auto. Qed.

Variable cb : cbfun V W.
Variable cb' : cbfun V' W'.
Hypothesis Hcb : related_user cb cb'.
Variable m : machine.
Notation st := (rt V W).
Notation st' := (rt V' W').

Ltac same_state := split; cbn; try assumption; try (apply Forall2_app; [assumption|repeat constructor; auto]); auto.
Definition RP {A} (x : A * V) (x' : A * V') : Prop := fst x = fst x' /\ RV (snd x) (snd x').
Notation RE := (same_end eq).
Notation RPE := (same_end RP).
Notation RVE := (same_end RV).

Lemma invoke_d c a v v' s s' : RV v v' -> same_but_data s s' -> RPE (invoke cb c a v s) (invoke cb' c a v' s').
Proof.
  intros Hv Hs. destruct Hs. unfold invoke. destruct (Hcb c a v v' (rt_world s) (rt_world s') Hv sb_world0).
  - constructor; [now split|same_state].
  - constructor. same_state.
Qed.
Lemma alive_d s s' o : same_but_data s s' -> alive s' o = alive s o.
Proof. intros Hs. unfold alive. now rewrite (sb_live _ _ Hs). Qed.
Lemma guard_d t e v v' s s' : RV v v' -> same_but_data s s' -> RPE (execute_guard cb t e v s) (execute_guard cb' t e v' s').
Proof.
  intros Hv Hs. unfold execute_guard. destruct (t_guard t); [constructor; [now split|assumption]|].
  rewrite !(alive_d s s') by assumption. destruct (_ && _); [now apply invoke_d|constructor].
Qed.
Lemma keep_d r r' : RPE r r' -> RVE (keep_payload r) (keep_payload r').
Proof. intros H. unfold keep_payload. eapply se_bind; [exact H|]. intros a a' s s' [_ Hv] Hs. now constructor. Qed.
Lemma drop_d v v' r r' : RV v v' -> RPE r r' -> RVE (drop_payload v r) (drop_payload v' r').
Proof. intros Hv H. unfold drop_payload. eapply se_bind; [exact H|]. intros a a' s s' _ Hs. now constructor. Qed.
Lemma set_live_d s s' o b : same_but_data s s' -> same_but_data (set_live s o b) (set_live s' o b).
Proof. intros Hs. destruct Hs. unfold set_live. rewrite sb_live0. same_state. Qed.
Section abody_rect.
Variable P : abody -> Prop.
Hypothesis Hc : forall f, P (ACall f).
Hypothesis Hk : forall f, P (ACreate f).
Hypothesis Hr : forall f, P (AReuse f).
Hypothesis Hch : forall l, Forall P l -> P (AChain l).
Fixpoint abody_all (b : abody) : P b :=
  match b with
  | ACall f => Hc f
  | ACreate f => Hk f
  | AReuse f => Hr f
  | AChain l => Hch l ((fix go l : Forall P l := match l with [] => Forall_nil P | b :: l' => Forall_cons b (abody_all b) (go l') end) l)
  end.
End abody_rect.
Lemma body_d b : forall t e v v' s s', RV v v' -> same_but_data s s' -> RVE (exec_body cb b t e v s) (exec_body cb' b t e v' s').
Proof.
  induction b as [f|f|f|l F] using abody_all; intros t e v v' s s' Hv Hs; cbn [exec_body].
  - apply keep_d. now apply invoke_d.
  - eapply se_bind; [now apply invoke_d|]. intros a a' s1 s1' [Ha _] Hs1. rewrite Ha. constructor; [exact Hv|now apply set_live_d].
  - rewrite (alive_d s s') by assumption. destruct (alive s (t_tgt t)); [|constructor]. apply drop_d; [exact Hv|]. now apply invoke_d.
  - revert v v' s s' Hv Hs. induction F as [|b l Hb F IH]; intros v v' s s' Hv Hs; [now constructor|].
    eapply se_bind; [now apply Hb|]. intros a a' s1 s1' Ha Hs1. now apply IH.
Qed.
Lemma step_d x t e v v' s s' : RV v v' -> same_but_data s s' -> RVE (exec_step cb x t e v s) (exec_step cb' x t e v' s').
Proof. intros Hv Hs. destruct x; cbn [exec_step]; try (apply keep_d; now apply invoke_d). now apply body_d. Qed.
Lemma steps_d t e l : forall v v' s s', RV v v' -> same_but_data s s' -> RVE (exec_steps cb l t e v s) (exec_steps cb' l t e v' s').
Proof.
  induction l as [|x l IH]; intros v v' s s' Hv Hs; cbn [exec_steps]; [now constructor|].
  eapply se_bind; [now apply step_d|]. intros a a' s1 s1' Ha Hs1. now apply IH.
Qed.
Lemma action_d t e v v' s s' : RV v v' -> same_but_data s s' -> RVE (execute_action cb t e v s) (execute_action cb' t e v' s').
Proof.
  intros Hv Hs. unfold execute_action. destruct (t_act t); [|now constructor]. rewrite !(alive_d s s') by assumption.
  destruct (_ && _); [now apply steps_d|constructor].
Qed.
Lemma read_d s s' r : same_but_data s s' -> RE (read_cur s r) (read_cur s' r).
Proof. intros Hs. unfold read_cur. rewrite (sb_cur _ _ Hs). destruct (nth_error _ _) as [[c|]|]; now constructor. Qed.
Lemma at_d s s' r : same_but_data s s' -> RE (at_cur s r) (at_cur s' r).
Proof. intros Hs. unfold at_cur. rewrite (sb_cur _ _ Hs). destruct (nth_error _ _) as [[c|]|]; now constructor. Qed.
Lemma write_d s s' r c : same_but_data s s' -> RE (write_cur s r c) (write_cur s' r c).
Proof.
  intros Hs. unfold write_cur. rewrite (sb_cur _ _ Hs). destruct (upd_nth _ _ _); constructor; [reflexivity|]. destruct Hs. same_state.
Qed.
Lemma parent_d s s' : same_but_data s s' -> RE (current_parent m s) (current_parent m s').
Proof. intros Hs. unfold current_parent. eapply se_bind; [now apply read_d|]. intros a a' s1 s1' -> Hs1. now constructor. Qed.
Lemma state_d s s' r : same_but_data s s' -> RE (current_state m s r) (current_state m s' r).
Proof. intros Hs. unfold current_state. eapply se_bind; [now apply at_d|]. intros a a' s1 s1' -> Hs1. now constructor. Qed.
Lemma update_regions_d s s' : same_but_data s s' -> RE (update_current_regions m s) (update_current_regions m s').
Proof.
  intros Hs. unfold update_current_regions. destruct (parallel m); [|now constructor].
  eapply se_bind; [now apply parent_d|]. intros a a' s1 s1' -> Hs1. destruct (nth_at _ _); constructor; [reflexivity|]. destruct Hs1. same_state.
Qed.
Lemma regions_d s s' : same_but_data s s' -> current_regions m s' = current_regions m s.
Proof. intros Hs. unfold current_regions. now rewrite (sb_regions _ _ Hs). Qed.
Lemma write_hist_d s s' p r c : same_but_data s s' -> RE (write_hist s p r c) (write_hist s' p r c).
Proof.
  intros Hs. unfold write_hist. rewrite (sb_hist _ _ Hs). destruct (nth_at _ _); [|constructor]. destruct (upd_nth _ _ _); [|constructor].
  destruct (upd_at _ _ _); constructor; [reflexivity|]. destruct Hs. same_state.
Qed.
Lemma read_hist_d s s' p r : same_but_data s s' -> RE (read_hist s p r) (read_hist s' p r).
Proof.
  intros Hs. unfold read_hist. rewrite (sb_hist _ _ Hs). destruct (nth_at _ _); [|constructor]. destruct (nth_error _ _); now constructor.
Qed.
Lemma update_state_d r en s s' : same_but_data s s' -> RE (update_current_state m r en s) (update_current_state m r en s').
Proof.
  intros Hs. unfold update_current_state. destruct (en_int en); [now constructor|]. apply (se_bind eq).
  2:{ intros a a' s1 s1' _ Hs1. now apply update_regions_d. }
  destruct (has_history m); [|now apply write_d]. eapply se_bind; [now apply parent_d|]. intros p p' s1 s1' -> Hs1.
  eapply se_bind; [now apply read_d|]. intros c c' s2 s2' -> Hs2. eapply se_bind; [now apply write_hist_d|]. intros _ _ s3 s3' _ Hs3.
  destruct (en_hist en); [|now apply write_d]. eapply se_bind; [now apply read_hist_d|]. intros h h' s4 s4' -> Hs4. now apply write_d.
Qed.
Lemma entries_d e r s s' : same_but_data s s' -> RE (get_entries e r s) (get_entries e r s').
Proof.
  intros Hs. unfold get_entries. rewrite (sb_tabs _ _ Hs). destruct (get_table _ _); [|constructor].
  eapply se_bind; [now apply read_d|]. intros c c' s1 s1' -> Hs1. destruct (nth_at _ _); now constructor.
Qed.
Lemma try_entries_d r e ens : forall v v' s s', RV v v' -> same_but_data s s' -> RPE (try_entries cb m ens r e v s) (try_entries cb' m ens r e v' s').
Proof.
  induction ens as [|en ens IH]; intros v v' s s' Hv Hs; cbn [try_entries]; [constructor; [now split|assumption]|].
  destruct (en_defer en). { constructor; [now split|]. destruct Hs. same_state. }
  destruct (en_tr en); [|constructor]. eapply se_bind; [now apply guard_d|]. intros b b' s1 s1' [Eb Hb] Hs1. rewrite Eb.
  destruct (fst b'); [|now apply IH]. eapply se_bind; [now apply update_state_d|]. intros _ _ s2 s2' _ Hs2.
  eapply se_bind; [now apply action_d|]. intros x x' s3 s3' Hx Hs3. constructor; [now split|assumption].
Qed.
Lemma try_region_d r e v v' s s' : RV v v' -> same_but_data s s' -> RPE (try_region cb m r e v s) (try_region cb' m r e v' s').
Proof.
  intros Hv Hs. unfold try_region. eapply se_bind; [now apply entries_d|]. intros l l' s1 s1' -> Hs1.
  destruct l'; [constructor; [now split|assumption]|]. eapply se_bind; [now apply try_entries_d|]. intros t t' s2 s2' [Et Ht] Hs2.
  constructor; [|assumption]. split; cbn; [now rewrite Et|assumption].
Qed.
Lemma region_loop_d fuel limit e : forall r agf ati v v' s s', RV v v' -> same_but_data s s' ->
  RPE (region_loop cb m fuel limit r agf ati e v s) (region_loop cb' m fuel limit r agf ati e v' s').
Proof.
  induction fuel as [|f IH]; intros r agf ati v v' s s' Hv Hs; cbn [region_loop]; [constructor|].
  destruct (Nat.ltb r limit); [|constructor; [now split|assumption]]. eapply se_bind; [now apply try_region_d|].
  intros t t' s1 s1' [Et Ht] Hs1. rewrite Et. destruct (fst t') as [[| |]|]; auto. constructor; [now split|assumption].
Qed.
Lemma try_anonymous_d r ens : forall v v' s s', RV v v' -> same_but_data s s' -> RPE (try_anonymous cb m ens r v s) (try_anonymous cb' m ens r v' s').
Proof.
  induction ens as [|en ens IH]; intros v v' s s' Hv Hs; cbn [try_anonymous]; [constructor; [now split|assumption]|].
  destruct (en_tr en); [|constructor]. eapply se_bind; [now apply guard_d|]. intros b b' s1 s1' [Eb Hb] Hs1. rewrite Eb.
  destruct (fst b'); [|now apply IH]. eapply se_bind; [now apply update_state_d|]. intros _ _ s2 s2' _ Hs2.
  eapply se_bind; [now apply action_d|]. intros x x' s3 s3' Hx Hs3. constructor; [now split|assumption].
Qed.
Lemma anonymous_region_d r v v' s s' : RV v v' -> same_but_data s s' -> RPE (anonymous_region cb m r v s) (anonymous_region cb' m r v' s').
Proof.
  intros Hv Hs. unfold anonymous_region. eapply se_bind; [now apply entries_d|]. intros l l' s1 s1' -> Hs1.
  destruct l'; [constructor; [now split|assumption]|]. eapply se_bind; [now apply try_anonymous_d|]. intros t t' s2 s2' [Et Ht] Hs2.
  constructor; [|assumption]. split; cbn; [now rewrite Et|assumption].
Qed.
Lemma anonymous_pass_d fuel limit : forall r agf v v' s s', RV v v' -> same_but_data s s' ->
  RPE (anonymous_pass cb m fuel limit r agf v s) (anonymous_pass cb' m fuel limit r agf v' s').
Proof.
  induction fuel as [|f IH]; intros r agf v v' s s' Hv Hs; cbn [anonymous_pass]; [constructor|].
  destruct (Nat.ltb r limit); [|constructor; [now split|assumption]]. eapply se_bind; [now apply anonymous_region_d|].
  intros t t' s1 s1' [Et Ht] Hs1. rewrite Et. destruct (fst t'); auto. constructor; [now split|assumption].
Qed.
Lemma anonymous_loop_d rfuel fuel : forall v v' s s', RV v v' -> same_but_data s s' ->
  RE (anonymous_loop cb m rfuel fuel v s) (anonymous_loop cb' m rfuel fuel v' s').
Proof.
  induction fuel as [|f IH]; intros v v' s s' Hv Hs; cbn [anonymous_loop]; [constructor|]. rewrite (regions_d s s') by assumption.
  eapply se_bind; [now apply anonymous_pass_d|]. intros t t' s1 s1' [Et Ht] Hs1. rewrite Et. destruct (fst t') as [[|]|]; auto; now constructor.
Qed.
Variable vnone : V.
Variable vnone' : V'.
Hypothesis Hnone : RV vnone vnone'.
Lemma anonymous_d fuel s s' : same_but_data s s' -> RE (process_anonymous cb m vnone fuel s) (process_anonymous cb' m vnone' fuel s').
Proof. intros Hs. unfold process_anonymous. destruct (has_anonymous m); [now apply anonymous_loop_d|now constructor]. Qed.
Lemma internal_d fuel e v v' s s' : RV v v' -> same_but_data s s' ->
  RPE (process_event_internal cb m vnone fuel e v s) (process_event_internal cb' m vnone' fuel e v' s').
Proof.
  intros Hv Hs. unfold process_event_internal. rewrite (regions_d s s') by assumption. eapply se_bind; [now apply region_loop_d|].
  intros p p' s1 s1' Hp Hs1. destruct (proj1 Hp). destruct (fst p); try (now constructor).
  eapply se_bind; [now apply anonymous_d|]. intros _ _ s2 s2' _ Hs2. now constructor.
Qed.
Lemma deferred_d fuel s s' : same_but_data s s' -> RE (process_deferred cb m vnone fuel s) (process_deferred cb' m vnone' fuel s').
Proof.
  intros Hs. unfold process_deferred. destruct (has_deferred m); [|now constructor].
  pose proof (sb_queue _ _ Hs) as Hq. inversion Hq as [E1 E2|x x' q q' Hx Hq' E1 E2]; [now constructor|].
  destruct x as [e v], x' as [e' v'], Hx as [E Hv]. cbn [fst snd] in E, Hv. subst e'.
  eapply se_bind; [apply internal_d; [exact Hv|]|]. 2:{ intros _ _ s1 s1' _ Hs1. now constructor. } destruct Hs. same_state.
Qed.
Lemma handler_d e v v' s s' : RV v v' -> same_but_data s s' -> RVE (call_handler cb m e v s) (call_handler cb' m e v' s').
Proof.
  intros Hv Hs. unfold call_handler. destruct (cd_unexpected _); [|now constructor]. eapply se_bind; [now apply at_d|].
  intros c c' s1 s1' -> Hs1. rewrite (sb_htabs _ _ Hs1). destruct (get_table _ _); [|constructor].
  destruct (nth_at _ _) as [[[o d]|]|]; try (now constructor). rewrite (alive_d s1 s1') by assumption.
  destruct (alive s1 o); [|constructor]. apply keep_d. now apply invoke_d.
Qed.
Lemma process_d fuel e v v' s s' : RV v v' -> same_but_data s s' ->
  RPE (process_event cb m vnone fuel e v s) (process_event cb' m vnone' fuel e v' s').
Proof.
  intros Hv Hs. unfold process_event. destruct (in_dec _ _ _); [|constructor]. eapply se_bind; [now apply internal_d|].
  intros p p' s1 s1' [Ep Hp] Hs1. rewrite Ep. destruct (fst p'); try (constructor; [now split|assumption]).
  - eapply se_bind; [now apply handler_d|]. intros x x' s2 s2' Hx Hs2. constructor; [now split|assumption].
  - eapply se_bind; [now apply deferred_d|]. intros _ _ s2 s2' _ Hs2. constructor; [now split|assumption].
Qed.
Lemma is_d r p q s s' : same_but_data s s' -> RE (q_is m r p q s) (q_is m r p q s').
Proof.
  intros Hs. unfold q_is. eapply se_bind; [now apply parent_d|]. intros c c' s1 s1' -> Hs1. destruct (N.eqb _ _); [|now constructor].
  eapply se_bind; [now apply state_d|]. intros x x' s2 s2' -> Hs2. now constructor.
Qed.
Lemma parent_is_d p s s' : same_but_data s s' -> RE (q_parent_is m p s) (q_parent_is m p s').
Proof. intros Hs. unfold q_parent_is. eapply se_bind; [now apply parent_d|]. intros c c' s1 s1' -> Hs1. now constructor. Qed.
Lemma set_d r p q s s' : same_but_data s s' -> RE (set_state m r p q s) (set_state m r p q s').
Proof.
  intros Hs. unfold set_state. destruct (in_dec _ _ _); [|constructor]. destruct (in_dec _ _ _); [|constructor].
  rewrite (sb_cur _ _ Hs). destruct (upd_nth _ _ _); constructor; [reflexivity| |assumption]. destruct Hs. same_state.
Qed.
Lemma dependency_d d s s' : same_but_data s s' -> RE (set_dependency m d s) (set_dependency m d s').
Proof.
  intros Hs. unfold set_dependency. rewrite (sb_tabs _ _ Hs). destruct (fill_dispatch _ _ _); constructor; [reflexivity|]. destruct Hs. same_state.
Qed.
Lemma status_loop_d fuel limit : forall r s s', same_but_data s s' -> RE (status_loop m fuel limit r s) (status_loop m fuel limit r s').
Proof.
  induction fuel as [|f IH]; intros r s s' Hs; cbn [status_loop]; [constructor|]. destruct (Nat.ltb r limit); [|now constructor].
  eapply se_bind; [now apply read_d|]. intros c c' s1 s1' -> Hs1. eapply se_bind; [now apply parent_d|]. intros p p' s2 s2' -> Hs2.
  eapply se_bind; [now apply state_d|]. intros q q' s3 s3' -> Hs3. eapply se_bind; [now apply IH|]. intros l l' s4 s4' -> Hs4. now constructor.
Qed.
Lemma status_d fuel s s' : same_but_data s s' -> RE (status m fuel s) (status m fuel s').
Proof. intros Hs. unfold status. rewrite (regions_d s s') by assumption. now apply status_loop_d. Qed.
Lemma do_call_d fuel k k' s s' : same_call k k' -> same_but_data s s' -> RE (do_call cb m vnone fuel k s) (do_call cb' m vnone' fuel k' s').
Proof.
  intros Hk Hs. destruct Hk; cbn [do_call].
  - eapply se_bind; [now apply process_d|]. intros x x' s1 s1' [Ex _] Hs1. rewrite Ex. now constructor.
  - eapply se_bind; [now apply is_d|]. intros x x' s1 s1' -> Hs1. now constructor.
  - eapply se_bind; [now apply parent_is_d|]. intros x x' s1 s1' -> Hs1. now constructor.
  - eapply se_bind; [now apply set_d|]. intros x x' s1 s1' -> Hs1. now constructor.
  - eapply se_bind; [now apply dependency_d|]. intros x x' s1 s1' -> Hs1. now constructor.
  - eapply se_bind; [now apply status_d|]. intros x x' s1 s1' -> Hs1. now constructor.
Qed.
Lemma catch_d fuel k k' s s' : same_call k k' -> same_but_data s s' -> RE (do_call_catch cb m vnone fuel k s) (do_call_catch cb' m vnone' fuel k' s').
Proof. intros Hk Hs. unfold do_call_catch. destruct (do_call_d fuel k k' s s' Hk Hs); now constructor. Qed.
Lemma run_d fuel ks ks' : Forall2 same_call ks ks' -> forall s s', same_but_data s s' -> RE (run cb m vnone fuel ks s) (run cb' m vnone' fuel ks' s').
Proof.
  intros Hks. induction Hks as [|k k' ks ks' Hk Hks IH]; intros s s' Hs; cbn [run]; [now constructor|].
  eapply se_bind; [now apply catch_d|]. intros o o' s1 s1' -> Hs1. eapply se_bind; [now apply IH|]. intros l l' s2 s2' -> Hs2. now constructor.
Qed.
Lemma init_loop_d fuel l : forall r s s', same_but_data s s' -> RE (init_loop fuel l r s) (init_loop fuel l r s').
Proof.
  induction fuel as [|f IH]; intros r s s' Hs; cbn [init_loop]; [constructor|]. destruct (Nat.ltb _ _); [|now constructor].
  destruct (nth_error _ _); [|constructor]. eapply se_bind; [now apply write_d|]. intros _ _ s1 s1' _ Hs1. now apply IH.
Qed.
Lemma construct_d fuel d w w' : RW w w' -> RE (construct (V:=V) m fuel d w) (construct (V:=V') m fuel d w').
Proof.
  intros Hw. unfold construct. destruct (if cd_unexpected _ then _ else _); [|constructor]. destruct (fill_dispatch _ _ _); [|constructor].
  apply (se_bind eq).
  - unfold init_current_state. destruct (nth_at _ _); [|constructor]. apply init_loop_d. split; cbn; auto.
  - intros _ _ s1 s1' _ Hs1. now apply update_regions_d.
Qed.
Theorem session_d fuel d w w' ks ks' : RW w w' -> Forall2 same_call ks ks' ->
  RE (session cb m vnone fuel d w ks) (session cb' m vnone' fuel d w' ks').
Proof. intros Hw Hks. unfold session. eapply se_bind; [now apply construct_d|]. intros _ _ s s' _ Hs. now apply run_d. Qed.
End Data.
