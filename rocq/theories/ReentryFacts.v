(** Facts about user code that uses the machine it is called from. *)

From Coq Require Import List Arith NArith Bool Lia.
From Verif Require Import Types Static Dispatch Runtime ListFacts IndexFacts Spec
  DispatchFacts FlattenFacts Semantics RefineFacts StaticFacts TermFacts Reach ReachFacts TableFacts
  QueryFacts ProcessFacts Reentry.
Import ListNotations.

(** * User code that does not use the machine *)
Section Plain.
Context {V W : Type}.
Notation st := (rt V W).
Variable cb : cbfun V W.

Definition plain : rcbfun V W := fun c a v w =>
  match cb c a v w with
  | Ret b v' w' => PRet b v' w'
  | Raise n _ w' => PRaise (XUser n) w'
  end.

Lemma plain_invoke use c a v (s : st) : rinvoke use plain c a v s = invoke cb c a v s.
Proof. unfold rinvoke, plain, invoke. destruct (cb c a v (rt_world s)); reflexivity. Qed.

Section Same.
Variable inv : callee -> args -> V -> st -> res V W (bool * V).
Hypothesis same : forall c a v s, inv c a v s = invoke cb c a v s.

Lemma bind_same {A B} (r : res V W A) (f g : A -> st -> res V W B) :
  (forall a s, f a s = g a s) -> bind r f = bind r g.
Proof. intros H. destruct r; cbn; auto. Qed.

Lemma guard_same t e v s : g_guard inv t e v s = execute_guard cb t e v s.
Proof. unfold g_guard, execute_guard. destruct (t_guard t); auto. now rewrite same. Qed.
Lemma body_same t e : forall b v s, g_body inv b t e v s = exec_body cb b t e v s.
Proof.
  induction b as [f|f|f|l IH] using abody_ind2; intros v s; cbn [g_body exec_body]; rewrite ?same; auto.
  revert v s. induction IH as [|b l Hb _ IHl]; intros v s; [reflexivity|]. rewrite Hb. apply bind_same. auto.
Qed.
Lemma steps_same t e : forall l v s, g_steps inv l t e v s = exec_steps cb l t e v s.
Proof.
  induction l as [|a l IH]; intros v s; cbn; [reflexivity|].
  assert (E : g_step inv a t e v s = exec_step cb a t e v s).
  { destruct a; cbn; rewrite ?same; auto using body_same. }
  rewrite E. apply bind_same. auto.
Qed.
Lemma action_same t e v s : g_action inv t e v s = execute_action cb t e v s.
Proof. unfold g_action, execute_action. destruct (t_act t); auto. now rewrite steps_same. Qed.

Lemma guard_tabs t e v s bv s1 : execute_guard cb t e v s = Done bv s1 -> rt_tabs s1 = rt_tabs s.
Proof.
  unfold execute_guard, invoke. destruct (t_guard t); [intros H; now inversion H|].
  destruct (_ && _); [|discriminate]. destruct (cb _ _ v _); [|discriminate]. intros H; now inversion H.
Qed.

Variable m : machine.
Lemma entries_same here r e : forall ens v s, g_entries inv m ens here r e v s = try_entries cb m ens r e v s.
Proof.
  induction ens as [|en ens IH]; intros v s; cbn; [reflexivity|].
  destruct (en_defer en); [reflexivity|]. destruct (en_tr en) as [t|]; [|reflexivity].
  rewrite guard_same. destruct (execute_guard cb t e v s) as [[b v1] s1|x s1|u|] eqn:Eg; cbn; auto.
  destruct b.
  - apply bind_same. intros _ s2. now rewrite action_same.
  - unfold count. rewrite (guard_tabs _ _ _ _ _ _ Eg), Nat.eqb_refl. apply IH.
Qed.
Lemma anonymous_same here r : forall ens v s, g_anonymous inv m ens here r v s = try_anonymous cb m ens r v s.
Proof.
  induction ens as [|en ens IH]; intros v s; cbn; [reflexivity|].
  destruct (en_tr en) as [t|]; [|reflexivity].
  rewrite guard_same. destruct (execute_guard cb t ENone v s) as [[b v1] s1|x s1|u|] eqn:Eg; cbn; auto.
  destruct b.
  - apply bind_same. intros _ s2. now rewrite action_same.
  - unfold count. rewrite (guard_tabs _ _ _ _ _ _ Eg), Nat.eqb_refl. apply IH.
Qed.

Lemma get_entries_read e r (s : st) ens s' : get_entries e r s = Done ens s' ->
  s' = s /\ exists c, read_cur s r = Done c s.
Proof.
  unfold get_entries. destruct (get_table (rt_tabs s) e); [|discriminate].
  unfold read_cur. destruct (nth_error (rt_cur s) r) as [[c|]|]; cbn; try discriminate.
  destruct (nth_at c l); [|discriminate]. intros H; inversion H; subst. eauto.
Qed.

Lemma region_same r e v s : g_region inv m r e v s = try_region cb m r e v s.
Proof.
  unfold g_region, try_region. destruct (get_entries e r s) as [ens s'|x s'|u|] eqn:E; cbn; auto.
  destruct (get_entries_read _ _ _ _ _ E) as [-> [c Ec]]. destruct ens as [|en ens]; [reflexivity|].
  rewrite Ec. cbn [bind]. now rewrite entries_same.
Qed.
Lemma loop_same e : forall fuel limit r agf ati v s,
  g_loop inv m fuel limit r agf ati e v s = region_loop cb m fuel limit r agf ati e v s.
Proof.
  induction fuel as [|fuel IH]; intros; cbn [g_loop region_loop]; [reflexivity|]. destruct (Nat.ltb r limit); [|reflexivity].
  rewrite region_same. apply bind_same. intros [[[| |]|] v1] s1; cbn; auto.
Qed.
Lemma anonymous_region_same r v s : g_anonymous_region inv m r v s = anonymous_region cb m r v s.
Proof.
  unfold g_anonymous_region, anonymous_region. destruct (get_entries ENone r s) as [ens s'|x s'|u|] eqn:E; cbn; auto.
  destruct (get_entries_read _ _ _ _ _ E) as [-> [c Ec]]. destruct ens as [|en ens]; [reflexivity|].
  rewrite Ec. cbn [bind]. now rewrite anonymous_same.
Qed.
Lemma pass_same : forall fuel limit r agf v s,
  g_pass inv m fuel limit r agf v s = anonymous_pass cb m fuel limit r agf v s.
Proof.
  induction fuel as [|fuel IH]; intros; cbn [g_pass anonymous_pass]; [reflexivity|]. destruct (Nat.ltb r limit); [|reflexivity].
  rewrite anonymous_region_same. apply bind_same. intros [[b|] v1] s1; cbn; auto.
Qed.
Lemma anonymous_loop_same rfuel : forall fuel v s,
  g_anonymous_loop inv m rfuel fuel v s = anonymous_loop cb m rfuel fuel v s.
Proof.
  induction fuel as [|fuel IH]; intros; cbn; [reflexivity|]. rewrite pass_same. apply bind_same.
  intros [[[|]|] v1] s1; cbn; auto.
Qed.
Variable vnone : V.
Lemma internal_same fuel e v s : g_internal inv m vnone fuel e v s = process_event_internal cb m vnone fuel e v s.
Proof.
  unfold g_internal, process_event_internal. rewrite loop_same. apply bind_same. intros [p v1] s1. cbn.
  destruct p; auto. unfold g_completion, process_anonymous. destruct (has_anonymous m); auto.
  now rewrite anonymous_loop_same.
Qed.
Lemma process_same fuel e v s : g_process inv m vnone fuel e v s = process_event cb m vnone fuel e v s.
Proof.
  unfold g_process, process_event. destruct (in_dec ev_eq_dec e (events m)); auto.
  rewrite internal_same. apply bind_same. intros [p v1] s1. cbn. destruct p; auto.
  - unfold g_handler, call_handler. destruct (cd_unexpected _); auto. destruct (at_cur s1 0); cbn; auto.
    destruct (get_table _ e); auto. destruct (nth_at a l) as [[[o d]|]|]; auto. now rewrite same.
  - unfold g_deferred, process_deferred. destruct (has_deferred m); auto. destruct (rt_queue s1) as [|[e' v'] q]; auto.
    now rewrite internal_same.
Qed.
Lemma call_same fuel k s : g_call_catch inv m vnone fuel k s = do_call_catch cb m vnone fuel k s.
Proof. unfold g_call_catch, do_call_catch, g_call, do_call. destruct k; auto. now rewrite process_same. Qed.
End Same.

Lemma plain_call m vnone depth fuel k s :
  r_call plain m vnone (S depth) fuel k s = do_call_catch cb m vnone fuel k s.
Proof. cbn [r_call]. apply call_same. apply plain_invoke. Qed.
Lemma plain_run m vnone depth fuel : forall ks s,
  r_run plain m vnone (S depth) fuel ks s = run cb m vnone fuel ks s.
Proof.
  induction ks as [|k ks IH]; intros s; cbn [r_run run]; [reflexivity|]. rewrite plain_call.
  apply bind_same. intros o s1. now rewrite IH.
Qed.
Lemma plain_session m vnone depth fuel d w ks :
  r_session plain m vnone (S depth) fuel d w ks = session cb m vnone fuel d w ks.
Proof. unfold r_session, session. apply bind_same. intros _ s. apply plain_run. Qed.
End Plain.

(** * More fuel and depth do not change a result *)
Section More.
Context {V W : Type}.
Notation st := (rt V W).
Notation ext := (extends (V := V) (W := W)).

Lemma ext_bind {A B} (r r' : res V W A) (f f' : A -> st -> res V W B) :
  ext r r' -> (forall a s, ext (f a s) (f' a s)) -> ext (bind r f) (bind r' f').
Proof. intros H1 H2. apply extends_bind; auto. Qed.

Section Inv.
Variables inv inv' : callee -> args -> V -> st -> res V W (bool * V).
Hypothesis more : forall c a v s, ext (inv c a v s) (inv' c a v s).

Lemma keep_more r r' : ext r r' -> ext (keep_payload r) (keep_payload r').
Proof. intros H. apply ext_bind; [exact H|]. intros. apply extends_refl. Qed.
Lemma guard_more t e v s : ext (g_guard inv t e v s) (g_guard inv' t e v s).
Proof. unfold g_guard. destruct (t_guard t); [apply extends_refl|]. destruct (_ && _); [apply more|apply extends_refl]. Qed.
Lemma body_more t e : forall b v s, ext (g_body inv b t e v s) (g_body inv' b t e v s).
Proof.
  induction b as [f|f|f|l IH] using abody_ind2; intros v s; cbn [g_body].
  - apply keep_more, more.
  - apply ext_bind; [apply more|]. intros. apply extends_refl.
  - destruct (alive s (t_tgt t)); [|apply extends_refl]. apply ext_bind; [apply more|]. intros. apply extends_refl.
  - revert v s. induction IH as [|b l Hb _ IHl]; intros v s; [apply extends_refl|]. apply ext_bind; [apply Hb|auto].
Qed.
Lemma steps_more t e : forall l v s, ext (g_steps inv l t e v s) (g_steps inv' l t e v s).
Proof.
  induction l as [|a l IH]; intros v s; cbn; [apply extends_refl|]. apply ext_bind; [|auto].
  destruct a; cbn; auto using body_more, keep_more.
Qed.
Lemma action_more t e v s : ext (g_action inv t e v s) (g_action inv' t e v s).
Proof. unfold g_action. destruct (t_act t); [|apply extends_refl]. destruct (_ && _); [apply steps_more|apply extends_refl]. Qed.
Variable m : machine.
Lemma entries_more here r e : forall ens v s, ext (g_entries inv m ens here r e v s) (g_entries inv' m ens here r e v s).
Proof.
  induction ens as [|en ens IH]; intros v s; cbn; [apply extends_refl|]. destruct (en_defer en); [apply extends_refl|].
  destruct (en_tr en); [|apply extends_refl]. apply ext_bind; [apply guard_more|]. intros bv s1.
  destruct (fst bv).
  - apply ext_bind; [apply extends_refl|]. intros _ s2. apply ext_bind; [apply action_more|]. intros; apply extends_refl.
  - destruct (Nat.eqb _ _); [apply IH|apply extends_refl].
Qed.
Lemma anonymous_more here r : forall ens v s, ext (g_anonymous inv m ens here r v s) (g_anonymous inv' m ens here r v s).
Proof.
  induction ens as [|en ens IH]; intros v s; cbn; [apply extends_refl|].
  destruct (en_tr en); [|apply extends_refl]. apply ext_bind; [apply guard_more|]. intros bv s1.
  destruct (fst bv).
  - apply ext_bind; [apply extends_refl|]. intros _ s2. apply ext_bind; [apply action_more|]. intros; apply extends_refl.
  - destruct (Nat.eqb _ _); [apply IH|apply extends_refl].
Qed.
Lemma region_more r e v s : ext (g_region inv m r e v s) (g_region inv' m r e v s).
Proof.
  unfold g_region. apply ext_bind; [apply extends_refl|]. intros ens s1. destruct ens; [apply extends_refl|].
  apply ext_bind; [apply extends_refl|]. intros c s2. apply ext_bind; [apply entries_more|]. intros; apply extends_refl.
Qed.
Lemma anonymous_region_more r v s : ext (g_anonymous_region inv m r v s) (g_anonymous_region inv' m r v s).
Proof.
  unfold g_anonymous_region. apply ext_bind; [apply extends_refl|]. intros ens s1. destruct ens; [apply extends_refl|].
  apply ext_bind; [apply extends_refl|]. intros c s2. apply ext_bind; [apply anonymous_more|]. intros; apply extends_refl.
Qed.
Lemma loop_more e : forall fuel fuel' limit r agf ati v s, fuel <= fuel' ->
  ext (g_loop inv m fuel limit r agf ati e v s) (g_loop inv' m fuel' limit r agf ati e v s).
Proof.
  induction fuel as [|fuel IH]; intros fuel' limit r agf ati v s H; [apply extends_timeout|].
  destruct fuel' as [|fuel']; [lia|]. cbn [g_loop]. destruct (Nat.ltb r limit); [|apply extends_refl].
  apply ext_bind; [apply region_more|]. intros [[[| |]|] v1] s1; cbn [fst snd]; try apply extends_refl; apply IH; lia.
Qed.
Lemma pass_more : forall fuel fuel' limit r agf v s, fuel <= fuel' ->
  ext (g_pass inv m fuel limit r agf v s) (g_pass inv' m fuel' limit r agf v s).
Proof.
  induction fuel as [|fuel IH]; intros fuel' limit r agf v s H; [apply extends_timeout|].
  destruct fuel' as [|fuel']; [lia|]. cbn [g_pass]. destruct (Nat.ltb r limit); [|apply extends_refl].
  apply ext_bind; [apply anonymous_region_more|]. intros [[b|] v1] s1; cbn [fst snd]; try apply extends_refl; apply IH; lia.
Qed.
Lemma anonymous_loop_more : forall fuel fuel' rfuel rfuel' v s, fuel <= fuel' -> rfuel <= rfuel' ->
  ext (g_anonymous_loop inv m rfuel fuel v s) (g_anonymous_loop inv' m rfuel' fuel' v s).
Proof.
  induction fuel as [|fuel IH]; intros fuel' rfuel rfuel' v s H H'; [apply extends_timeout|].
  destruct fuel' as [|fuel']; [lia|]. cbn [g_anonymous_loop]. apply ext_bind; [now apply pass_more|].
  intros [[[|]|] v1] s1; cbn [fst snd]; try apply extends_refl. apply IH; lia.
Qed.
Variable vnone : V.
Lemma internal_more fuel fuel' e v s : fuel <= fuel' ->
  ext (g_internal inv m vnone fuel e v s) (g_internal inv' m vnone fuel' e v s).
Proof.
  intros H. unfold g_internal. apply ext_bind; [now apply loop_more|]. intros [p v1] s1. cbn [fst].
  destruct p; try apply extends_refl. apply ext_bind; [|intros; apply extends_refl].
  unfold g_completion. destruct (has_anonymous m); [now apply anonymous_loop_more|apply extends_refl].
Qed.
Lemma process_more fuel fuel' e v s : fuel <= fuel' ->
  ext (g_process inv m vnone fuel e v s) (g_process inv' m vnone fuel' e v s).
Proof.
  intros H. unfold g_process. destruct (in_dec ev_eq_dec e (events m)); [|apply extends_refl].
  apply ext_bind; [now apply internal_more|]. intros [p v1] s1. cbn [fst snd].
  destruct p; try apply extends_refl; (apply ext_bind; [|intros; apply extends_refl]).
  - unfold g_handler. destruct (cd_unexpected _); [|apply extends_refl]. apply ext_bind; [apply extends_refl|].
    intros c s2. destruct (get_table _ e); [|apply extends_refl]. destruct (nth_at c l) as [[[o d]|]|]; try apply extends_refl.
    destruct (alive s2 o); [|apply extends_refl]. apply keep_more, more.
  - unfold g_deferred. destruct (has_deferred m); [|apply extends_refl]. destruct (rt_queue s1) as [|[e' v'] q]; [apply extends_refl|].
    apply ext_bind; [now apply internal_more|]. intros; apply extends_refl.
Qed.
Lemma call_more fuel fuel' k s : fuel <= fuel' ->
  ext (g_call_catch inv m vnone fuel k s) (g_call_catch inv' m vnone fuel' k s).
Proof.
  intros H. assert (E : ext (g_call inv m vnone fuel k s) (g_call inv' m vnone fuel' k s)).
  { destruct k; cbn [g_call]; try apply extends_refl; (apply ext_bind; [|intros; apply extends_refl]).
    - now apply process_more.
    - now apply status_loop_mono. }
  intros Hn. unfold g_call_catch in *. destruct (g_call inv m vnone fuel k s) eqn:Eg; try congruence;
    rewrite (E ltac:(discriminate)); reflexivity.
Qed.
End Inv.

Variable cb : rcbfun V W.
Variable m : machine.
Variable vnone : V.
Lemma prog_more (use use' : call V -> st -> res V W out) :
  (forall k s, ext (use k s) (use' k s)) -> forall p s, ext (run_prog use p s) (run_prog use' p s).
Proof.
  intros H. induction p as [b v w|x w|k w next IH]; intros s; cbn; try apply extends_refl.
  apply ext_bind; [apply H|]. intros. apply IH.
Qed.
Lemma r_call_more : forall depth depth' fuel fuel' k s, depth <= depth' -> fuel <= fuel' ->
  ext (r_call cb m vnone depth fuel k s) (r_call cb m vnone depth' fuel' k s).
Proof.
  induction depth as [|depth IH]; intros depth' fuel fuel' k s H1 H2; [apply extends_timeout|].
  destruct depth' as [|depth']; [lia|]. cbn [r_call]. apply call_more; [|exact H2].
  intros c a v s1. unfold rinvoke. apply prog_more. intros k1 s2. apply IH; lia.
Qed.
Lemma r_run_more depth depth' fuel fuel' : depth <= depth' -> fuel <= fuel' -> forall ks s,
  ext (r_run cb m vnone depth fuel ks s) (r_run cb m vnone depth' fuel' ks s).
Proof.
  intros H1 H2. induction ks as [|k ks IH]; intros s; cbn [r_run]; [apply extends_refl|].
  apply ext_bind; [now apply r_call_more|]. intros o s1. apply ext_bind; [apply IH|]. intros; apply extends_refl.
Qed.
Lemma r_session_more depth depth' fuel fuel' d w ks : depth <= depth' -> fuel <= fuel' ->
  ext (r_session cb m vnone depth fuel d w ks) (r_session cb m vnone depth' fuel' d w ks).
Proof.
  intros H1 H2. unfold r_session. apply ext_bind; [now apply construct_mono|]. intros _ s. now apply r_run_more.
Qed.
Lemma r_session_stable depth depth' fuel fuel' d w ks :
  r_session cb m vnone depth fuel d w ks <> Timeout -> r_session cb m vnone depth' fuel' d w ks <> Timeout ->
  r_session cb m vnone depth fuel d w ks = r_session cb m vnone depth' fuel' d w ks.
Proof.
  intros H1 H2.
  rewrite <- (r_session_more depth (Nat.max depth depth') fuel (Nat.max fuel fuel') d w ks ltac:(lia) ltac:(lia) H1).
  apply (r_session_more depth' (Nat.max depth depth') fuel' (Nat.max fuel fuel') d w ks ltac:(lia) ltac:(lia) H2).
Qed.
End More.
