(** The queue of deferred events of the amalgamated version. *)

From Coq Require Import List Arith NArith Bool Lia.
From Verif Require Import Types Static Dispatch Runtime ListFacts IndexFacts Spec DispatchFacts FlattenFacts Semantics Amalgam AmalgamFacts AmalgamRun.
Import ListNotations.

(** ** The tables change in set_dependency only *)
Section Kept.
Context {V W : Type}.
Variable cb : cbfun V W.
Variable m : machine.
Variable vnone : V.
Notation st := (rt V W).

Definition kt {A} (s : st) (r : res V W A) : Prop :=
  match r with Done _ s' | Threw _ s' => rt_tabs s' = rt_tabs s | _ => True end.
Lemma kt_bind {A B} s (r : res V W A) (k : A -> st -> res V W B) :
  kt s r -> (forall a s', kt s' (k a s')) -> kt s (bind r k).
Proof.
  intros H Hk. destruct r as [a s'|x s'|u|]; cbn in *; auto. specialize (Hk a s'). destruct (k a s'); cbn in *; congruence.
Qed.
Ltac ktb := eapply kt_bind; [|intros].
Lemma invoke_kt c a v s : kt s (invoke cb c a v s).
Proof. unfold invoke. destruct (cb c a v (rt_world s)); reflexivity. Qed.
Lemma guard_kt t e v s : kt s (execute_guard cb t e v s).
Proof. unfold execute_guard. destruct (t_guard t); [reflexivity|]. destruct (_ && _); [apply invoke_kt|exact I]. Qed.
Lemma keep_kt s (r : res V W (bool * V)) : kt s r -> kt s (keep_payload r).
Proof. intros H. apply kt_bind; [exact H|]. reflexivity. Qed.
Lemma body_kt t e : forall b v s, kt s (exec_body cb b t e v s).
Proof.
  fix IH 1. intros b v s. destruct b as [f|f|f|l]; cbn [exec_body].
  - apply keep_kt, invoke_kt.
  - ktb; [apply invoke_kt|reflexivity].
  - destruct (alive s (t_tgt t)); [|exact I]. ktb; [apply invoke_kt|reflexivity].
  - revert v s. induction l as [|b l IHl]; intros v s; [reflexivity|]. ktb; [apply (IH b)|apply IHl].
Qed.
Lemma action_kt t e v s : kt s (execute_action cb t e v s).
Proof.
  unfold execute_action. destruct (t_act t) as [l|]; [|reflexivity]. destruct (_ && _); [|exact I]. clear.
  revert v s. induction l as [|b l IHl]; intros v s; [reflexivity|]. cbn [exec_steps]. ktb; [|apply IHl].
  destruct b; cbn [exec_step]; try apply keep_kt; try apply invoke_kt. apply body_kt.
Qed.
Lemma read_cur_kt s r : kt s (read_cur s r).
Proof. unfold read_cur. destruct (nth_error (rt_cur s) r) as [[c|]|]; cbn; auto. Qed.
Lemma at_cur_kt s r : kt s (at_cur s r).
Proof. unfold at_cur. destruct (nth_error (rt_cur s) r) as [[c|]|]; cbn; auto. Qed.
Lemma write_cur_kt s r c : kt s (write_cur s r c).
Proof. unfold write_cur. destruct (upd_nth _ _ _); cbn; auto. Qed.
Lemma parent_kt s : kt s (current_parent m s).
Proof. ktb; [apply read_cur_kt|reflexivity]. Qed.
Lemma regions_kt s : kt s (update_current_regions m s).
Proof.
  unfold update_current_regions. destruct (parallel m); [|reflexivity]. ktb; [apply parent_kt|].
  destruct (nth_at a (initial_table m)); cbn; auto.
Qed.
Lemma update_state_kt r en s : kt s (update_current_state m r en s).
Proof.
  unfold update_current_state. destruct (en_int en); [reflexivity|]. ktb; [|apply regions_kt].
  destruct (has_history m); [|apply write_cur_kt]. ktb; [apply parent_kt|]. ktb; [apply read_cur_kt|].
  ktb. { unfold write_hist. destruct (nth_at _ _); [|exact I]. destruct (upd_nth r _ _); [|exact I]. destruct (upd_at _ _ _); cbn; auto. }
  destruct (en_hist en); [|apply write_cur_kt]. ktb; [|apply write_cur_kt].
  unfold read_hist. destruct (nth_at _ _); [|exact I]. destruct (nth_error _ _); cbn; auto.
Qed.
Lemma entries_kt e r s : kt s (get_entries e r s).
Proof.
  unfold get_entries. destruct (get_table (rt_tabs s) e) as [arr|]; [|exact I]. ktb; [apply read_cur_kt|]. destruct (nth_at a arr); cbn; auto.
Qed.
Lemma try_entries_kt r e : forall ens v s, kt s (try_entries cb m ens r e v s).
Proof.
  induction ens as [|en ens IH]; intros v s; [reflexivity|]. cbn [try_entries]. destruct (en_defer en); [reflexivity|].
  destruct (en_tr en); [|exact I]. ktb; [apply guard_kt|]. destruct (fst a); [|apply IH].
  ktb; [apply update_state_kt|]. ktb; [apply action_kt|reflexivity].
Qed.
Lemma try_anonymous_kt r : forall ens v s, kt s (try_anonymous cb m ens r v s).
Proof.
  induction ens as [|en ens IH]; intros v s; [reflexivity|]. cbn [try_anonymous].
  destruct (en_tr en); [|exact I]. ktb; [apply guard_kt|]. destruct (fst a); [|apply IH].
  ktb; [apply update_state_kt|]. ktb; [apply action_kt|reflexivity].
Qed.
Lemma region_loop_kt e limit : forall fuel r agf ati v s, kt s (region_loop cb m fuel limit r agf ati e v s).
Proof.
  induction fuel as [|fuel IH]; intros r agf ati v s; [exact I|]. cbn [region_loop]. destruct (Nat.ltb r limit); [|reflexivity].
  ktb. { unfold try_region. ktb; [apply entries_kt|]. destruct a; [reflexivity|]. ktb; [apply try_entries_kt|reflexivity]. }
  destruct (fst a) as [[| |]|]; try apply IH. reflexivity.
Qed.
Lemma anonymous_kt fuel s : kt s (am_process_anonymous cb m vnone fuel s).
Proof.
  unfold am_process_anonymous. destruct (has_anonymous m); [|reflexivity]. generalize fuel at 1 as rf. intros rf. revert s.
  induction fuel as [|fuel IH]; intros s; [exact I|]. cbn [am_anonymous_loop]. ktb; [|destruct a as [[|]|]; try reflexivity; apply IH].
  generalize (current_regions m s) 0 true. clear IH. intros limit. revert s. induction rf as [|rf IH]; intros s r agf; [exact I|].
  cbn [am_anonymous_pass]. destruct (Nat.ltb r limit); [|reflexivity]. ktb; [|destruct (fst a); [apply IH|reflexivity]].
  unfold anonymous_region. ktb; [apply entries_kt|]. destruct a; [reflexivity|]. ktb; [apply try_anonymous_kt|reflexivity].
Qed.
Lemma internal_kt fuel e v s : kt s (am_process_internal cb m vnone fuel e v s).
Proof.
  unfold am_process_internal. ktb; [apply region_loop_kt|]. destruct (fst a); try reflexivity. ktb; [apply anonymous_kt|reflexivity].
Qed.
Lemma process_kt fuel e v s : kt s (am_process_event cb m vnone fuel e v s).
Proof.
  unfold am_process_event. destruct (in_dec ev_eq_dec e (am_events m)); [|exact I]. ktb; [apply internal_kt|]. destruct (fst a).
  - ktb; [|reflexivity]. unfold am_process_deferred. destruct (has_deferred m); [|reflexivity].
    destruct (rt_queue s') as [|[e1 v1] q]; [reflexivity|]. ktb; [|reflexivity].
    exact (internal_kt fuel e1 v1 (with_queue s' q)).
  - unfold call_handler. destruct (cd_unexpected _); [|reflexivity]. ktb; [apply at_cur_kt|].
    destruct (get_table _ e) as [arr|]; [|exact I]. destruct (nth_at _ arr) as [[[o d]|]|]; try exact I; [|reflexivity].
    destruct (alive _ o); [|exact I]. ktb; [apply invoke_kt|reflexivity].
Qed.
Lemma q_is_kt r p k s : kt s (q_is m r p k s).
Proof.
  unfold q_is. ktb; [apply parent_kt|]. destruct (N.eqb _ _); [|reflexivity].
  ktb; [|reflexivity]. unfold current_state. ktb; [apply at_cur_kt|reflexivity].
Qed.
Lemma status_kt fuel s : kt s (status m fuel s).
Proof.
  unfold status. generalize (current_regions m s) 0. intros limit. revert s.
  induction fuel as [|fuel IH]; intros s r; [exact I|]. cbn [status_loop]. destruct (Nat.ltb r limit); [|reflexivity].
  ktb; [apply read_cur_kt|]. ktb; [apply parent_kt|]. ktb; [unfold current_state; ktb; [apply at_cur_kt|reflexivity]|].
  ktb; [apply IH|reflexivity].
Qed.

(** ** Deferrals are stored in front *)
Hypothesis Hc : comp m.
Definition front (t : tables) : Prop := forall x e, In x (deferring m) -> In e (deferred_events m x) ->
  exists l, tget t e (combined_idx m (fst (source_place x)) (snd (source_place x))) = Some (defer_entry :: l).
Lemma last_hit {A} (f : A -> bool) l a : In a l -> f a = true -> exists l' b, filter f l = l' ++ [b] /\ In b l /\ f b = true.
Proof.
  intros Ha Hf. assert (H : filter f l <> []) by (intros E; assert (K : In a (filter f l)) by (apply filter_In; auto); rewrite E in K; destruct K).
  destruct (exists_last H) as (l' & b & E). exists l', b. split; [exact E|].
  assert (K : In b (filter f l)) by (rewrite E; apply in_or_app; right; now left). now apply filter_In in K.
Qed.
Lemma fill_front d t t' : am_fill_dispatch m d t = Some t' -> front t'.
Proof.
  unfold am_fill_dispatch. destruct (fill_transitions m d (am_internal m) t) as [t1|]; [|discriminate].
  destruct (fill_transitions m d (mc_flat m) t1) as [t2|]; [|discriminate]. rewrite fill_deferred_pushes. intros H x e Hx He.
  apply pushes_spec in H. destruct H as (_ & _ & H & Ht). rewrite H.
  set (k := combined_idx m (fst (source_place x)) (snd (source_place x))).
  assert (Ho : In (e, k, defer_entry) (flat_map (defer_ops m) (deferring m))).
  { apply in_flat_map. exists x. split; [exact Hx|]. unfold defer_ops. apply in_map_iff. eauto. }
  destruct (Ht _ Ho) as (l0 & E). cbn [fst snd] in E. rewrite E. cbn [option_map].
  destruct (last_hit (hits e k) _ _ Ho) as (l' & b & El & Hb & _).
  { unfold hits. cbn [fst snd]. destruct (ev_eq_dec e e); [|congruence]. now rewrite N.eqb_refl. }
  rewrite El, map_app, rev_app_distr. cbn [map rev app].
  apply in_flat_map in Hb. destruct Hb as (y & _ & Hb). unfold defer_ops in Hb. apply in_map_iff in Hb. destruct Hb as (e' & <- & _).
  cbn [snd]. eauto.
Qed.
Lemma call_front fuel k s o s' : front (rt_tabs s) -> am_do_call_catch cb m vnone fuel k s = Done o s' -> front (rt_tabs s').
Proof.
  intros H. assert (K : (exists d, k = KSetDep d) \/ kt s (am_do_call cb m vnone fuel k s)).
  { destruct k; cbn [am_do_call]; eauto; right.
    - ktb; [apply process_kt|reflexivity].
    - ktb; [apply q_is_kt|reflexivity].
    - ktb; [|reflexivity]. unfold q_parent_is. ktb; [apply parent_kt|reflexivity].
    - exact I.
    - ktb; [apply status_kt|reflexivity]. }
  destruct K as [(d & ->)|K].
  - unfold am_do_call_catch. cbn [am_do_call]. unfold am_set_dependency.
    destruct (am_fill_dispatch m d (rt_tabs s)) as [t|] eqn:E; cbn [bind]; [|discriminate]. intros E2. inversion E2; subst. eapply fill_front; eauto.
  - unfold am_do_call_catch. destruct (am_do_call cb m vnone fuel k s) as [o1 s1|x s1|u|]; intros E; inversion E; subst; unfold kt in K; rewrite K; exact H.
Qed.
Lemma run_front fuel : forall ks s outs s', front (rt_tabs s) -> am_run cb m vnone fuel ks s = Done outs s' -> front (rt_tabs s').
Proof.
  induction ks as [|k ks IH]; intros s outs s' H E; [inversion E; now subst|]. cbn [am_run] in E.
  destruct (am_do_call_catch cb m vnone fuel k s) as [o s1|x s1|u|] eqn:Ek; try discriminate. cbn [bind] in E.
  destruct (am_run cb m vnone fuel ks s1) as [os s2|x s2|u|] eqn:Er; try discriminate. inversion E; subst.
  eapply IH; [|exact Er]. eapply call_front; eauto.
Qed.
Lemma init_kt l : forall fuel r s, kt s (init_loop fuel l r s).
Proof.
  induction fuel as [|fuel IH]; intros r s; [exact I|]. cbn [init_loop]. destruct (Nat.ltb r (length l)); [|reflexivity].
  destruct (nth_error l r); [|exact I]. ktb; [apply write_cur_kt|apply IH].
Qed.
Lemma session_front fuel d w ks outs s : am_session cb m vnone fuel d w ks = Done outs s -> front (rt_tabs s).
Proof.
  unfold am_session. destruct (am_construct m fuel d w) as [u s0|x s0|u|] eqn:E; try discriminate. cbn [bind]. intros H.
  eapply run_front; [|exact H]. unfold am_construct in E.
  destruct (if cd_unexpected (lookup (mc_env m) (mc_root m)) then am_fill_handlers m d else Some []) as [h|]; [|discriminate].
  destruct (am_fill_dispatch m d (am_empty_tables m)) as [t|] eqn:Et; [|discriminate]. cbv zeta in E.
  match type of E with bind (init_current_state m fuel ?s1) ?k = _ => assert (K : kt s1 (bind (init_current_state m fuel s1) k)) end.
  { ktb; [|apply regions_kt]. unfold init_current_state. destruct (nth_at _ _); [|exact I]. apply init_kt. }
  rewrite E in K. cbn in K. rewrite K. eapply fill_front; eauto.
Qed.

(** ** Deferring *)
Lemma defers_front (s : st) fuel e v pl : front (rt_tabs s) -> 0 < active m s -> 0 < fuel ->
  at_place m s 0 = Some pl -> candidate (mc_env m) (mc_root m) e pl CDefer ->
  am_process_internal cb m vnone fuel e v s = Done (true, v) (with_queue s (rt_queue s ++ [(e, v)])).
Proof.
  intros Hf Ha Hfu Hp Hd. inversion Hd as [| | |x c Hx Hs He]; subst.
  destruct (proj2 (deferring_iff m Hc x e)) as [Hx1 He1]. { split; [exact Hx|]. eauto. }
  destruct (Hf x e Hx1 He1) as (l & El).
  unfold at_place in Hp. destruct (nth_error (rt_cur s) 0) as [[c0|]|] eqn:Ec; try discriminate.
  destruct (source_place x) as [p q] eqn:Epl. apply (places_at_inv m Hc) in Hp. destruct Hp as (_ & _ & Hk).
  cbn [fst snd] in El. rewrite <- Hk in El. unfold tget in El.
  destruct (get_table (rt_tabs s) e) as [arr|] eqn:Eg; [|discriminate].
  unfold am_process_internal. destruct fuel as [|fuel]; [lia|]. cbn [region_loop].
  change (current_regions m s) with (active m s). destruct (Nat.ltb_spec 0 (active m s)); [|lia].
  unfold try_region, get_entries, read_cur. rewrite Eg, Ec. cbn [bind]. rewrite nth_at_nth, El. cbn [bind]. cbn [try_entries].
  unfold defer_entry at 1. cbn [en_defer]. reflexivity.
Qed.
End Kept.

Section Rotation.
Context {V W : Type}.
Variable cb : cbfun V W.
Variable vnone : V.

Lemma rotates env root m : compile env root = Some m -> am_compile env root = Some m ->
  forall fuel d w ks outs (s : rt V W) fuel' e v pl,
  am_session cb m vnone fuel d w ks = Done outs s -> 0 < active m s -> 0 < fuel' -> at_place m s 0 = Some pl ->
  (forall x, In x (rt_queue s ++ [(e, v)]) -> candidate env root (fst x) pl CDefer) ->
  am_process_event cb m vnone fuel' e v s =
  Done v (with_queue s (match rt_queue s with [] => [(e, v)] | x :: q => q ++ [(e, v); x] end)).
Proof.
  intros Hm Ham fuel d w ks outs s fuel' e v pl Hs Ha Hf Hp Hd. destruct (compile_comp _ _ _ Hm) as (Hc & He & Hr). subst env root.
  apply session_front in Hs.
  assert (Hev : In e (am_events m)).
  { unfold am_compile in Ham. destruct (flatten _ _ _) as [fl|]; [|discriminate]. destruct (am_accepted _) eqn:Hac; [|discriminate].
    assert (Em : mkMachine (mc_env m) (mc_root m) fl = m) by congruence. rewrite Em in Hac.
    unfold am_accepted in Hac. rewrite !andb_true_iff in Hac. destruct Hac as (((_ & Hac) & _) & _).
    assert (Ce : candidate (mc_env m) (mc_root m) e pl CDefer) by (apply (Hd (e, v)); apply in_or_app; right; now left). inversion Ce as [| | |x c Hx Hsx Hex]; subst.
    destruct (proj2 (deferring_iff m Hc x e)) as [Hx1 He1]. { split; [exact Hx|]. eauto. }
    rewrite forallb_forall in Hac. specialize (Hac x Hx1). rewrite forallb_forall in Hac. specialize (Hac e He1).
    destruct (in_dec ev_eq_dec e (am_events m)); [assumption|discriminate]. }
  assert (Hdef : has_deferred m = true).
  { assert (Ce : candidate (mc_env m) (mc_root m) e pl CDefer) by (apply (Hd (e, v)); apply in_or_app; right; now left). inversion Ce as [| | |x c Hx Hsx Hex]; subst.
    destruct (proj2 (deferring_iff m Hc x e)) as [Hx1 _]. { split; [exact Hx|]. eauto. }
    unfold has_deferred. destruct (deferring m); [destruct Hx1|reflexivity]. }
  unfold am_process_event. destruct (in_dec ev_eq_dec e (am_events m)); [|contradiction].
  rewrite (defers_front cb m vnone Hc s fuel' e v pl) by (auto; apply (Hd (e, v)); apply in_or_app; right; now left).
  cbn [bind fst snd]. unfold am_process_deferred. rewrite Hdef. cbn [rt_queue with_queue].
  destruct (rt_queue s) as [|[e1 v1] q] eqn:Eq; cbn [app].
  - rewrite (defers_front cb m vnone Hc _ fuel' e v pl); auto. apply (Hd (e, v)). rewrite ?Eq. now left.
  - rewrite (defers_front cb m vnone Hc _ fuel' e1 v1 pl); auto.
    + cbn [bind fst snd]. cbn [rt_queue with_queue]. rewrite <- app_assoc. reflexivity.
    + apply (Hd (e1, v1)). now left.
Qed.
End Rotation.
