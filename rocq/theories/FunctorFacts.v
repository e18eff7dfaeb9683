(** Facts about guards with data members (Functors.v). *)

From Coq Require Import List Arith NArith Bool Lia.
From Verif Require Import Types Static Dispatch Runtime Functors.
From Verif Require Import Spec ListFacts IndexFacts StaticFacts DispatchFacts RefineFacts.
Import ListNotations.

(** * Without data members *)
Section Strip.
Context {V W G : Type}.
Variable cb : cbfun V W.
Variable gcb : gfun V W G.
Variable g0 : nat -> nat -> G.
Variable m : machine.
Variable vnone : V.

Notation gst := (rt V (gworld V W G)).
Notation gr := (res V (gworld V W G)).
Notation lcb := (lift (G:=G) cb).

Lemma strip_bind {A B} (r : gr A) (f : A -> gst -> gr B) g :
  (forall a s, strip_res (f a s) = g a (strip s)) ->
  strip_res (bind r f) = bind (strip_res r) g.
Proof. intros H. destruct r; cbn; auto. Qed.

Lemma strip_invoke c a v s : strip_res (invoke lcb c a v s) = invoke cb c a v (strip s).
Proof.
  unfold invoke, lift. cbn [strip rt_world]. destruct (cb c a v _); reflexivity.
Qed.
Lemma strip_alive (s : gst) o : alive s o = alive (strip s) o.
Proof. reflexivity. Qed.

Lemma strip_keep (r : gr (bool * V)) r' : strip_res r = r' -> strip_res (keep_payload r) = @keep_payload V W r'.
Proof. intros <-. unfold keep_payload. apply strip_bind. reflexivity. Qed.
Lemma strip_drop v (r : gr (bool * V)) r' : strip_res r = r' -> strip_res (drop_payload v r) = @drop_payload V W v r'.
Proof. intros <-. unfold drop_payload. apply strip_bind. reflexivity. Qed.

Lemma strip_body b : forall t e v s, strip_res (exec_body lcb b t e v s) = exec_body cb b t e v (strip s).
Proof.
  induction b as [f|f|f|l IH] using abody_ind2; intros t e v s; cbn [exec_body].
  - apply strip_keep, strip_invoke.
  - erewrite strip_bind; [rewrite strip_invoke; reflexivity|]. reflexivity.
  - rewrite <- strip_alive. destruct (alive s (t_tgt t)); [|reflexivity].
    apply strip_drop, strip_invoke.
  - revert v s. induction IH as [|b l Hb _ IH]; intros v s; [reflexivity|].
    erewrite strip_bind; [rewrite Hb; reflexivity|]. intros. apply IH.
Qed.
Lemma strip_step st t e v s : strip_res (exec_step lcb st t e v s) = exec_step cb st t e v (strip s).
Proof. destruct st; cbn [exec_step]; try (apply strip_keep, strip_invoke). apply strip_body. Qed.
Lemma strip_steps l : forall t e v s, strip_res (exec_steps lcb l t e v s) = exec_steps cb l t e v (strip s).
Proof.
  induction l as [|st l IH]; intros; cbn [exec_steps]; [reflexivity|].
  erewrite strip_bind; [rewrite strip_step; reflexivity|]. intros. apply IH.
Qed.
Lemma strip_action t e v s : strip_res (execute_action lcb t e v s) = execute_action cb t e v (strip s).
Proof.
  unfold execute_action. destruct (t_act t); [|reflexivity].
  rewrite <- !strip_alive. destruct (_ && _); [apply strip_steps|reflexivity].
Qed.

Lemma strip_read_cur (s : gst) r : strip_res (read_cur s r) = read_cur (strip s) r.
Proof. unfold read_cur. cbn [strip rt_cur]. destruct (nth_error _ _) as [[|]|]; reflexivity. Qed.
Lemma strip_at_cur (s : gst) r : strip_res (at_cur s r) = at_cur (strip s) r.
Proof. unfold at_cur. cbn [strip rt_cur]. destruct (nth_error _ _) as [[|]|]; reflexivity. Qed.
Lemma strip_write_cur (s : gst) r c : strip_res (write_cur s r c) = write_cur (strip s) r c.
Proof. unfold write_cur. cbn [strip rt_cur]. destruct (upd_nth _ _ _); reflexivity. Qed.
Lemma strip_parent (s : gst) : strip_res (current_parent m s) = current_parent m (strip s).
Proof. unfold current_parent. erewrite strip_bind; [rewrite strip_read_cur; reflexivity|]. reflexivity. Qed.
Lemma strip_state (s : gst) r : strip_res (current_state m s r) = current_state m (strip s) r.
Proof. unfold current_state. erewrite strip_bind; [rewrite strip_at_cur; reflexivity|]. reflexivity. Qed.
Lemma strip_regions (s : gst) : strip_res (update_current_regions m s) = update_current_regions m (strip s).
Proof.
  unfold update_current_regions. destruct (parallel m); [|reflexivity].
  erewrite strip_bind; [rewrite strip_parent; reflexivity|].
  intros p s'. cbn beta. destruct (nth_at p _); reflexivity.
Qed.
Lemma strip_current_regions (s : gst) : current_regions m s = current_regions m (strip s).
Proof. reflexivity. Qed.
Lemma strip_write_hist (s : gst) p r c : strip_res (write_hist s p r c) = write_hist (strip s) p r c.
Proof.
  unfold write_hist. cbn [strip rt_hist]. destruct (nth_at _ _); [|reflexivity].
  destruct (upd_nth _ _ _); [|reflexivity]. destruct (upd_at _ _ _); reflexivity.
Qed.
Lemma strip_read_hist (s : gst) p r : strip_res (read_hist s p r) = read_hist (strip s) p r.
Proof.
  unfold read_hist. cbn [strip rt_hist]. destruct (nth_at _ _); [|reflexivity].
  destruct (nth_error _ _); reflexivity.
Qed.
Lemma strip_update r en (s : gst) : strip_res (update_current_state m r en s) = update_current_state m r en (strip s).
Proof.
  unfold update_current_state. destruct (en_int en); [reflexivity|].
  rewrite (strip_bind _ _ (fun _ s => update_current_regions m s)); [|intros; apply strip_regions]. f_equal.
  destruct (has_history m); [|apply strip_write_cur].
  erewrite strip_bind; [rewrite strip_parent; reflexivity|]. intros p s1.
  erewrite strip_bind; [rewrite strip_read_cur; reflexivity|]. intros c s2.
  erewrite strip_bind; [rewrite strip_write_hist; reflexivity|]. intros [] s3.
  destruct (en_hist en); [|apply strip_write_cur].
  erewrite strip_bind; [rewrite strip_read_hist; reflexivity|]. intros. apply strip_write_cur.
Qed.
Lemma strip_get e r (s : gst) : strip_res (get_entries e r s) = get_entries e r (strip s).
Proof.
  unfold get_entries. cbn [strip rt_tabs]. destruct (get_table _ e); [|reflexivity].
  erewrite strip_bind; [rewrite strip_read_cur; reflexivity|].
  intros c s'. cbn beta. destruct (nth_at c _); reflexivity.
Qed.

Hypothesis Hml : memoryless cb gcb.

Lemma strip_guard i t e v s :
  strip_res (g_execute_guard gcb g0 i t e v s) = execute_guard cb t e v (strip s).
Proof.
  unfold g_execute_guard, execute_guard. destruct (t_guard t) as [|ty val]; [reflexivity|].
  rewrite <- !strip_alive. destruct (_ && _); [|reflexivity].
  unfold invoke_guard, invoke. cbn [strip rt_world].
  rewrite <- (Hml ty val _ v (gw_user (rt_world s)) (memory g0 (rt_world s) i ty val)).
  destruct (gcb _ _ _ _ _ _); reflexivity.
Qed.

Lemma strip_try ens : forall c r e v s,
  strip_res (g_try_entries cb gcb g0 m ens c r e v s) = try_entries cb m ens r e v (strip s).
Proof.
  induction ens as [|en ens IH]; intros c r e v s; cbn [g_try_entries try_entries]; [reflexivity|].
  destruct (en_defer en); [reflexivity|]. destruct (en_tr en) as [t|]; [|reflexivity].
  erewrite strip_bind; [rewrite strip_guard; reflexivity|]. intros [b v'] s'. cbn [fst snd].
  destruct b; [|apply IH].
  erewrite strip_bind; [rewrite strip_update; reflexivity|]. intros [] s2.
  erewrite strip_bind; [rewrite strip_action; reflexivity|]. reflexivity.
Qed.

(** After [get_entries], the place is readable. *)
Lemma get_reads e r (s : gst) ens s' : get_entries e r s = Done ens s' ->
  s' = s /\ exists c arr, read_cur s r = Done c s /\ get_table (rt_tabs s) e = Some arr /\ nth_at c arr = Some ens.
Proof.
  unfold get_entries. destruct (get_table _ e) as [arr|]; [|discriminate].
  unfold read_cur. destruct (nth_error _ r) as [[c|]|]; cbn [bind]; try discriminate.
  destruct (nth_at c arr) as [l|] eqn:El; [|discriminate]. intros E. injection E as <- <-.
  split; [reflexivity|]. exists c, arr. auto.
Qed.

Lemma strip_region r e v s :
  strip_res (g_try_region cb gcb g0 m r e v s) = try_region cb m r e v (strip s).
Proof.
  unfold g_try_region, try_region. rewrite <- strip_get.
  destruct (get_entries e r s) as [ens s'|x s'|u|] eqn:E; cbn [bind strip_res]; try reflexivity.
  apply get_reads in E. destruct E as (-> & c & arr & Hr & _ & _).
  destruct ens as [|en ens]; [reflexivity|]. rewrite Hr. cbn [bind].
  erewrite strip_bind; [rewrite strip_try; reflexivity|]. reflexivity.
Qed.
Lemma strip_loop f : forall limit r agf ati e v s,
  strip_res (g_region_loop cb gcb g0 m f limit r agf ati e v s) = region_loop cb m f limit r agf ati e v (strip s).
Proof.
  induction f as [|f IH]; intros; cbn [g_region_loop region_loop]; [reflexivity|].
  destruct (Nat.ltb r limit); [|reflexivity].
  erewrite strip_bind; [rewrite strip_region; reflexivity|]. intros [o v'] s'. cbn [fst snd].
  destruct o as [[]|]; auto.
Qed.
Lemma strip_try_anon ens : forall c r v s,
  strip_res (g_try_anonymous cb gcb g0 m ens c r v s) = try_anonymous cb m ens r v (strip s).
Proof.
  induction ens as [|en ens IH]; intros c r v s; cbn [g_try_anonymous try_anonymous]; [reflexivity|].
  destruct (en_tr en) as [t|]; [|reflexivity].
  erewrite strip_bind; [rewrite strip_guard; reflexivity|]. intros [b v'] s'. cbn [fst snd].
  destruct b; [|apply IH].
  erewrite strip_bind; [rewrite strip_update; reflexivity|]. intros [] s2.
  erewrite strip_bind; [rewrite strip_action; reflexivity|]. reflexivity.
Qed.
Lemma strip_anon_region r v s :
  strip_res (g_anonymous_region cb gcb g0 m r v s) = anonymous_region cb m r v (strip s).
Proof.
  unfold g_anonymous_region, anonymous_region. rewrite <- strip_get.
  destruct (get_entries ENone r s) as [ens s'|x s'|u|] eqn:E; cbn [bind strip_res]; try reflexivity.
  apply get_reads in E. destruct E as (-> & c & arr & Hr & _ & _).
  destruct ens as [|en ens]; [reflexivity|]. rewrite Hr. cbn [bind].
  erewrite strip_bind; [rewrite strip_try_anon; reflexivity|]. reflexivity.
Qed.
Lemma strip_pass f : forall limit r agf v s,
  strip_res (g_anonymous_pass cb gcb g0 m f limit r agf v s) = anonymous_pass cb m f limit r agf v (strip s).
Proof.
  induction f as [|f IH]; intros; cbn [g_anonymous_pass anonymous_pass]; [reflexivity|].
  destruct (Nat.ltb r limit); [|reflexivity].
  erewrite strip_bind; [rewrite strip_anon_region; reflexivity|]. intros [o v'] s'. cbn [fst snd].
  destruct o; auto.
Qed.
Lemma strip_anon_loop rf f : forall v s,
  strip_res (g_anonymous_loop cb gcb g0 m rf f v s) = anonymous_loop cb m rf f v (strip s).
Proof.
  induction f as [|f IH]; intros; cbn [g_anonymous_loop anonymous_loop]; [reflexivity|].
  erewrite strip_bind; [rewrite strip_pass; reflexivity|]. intros [o v'] s'. cbn [fst snd].
  destruct o as [[]|]; auto.
Qed.
Lemma strip_anonymous f s :
  strip_res (g_process_anonymous cb gcb g0 m vnone f s) = process_anonymous cb m vnone f (strip s).
Proof.
  unfold g_process_anonymous, process_anonymous. destruct (has_anonymous m); [apply strip_anon_loop|reflexivity].
Qed.
Lemma strip_internal f e v s :
  strip_res (g_process_event_internal cb gcb g0 m vnone f e v s) = process_event_internal cb m vnone f e v (strip s).
Proof.
  unfold g_process_event_internal, process_event_internal. rewrite strip_current_regions.
  erewrite strip_bind; [rewrite strip_loop; reflexivity|]. intros [p v'] s'. cbn [fst].
  destruct p; try reflexivity.
  erewrite strip_bind; [rewrite strip_anonymous; reflexivity|]. reflexivity.
Qed.
Lemma strip_deferred f s :
  strip_res (g_process_deferred cb gcb g0 m vnone f s) = process_deferred cb m vnone f (strip s).
Proof.
  unfold g_process_deferred, process_deferred. destruct (has_deferred m); [|reflexivity].
  cbn [strip rt_queue]. destruct (rt_queue s) as [|[e v] q]; [reflexivity|].
  erewrite strip_bind; [rewrite strip_internal; reflexivity|]. reflexivity.
Qed.
Lemma strip_handler e v s : strip_res (call_handler lcb m e v s) = call_handler cb m e v (strip s).
Proof.
  unfold call_handler. destruct (cd_unexpected _); [|reflexivity].
  erewrite strip_bind; [rewrite strip_at_cur; reflexivity|]. intros c s'. cbn [strip rt_htabs].
  destruct (get_table _ e); [|reflexivity]. destruct (nth_at c _) as [[[o d]|]|]; try reflexivity.
  change (alive (strip s') o) with (alive s' o).
  destruct (alive s' o); [|reflexivity]. apply strip_keep, strip_invoke.
Qed.
Lemma strip_event f e v s :
  strip_res (g_process_event cb gcb g0 m vnone f e v s) = process_event cb m vnone f e v (strip s).
Proof.
  unfold g_process_event, process_event. destruct (in_dec ev_eq_dec e (events m)); [|reflexivity].
  erewrite strip_bind; [rewrite strip_internal; reflexivity|]. intros [p v'] s'. cbn [fst snd].
  destruct p; try reflexivity.
  - erewrite strip_bind; [rewrite strip_handler; reflexivity|]. reflexivity.
  - erewrite strip_bind; [rewrite strip_deferred; reflexivity|]. reflexivity.
Qed.
Lemma strip_status_loop f : forall l r (s : gst), strip_res (status_loop m f l r s) = status_loop m f l r (strip s).
Proof.
  induction f as [|f IH]; intros; cbn [status_loop]; [reflexivity|].
  destruct (Nat.ltb r l); [|reflexivity].
  erewrite strip_bind; [rewrite strip_read_cur; reflexivity|]. intros c s1.
  erewrite strip_bind; [rewrite strip_parent; reflexivity|]. intros p s2.
  erewrite strip_bind; [rewrite strip_state; reflexivity|]. intros st s3.
  erewrite strip_bind; [rewrite IH; reflexivity|]. reflexivity.
Qed.
Lemma strip_call f k s :
  strip_res (g_do_call cb gcb g0 m vnone f k s) = do_call cb m vnone f k (strip s).
Proof.
  destruct k; cbn [g_do_call do_call].
  - erewrite strip_bind; [rewrite strip_event; reflexivity|]. reflexivity.
  - erewrite strip_bind with (g := fun b s => Done (OBool b) s); [|reflexivity]. f_equal.
    unfold q_is. erewrite strip_bind; [rewrite strip_parent; reflexivity|]. intros cp s'. cbn beta.
    destruct (N.eqb _ _); [|reflexivity].
    erewrite strip_bind; [rewrite strip_state; reflexivity|]. reflexivity.
  - erewrite strip_bind with (g := fun b s => Done (OBool b) s); [|reflexivity]. f_equal.
    unfold q_parent_is. erewrite strip_bind; [rewrite strip_parent; reflexivity|]. reflexivity.
  - erewrite strip_bind with (g := fun _ s => Done OUnit s); [|reflexivity]. f_equal.
    unfold set_state. destruct (in_dec _ _ _); [|reflexivity]. destruct (in_dec _ _ _); [|reflexivity].
    cbn [strip rt_cur]. destruct (upd_nth _ _ _); reflexivity.
  - erewrite strip_bind with (g := fun _ s => Done OUnit s); [|reflexivity]. f_equal.
    unfold set_dependency. cbn [strip rt_tabs]. destruct (fill_dispatch _ _ _); reflexivity.
  - erewrite strip_bind with (g := fun l s => Done (OStatus l) s); [|reflexivity]. f_equal.
    unfold status. rewrite strip_current_regions. apply strip_status_loop.
Qed.
Lemma strip_catch f k s :
  strip_res (g_do_call_catch cb gcb g0 m vnone f k s) = do_call_catch cb m vnone f k (strip s).
Proof.
  unfold g_do_call_catch, do_call_catch. rewrite <- strip_call.
  destruct (g_do_call _ _ _ _ _ _ _ _); reflexivity.
Qed.
Lemma strip_run f ks : forall s,
  strip_res (g_run cb gcb g0 m vnone f ks s) = run cb m vnone f ks (strip s).
Proof.
  induction ks as [|k ks IH]; intros s; cbn [g_run run]; [reflexivity|].
  erewrite strip_bind; [rewrite strip_catch; reflexivity|]. intros o s'.
  erewrite strip_bind; [rewrite IH; reflexivity|]. reflexivity.
Qed.
Lemma strip_init f l : forall r (s : gst), strip_res (init_loop f l r s) = init_loop f l r (strip s).
Proof.
  induction f as [|f IH]; intros; cbn [init_loop]; [reflexivity|].
  destruct (Nat.ltb _ _); [|reflexivity]. destruct (nth_error l r); [|reflexivity].
  erewrite strip_bind; [rewrite strip_write_cur; reflexivity|]. intros. apply IH.
Qed.
Lemma strip_construct f d (gw : gworld V W G) : strip_res (construct m f d gw) = construct m f d (gw_user gw).
Proof.
  unfold construct. destruct (if cd_unexpected _ then _ else _); [|reflexivity].
  destruct (fill_dispatch _ _ _); [|reflexivity].
  rewrite (strip_bind _ _ (fun _ s => update_current_regions m s)); [|intros; apply strip_regions]. f_equal.
  unfold init_current_state. destruct (nth_at _ _); [|reflexivity]. apply strip_init.
Qed.

Lemma session_memoryless f d w ks :
  strip_res (g_session cb gcb g0 m vnone f d w ks) = session cb m vnone f d w ks.
Proof.
  unfold g_session, session.
  rewrite (strip_bind _ _ (fun _ s => run cb m vnone f ks s)); [|intros; apply strip_run]. rewrite strip_construct. reflexivity.
Qed.
End Strip.

(** * The calls of one entry *)
Section Inv.
Context {V W G : Type}.
Variable cb : cbfun V W.
Variable gcb : gfun V W G.
Variable g0 : nat -> nat -> G.
Variable m : machine.
Variable vnone : V.

Notation gst := (rt V (gworld V W G)).
Notation gr := (res V (gworld V W G)).
Notation lcb := (lift (G:=G) cb).

Definition post {A} (r : gr A) (Q : gst -> Prop) : Prop :=
  match r with Done _ s => Q s | Threw _ s => Q s | _ => True end.
Lemma post_bind {A B} (r : gr A) (f : A -> gst -> gr B) Q :
  post r Q -> (forall a s, Q s -> post (f a s) Q) -> post (bind r f) Q.
Proof. destruct r; cbn; auto. Qed.

(** What user code other than guards cannot change. *)
Definition kept_alike (s s' : gst) : Prop :=
  rt_tabs s' = rt_tabs s /\ gw_mem (rt_world s') = gw_mem (rt_world s) /\
  gw_calls (rt_world s') = gw_calls (rt_world s) /\
  filter is_guard_call (rt_trace s') = filter is_guard_call (rt_trace s).

Variable P : gst -> Prop.
Hypothesis HP : forall s s', kept_alike s s' -> P s -> P s'.

Ltac same := match goal with H : P ?s |- P _ => apply (HP s); [repeat split|exact H] end.

Definition no_guard (c : callee) : Prop := match c with CGuard _ _ => False | _ => True end.
Lemma p_invoke c a v s : no_guard c -> P s -> post (invoke lcb c a v s) P.
Proof.
  intros Hg H. unfold invoke, lift.
  assert (E : filter is_guard_call (rt_trace s ++ [mkCall c a v]) = filter is_guard_call (rt_trace s)).
  { rewrite filter_app. cbn [filter is_guard_call k_callee]. destruct c; try contradiction; apply app_nil_r. }
  destruct (cb c a v _); cbn [post]; (apply (HP s); [split; [|split; [|split]]; auto|exact H]).
Qed.
Lemma p_keep (r : gr (bool * V)) : post r P -> post (keep_payload r) P.
Proof. intros. apply post_bind; auto. Qed.
Lemma p_drop v (r : gr (bool * V)) : post r P -> post (drop_payload v r) P.
Proof. intros. apply post_bind; auto. Qed.
Lemma p_body b : forall t e v s, P s -> post (exec_body lcb b t e v s) P.
Proof.
  induction b as [f|f|f|l IH] using abody_ind2; intros t e v s H; cbn [exec_body].
  - apply p_keep, p_invoke; [exact I|exact H].
  - apply post_bind; [apply p_invoke; [exact I|exact H]|]. intros a s' H'. cbn [post]. same.
  - destruct (alive s _); [apply p_drop, p_invoke; [exact I|exact H]|exact I].
  - revert v s H. induction IH as [|b l Hb _ IH]; intros v s H; [exact H|].
    apply post_bind; [apply Hb, H|]. intros. apply IH. assumption.
Qed.
Lemma p_step st t e v s : P s -> post (exec_step lcb st t e v s) P.
Proof. intros H. destruct st; cbn [exec_step]; try (apply p_keep, p_invoke; [exact I|exact H]). apply p_body, H. Qed.
Lemma p_steps l : forall t e v s, P s -> post (exec_steps lcb l t e v s) P.
Proof.
  induction l as [|st l IH]; intros; cbn [exec_steps]; [assumption|].
  apply post_bind; [apply p_step; assumption|]. auto.
Qed.
Lemma p_action t e v s : P s -> post (execute_action lcb t e v s) P.
Proof.
  intros H. unfold execute_action. destruct (t_act t); [|exact H].
  destruct (_ && _); [apply p_steps, H|exact I].
Qed.
Lemma p_read_cur s r : P s -> post (read_cur s r) P.
Proof. intros H. unfold read_cur. destruct (nth_error _ _) as [[|]|]; auto; exact I. Qed.
Lemma p_at_cur s r : P s -> post (at_cur s r) P.
Proof. intros H. unfold at_cur. destruct (nth_error _ _) as [[|]|]; auto; exact I. Qed.
Lemma p_write_cur s r c : P s -> post (write_cur s r c) P.
Proof. intros H. unfold write_cur. destruct (upd_nth _ _ _); [cbn [post]; same|exact I]. Qed.
Lemma p_parent s : P s -> post (current_parent m s) P.
Proof. intros H. apply post_bind; [apply p_read_cur, H|]. auto. Qed.
Lemma p_state s r : P s -> post (current_state m s r) P.
Proof. intros H. apply post_bind; [apply p_at_cur, H|]. auto. Qed.
Lemma p_regions s : P s -> post (update_current_regions m s) P.
Proof.
  intros H. unfold update_current_regions. destruct (parallel m); [|exact H].
  apply post_bind; [apply p_parent, H|]. intros p s' H'. destruct (nth_at p _); [cbn [post]; same|exact I].
Qed.
Lemma p_write_hist s p r c : P s -> post (write_hist s p r c) P.
Proof.
  intros H. unfold write_hist. destruct (nth_at _ _); [|exact I].
  destruct (upd_nth _ _ _); [|exact I]. destruct (upd_at _ _ _); [cbn [post]; same|exact I].
Qed.
Lemma p_read_hist s p r : P s -> post (read_hist s p r) P.
Proof.
  intros H. unfold read_hist. destruct (nth_at _ _); [|exact I]. destruct (nth_error _ _); auto; exact I.
Qed.
Lemma p_update r en s : P s -> post (update_current_state m r en s) P.
Proof.
  intros H. unfold update_current_state. destruct (en_int en); [exact H|].
  apply post_bind; [|intros; apply p_regions; assumption].
  destruct (has_history m); [|apply p_write_cur, H].
  apply post_bind; [apply p_parent, H|]. intros p s1 H1.
  apply post_bind; [apply p_read_cur, H1|]. intros c s2 H2.
  apply post_bind; [apply p_write_hist, H2|]. intros [] s3 H3.
  destruct (en_hist en); [|apply p_write_cur, H3].
  apply post_bind; [apply p_read_hist, H3|]. intros. apply p_write_cur. assumption.
Qed.
Lemma p_handler e v s : P s -> post (call_handler lcb m e v s) P.
Proof.
  intros H. unfold call_handler. destruct (cd_unexpected _); [|exact H].
  apply post_bind; [apply p_at_cur, H|]. intros c s' H'.
  destruct (get_table _ e); [|exact I]. destruct (nth_at c _) as [[[o d]|]|]; try exact I; [|exact H'].
  destruct (alive s' o); [|exact I]. apply p_keep, p_invoke; [exact I|exact H'].
Qed.
Lemma p_status_loop f : forall l r s, P s -> post (status_loop m f l r s) P.
Proof.
  induction f as [|f IH]; intros l r s H; cbn [status_loop]; [exact I|].
  destruct (Nat.ltb r l); [|exact H].
  apply post_bind; [apply p_read_cur, H|]. intros c s1 H1.
  apply post_bind; [apply p_parent, H1|]. intros p s2 H2.
  apply post_bind; [apply p_state, H2|]. intros st s3 H3.
  apply post_bind; [apply IH, H3|]. auto.
Qed.

(** Entries whose calls keep [P]. *)
Hypothesis Pguard : forall e c pre en l t v s, P s ->
  tget (rt_tabs s) e c = Some (pre ++ en :: l) -> en_tr en = Some t ->
  post (g_execute_guard gcb g0 (e, c, length l) t e v s) P.
Hypothesis Ptabs : exists T, forall s, P s -> rt_tabs s = T.

Lemma p_try ens : forall pre c r e v s, P s -> tget (rt_tabs s) e c = Some (pre ++ ens) ->
  post (g_try_entries cb gcb g0 m ens c r e v s) P.
Proof.
  destruct Ptabs as [T HT].
  induction ens as [|en ens IH]; intros pre c r e v s H Ht; cbn [g_try_entries]; [exact H|].
  destruct (en_defer en); [cbn [post]; same|]. destruct (en_tr en) as [t|] eqn:Et; [|exact I].
  apply post_bind; [eapply Pguard; eauto|]. intros [b v'] s' H'. cbn [fst snd].
  destruct b.
  - apply post_bind; [apply p_update, H'|]. intros [] s2 H2.
    apply post_bind; [apply p_action, H2|]. auto.
  - apply (IH (pre ++ [en])); [exact H'|]. rewrite <- app_assoc. cbn [app].
    rewrite (HT _ H'), <- (HT _ H). exact Ht.
Qed.
Lemma tget_get t e arr c l : get_table t e = Some arr -> nth_at c arr = Some l -> tget t e c = Some l.
Proof. intros H1 H2. unfold tget. rewrite H1, <- nth_at_nth. exact H2. Qed.
Lemma p_region r e v s : P s -> post (g_try_region cb gcb g0 m r e v s) P.
Proof.
  intros H. unfold g_try_region.
  destruct (get_entries e r s) as [ens s'|x s'|u|] eqn:E; cbn [bind]; try exact I.
  - apply get_reads in E. destruct E as (-> & c & arr & Hr & Ha & Hn).
    destruct ens as [|en ens]; [exact H|]. rewrite Hr. cbn [bind].
    apply post_bind; [|auto]. apply (p_try _ []); [exact H|].
    eapply tget_get; eauto.
  - unfold get_entries, read_cur in E. destruct (get_table _ e); [|discriminate].
    destruct (nth_error _ r) as [[c|]|]; cbn [bind] in E; try discriminate.
    destruct (nth_at c _); discriminate.
Qed.
Lemma p_loop f : forall limit r agf ati e v s, P s ->
  post (g_region_loop cb gcb g0 m f limit r agf ati e v s) P.
Proof.
  induction f as [|f IH]; intros limit r agf ati e v s H; cbn [g_region_loop]; [exact I|].
  destruct (Nat.ltb r limit); [|exact H].
  apply post_bind; [apply p_region, H|]. intros [o v'] s' H'. cbn [fst snd].
  destruct o as [[]|]; auto.
Qed.
Lemma p_try_anon ens : forall pre c r v s, P s -> tget (rt_tabs s) ENone c = Some (pre ++ ens) ->
  post (g_try_anonymous cb gcb g0 m ens c r v s) P.
Proof.
  destruct Ptabs as [T HT].
  induction ens as [|en ens IH]; intros pre c r v s H Ht; cbn [g_try_anonymous]; [exact H|].
  destruct (en_tr en) as [t|] eqn:Et; [|exact I].
  apply post_bind; [eapply Pguard; eauto|]. intros [b v'] s' H'. cbn [fst snd].
  destruct b.
  - apply post_bind; [apply p_update, H'|]. intros [] s2 H2.
    apply post_bind; [apply p_action, H2|]. auto.
  - apply (IH (pre ++ [en])); [exact H'|]. rewrite <- app_assoc. cbn [app].
    rewrite (HT _ H'), <- (HT _ H). exact Ht.
Qed.
Lemma p_anon_region r v s : P s -> post (g_anonymous_region cb gcb g0 m r v s) P.
Proof.
  intros H. unfold g_anonymous_region.
  destruct (get_entries ENone r s) as [ens s'|x s'|u|] eqn:E; cbn [bind]; try exact I.
  - apply get_reads in E. destruct E as (-> & c & arr & Hr & Ha & Hn).
    destruct ens as [|en ens]; [exact H|]. rewrite Hr. cbn [bind].
    apply post_bind; [|auto]. apply (p_try_anon _ []); [exact H|].
    eapply tget_get; eauto.
  - unfold get_entries, read_cur in E. destruct (get_table _ ENone); [|discriminate].
    destruct (nth_error _ r) as [[c|]|]; cbn [bind] in E; try discriminate.
    destruct (nth_at c _); discriminate.
Qed.
Lemma p_pass f : forall limit r agf v s, P s -> post (g_anonymous_pass cb gcb g0 m f limit r agf v s) P.
Proof.
  induction f as [|f IH]; intros limit r agf v s H; cbn [g_anonymous_pass]; [exact I|].
  destruct (Nat.ltb r limit); [|exact H].
  apply post_bind; [apply p_anon_region, H|]. intros [o v'] s' H'. cbn [fst snd].
  destruct o; auto.
Qed.
Lemma p_anon_loop rf f : forall v s, P s -> post (g_anonymous_loop cb gcb g0 m rf f v s) P.
Proof.
  induction f as [|f IH]; intros v s H; cbn [g_anonymous_loop]; [exact I|].
  apply post_bind; [apply p_pass, H|]. intros [o v'] s' H'. cbn [fst snd].
  destruct o as [[]|]; auto.
Qed.
Lemma p_internal f e v s : P s -> post (g_process_event_internal cb gcb g0 m vnone f e v s) P.
Proof.
  intros H. unfold g_process_event_internal.
  apply post_bind; [apply p_loop, H|]. intros [p v'] s' H'. cbn [fst].
  destruct p; auto. apply post_bind; [|auto].
  unfold g_process_anonymous. destruct (has_anonymous m); [apply p_anon_loop|]; exact H'.
Qed.
Lemma p_event f e v s : P s -> post (g_process_event cb gcb g0 m vnone f e v s) P.
Proof.
  intros H. unfold g_process_event. destruct (in_dec _ _ _); [|exact I].
  apply post_bind; [apply p_internal, H|]. intros [p v'] s' H'. cbn [fst snd].
  destruct p; auto.
  - apply post_bind; [apply p_handler, H'|]. auto.
  - apply post_bind; [|auto]. unfold g_process_deferred. destruct (has_deferred m); [|exact H'].
    destruct (rt_queue s') as [|[e' w'] q]; [exact H'|].
    apply post_bind; [|auto]. apply p_internal. same.
Qed.
End Inv.

Section Own.
Context {V W G : Type}.
Variable cb : cbfun V W.
Variable gcb : gfun V W G.
Variable g0 : nat -> nat -> G.
Variable m : machine.
Hypothesis Hc : comp m.
Variable vnone : V.

Notation gst := (rt V (gworld V W G)).
Notation gr := (res V (gworld V W G)).
Notation lcb := (lift (G:=G) cb).

Definition last_of (l : list (gcall V W G)) (i : eid) : option G :=
  fold_left (fun o c => if eid_eq_dec (gc_id c) i then Some (kept (gc_result c)) else o) l None.
Lemma last_of_snoc l c i : last_of (l ++ [c]) i =
  if eid_eq_dec (gc_id c) i then Some (kept (gc_result c)) else last_of l i.
Proof. unfold last_of. rewrite fold_left_app. reflexivity. Qed.
Lemma left_by_last l i ty val :
  left_by g0 l i ty val = match last_of l i with Some g => g | None => g0 ty val end.
Proof.
  induction l as [|c l IH] using rev_ind; [reflexivity|].
  rewrite last_of_snoc. unfold left_by in *. rewrite fold_left_app. cbn [fold_left].
  destruct (eid_eq_dec (gc_id c) i); [reflexivity|]. exact IH.
Qed.

Definition in_table (T : tables) (c : gcall V W G) : Prop :=
  exists pre en l t, tget T (fst (fst (gc_id c))) (snd (fst (gc_id c))) = Some (pre ++ en :: l) /\
    length l = snd (gc_id c) /\ en_tr en = Some t /\ t_guard t = Guard (gc_ty c) (gc_val c).

Definition ginv (T : tables) (s : gst) : Prop :=
  rt_tabs s = T /\
  (forall i, find_mem (gw_mem (rt_world s)) i = last_of (gw_calls (rt_world s)) i) /\
  own_memory gcb g0 (gw_calls (rt_world s)) /\
  (forall c, In c (gw_calls (rt_world s)) -> in_table T c) /\
  recorded s.

Lemma ginv_alike T s s' : kept_alike s s' -> ginv T s -> ginv T s'.
Proof.
  intros (H1 & H2 & H3 & H4) (A & B & C & D & E). unfold ginv, recorded in *. rewrite H1, H2, H3, H4. auto.
Qed.

Lemma own_snoc l c : own_memory gcb g0 l ->
  gc_result c = gcb (gc_ty c) (gc_val c) (gc_args c) (gc_payload c) (gc_world c)
                    (left_by g0 l (gc_id c) (gc_ty c) (gc_val c)) ->
  own_memory gcb g0 (l ++ [c]).
Proof.
  intros Hl H l1 x l2 E. destruct l2 as [|y l2] using rev_ind.
  - apply app_inj_tail in E. destruct E as [<- <-]. exact H.
  - change (x :: l2 ++ [y]) with ((x :: l2) ++ [y]) in E. rewrite app_assoc in E.
    apply app_inj_tail in E. destruct E as [-> _]. eapply Hl. reflexivity.
Qed.

Lemma ginv_guard T e k pre en l t v s : ginv T s ->
  tget (rt_tabs s) e k = Some (pre ++ en :: l) -> en_tr en = Some t ->
  post (g_execute_guard gcb g0 (e, k, length l) t e v s) (ginv T).
Proof.
  intros H Hg Ht. unfold g_execute_guard. destruct (t_guard t) as [|ty val] eqn:Eg; [exact H|].
  destruct (_ && _); [|exact I]. unfold invoke_guard.
  set (a := mkArgs _ _ _ _). set (i := (e, k, length l)).
  set (c := mkGcall _ _ _ _ _ _ _).
  destruct H as (A & B & C & D & E).
  set (tr := rt_trace s ++ _).
  assert (X : forall w, ginv T (with_user s (gw_after (rt_world s) w i c) tr)).
  { intros w. unfold ginv. cbn [with_user rt_tabs rt_world gw_after gw_mem gw_calls].
    split; [exact A|]. split; [|split; [|split]].
    - intros j. cbn [find_mem]. rewrite last_of_snoc. cbn [gc_id c].
      destruct (eid_eq_dec j i), (eid_eq_dec i j); try congruence; auto.
    - apply own_snoc; [exact C|]. cbn [c gc_result gc_ty gc_val gc_args gc_payload gc_world gc_id].
      f_equal. rewrite left_by_last, <- B. reflexivity.
    - intros x Hx. apply in_app_or in Hx. destruct Hx as [Hx|[<-|[]]]; [auto|].
      exists pre, en, l, t. cbn [c i gc_id fst snd gc_ty gc_val]. rewrite <- A. auto.
    - unfold recorded in *. cbn [with_user gw_after rt_world gw_calls rt_trace]. unfold tr.
      rewrite map_app, filter_app, E. reflexivity. }
  destruct (gcb _ _ _ _ _ _); cbn [post]; apply X.
Qed.

Lemma in_table_grows T T' d c : fill_dispatch m d T = Some T' -> in_table T c -> in_table T' c.
Proof.
  intros Hf (pre & en & l & t & H1 & H2 & H3 & H4). rewrite fill_dispatch_pushes in Hf by exact Hc.
  apply pushes_spec in Hf. destruct Hf as (_ & _ & Hf & _).
  exists (rev (map snd (filter (hits (fst (fst (gc_id c))) (snd (fst (gc_id c)))) (all_ops m d))) ++ pre), en, l, t.
  rewrite Hf, H1. cbn [option_map]. rewrite app_assoc. auto.
Qed.

Lemma in_table_one T c c' : in_table T c -> in_table T c' -> gc_id c = gc_id c' ->
  gc_ty c = gc_ty c' /\ gc_val c = gc_val c'.
Proof.
  intros (pre & en & l & t & H1 & H2 & H3 & H4) (pre' & en' & l' & t' & H1' & H2' & H3' & H4') E.
  rewrite E in *. rewrite H1 in H1'. injection H1' as Hl. rewrite <- H2' in H2.
  assert (Hlen : length pre = length pre').
  { apply (f_equal (@length _)) in Hl. rewrite !app_length in Hl. cbn in Hl. lia. }
  assert (Hsp : forall (a a' : list entry) b b', a ++ b = a' ++ b' -> length a = length a' -> b = b').
  { induction a as [|x a IH]; intros [|x' a'] b b' E' L; cbn in *; try discriminate; auto.
    injection E' as _ E'. eapply IH; eauto. }
  apply Hsp in Hl; [|exact Hlen]. injection Hl as <- <-.
  rewrite H3 in H3'. injection H3' as <-. rewrite H4 in H4'. injection H4' as -> ->. auto.
Qed.

Definition gok (s : gst) : Prop := exists T, ginv T s.

Lemma post_mono {A} (r : gr A) (Q Q' : gst -> Prop) : (forall s, Q s -> Q' s) -> post r Q -> post r Q'.
Proof. destruct r; cbn; auto. Qed.

Lemma gok_call f k s : gok s -> post (g_do_call cb gcb g0 m vnone f k s) gok.
Proof.
  intros [T H].
  assert (P1 : forall s s', kept_alike s s' -> ginv T s -> ginv T s') by (intros; eapply ginv_alike; eauto).
  destruct k as [e v|r p st|p|r p st|d|]; cbn [g_do_call do_call].
  - apply (post_mono _ (ginv T)); [intros; exists T; assumption|].
    apply post_bind; [|auto]. apply p_event; auto.
    + intros. eapply ginv_guard; eauto.
    + exists T. intros s' (E & _). exact E.
  - apply (post_mono _ (ginv T)); [intros; exists T; assumption|].
    apply post_bind; [|auto]. unfold q_is.
    apply post_bind; [apply p_parent; auto|]. intros cp s' H'.
    destruct (N.eqb _ _); [|exact H']. apply post_bind; [apply p_state; auto|]. auto.
  - apply (post_mono _ (ginv T)); [intros; exists T; assumption|].
    apply post_bind; [|auto]. unfold q_parent_is. apply post_bind; [apply p_parent; auto|]. auto.
  - apply (post_mono _ (ginv T)); [intros; exists T; assumption|].
    apply post_bind; [|auto]. unfold set_state.
    destruct (in_dec _ _ _); [|exact I]. destruct (in_dec _ _ _); [|exact I].
    destruct (upd_nth _ _ _); [|exact H]. cbn [post]. apply (P1 s); [repeat split|exact H].
  - unfold set_dependency. destruct (fill_dispatch m d (rt_tabs s)) as [T'|] eqn:Ef; [|exact I].
    cbn [bind post]. exists T'. destruct H as (A & B & C & D & E). rewrite A in Ef.
    split; [reflexivity|]. split; [exact B|]. split; [exact C|].
    split; [intros c Hin; eapply in_table_grows; eauto|exact E].
  - apply (post_mono _ (ginv T)); [intros; exists T; assumption|].
    apply post_bind; [|auto]. unfold status. apply p_status_loop; auto.
Qed.

Lemma gok_run f ks : forall s, gok s -> post (g_run cb gcb g0 m vnone f ks s) gok.
Proof.
  induction ks as [|k ks IH]; intros s H; cbn [g_run]; [exact H|].
  apply post_bind.
  - unfold g_do_call_catch. pose proof (gok_call f k s H) as X.
    destruct (g_do_call _ _ _ _ _ _ _ _); exact X.
  - intros o s' H'. apply post_bind; [apply IH, H'|]. auto.
Qed.

Lemma gok_construct f d w : post (construct m f d (mkGworld w [] [])) gok.
Proof.
  unfold construct. destruct (if cd_unexpected _ then _ else _); [|exact I].
  destruct (fill_dispatch _ _ _) as [T|]; [|exact I].
  assert (P1 : forall s s', kept_alike s s' -> ginv T s -> ginv T s') by (intros; eapply ginv_alike; eauto).
  apply (post_mono _ (ginv T)); [intros; exists T; assumption|].
  apply post_bind; [|intros; apply p_regions; auto].
  unfold init_current_state. destruct (nth_at _ _) as [l0|]; [|exact I].
  set (s0 := mkRt _ _ _ _ _ _ _ _ _).
  assert (H0 : ginv T s0).
  { split; [reflexivity|]. split; [reflexivity|]. split; [|split; [intros ? []|reflexivity]].
    intros l1 c l2 E. destruct l1; discriminate. }
  revert H0. generalize s0. generalize 0. induction f as [|f IH]; intros r s H0; cbn [init_loop]; [exact I|].
  destruct (Nat.ltb _ _); [|exact H0]. destruct (nth_error l0 r); [|exact I].
  apply post_bind; [apply p_write_cur; auto|]. intros. apply IH. assumption.
Qed.

Lemma session_gok f d w ks s : ends_in (g_session cb gcb g0 m vnone f d w ks) s -> gok s.
Proof.
  intros H. assert (X : post (g_session cb gcb g0 m vnone f d w ks) gok).
  { unfold g_session. apply post_bind; [apply gok_construct|]. intros. apply gok_run. assumption. }
  destruct (g_session _ _ _ _ _ _ _ _ _); cbn in *; try contradiction; subst; exact X.
Qed.

Lemma session_own_memory f d w ks s : ends_in (g_session cb gcb g0 m vnone f d w ks) s ->
  own_memory gcb g0 (gw_calls (rt_world s)) /\ one_functor (gw_calls (rt_world s)) /\ recorded s.
Proof.
  intros H. destruct (session_gok _ _ _ _ _ H) as (T & A & B & C & D & E).
  split; [exact C|]. split; [|exact E]. clear E. intros c c' H1 H2 E. eapply in_table_one; eauto.
Qed.

(** A guard that agrees at most [n] times. *)
Lemma own_prefix l1 l2 : own_memory gcb g0 (l1 ++ l2) -> own_memory gcb g0 l1.
Proof. intros H a c b E. eapply (H a c (b ++ l2)). rewrite E, <- app_assoc. reflexivity. Qed.

Lemma times_count n count ty val i l :
  at_most gcb g0 n count ty val -> own_memory gcb g0 l ->
  (forall c, In c l -> gc_id c = i -> gc_ty c = ty /\ gc_val c = val) ->
  times i l = count (left_by g0 l i ty val) /\ times i l <= n.
Proof.
  intros [A0 A1]. induction l as [|c l IH] using rev_ind; intros Ho Hs.
  - cbn. rewrite A0. split; [reflexivity|apply Nat.le_0_l].
  - destruct IH as [E L]; [eapply own_prefix; eauto|intros; apply Hs; auto; apply in_or_app; auto|].
    unfold times in *. rewrite filter_app, app_length.
    pose proof (Ho l c [] eq_refl) as Hr.
    unfold left_by in *. rewrite fold_left_app. cbn [fold_left filter]. unfold agreed at 2 4.
    destruct (eid_eq_dec (gc_id c) i) as [Hi|Hi].
    + destruct (Hs c) as [-> ->] in Hr; [apply in_or_app; right; left; reflexivity|exact Hi|].
      rewrite Hi in Hr. pose proof (A1 (gc_args c) (gc_payload c) (gc_world c)
        (fold_left (fun g c0 => if eid_eq_dec (gc_id c0) i then kept (gc_result c0) else g) l (g0 ty val))) as X.
      rewrite <- Hr in X. destruct (gc_result c) as [[]|]; cbn [kept length]; lia.
    + cbn [length]. lia.
Qed.

Lemma session_at_most f d w ks s n count i :
  ends_in (g_session cb gcb g0 m vnone f d w ks) s ->
  (forall c, In c (gw_calls (rt_world s)) -> gc_id c = i -> at_most gcb g0 n count (gc_ty c) (gc_val c)) ->
  times i (gw_calls (rt_world s)) <= n.
Proof.
  intros H Hn. destruct (session_own_memory _ _ _ _ _ H) as (Ho & Hf & _).
  destruct (filter (agreed i) (gw_calls (rt_world s))) as [|c l] eqn:E.
  - unfold times. rewrite E. apply Nat.le_0_l.
  - assert (Hin : In c (gw_calls (rt_world s)) /\ agreed i c = true).
    { apply filter_In. rewrite E. left. reflexivity. }
    destruct Hin as [Hin Ha]. unfold agreed in Ha.
    destruct (eid_eq_dec (gc_id c) i) as [Hi|]; [|discriminate].
    eapply times_count; [apply (Hn c Hin Hi)|exact Ho|].
    intros c' Hin' Hi'. apply Hf; auto. congruence.
Qed.

(** All copies of one functor together. *)
Lemma owners_here_In ty val e k pre en l : owns ty val en = true ->
  In (e, k, length l) (owners_here ty val e k (pre ++ en :: l)).
Proof.
  intros H. induction pre as [|x pre IH]; cbn [app owners_here].
  - rewrite H. left. reflexivity.
  - apply in_or_app. right. exact IH.
Qed.
Lemma owners_from_In ty val e i l : forall arr k, nth_error arr i = Some l ->
  incl (owners_here ty val e (k + N.of_nat i) l) (owners_from ty val e k arr).
Proof.
  induction i as [|i IH]; intros [|x arr] k E; try discriminate; cbn [owners_from nth_error] in *.
  - injection E as ->. rewrite N.add_0_r. apply incl_appl, incl_refl.
  - apply incl_appr. replace (k + N.of_nat (S i))%N with (N.succ k + N.of_nat i)%N by lia.
    apply IH, E.
Qed.
Lemma owners_In T c : in_table T c -> In (gc_id c) (owners (gc_ty c) (gc_val c) T).
Proof.
  intros (pre & en & l & t & H1 & H2 & H3 & H4). destruct (gc_id c) as [[e k] n]. cbn [fst snd] in *.
  assert (Ho : owns (gc_ty c) (gc_val c) en = true).
  { unfold owns. rewrite H3, H4, !Nat.eqb_refl. reflexivity. }
  unfold tget in H1. destruct (get_table T e) as [arr|] eqn:Et; [|discriminate].
  unfold owners. apply in_flat_map.
  assert (Hin : In (e, arr) T).
  { clear -Et. induction T as [|[e' a] T IH]; cbn in Et; [discriminate|].
    destruct (ev_eq_dec e e') as [<-|]; [injection Et as <-; left; reflexivity|right; auto]. }
  exists (e, arr). split; [exact Hin|]. cbn [fst snd].
  pose proof (owners_from_In (gc_ty c) (gc_val c) e _ _ arr 0%N H1) as X.
  rewrite N2Nat.id, N.add_0_l in X. apply X. rewrite <- H2. apply owners_here_In, Ho.
Qed.

Lemma count_by_id n (p : gcall V W G -> bool) (ids : list eid) (l : list (gcall V W G)) :
  (forall c, In c l -> p c = true -> In (gc_id c) ids /\ agreed (gc_id c) c = true) ->
  (forall i, In i ids -> times i l <= n) -> length (filter p l) <= n * length ids.
Proof.
  revert p l. induction ids as [|i ids IH]; intros p l H Hn.
  - destruct (filter p l) as [|c q] eqn:E; [apply Nat.le_0_l|].
    assert (Hc' : In c l /\ p c = true) by (apply filter_In; rewrite E; left; reflexivity).
    destruct (H c (proj1 Hc') (proj2 Hc')) as [[] _].
  - cbn [length].
    set (q c := p c && if eid_eq_dec (gc_id c) i then false else true).
    assert (Hq : length (filter q l) <= n * length ids).
    { apply IH.
      - intros c Hin Hc'. unfold q in Hc'. apply andb_prop in Hc'. destruct Hc' as [H1 H2].
        destruct (H c Hin H1) as [[E|Hi] Ha]; [|auto].
        destruct (eid_eq_dec (gc_id c) i); [discriminate|congruence].
      - intros j Hj. apply Hn. right. exact Hj. }
    assert (Hs : length (filter p l) <= times i l + length (filter q l)).
    { clear Hq Hn IH. unfold times. induction l as [|c l IHl]; [cbn; lia|].
      assert (IHl' : length (filter p l) <= length (filter (agreed i) l) + length (filter q l)).
      { apply IHl. intros c' Hc'. apply H. right. exact Hc'. }
      pose proof (H c (or_introl eq_refl)) as Hh. cbn [filter]. unfold q at 1.
      destruct (p c); cbn [andb].
      - destruct (Hh eq_refl) as [_ Ha]. destruct (eid_eq_dec (gc_id c) i) as [E|E].
        + rewrite <- E, Ha in *. cbn [length]. lia.
        + destruct (agreed i c); cbn [length]; lia.
      - destruct (agreed i c); cbn [length]; lia. }
    pose proof (Hn i (or_introl eq_refl)). lia.
Qed.

Lemma session_at_most_all f d w ks s n count ty val :
  ends_in (g_session cb gcb g0 m vnone f d w ks) s -> at_most gcb g0 n count ty val ->
  times_of ty val (gw_calls (rt_world s)) <= n * length (owners ty val (rt_tabs s)).
Proof.
  intros H Hn. destruct (session_gok _ _ _ _ _ H) as (T & A & B & C & D & _).
  set (p := agreed_of (V:=V) (W:=W) (G:=G) ty val).
  set (l := gw_calls (rt_world s)) in *.
  assert (X : forall c, In c l -> p c = true -> In (gc_id c) (owners ty val T) /\ agreed (gc_id c) c = true).
  { intros c Hin Hp. unfold p, agreed_of in Hp. apply andb_prop in Hp. destruct Hp as [Hp Ha].
    apply andb_prop in Hp. destruct Hp as [H1 H2]. apply Nat.eqb_eq in H1, H2.
    split; [|exact Ha]. rewrite <- H1, <- H2. apply owners_In, D, Hin. }
  unfold times_of. fold p. rewrite A.
  set (ids := filter (fun i => existsb (fun c => if eid_eq_dec (gc_id c) i then p c else false) l) (owners ty val T)).
  assert (Y : length (filter p l) <= n * length ids).
  { apply count_by_id.
    - intros c Hin Hp. split; [|apply X; auto]. apply filter_In. split; [apply X; auto|].
      apply existsb_exists. exists c. split; [exact Hin|]. destruct (eid_eq_dec _ _); [exact Hp|congruence].
    - intros i Hi. apply filter_In in Hi. destruct Hi as [_ Hi]. apply existsb_exists in Hi.
      destruct Hi as (c & Hin & Hp). destruct (eid_eq_dec (gc_id c) i) as [E|]; [|discriminate].
      unfold p, agreed_of in Hp. apply andb_prop in Hp. destruct Hp as [Hp _].
      apply andb_prop in Hp. destruct Hp as [H1 H2]. apply Nat.eqb_eq in H1, H2.
      eapply session_at_most; [exact H|]. intros c' Hin' E'.
      destruct (in_table_one T c c' (D _ Hin) (D _ Hin')) as [F1 F2]; [congruence|].
      rewrite <- F1, <- F2, H1, H2. exact Hn. }
  assert (Z : length ids <= length (owners ty val T)).
  { unfold ids. clear. induction (owners ty val T) as [|x o IH]; cbn; [lia|].
    destruct (existsb _ _); cbn; lia. }
  eapply Nat.le_trans; [exact Y|]. apply Nat.mul_le_mono_l, Z.
Qed.
End Own.
