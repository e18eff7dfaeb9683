(** Agreement of the two versions at run time. *)

From Coq Require Import List Arith NArith Bool Lia.
From Verif Require Import Types Static Dispatch Runtime ListFacts IndexFacts Spec DispatchFacts FlattenFacts Amalgam AmalgamFacts.
Import ListNotations.

Section Run.
Context {V W : Type}.
Variable cb : cbfun V W.
Variable m : machine.
Variable vnone : V.
Hypothesis Hc : comp m.
Notation env := (mc_env m).
Notation root := (mc_root m).
Hypothesis Hl : alike env root.
Hypothesis Hnone : none_has_no_data cb.
Notation st := (rt V W).

Definition no_defers (t : tables) : Prop := forall e k l en, tget t e k = Some l -> In en l -> en_defer en = false.
Record sim (s s' : st) : Prop := mkSim {
  sm_same : same_state s s';
  sm_queue : rt_queue s = [];
  sm_tabs : same_map (rt_tabs s) (rt_tabs s');
  sm_htabs : same_map (rt_htabs s) (rt_htabs s');
  sm_shape : shape m (rt_tabs s);
  sm_defer : no_defers (rt_tabs s) }.
Inductive rs {A A'} (R : A -> A' -> Prop) : res V W A -> res V W A' -> Prop :=
| rs_done a a' s s' : R a a' -> sim s s' -> rs R (Done a s) (Done a' s')
| rs_threw x s s' : sim s s' -> rs R (Threw x s) (Threw x s')
| rs_undef u : rs R (Undef u) (Undef u)
| rs_timeout : rs R Timeout Timeout.
Lemma rs_bind {A A' B B'} (R : A -> A' -> Prop) (T : B -> B' -> Prop) r r' k k' :
  rs R r r' -> (forall a a' s s', R a a' -> sim s s' -> rs T (k a s) (k' a' s')) -> rs T (bind r k) (bind r' k').
Proof. intros [a a' s s' H1 H2|x s s' H|u|] Hk; cbn; auto; constructor; assumption. Qed.
Lemma rs_imp {A A'} (R T : A -> A' -> Prop) r r' : (forall a a', R a a' -> T a a') -> rs R r r' -> rs T r r'.
Proof. intros H []; constructor; auto. Qed.
Ltac fields S := destruct S as [[] ? ? ? ? ?].
Ltac simd S := constructor; [constructor; cbn; fields S; congruence|fields S; cbn; auto..].

Lemma invoke_s c a v s s' : sim s s' ->
  rs (fun x y => y = x /\ (a_ev a = ENone -> snd x = v)) (invoke cb c a v s) (invoke cb c a v s').
Proof.
  intros S. unfold invoke. rewrite (ss_world _ _ (sm_same _ _ S)).
  destruct (cb c a v (rt_world s)) eqn:E; constructor; try (split; [reflexivity|]; intros Ha; cbn; eapply Hnone; eauto); simd S.
Qed.
Ltac inv S := match goal with |- rs _ (invoke _ ?c ?a ?v ?s) (invoke _ _ _ _ ?s') => exact (invoke_s c a v s s' S) end.
Lemma alive_s s s' o : sim s s' -> alive s' o = alive s o.
Proof. intros S. unfold alive. now rewrite (ss_live _ _ (sm_same _ _ S)). Qed.
(** The event object: unchanged if it is a noneEvent. *)
Definition keeps_v (e : ev) (v : V) (x y : V) : Prop := y = x /\ (e = ENone -> x = v).
Lemma execute_guard_s t e v s s' : sim s s' ->
  rs (fun x y => y = x /\ (e = ENone -> snd x = v)) (execute_guard cb t e v s) (execute_guard cb t e v s').
Proof.
  intros S. unfold execute_guard. destruct (t_guard t); [constructor; auto|]. rewrite !(alive_s s s') by exact S.
  destruct (_ && _); [|constructor]. inv S.
Qed.
Lemma set_live_s s s' o b : sim s s' -> sim (set_live s o b) (set_live s' o b).
Proof.
  intros S. unfold set_live. rewrite (ss_live _ _ (sm_same _ _ S)). simd S.
Qed.
Lemma keep_s r r' (Q : Prop) v : rs (fun x y : bool * V => y = x /\ (Q -> snd x = v)) r r' ->
  rs (fun x y => y = x /\ (Q -> x = v)) (keep_payload r) (keep_payload r').
Proof. intros H. eapply rs_bind; [exact H|]. intros a a' s s' [-> E] S. now constructor. Qed.
Lemma exec_body_s t e : forall b v s s', sim s s' -> rs (keeps_v e v) (exec_body cb b t e v s) (exec_body cb b t e v s').
Proof.
  unfold keeps_v. fix IH 1. intros b v s s' S. destruct b as [f|f|f|l]; cbn [exec_body].
  - apply keep_s. inv S.
  - eapply rs_bind; [exact (invoke_s _ _ _ _ _ S)|]. intros a a' s1 s1' [-> E] S1. constructor; [auto|]. now apply set_live_s.
  - rewrite (alive_s s s') by exact S. destruct (alive s (t_tgt t)); [|constructor].
    eapply rs_bind; [exact (invoke_s _ _ _ _ _ S)|]. intros a a' s1 s1' [-> E] S1. constructor; auto.
  - revert v s s' S. induction l as [|b l IHl]; intros v s s' S; [constructor; auto|].
    eapply rs_bind; [exact (IH b v s s' S)|]. intros a a' s1 s1' [-> E] S1.
    eapply rs_imp; [|exact (IHl a s1 s1' S1)]. cbn. intros x y [-> Ey]. split; [reflexivity|]. intros He. rewrite Ey, E; auto.
Qed.
Lemma exec_steps_s t e : forall l v s s', sim s s' -> rs (keeps_v e v) (exec_steps cb l t e v s) (exec_steps cb l t e v s').
Proof.
  induction l as [|b l IHl]; intros v s s' S; [constructor; [split|]; auto|]. cbn [exec_steps].
  eapply rs_bind with (R := keeps_v e v).
  - destruct b; cbn [exec_step]; try (apply keep_s; inv S). now apply exec_body_s.
  - intros a a' s1 s1' [-> E] S1. eapply rs_imp; [|exact (IHl a s1 s1' S1)]. cbn. intros x y [-> Ey]. split; [reflexivity|].
    intros He. rewrite Ey, E; auto.
Qed.
Lemma execute_action_s t e v s s' : sim s s' -> rs (keeps_v e v) (execute_action cb t e v s) (execute_action cb t e v s').
Proof.
  intros S. unfold execute_action. destruct (t_act t); [|constructor; [split|]; auto]. rewrite !(alive_s s s') by exact S.
  destruct (_ && _); [|constructor]. now apply exec_steps_s.
Qed.

Lemma read_cur_s s s' r : sim s s' -> rs eq (read_cur s r) (read_cur s' r).
Proof. intros S. unfold read_cur. rewrite (ss_cur _ _ (sm_same _ _ S)). destruct (nth_error (rt_cur s) r) as [[c|]|]; constructor; auto. Qed.
Lemma at_cur_s s s' r : sim s s' -> rs eq (at_cur s r) (at_cur s' r).
Proof. intros S. unfold at_cur. rewrite (ss_cur _ _ (sm_same _ _ S)). destruct (nth_error (rt_cur s) r) as [[c|]|]; constructor; auto. Qed.
Lemma write_cur_s s s' r c : sim s s' -> rs eq (write_cur s r c) (write_cur s' r c).
Proof.
  intros S. unfold write_cur. rewrite (ss_cur _ _ (sm_same _ _ S)). destruct (upd_nth _ _ _); constructor; auto. simd S.
Qed.
Lemma current_parent_s s s' : sim s s' -> rs eq (current_parent m s) (current_parent m s').
Proof. intros S. eapply rs_bind; [now apply read_cur_s|]. intros a a' s1 s1' <- S1. now constructor. Qed.
Lemma current_state_s s s' r : sim s s' -> rs eq (current_state m s r) (current_state m s' r).
Proof. intros S. eapply rs_bind; [now apply at_cur_s|]. intros a a' s1 s1' <- S1. now constructor. Qed.
Lemma update_regions_s s s' : sim s s' -> rs eq (update_current_regions m s) (update_current_regions m s').
Proof.
  intros S. unfold update_current_regions. destruct (parallel m); [|now constructor].
  eapply rs_bind; [now apply current_parent_s|]. intros a a' s1 s1' <- S1. destruct (nth_at a (initial_table m)); constructor; auto. simd S1.
Qed.
Lemma current_regions_s s s' : sim s s' -> current_regions m s' = current_regions m s.
Proof. intros S. unfold current_regions. now rewrite (ss_regions _ _ (sm_same _ _ S)). Qed.
Lemma write_hist_s s s' p r c : sim s s' -> rs eq (write_hist s p r c) (write_hist s' p r c).
Proof.
  intros S. unfold write_hist. rewrite (ss_hist _ _ (sm_same _ _ S)). destruct (nth_at p (rt_hist s)); [|constructor].
  destruct (upd_nth r _ l); [|constructor]. destruct (upd_at p _ _); constructor; auto. simd S.
Qed.
Lemma read_hist_s s s' p r : sim s s' -> rs eq (read_hist s p r) (read_hist s' p r).
Proof.
  intros S. unfold read_hist. rewrite (ss_hist _ _ (sm_same _ _ S)). destruct (nth_at p (rt_hist s)); [|constructor].
  destruct (nth_error l r); constructor; auto.
Qed.
Lemma update_state_s r en s s' : sim s s' -> rs eq (update_current_state m r en s) (update_current_state m r en s').
Proof.
  intros S. unfold update_current_state. destruct (en_int en); [now constructor|].
  eapply (rs_bind eq); [|intros; now apply update_regions_s].
  destruct (has_history m); [|now apply write_cur_s].
  eapply rs_bind; [now apply current_parent_s|]. intros p p' s1 s1' <- S1.
  eapply rs_bind; [now apply read_cur_s|]. intros c c' s2 s2' <- S2.
  eapply (rs_bind eq); [now apply write_hist_s|]. intros u u' s3 s3' _ S3.
  destruct (en_hist en); [|now apply write_cur_s].
  eapply rs_bind; [now apply read_hist_s|]. intros q q' s4 s4' <- S4. now apply write_cur_s.
Qed.
Lemma get_entries_s e r s s' : sim s s' ->
  rs (fun x y => y = x /\ forall en, In en x -> en_defer en = false) (get_entries e r s) (get_entries e r s').
Proof.
  intros S. unfold get_entries. rewrite (sm_tabs _ _ S). destruct (get_table (rt_tabs s) e) as [arr|] eqn:E; [|constructor].
  eapply rs_bind; [now apply read_cur_s|]. intros c c' s1 s1' <- S1. destruct (nth_at c arr) eqn:En; constructor; auto.
  split; [reflexivity|]. intros en Hen. apply (sm_defer _ _ S e c l); [|exact Hen]. unfold tget. rewrite E. now rewrite <- nth_at_nth.
Qed.
Lemma try_entries_s r e : forall ens, (forall en, In en ens -> en_defer en = false) -> forall v s s', sim s s' ->
  rs (fun x y => y = x /\ fst x <> Deferred) (try_entries cb m ens r e v s) (try_entries cb m ens r e v s').
Proof.
  induction ens as [|en ens IH]; intros Hd v s s' S; [constructor; auto; split; [reflexivity|discriminate]|]. cbn [try_entries].
  rewrite (Hd en (or_introl eq_refl)). destruct (en_tr en); [|constructor].
  eapply rs_bind; [now apply execute_guard_s|]. intros [b v1] ? s1 s1' [-> _] S1. cbn [fst snd]. destruct b.
  - eapply (rs_bind eq); [now apply update_state_s|]. intros u u' s2 s2' _ S2.
    eapply rs_bind; [now apply execute_action_s|]. intros v2 ? s3 s3' [-> _] S3. constructor; auto. split; [reflexivity|discriminate].
  - apply IH; [|exact S1]. intros; apply Hd; now right.
Qed.
Lemma try_region_s r e v s s' : sim s s' ->
  rs (fun x y => y = x /\ fst x <> Some Deferred) (try_region cb m r e v s) (try_region cb m r e v s').
Proof.
  intros S. eapply rs_bind; [now apply get_entries_s|]. intros ens ? s1 s1' [-> Hd] S1.
  destruct ens as [|en ens]; [constructor; auto; split; [reflexivity|discriminate]|].
  eapply rs_bind; [now apply try_entries_s|]. intros tv ? s2 s2' [-> Ht] S2. constructor; auto. cbn. split; [reflexivity|congruence].
Qed.
Lemma region_loop_s e limit : forall fuel r agf ati v s s', sim s s' ->
  rs (fun x y => y = x /\ fst x <> PDeferred) (region_loop cb m fuel limit r agf ati e v s) (region_loop cb m fuel limit r agf ati e v s').
Proof.
  induction fuel as [|fuel IH]; intros r agf ati v s s' S; [constructor|]. cbn [region_loop].
  destruct (Nat.ltb r limit).
  - eapply rs_bind; [now apply try_region_s|]. intros [o v1] ? s1 s1' [-> Ho] S1. cbn [fst snd] in *.
    destruct o as [[| |]|]; try (now apply IH). congruence.
  - constructor; auto. split; [reflexivity|]. destruct ati, agf; discriminate.
Qed.
Lemma try_anonymous_s r : forall ens v s s', sim s s' ->
  rs (fun x y => y = x /\ snd x = v) (try_anonymous cb m ens r v s) (try_anonymous cb m ens r v s').
Proof.
  induction ens as [|en ens IH]; intros v s s' S; [constructor; auto|]. cbn [try_anonymous].
  destruct (en_tr en); [|constructor].
  eapply rs_bind; [now apply execute_guard_s|]. intros [b v1] ? s1 s1' [-> Ev] S1. cbn [fst snd] in *. rewrite (Ev eq_refl) in *. destruct b.
  - eapply (rs_bind eq); [now apply update_state_s|]. intros u u' s2 s2' _ S2.
    eapply rs_bind; [now apply execute_action_s|]. intros v2 ? s3 s3' [-> Ev2] S3. constructor; auto.
  - now apply IH.
Qed.
Lemma anonymous_region_s r v s s' : sim s s' ->
  rs (fun x y => y = x /\ snd x = v) (anonymous_region cb m r v s) (anonymous_region cb m r v s').
Proof.
  intros S. eapply rs_bind; [now apply get_entries_s|]. intros ens ? s1 s1' [-> Hd] S1.
  destruct ens as [|en ens]; [constructor; auto|].
  eapply rs_bind; [now apply try_anonymous_s|]. intros bv ? s2 s2' [-> Ht] S2. constructor; auto.
Qed.
Lemma anonymous_pass_s limit : forall fuel r agf s s', sim s s' ->
  rs (fun x y => y = fst x /\ snd x = vnone) (anonymous_pass cb m fuel limit r agf vnone s) (am_anonymous_pass cb m vnone fuel limit r agf s').
Proof.
  induction fuel as [|fuel IH]; intros r agf s s' S; [constructor|]. cbn [anonymous_pass am_anonymous_pass].
  destruct (Nat.ltb r limit); [|constructor; auto].
  eapply rs_bind; [now apply anonymous_region_s|]. intros [o v1] ? s1 s1' [-> Ho] S1. cbn [fst snd] in *. subst v1.
  destruct o; [now apply IH|]. constructor; auto.
Qed.
Lemma anonymous_loop_s rfuel : forall fuel s s', sim s s' ->
  rs eq (anonymous_loop cb m rfuel fuel vnone s) (am_anonymous_loop cb m vnone rfuel fuel s').
Proof.
  induction fuel as [|fuel IH]; intros s s' S; [constructor|]. cbn [anonymous_loop am_anonymous_loop].
  rewrite (current_regions_s s s' S). eapply rs_bind; [now apply anonymous_pass_s|].
  intros [o v1] ? s1 s1' [-> Ho] S1. cbn [fst snd] in *. subst v1. destruct o as [[|]|]; try (now constructor). now apply IH.
Qed.
Lemma process_anonymous_s fuel s s' : sim s s' ->
  rs eq (process_anonymous cb m vnone fuel s) (am_process_anonymous cb m vnone fuel s').
Proof.
  intros S. unfold process_anonymous, am_process_anonymous. destruct (has_anonymous m); [|now constructor]. now apply anonymous_loop_s.
Qed.
Lemma process_internal_s fuel e v s s' : sim s s' ->
  rs (fun x y => snd y = snd x /\ fst x <> PDeferred /\ (fst y = false <-> fst x = PInvalid))
     (process_event_internal cb m vnone fuel e v s) (am_process_internal cb m vnone fuel e v s').
Proof.
  intros S. unfold process_event_internal, am_process_internal. rewrite (current_regions_s s s' S).
  eapply rs_bind; [now apply region_loop_s|]. intros [p v1] ? s1 s1' [-> Hp] S1. cbn [fst snd] in *.
  destruct p; try congruence; try (constructor; [cbn; intuition congruence|exact S1]).
  eapply (rs_bind eq); [now apply process_anonymous_s|]. intros u u' s2 s2' _ S2. constructor; [cbn; intuition congruence|exact S2].
Qed.
Lemma process_deferred_s fuel s s' : sim s s' ->
  rs eq (process_deferred cb m vnone fuel s) (am_process_deferred cb m vnone fuel s').
Proof.
  intros S. unfold process_deferred, am_process_deferred. destruct (has_deferred m); [|now constructor].
  rewrite (ss_queue _ _ (sm_same _ _ S)), (sm_queue _ _ S). now constructor.
Qed.
Lemma call_handler_s e v s s' : sim s s' -> rs eq (call_handler cb m e v s) (call_handler cb m e v s').
Proof.
  intros S. unfold call_handler. destruct (cd_unexpected _); [|now constructor].
  eapply rs_bind; [now apply at_cur_s|]. intros c c' s1 s1' <- S1. rewrite (sm_htabs _ _ S1).
  destruct (get_table (rt_htabs s1) e) as [arr|]; [|constructor].
  destruct (nth_at c arr) as [[[o d]|]|]; [|constructor|now constructor].
  rewrite (alive_s s1 s1') by exact S1. destruct (alive s1 o); [|constructor].
  eapply rs_bind; [now apply invoke_s|]. intros a a' s2 s2' [-> _] S2. now constructor.
Qed.
Lemma process_event_s fuel e v s s' : sim s s' ->
  rs (fun x y => y = snd x) (process_event cb m vnone fuel e v s) (am_process_event cb m vnone fuel e v s').
Proof.
  intros S. unfold process_event, am_process_event. pose proof (events_same m Hc Hl e).
  destruct (in_dec ev_eq_dec e (events m)), (in_dec ev_eq_dec e (am_events m)); try tauto; [|constructor].
  eapply rs_bind; [now apply process_internal_s|]. intros [p v1] [b v1'] s1 s1' (E & Hp & Hb) S1. cbn [fst snd] in *. subst v1'.
  destruct p; try congruence.
  - destruct b; [exfalso; now destruct Hb as [_ Hb]; specialize (Hb eq_refl)|].
    change (call_handler cb m e v1 s1') with (call_handler cb m e v1 s1').
    pose proof (call_handler_s e v1 s1 s1' S1) as C. destruct C; cbn; constructor; auto.
  - destruct b; [|exfalso; now destruct Hb as [Hb _]; specialize (Hb eq_refl)].
    pose proof (process_deferred_s fuel s1 s1' S1) as D.
    assert (E : process_deferred cb m vnone fuel s1 = Done tt s1).
    { unfold process_deferred. rewrite (sm_queue _ _ S1). now destruct (has_deferred m). }
    rewrite E in D. inversion D; subst. now constructor.
  - destruct b; [|exfalso; now destruct Hb as [Hb _]; specialize (Hb eq_refl)].
    eapply (rs_bind eq); [now apply process_deferred_s|]. intros u u' s2 s2' _ S2. now constructor.
Qed.

Lemma q_is_s r p k s s' : sim s s' -> rs eq (q_is m r p k s) (q_is m r p k s').
Proof.
  intros S. eapply rs_bind; [now apply current_parent_s|]. intros c c' s1 s1' <- S1.
  destruct (N.eqb c (parent_idx m p)); [|now constructor].
  eapply rs_bind; [now apply current_state_s|]. intros q q' s2 s2' <- S2. now constructor.
Qed.
Lemma q_parent_is_s p s s' : sim s s' -> rs eq (q_parent_is m p s) (q_parent_is m p s').
Proof. intros S. eapply rs_bind; [now apply current_parent_s|]. intros c c' s1 s1' <- S1. now constructor. Qed.
Lemma status_s fuel s s' : sim s s' -> rs eq (status m fuel s) (status m fuel s').
Proof.
  intros S. unfold status. rewrite (current_regions_s s s' S). generalize (current_regions m s) 0. intros limit. revert s s' S.
  induction fuel as [|fuel IH]; intros s s' S r; [constructor|]. cbn [status_loop]. destruct (Nat.ltb r limit); [|now constructor].
  eapply rs_bind; [now apply read_cur_s|]. intros c c' s1 s1' <- S1.
  eapply rs_bind; [now apply current_parent_s|]. intros p p' s2 s2' <- S2.
  eapply rs_bind; [now apply current_state_s|]. intros q q' s3 s3' <- S3.
  eapply rs_bind; [now apply IH|]. intros l l' s4 s4' <- S4. now constructor.
Qed.

Lemma fill_no_defers d t t' : no_defers t -> fill_dispatch m d t = Some t' -> no_defers t'.
Proof.
  intros Hn H e k l en Hk Hen. rewrite fill_dispatch_pushes in H by exact Hc. apply pushes_spec in H. destruct H as (_ & _ & H & _).
  rewrite H in Hk. destruct (tget t e k) as [l0|] eqn:E; [|discriminate]. injection Hk as <-. apply in_app_iff in Hen. destruct Hen as [Hen|Hen].
  - apply in_rev, in_map_iff in Hen. destruct Hen as (o & <- & Ho). apply filter_In in Ho. destruct Ho as [Ho _].
    apply in_all_ops in Ho. destruct Ho as [(x & po & _ & _ & ->)|(x & e' & Hx & He & _)]; [reflexivity|].
    exfalso. exact (no_deferral m Hc Hl x e' Hx He).
  - eapply Hn; eauto.
Qed.
Lemma set_dependency_s d s s' : sim s s' -> rs eq (set_dependency m d s) (am_set_dependency m d s').
Proof.
  intros S. unfold set_dependency, am_set_dependency. pose proof (fill_same m Hc Hl d _ _ (sm_shape _ _ S) (sm_tabs _ _ S)) as F.
  destruct (fill_dispatch m d (rt_tabs s)) as [t|] eqn:E, (am_fill_dispatch m d (rt_tabs s')) as [t'|]; try contradiction; [|constructor].
  constructor; [reflexivity|]. destruct F as [F F2]. constructor; cbn; auto.
  - constructor; cbn; fields S; congruence.
  - now fields S.
  - now fields S.
  - eapply fill_no_defers; [|exact E]. now fields S.
Qed.
Lemma init_loop_s l : forall fuel r s s', sim s s' -> rs eq (init_loop fuel l r s) (init_loop fuel l r s').
Proof.
  induction fuel as [|fuel IH]; intros r s s' S; [constructor|]. cbn [init_loop]. destruct (Nat.ltb r (length l)); [|now constructor].
  destruct (nth_error l r); [|constructor]. eapply (rs_bind eq); [now apply write_cur_s|]. intros u u' s1 s1' _ S1. now apply IH.
Qed.
Lemma construct_s fuel d w : rs eq (construct m fuel d w) (am_construct m fuel d w).
Proof.
  unfold construct, am_construct. pose proof (handlers_same m Hc Hl d) as H.
  pose proof (fill_same m Hc Hl d _ _ (empty_tables_shape m) (empty_same m Hc Hl)) as F.
  assert (G : match (if cd_unexpected (lookup env root) then fill_handlers m d else Some []),
                    (if cd_unexpected (lookup env root) then am_fill_handlers m d else Some []) with
              | Some h, Some h' => same_map h h' | None, None => True | _, _ => False end).
  { destruct (cd_unexpected (lookup env root)); [exact H|]. intros e. reflexivity. }
  destruct (if cd_unexpected (lookup env root) then fill_handlers m d else Some []) as [h|],
           (if cd_unexpected (lookup env root) then am_fill_handlers m d else Some []) as [h'|]; try contradiction; [|constructor].
  destruct (fill_dispatch m d (empty_tables m)) as [t|] eqn:E, (am_fill_dispatch m d (am_empty_tables m)) as [t'|]; try contradiction; [|constructor].
  destruct F as [F F2]. cbv zeta.
  eapply (rs_bind eq); [|intros; now apply update_regions_s].
  unfold init_current_state. destruct (nth_at _ _); [|constructor]. apply init_loop_s. constructor; cbn; auto.
  - constructor; reflexivity.
  - eapply fill_no_defers; [|exact E]. intros e k l0 en Hk Hen. apply empty_tables_get in Hk. now subst l0.
Qed.
Lemma do_call_s fuel k s s' : without_set k -> sim s s' ->
  rs (answers_like k) (do_call cb m vnone fuel k s) (am_do_call cb m vnone fuel k s').
Proof.
  intros K S. destruct k; cbn [do_call am_do_call].
  - eapply rs_bind; [now apply process_event_s|]. intros a a' s1 s1' -> S1. now constructor.
  - eapply rs_bind; [now apply q_is_s|]. intros a a' s1 s1' <- S1. now constructor.
  - eapply rs_bind; [now apply q_parent_is_s|]. intros a a' s1 s1' <- S1. now constructor.
  - destruct K.
  - eapply (rs_bind eq); [now apply set_dependency_s|]. intros a a' s1 s1' _ S1. now constructor.
  - eapply rs_bind; [now apply status_s|]. intros a a' s1 s1' <- S1. now constructor.
Qed.
Lemma do_call_catch_s fuel k s s' : without_set k -> sim s s' ->
  rs (answers_like k) (do_call_catch cb m vnone fuel k s) (am_do_call_catch cb m vnone fuel k s').
Proof.
  intros K S. unfold do_call_catch, am_do_call_catch. destruct (do_call_s fuel k s s' K S); constructor; auto. now destruct k.
Qed.
Lemma run_s fuel : forall ks, (forall k, In k ks -> without_set k) -> forall s s', sim s s' ->
  rs (answers_alike ks) (run cb m vnone fuel ks s) (am_run cb m vnone fuel ks s').
Proof.
  induction ks as [|k ks IH]; intros K s s' S; [constructor; [constructor|exact S]|]. cbn [run am_run].
  eapply rs_bind; [apply do_call_catch_s; [apply K; now left|exact S]|]. intros o o' s1 s1' O S1.
  eapply rs_bind; [apply IH; [|exact S1]; intros; apply K; now right|]. intros os os' s2 s2' Os S2. constructor; [|exact S2]. now constructor.
Qed.
Lemma session_s fuel d w ks : (forall k, In k ks -> without_set k) ->
  rs (answers_alike ks) (session cb m vnone fuel d w ks) (am_session cb m vnone fuel d w ks).
Proof.
  intros K. unfold session, am_session. eapply rs_bind; [apply construct_s|]. intros u u' s s' _ S. now apply run_s.
Qed.
End Run.

Lemma session_alike {V W} (cb : cbfun V W) vnone env root m : compile env root = Some m -> alike env root -> none_has_no_data cb ->
  forall fuel d w ks, (forall k, In k ks -> without_set k) ->
  am_compile env root = Some m /\
  same_result (answers_alike ks) (session cb m vnone fuel d w ks) (am_session cb m vnone fuel d w ks).
Proof.
  intros Hm Hl Hn fuel d w ks K. split; [now apply am_compile_alike|].
  destruct (compile_comp _ _ _ Hm) as (Hc & He & Hr). rewrite <- He, <- Hr in Hl.
  destruct (session_s cb m vnone Hc Hl Hn fuel d w ks K) as [a a' s s' R S|x s s' S|u|]; constructor; auto; apply S.
Qed.
