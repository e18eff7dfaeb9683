(** Running the machine of a program and the machine of the program with more rows for
    one event side by side. *)

From Coq Require Import List Arith NArith Bool Lia.
From Verif Require Import Types Static Dispatch Runtime ListFacts IndexFacts Spec DispatchFacts FlattenFacts ProcessFacts Amalgam Extend ExtendFacts.
Import ListNotations.

Section Run.
Context {V W : Type}.
Variable cb : cbfun V W.
Variable e : ev.
Variable m m' : machine.
Variable vnone : V.
Hypothesis Hc : comp m.
Hypothesis Hc' : comp m'.
Hypothesis He : extends e (mc_env m) (mc_env m').
Hypothesis Hroot : mc_root m' = mc_root m.
Hypothesis Hflat : inserted (xtra e (mc_env m)) [] (mc_flat m) (mc_flat m').
Hypothesis Hnew : ~ In e (events m).
Hypothesis Hnone : e <> ENone.
Notation env := (mc_env m).
Notation env' := (mc_env m').
Notation root := (mc_root m).
Notation st := (rt V W).

Record sim (s s' : st) : Prop := mkSim {
  sm_same : same_state s s';
  sm_queue : forall k v, In (k, v) (rt_queue s) -> k <> e;
  sm_tabs : tsim e (rt_tabs s) (rt_tabs s');
  sm_htabs : hsim e (rt_htabs s) (rt_htabs s');
  sm_shape : shape m (rt_tabs s);
  sm_shape' : shape m' (rt_tabs s') }.
Inductive rs {A} : res V W A -> res V W A -> Prop :=
| rs_done a s s' : sim s s' -> rs (Done a s) (Done a s')
| rs_threw x s s' : sim s s' -> rs (Threw x s) (Threw x s')
| rs_undef u : rs (Undef u) (Undef u)
| rs_timeout : rs Timeout Timeout.
Lemma rs_bind {A B} (r r' : res V W A) (k k' : A -> st -> res V W B) :
  rs r r' -> (forall a s s', sim s s' -> rs (k a s) (k' a s')) -> rs (bind r k) (bind r' k').
Proof. intros [a s s' H|x s s' H|u|] Hk; cbn; auto; constructor; assumption. Qed.
Ltac fields S := destruct S as [[] ? ? ? ? ?].
Ltac simd S := constructor; [constructor; cbn; fields S; congruence|fields S; cbn; auto..].
Ltac step L := eapply rs_bind; [now apply L|].

Lemma invoke_s c a v s s' : sim s s' -> rs (invoke cb c a v s) (invoke cb c a v s').
Proof.
  intros S. unfold invoke. rewrite (ss_world _ _ (sm_same _ _ S)).
  destruct (cb c a v (rt_world s)) eqn:E; constructor; simd S.
Qed.
Lemma alive_s s s' o : sim s s' -> alive s' o = alive s o.
Proof. intros S. unfold alive. now rewrite (ss_live _ _ (sm_same _ _ S)). Qed.
Lemma execute_guard_s t k v s s' : sim s s' -> rs (execute_guard cb t k v s) (execute_guard cb t k v s').
Proof.
  intros S. unfold execute_guard. destruct (t_guard t); [now constructor|]. rewrite !(alive_s s s') by exact S.
  destruct (_ && _); [|constructor]. now apply invoke_s.
Qed.
Lemma set_live_s s s' o b : sim s s' -> sim (set_live s o b) (set_live s' o b).
Proof. intros S. unfold set_live. rewrite (ss_live _ _ (sm_same _ _ S)). simd S. Qed.
Lemma keep_s r r' : rs r r' -> rs (keep_payload r) (keep_payload r').
Proof. intros H. eapply rs_bind; [exact H|]. intros a s s' S. now constructor. Qed.
Lemma exec_body_s t k : forall b v s s', sim s s' -> rs (exec_body cb b t k v s) (exec_body cb b t k v s').
Proof.
  fix IH 1. intros b v s s' S. destruct b as [f|f|f|l]; cbn [exec_body].
  - apply keep_s. now apply invoke_s.
  - step invoke_s. intros a s1 s1' S1. constructor. now apply set_live_s.
  - rewrite (alive_s s s') by exact S. destruct (alive s (t_tgt t)); [|constructor].
    step invoke_s. intros a s1 s1' S1. now constructor.
  - revert v s s' S. induction l as [|b l IHl]; intros v s s' S; [now constructor|].
    eapply rs_bind; [exact (IH b v s s' S)|]. intros a s1 s1' S1. now apply IHl.
Qed.
Lemma exec_steps_s t k : forall l v s s', sim s s' -> rs (exec_steps cb l t k v s) (exec_steps cb l t k v s').
Proof.
  induction l as [|b l IHl]; intros v s s' S; [now constructor|]. cbn [exec_steps].
  eapply rs_bind; [|intros a s1 s1' S1; now apply IHl].
  destruct b; cbn [exec_step]; try (apply keep_s; now apply invoke_s). now apply exec_body_s.
Qed.
Lemma execute_action_s t k v s s' : sim s s' -> rs (execute_action cb t k v s) (execute_action cb t k v s').
Proof.
  intros S. unfold execute_action. destruct (t_act t); [|now constructor]. rewrite !(alive_s s s') by exact S.
  destruct (_ && _); [|constructor]. now apply exec_steps_s.
Qed.

Lemma read_cur_s s s' r : sim s s' -> rs (read_cur s r) (read_cur s' r).
Proof. intros S. unfold read_cur. rewrite (ss_cur _ _ (sm_same _ _ S)). destruct (nth_error (rt_cur s) r) as [[c|]|]; constructor; auto. Qed.
Lemma at_cur_s s s' r : sim s s' -> rs (at_cur s r) (at_cur s' r).
Proof. intros S. unfold at_cur. rewrite (ss_cur _ _ (sm_same _ _ S)). destruct (nth_error (rt_cur s) r) as [[c|]|]; constructor; auto. Qed.
Lemma write_cur_s s s' r c : sim s s' -> rs (write_cur s r c) (write_cur s' r c).
Proof.
  intros S. unfold write_cur. rewrite (ss_cur _ _ (sm_same _ _ S)). destruct (upd_nth _ _ _); constructor; auto. simd S.
Qed.
Lemma current_parent_s s s' : sim s s' -> rs (current_parent m s) (current_parent m' s').
Proof. intros S. unfold current_parent. rewrite (n_states_x e m m' Hroot Hflat). step read_cur_s. intros a s1 s1' S1. now constructor. Qed.
Lemma current_state_s s s' r : sim s s' -> rs (current_state m s r) (current_state m' s' r).
Proof. intros S. unfold current_state. rewrite (n_states_x e m m' Hroot Hflat). step at_cur_s. intros a s1 s1' S1. now constructor. Qed.
Lemma update_regions_s s s' : sim s s' -> rs (update_current_regions m s) (update_current_regions m' s').
Proof.
  intros S. unfold update_current_regions. rewrite (parallel_x e m m' He Hflat), (initial_table_x e m m' He Hroot Hflat).
  destruct (parallel m); [|now constructor].
  step current_parent_s. intros a s1 s1' S1. destruct (nth_at a (initial_table m)); constructor; auto. simd S1.
Qed.
Lemma current_regions_s s s' : sim s s' -> current_regions m' s' = current_regions m s.
Proof. intros S. unfold current_regions. now rewrite (ss_regions _ _ (sm_same _ _ S)), (parallel_x e m m' He Hflat). Qed.
Lemma write_hist_s s s' p r c : sim s s' -> rs (write_hist s p r c) (write_hist s' p r c).
Proof.
  intros S. unfold write_hist. rewrite (ss_hist _ _ (sm_same _ _ S)). destruct (nth_at p (rt_hist s)); [|constructor].
  destruct (upd_nth r _ l); [|constructor]. destruct (upd_at p _ _); constructor; auto. simd S.
Qed.
Lemma read_hist_s s s' p r : sim s s' -> rs (read_hist s p r) (read_hist s' p r).
Proof.
  intros S. unfold read_hist. rewrite (ss_hist _ _ (sm_same _ _ S)). destruct (nth_at p (rt_hist s)); [|constructor].
  destruct (nth_error l r); constructor; auto.
Qed.
Lemma update_state_s r en s s' : sim s s' -> rs (update_current_state m r en s) (update_current_state m' r en s').
Proof.
  intros S. unfold update_current_state. destruct (en_int en); [now constructor|].
  rewrite (history_x e m m' Hflat), (n_states_x e m m' Hroot Hflat).
  eapply rs_bind; [|intros; now apply update_regions_s].
  destruct (has_history m); [|now apply write_cur_s].
  step current_parent_s. intros p s1 s1' S1. step read_cur_s. intros c s2 s2' S2.
  step write_hist_s. intros u s3 s3' S3. destruct (en_hist en); [|now apply write_cur_s].
  step read_hist_s. intros q s4 s4' S4. now apply write_cur_s.
Qed.

Lemma get_entries_s {B} k r s s' (K K' : list entry -> st -> res V W B) : k <> e -> sim s s' ->
  (forall x y s s', cells x y -> sim s s' -> rs (K x s) (K' y s')) ->
  rs (bind (get_entries k r s) K) (bind (get_entries k r s') K').
Proof.
  intros Hk S H. unfold get_entries. destruct (sm_tabs _ _ S k Hk) as [T1 T2]. unfold tget in T2.
  destruct (get_table (rt_tabs s) k) as [arr|] eqn:E, (get_table (rt_tabs s') k) as [arr'|] eqn:E'; try contradiction; [|constructor].
  pose proof (read_cur_s s s' r S) as R. destruct R as [c s1 s1' S1| | |]; cbn [bind]; try (now constructor).
  specialize (T2 c). unfold nth_at. rewrite T1. destruct (N.ltb c (N.of_nat (length arr))); [|constructor].
  destruct (nth_error arr (N.to_nat c)), (nth_error arr' (N.to_nat c)); try contradiction; [|constructor]. cbn [bind]. now apply H.
Qed.
Lemma queue_s s s' k v : k <> e -> sim s s' -> sim (with_queue s (rt_queue s ++ [(k, v)])) (with_queue s' (rt_queue s' ++ [(k, v)])).
Proof.
  intros Hk S. constructor; [constructor; cbn; fields S; congruence|fields S; cbn; auto..].
  intros k0 v0 H. apply in_app_iff in H. destruct H as [H|[H|[]]]; [eauto|congruence].
Qed.
Lemma try_entries_same r k : k <> e -> forall ens v s s', sim s s' ->
  rs (try_entries cb m ens r k v s) (try_entries cb m' ens r k v s').
Proof.
  intros Hk. induction ens as [|en ens IH]; intros v s s' S; [now constructor|]. cbn [try_entries].
  destruct (en_defer en); [constructor; now apply queue_s|]. destruct (en_tr en); [|constructor].
  step execute_guard_s. intros [b v1] s1 s1' S1. cbn [fst snd]. destruct b; [|now apply IH].
  step update_state_s. intros u s2 s2' S2. step execute_action_s. intros v2 s3 s3' S3. now constructor.
Qed.
Lemma try_entries_s r k : k <> e -> forall x y, cells x y -> forall v s s', sim s s' ->
  rs (try_entries cb m x r k v s) (try_entries cb m' y r k v s').
Proof.
  intros Hk x y [->|(p & a & b & -> & ->)]; [now apply try_entries_same|].
  induction p as [|en p IH]; intros v s s' S; cbn [app try_entries].
  - cbn [defer_entry en_defer]. constructor. now apply queue_s.
  - destruct (en_defer en); [constructor; now apply queue_s|]. destruct (en_tr en); [|constructor].
    step execute_guard_s. intros [g v1] s1 s1' S1. cbn [fst snd]. destruct g; [|now apply IH].
    step update_state_s. intros u s2 s2' S2. step execute_action_s. intros v2 s3 s3' S3. now constructor.
Qed.
Lemma cells_nil x y : cells x y -> x = [] <-> y = [].
Proof. intros [->|([|c p] & a & b & -> & ->)]; [tauto| |]; split; discriminate. Qed.
Lemma try_region_s r k v s s' : k <> e -> sim s s' -> rs (try_region cb m r k v s) (try_region cb m' r k v s').
Proof.
  intros Hk S. apply get_entries_s; auto. intros x y s1 s1' C S1. pose proof (cells_nil x y C) as N.
  pose proof (try_entries_s r k Hk x y C v s1 s1' S1) as T.
  destruct x as [|x0 x], y as [|y0 y]; try (now constructor).
  - destruct N as [N _]. now specialize (N eq_refl).
  - destruct N as [_ N]. now specialize (N eq_refl).
  - eapply rs_bind; [exact T|]. intros a s2 s2' S2. now constructor.
Qed.
Lemma region_loop_s k limit : k <> e -> forall fuel r agf ati v s s', sim s s' ->
  rs (region_loop cb m fuel limit r agf ati k v s) (region_loop cb m' fuel limit r agf ati k v s').
Proof.
  intros Hk. induction fuel as [|fuel IH]; intros r agf ati v s s' S; [constructor|]. cbn [region_loop].
  destruct (Nat.ltb r limit); [|now constructor].
  step try_region_s. intros [o v1] s1 s1' S1. cbn [fst snd] in *. destruct o as [[| |]|]; try (now apply IH). now constructor.
Qed.
Lemma try_anonymous_same r : forall ens v s s', sim s s' -> rs (try_anonymous cb m ens r v s) (try_anonymous cb m' ens r v s').
Proof.
  induction ens as [|en ens IH]; intros v s s' S; [now constructor|]. cbn [try_anonymous]. destruct (en_tr en); [|constructor].
  step execute_guard_s. intros [b v1] s1 s1' S1. cbn [fst snd]. destruct b; [|now apply IH].
  step update_state_s. intros u s2 s2' S2. step execute_action_s. intros v2 s3 s3' S3. now constructor.
Qed.
Lemma try_anonymous_s r : forall x y, cells x y -> forall v s s', sim s s' -> rs (try_anonymous cb m x r v s) (try_anonymous cb m' y r v s').
Proof.
  intros x y [->|(p & a & b & -> & ->)]; [now apply try_anonymous_same|].
  induction p as [|en p IH]; intros v s s' S; cbn [app try_anonymous].
  - cbn [defer_entry en_tr]. constructor.
  - destruct (en_tr en); [|constructor].
    step execute_guard_s. intros [g v1] s1 s1' S1. cbn [fst snd]. destruct g; [|now apply IH].
    step update_state_s. intros u s2 s2' S2. step execute_action_s. intros v2 s3 s3' S3. now constructor.
Qed.
Lemma anonymous_region_s r v s s' : sim s s' -> rs (anonymous_region cb m r v s) (anonymous_region cb m' r v s').
Proof.
  intros S. apply get_entries_s; auto. intros x y s1 s1' C S1. pose proof (cells_nil x y C) as N.
  pose proof (try_anonymous_s r x y C v s1 s1' S1) as T.
  destruct x as [|x0 x], y as [|y0 y]; try (now constructor).
  - destruct N as [N _]. now specialize (N eq_refl).
  - destruct N as [_ N]. now specialize (N eq_refl).
  - eapply rs_bind; [exact T|]. intros a s2 s2' S2. now constructor.
Qed.
Lemma anonymous_pass_s limit : forall fuel r agf v s s', sim s s' ->
  rs (anonymous_pass cb m fuel limit r agf v s) (anonymous_pass cb m' fuel limit r agf v s').
Proof.
  induction fuel as [|fuel IH]; intros r agf v s s' S; [constructor|]. cbn [anonymous_pass].
  destruct (Nat.ltb r limit); [|now constructor].
  step anonymous_region_s. intros [o v1] s1 s1' S1. cbn [fst snd] in *. destruct o; [now apply IH|]. now constructor.
Qed.
Lemma anonymous_loop_s rfuel : forall fuel v s s', sim s s' ->
  rs (anonymous_loop cb m rfuel fuel v s) (anonymous_loop cb m' rfuel fuel v s').
Proof.
  induction fuel as [|fuel IH]; intros v s s' S; [constructor|]. cbn [anonymous_loop].
  rewrite (current_regions_s s s' S). step anonymous_pass_s.
  intros [o v1] s1 s1' S1. cbn [fst snd] in *. destruct o as [[|]|]; try (now constructor). now apply IH.
Qed.
Lemma process_anonymous_s fuel s s' : sim s s' -> rs (process_anonymous cb m vnone fuel s) (process_anonymous cb m' vnone fuel s').
Proof.
  intros S. unfold process_anonymous. rewrite (anonymous_x e m m' Hflat Hnone). destruct (has_anonymous m); [|now constructor]. now apply anonymous_loop_s.
Qed.
Lemma process_internal_s fuel k v s s' : k <> e -> sim s s' ->
  rs (process_event_internal cb m vnone fuel k v s) (process_event_internal cb m' vnone fuel k v s').
Proof.
  intros Hk S. unfold process_event_internal. rewrite (current_regions_s s s' S).
  step region_loop_s. intros [p v1] s1 s1' S1. cbn [fst snd] in *. destruct p; try (now constructor).
  step process_anonymous_s. intros u s2 s2' S2. now constructor.
Qed.
Lemma process_deferred_s fuel s s' : sim s s' -> rs (process_deferred cb m vnone fuel s) (process_deferred cb m' vnone fuel s').
Proof.
  intros S. unfold process_deferred. rewrite (has_deferred_x e m m' He Hflat). destruct (has_deferred m); [|now constructor].
  rewrite (ss_queue _ _ (sm_same _ _ S)). destruct (rt_queue s) as [|[k v] q] eqn:E; [now constructor|].
  eapply rs_bind; [apply process_internal_s|intros u s1 s1' S1; now constructor].
  - apply (sm_queue _ _ S k v). rewrite E. now left.
  - constructor; [constructor; cbn; fields S; congruence|fields S; cbn; auto..].
    intros k0 v0 H. apply (sm_queue0 k0 v0). rewrite E. now right.
Qed.
Lemma call_handler_s k v s s' : k <> e -> sim s s' -> rs (call_handler cb m k v s) (call_handler cb m' k v s').
Proof.
  intros Hk S. unfold call_handler. rewrite Hroot, (unexpected_x e env env' He). destruct (cd_unexpected _); [|now constructor].
  step at_cur_s. intros c s1 s1' S1. rewrite (sm_htabs _ _ S1 k Hk).
  destruct (get_table (rt_htabs s1) k) as [arr|]; [|constructor].
  destruct (nth_at c arr) as [[[o d]|]|]; [|constructor|now constructor].
  rewrite (alive_s s1 s1') by exact S1. destruct (alive s1 o); [|constructor].
  apply keep_s. now apply invoke_s.
Qed.
Lemma process_event_s fuel k v s s' : k <> e -> sim s s' ->
  rs (process_event cb m vnone fuel k v s) (process_event cb m' vnone fuel k v s').
Proof.
  intros Hk S. unfold process_event. pose proof (events_x e m m' He Hroot Hflat Hnew k Hk).
  destruct (in_dec ev_eq_dec k (events m)), (in_dec ev_eq_dec k (events m')); try tauto; [|constructor].
  step process_internal_s. intros [p v1] s1 s1' S1. cbn [fst snd] in *. destruct p; try (now constructor).
  - step call_handler_s. intros v2 s2 s2' S2. now constructor.
  - step process_deferred_s. intros u s2 s2' S2. now constructor.
Qed.

Lemma parent_idx_s p : parent_idx m' p = parent_idx m p.
Proof. unfold parent_idx. now rewrite (parents_x e m m' Hflat). Qed.
Lemma state_idx_s p : state_idx m' p = state_idx m p.
Proof. unfold state_idx. now rewrite (states_x e m m' Hroot Hflat). Qed.
Lemma q_is_s r p k s s' : sim s s' -> rs (q_is m r p k s) (q_is m' r p k s').
Proof.
  intros S. unfold q_is. rewrite parent_idx_s, state_idx_s. step current_parent_s. intros c s1 s1' S1.
  destruct (N.eqb c (parent_idx m p)); [|now constructor]. step current_state_s. intros q s2 s2' S2. now constructor.
Qed.
Lemma q_parent_is_s p s s' : sim s s' -> rs (q_parent_is m p s) (q_parent_is m' p s').
Proof. intros S. unfold q_parent_is. rewrite parent_idx_s. step current_parent_s. intros c s1 s1' S1. now constructor. Qed.
Lemma set_state_s r p k s s' : sim s s' -> rs (set_state m r p k s) (set_state m' r p k s').
Proof.
  intros S. unfold set_state. rewrite (states_x e m m' Hroot Hflat), (parents_x e m m' Hflat), (combined_x e m m' Hroot Hflat), (ss_cur _ _ (sm_same _ _ S)).
  destruct (in_dec _ _ _); [|constructor]. destruct (in_dec _ _ _); [|constructor]. destruct (upd_nth _ _ _); constructor; auto. simd S.
Qed.
Lemma status_s fuel s s' : sim s s' -> rs (status m fuel s) (status m' fuel s').
Proof.
  intros S. unfold status. rewrite (current_regions_s s s' S). generalize (current_regions m s) 0. intros limit. revert s s' S.
  induction fuel as [|fuel IH]; intros s s' S r; [constructor|]. cbn [status_loop]. destruct (Nat.ltb r limit); [|now constructor].
  step read_cur_s. intros c s1 s1' S1. step current_parent_s. intros p s2 s2' S2. step current_state_s. intros q s3 s3' S3.
  step IH. intros l s4 s4' S4. now constructor.
Qed.
Lemma set_dependency_s d s s' : sim s s' -> rs (set_dependency m d s) (set_dependency m' d s').
Proof.
  intros S. unfold set_dependency.
  pose proof (fill_tsim e m m' Hc Hc' He Hroot Hflat Hnew d _ _ (sm_shape _ _ S) (sm_shape' _ _ S) (sm_tabs _ _ S)) as F.
  destruct (fill_dispatch m d (rt_tabs s)) as [t|], (fill_dispatch m' d (rt_tabs s')) as [t'|]; try contradiction; [|constructor].
  constructor. destruct F as (F1 & F2 & F3). constructor; [constructor; cbn; fields S; congruence|fields S; cbn; auto..].
Qed.
Lemma init_loop_s l : forall fuel r s s', sim s s' -> rs (init_loop fuel l r s) (init_loop fuel l r s').
Proof.
  induction fuel as [|fuel IH]; intros r s s' S; [constructor|]. cbn [init_loop]. destruct (Nat.ltb r (length l)); [|now constructor].
  destruct (nth_error l r); [|constructor]. step write_cur_s. intros u s1 s1' S1. now apply IH.
Qed.
Lemma construct_s fuel d w : rs (construct (V := V) m fuel d w) (construct m' fuel d w).
Proof.
  unfold construct. pose proof (handlers_x e m m' Hc Hc' He Hroot Hflat Hnew d) as H.
  pose proof (fill_tsim e m m' Hc Hc' He Hroot Hflat Hnew d _ _ (empty_tables_shape m) (empty_tables_shape m')
    (empty_x e m m' He Hroot Hflat Hnew)) as F.
  rewrite Hroot, (unexpected_x e env env' He).
  assert (G : match (if cd_unexpected (lookup env root) then fill_handlers m d else Some []),
                    (if cd_unexpected (lookup env root) then fill_handlers m' d else Some []) with
              | Some h, Some h' => hsim e h h' | None, None => True | _, _ => False end).
  { destruct (cd_unexpected (lookup env root)); [exact H|]. intros k Hk. reflexivity. }
  destruct (if cd_unexpected (lookup env root) then fill_handlers m d else Some []) as [h|],
           (if cd_unexpected (lookup env root) then fill_handlers m' d else Some []) as [h'|]; try contradiction; [|constructor].
  destruct (fill_dispatch m d (empty_tables m)) as [t|] eqn:E, (fill_dispatch m' d (empty_tables m')) as [t'|]; try contradiction; [|constructor].
  destruct F as (F1 & F2 & F3). cbv zeta.
  eapply rs_bind; [|intros; now apply update_regions_s].
  unfold init_current_state. rewrite Hroot, parent_idx_s, (initial_table_x e m m' He Hroot Hflat).
  destruct (nth_at _ _); [|constructor]. apply init_loop_s. constructor; cbn; auto.
  - constructor; cbn; try reflexivity; [now rewrite (max_initials_x e m m' He Hflat)|].
    rewrite (states_x e m m' Hroot Hflat). apply filter_ext. intros x. apply (defctor_x e env env' He).
Qed.
Lemma do_call_s fuel k s s' : does_not_send e k -> sim s s' -> rs (do_call cb m vnone fuel k s) (do_call cb m' vnone fuel k s').
Proof.
  intros K S. destruct k; cbn [do_call does_not_send] in *.
  - step process_event_s. intros a s1 s1' S1. now constructor.
  - step q_is_s. intros a s1 s1' S1. now constructor.
  - step q_parent_is_s. intros a s1 s1' S1. now constructor.
  - step set_state_s. intros a s1 s1' S1. now constructor.
  - step set_dependency_s. intros a s1 s1' S1. now constructor.
  - step status_s. intros a s1 s1' S1. now constructor.
Qed.
Lemma run_s fuel : forall ks, (forall k, In k ks -> does_not_send e k) -> forall s s', sim s s' ->
  rs (run cb m vnone fuel ks s) (run cb m' vnone fuel ks s').
Proof.
  induction ks as [|k ks IH]; intros K s s' S; [now constructor|]. cbn [run].
  eapply rs_bind with (r := do_call_catch cb m vnone fuel k s).
  - unfold do_call_catch. destruct (do_call_s fuel k s s' (K k (or_introl eq_refl)) S); constructor; auto.
  - intros o s1 s1' S1. eapply rs_bind; [apply IH; [|exact S1]; intros; apply K; now right|]. intros os s2 s2' S2. now constructor.
Qed.
Lemma session_s fuel d w ks : (forall k, In k ks -> does_not_send e k) ->
  rs (session cb m vnone fuel d w ks) (session cb m' vnone fuel d w ks).
Proof. intros K. unfold session. eapply rs_bind; [apply construct_s|]. intros u s s' S. now apply run_s. Qed.
End Run.

Lemma session_extends {V W} (cb : cbfun V W) vnone e env env' root m m' :
  compile env root = Some m -> compile env' root = Some m' -> extends e env env' -> e <> ENone -> ~ event_of env root e ->
  forall fuel d w ks, (forall k, In k ks -> does_not_send e k) ->
  same_result eq (session cb m vnone fuel d w ks) (session cb m' vnone fuel d w ks).
Proof.
  intros Hm Hm' He Hn He0 fuel d w ks K. pose proof (compile_x _ _ _ _ _ _ Hm Hm' He) as Hf.
  destruct (compile_comp _ _ _ Hm) as (Hc & E & R). destruct (compile_comp _ _ _ Hm') as (Hc' & E' & R').
  assert (Hnew : ~ In e (events m)).
  { intros H. apply He0. now apply (events_iff env root m Hm). }
  subst env env'. 
  destruct (session_s cb e m m' vnone Hc Hc' He (eq_trans R' (eq_sym R)) Hf Hnew Hn fuel d w ks K); constructor; auto; apply H.
Qed.
