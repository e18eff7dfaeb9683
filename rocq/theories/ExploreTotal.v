(** When exploration comes to an end. *)

From Coq Require Import List Arith NArith Bool Lia.
From Verif Require Import Types Static Dispatch Runtime ListFacts DispatchFacts IndexFacts Data DataUse Script Explore ExploreUse.
Import ListNotations.

(** * Bounds of a machine's states and of the calls of user code *)

(** Calls of user code in an action, a functor, an entry. *)
Fixpoint body_calls (b : abody) : nat :=
  match b with
  | AChain l => (fix go (l : list abody) : nat := match l with [] => 0 | b :: l' => body_calls b + go l' end) l
  | _ => 1
  end.
Definition step_calls (x : step) : nat := match x with StAct b => body_calls b | _ => 1 end.
Fixpoint steps_calls (l : list step) : nat := match l with [] => 0 | x :: l' => step_calls x + steps_calls l' end.
Definition entry_calls (en : entry) : nat :=
  S (match en_tr en with Some t => match t_act t with Some l => steps_calls l | None => 0 end | None => 0 end).
Fixpoint entries_calls (l : list entry) : nat := match l with [] => 0 | en :: l' => entry_calls en + entries_calls l' end.

Section Within.
Context {V W : Type}.
Variable cb : cbfun V W.
Variable m : machine.
Notation st := (rt V W).
Variable tabs : tables.

Definition entries_of (e : ev) (ens : list entry) : Prop :=
  exists arr c, get_table tabs e = Some arr /\ nth_at c arr = Some ens.
(** Indices, objects and events that can occur; how much one region can do. *)
Variable U : list N.
Variable LU : list sref.
Variable EU : list ev.
Variable RU : list nat.
Variable shape : list nat.
Variable M n : nat.
Hypothesis H_to : forall e ens en, entries_of e ens -> In en ens -> In (en_to en) U.
Hypothesis H_tgt : forall e ens en t, entries_of e ens -> In en ens -> en_tr en = Some t -> In (t_tgt t) LU.
Hypothesis H_calls : forall e ens, entries_of e ens -> entries_calls ens <= M.
Hypothesis H_regions : forall p l, nth_at p (initial_table m) = Some l -> In (length l) RU.

Definition index_ok (o : option N) : Prop := match o with Some c => In c U | None => True end.
Record within (s : st) : Prop := {
  wi_tabs : rt_tabs s = tabs;
  wi_len : length (rt_cur s) = n;
  wi_cur : Forall index_ok (rt_cur s);
  wi_shape : map (@length N) (rt_hist s) = shape;
  wi_hist : Forall (Forall (fun c => In c U)) (rt_hist s);
  wi_queue : Forall (fun x => In (fst x) EU) (rt_queue s);
  wi_regions : In (rt_regions s) RU;
  wi_nodup : NoDup (rt_live s);
  wi_live : incl (rt_live s) LU }.
(** What a call of user code uses up, at most one of it. *)
Variable ph : W -> nat.
Hypothesis ph_ret : forall c a v w b v' w', cb c a v w = Ret b v' w' -> ph w <= S (ph w').
Hypothesis ph_raise : forall c a v w k v' w', cb c a v w = Raise k v' w' -> ph w <= S (ph w').
(** From a state within the bounds to a state within the bounds, with at most [B] calls of
    user code; what is returned satisfies [Q]. *)
Definition stays {A} (B : nat) (Q : A -> Prop) (s : st) (r : res V W A) : Prop :=
  within s ->
  match r with
  | Done a s' => within s' /\ ph (rt_world s) <= ph (rt_world s') + B /\ Q a
  | Threw _ s' => within s' /\ ph (rt_world s) <= ph (rt_world s') + B
  | _ => True
  end.
Definition any {A} (_ : A) : Prop := True.
Lemma stay_bind {A B} b1 b2 (Q : A -> Prop) (Q' : B -> Prop) s (r : res V W A) k : stays b1 Q s r ->
  (forall a s', Q a -> stays b2 Q' s' (k a s')) -> stays (b1 + b2) Q' s (bind r k).
Proof.
  intros H Hk Hs. specialize (H Hs). destruct r as [a s1|x s1|u|]; cbn [bind]; auto.
  - destruct H as (Hw & Hb & Ha). specialize (Hk a s1 Ha Hw). destruct (k a s1); auto.
    + destruct Hk as (A1 & A2 & A3). split; [exact A1|split; [lia|exact A3]].
    + destruct Hk as (A1 & A2). split; auto; lia.
  - destruct H as (Hw & Hb). split; auto; lia.
Qed.
Lemma stay_le {A} b b' (Q Q' : A -> Prop) s (r : res V W A) : b <= b' -> (forall a, Q a -> Q' a) -> stays b Q s r -> stays b' Q' s r.
Proof.
  intros L I H Hs. specialize (H Hs). destruct r; auto.
  - destruct H as (A1 & A2 & A3). split; [exact A1|split; [lia|auto]].
  - destruct H as (A1 & A2). split; auto; lia.
Qed.
Lemma stay_pure {A} b (Q : A -> Prop) (a : A) (s : st) : Q a -> stays b Q s (Done a s).
Proof. intros Ha Hs. split; [exact Hs|split; [lia|exact Ha]]. Qed.
Lemma stay_out {A} b (Q : A -> Prop) (s : st) : stays b Q s (Threw XOutOfRange s).
Proof. intros Hs. split; auto; lia. Qed.
Lemma stay_undef {A} b (Q : A -> Prop) (s : st) u : stays b Q s (Undef u).
Proof. intros Hs. exact I. Qed.
Lemma stay_time {A} b (Q : A -> Prop) (s : st) : stays b Q s Timeout.
Proof. intros Hs. exact I. Qed.
Hint Resolve stay_pure stay_out stay_undef stay_time : core.

Lemma invoke_w c a v (s : st) : stays 1 any s (invoke cb c a v s).
Proof.
  intros Hs. unfold invoke. destruct (cb c a v (rt_world s)) eqn:E; (split; [destruct Hs; now constructor|]); cbn; [split; [|exact I]|]; [apply ph_ret in E|apply ph_raise in E]; lia.
Qed.
Lemma keep_w b s (r : res V W (bool * V)) : stays b any s r -> stays b any s (keep_payload r).
Proof. intros H. unfold keep_payload. rewrite <- (Nat.add_0_r b). eapply stay_bind; [exact H|]. intros. apply stay_pure. exact I. Qed.
Lemma drop_w v b s (r : res V W (bool * V)) : stays b any s r -> stays b any s (drop_payload v r).
Proof. intros H. unfold drop_payload. rewrite <- (Nat.add_0_r b). eapply stay_bind; [exact H|]. intros. apply stay_pure. exact I. Qed.
Lemma guard_w t e v (s : st) : stays 1 any s (execute_guard cb t e v s).
Proof. unfold execute_guard. destruct (t_guard t); [apply stay_pure; exact I|]. destruct (_ && _); auto using invoke_w. Qed.
Lemma live_w (s : st) o b : In o LU -> within s -> within (set_live s o b).
Proof.
  intros Ho [A1 A2 A3 A4 A5 A6 A7 A8 A9]. constructor; auto; cbn; destruct b.
  - destruct (in_dec sref_eq_dec o (rt_live s)); [assumption|]. now constructor.
  - now apply NoDup_filter.
  - destruct (in_dec sref_eq_dec o (rt_live s)); [assumption|]. intros x [<-|Hx]; auto.
  - intros x Hx. apply filter_In in Hx. apply A9, Hx.
Qed.
Lemma body_w b : forall t e v (s : st), In (t_tgt t) LU -> stays (body_calls b) any s (exec_body cb b t e v s).
Proof.
  induction b as [f|f|f|l F] using abody_all; intros t e v s Ht; cbn [exec_body].
  - apply keep_w, invoke_w.
  - change (body_calls (ACreate f)) with (1 + 0). eapply stay_bind; [apply invoke_w|]. intros [b v'] s' _ Hs. split; [now apply live_w|]. split; [cbn; lia|exact I].
  - destruct (alive s (t_tgt t)); [apply drop_w, invoke_w|auto].
  - revert v s. cbn [body_calls]. induction F as [|b l Hb F IH]; intros v s; [apply stay_pure; exact I|].
    eapply stay_bind; [now apply Hb|]. intros v' s' _. apply IH.
Qed.
Lemma steps_w t e l : In (t_tgt t) LU -> forall v (s : st), stays (steps_calls l) any s (exec_steps cb l t e v s).
Proof.
  intros Ht. induction l as [|x l IH]; intros v s; cbn [exec_steps steps_calls]; [apply stay_pure; exact I|].
  eapply stay_bind; [|intros v' s' _; apply IH]. destruct x; cbn [exec_step step_calls]; try (apply keep_w, invoke_w). now apply body_w.
Qed.
Lemma action_w en t e v (s : st) : en_tr en = Some t -> In (t_tgt t) LU -> stays (Nat.pred (entry_calls en)) any s (execute_action cb t e v s).
Proof.
  intros He Ht. unfold execute_action, entry_calls. rewrite He. cbn [Nat.pred]. destruct (t_act t); [|apply stay_pure; exact I].
  destruct (_ && _); auto. now apply steps_w.
Qed.
Definition index_in (c : N) : Prop := In c U.
Lemma read_w (s : st) r : stays 0 index_in s (read_cur s r).
Proof.
  intros Hs. unfold read_cur. destruct (nth_error (rt_cur s) r) as [[c|]|] eqn:E; auto. split; [exact Hs|]. split; [lia|].
  apply nth_error_In in E. pose proof (wi_cur _ Hs) as F. rewrite Forall_forall in F. exact (F _ E).
Qed.
Lemma at_w (s : st) r : stays 0 index_in s (at_cur s r).
Proof.
  intros Hs. unfold at_cur. destruct (nth_error (rt_cur s) r) as [[c|]|] eqn:E; auto.
  - split; [exact Hs|]. split; [lia|]. apply nth_error_In in E. pose proof (wi_cur _ Hs) as F. rewrite Forall_forall in F. exact (F _ E).
  - split; [exact Hs|]. lia.
Qed.
Lemma upd_forall {A} (P : A -> Prop) (a : A) : P a -> forall l i l', upd_nth i (fun _ => a) l = Some l' -> Forall P l -> Forall P l' /\ length l' = length l.
Proof.
  intros Pa. induction l as [|x l IH]; intros i l' E F; [destruct i; discriminate|]. inversion F; subst. destruct i as [|i]; cbn in E.
  - injection E as <-. split; [now constructor|reflexivity].
  - destruct (upd_nth i (fun _ => a) l) as [l2|] eqn:E2; [|discriminate]. injection E as <-. destruct (IH _ _ E2 H2) as [F2 L2].
    split; [now constructor|]. cbn. now rewrite L2.
Qed.
Lemma upd_shape (a : list N) : forall l i b l', nth_error l i = Some b -> length a = length b -> upd_nth i (fun _ => a) l = Some l' ->
  map (@length N) l' = map (@length N) l.
Proof.
  induction l as [|x l IH]; intros i b l' Eb Hl E; [destruct i; discriminate|]. destruct i as [|i]; cbn in *.
  - injection Eb as ->. injection E as <-. cbn. now rewrite Hl.
  - destruct (upd_nth i (fun _ => a) l) as [l2|] eqn:E2; [|discriminate]. injection E as <-. cbn. now rewrite (IH _ _ _ Eb Hl E2).
Qed.
Lemma write_w (s : st) r c : In c U -> stays 0 any s (write_cur s r c).
Proof.
  intros Hc Hs. unfold write_cur. destruct (upd_nth r _ (rt_cur s)) as [l|] eqn:E; [|exact I]. destruct Hs as [A1 A2 A3 A4 A5 A6 A7 A8 A9].
  destruct (upd_forall index_ok (Some c) Hc _ _ _ E A3) as [F L]. split; [constructor; auto; cbn; congruence|]. split; [cbn; lia|exact I].
Qed.
Lemma parent_w (s : st) : stays 0 any s (current_parent m s).
Proof. unfold current_parent. change 0 with (0 + 0). eapply stay_bind; [apply read_w|]. intros; apply stay_pure; exact I. Qed.
Lemma state_w (s : st) r : stays 0 any s (current_state m s r).
Proof. unfold current_state. change 0 with (0 + 0). eapply stay_bind; [apply at_w|]. intros; apply stay_pure; exact I. Qed.
Lemma update_regions_w (s : st) : stays 0 any s (update_current_regions m s).
Proof.
  unfold update_current_regions. destruct (parallel m); [|apply stay_pure; exact I]. change 0 with (0 + 0). eapply stay_bind; [apply parent_w|]. intros a s' _ Hs.
  destruct (nth_at a (initial_table m)) eqn:E; [|exact I]. destruct Hs. split; [constructor; auto; cbn; eauto|]. split; [cbn; lia|exact I].
Qed.
Lemma write_hist_w (s : st) p r c : In c U -> stays 0 any s (write_hist s p r c).
Proof.
  intros Hc Hs. unfold write_hist. destruct (nth_at p (rt_hist s)) as [l|] eqn:E; [|exact I]. destruct (upd_nth r _ l) as [l'|] eqn:E1; [|exact I].
  destruct (upd_at p _ (rt_hist s)) as [h'|] eqn:E2; [|exact I]. rewrite nth_at_nth in E. rewrite upd_at_upd in E2.
  destruct Hs as [A1 A2 A3 A4 A5 A6 A7 A8 A9]. pose proof A5 as F. rewrite Forall_forall in F. pose proof (F _ (nth_error_In _ _ E)) as Fl.
  destruct (upd_forall (fun c => In c U) c Hc _ _ _ E1 Fl) as [F1 L1]. destruct (upd_forall _ l' F1 _ _ _ E2 A5) as [F2 L2].
  split; [constructor; auto; cbn; rewrite (upd_shape l' _ _ l _ E L1 E2); exact A4|]. split; [cbn; lia|exact I].
Qed.
Lemma read_hist_w (s : st) p r : stays 0 index_in s (read_hist s p r).
Proof.
  intros Hs. unfold read_hist. destruct (nth_at p (rt_hist s)) as [l|] eqn:E; [|exact I]. destruct (nth_error l r) as [c|] eqn:E1; [|exact I].
  rewrite nth_at_nth in E. split; [exact Hs|]. split; [lia|]. pose proof (wi_hist _ Hs) as F. rewrite Forall_forall in F.
  pose proof (F _ (nth_error_In _ _ E)) as Fl. rewrite Forall_forall in Fl. exact (Fl _ (nth_error_In _ _ E1)).
Qed.
Lemma update_state_w r en (s : st) : In (en_to en) U -> stays 0 any s (update_current_state m r en s).
Proof.
  intros Ht. unfold update_current_state. destruct (en_int en); [apply stay_pure; exact I|].
  change 0 with (0 + 0). eapply (stay_bind 0 0 any); [|intros a s' _; apply update_regions_w]. destruct (has_history m); [|now apply write_w].
  change 0 with (0 + 0). eapply stay_bind; [apply parent_w|]. intros p s1 _. change 0 with (0 + 0). eapply stay_bind; [apply read_w|]. intros c s2 Hc.
  change 0 with (0 + 0). eapply stay_bind; [now apply write_hist_w|]. intros _ s3 _. destruct (en_hist en); [|now apply write_w].
  change 0 with (0 + 0). eapply stay_bind; [apply read_hist_w|]. intros x s4 Hx. now apply write_w.
Qed.
Lemma entries_w e r (s : st) : stays 0 (entries_of e) s (get_entries e r s).
Proof.
  intros Hs. unfold get_entries. rewrite (wi_tabs _ Hs). destruct (get_table tabs e) as [arr|] eqn:E; [|exact I]. unfold read_cur.
  destruct (nth_error (rt_cur s) r) as [[c|]|]; cbn [bind]; auto. destruct (nth_at c arr) as [l|] eqn:E1; [|exact I].
  split; [exact Hs|]. split; [lia|]. now exists arr, c.
Qed.
Definition in_table (e : ev) (ens : list entry) : Prop := exists all, entries_of e all /\ incl ens all.
Lemma fired_w {A} (x : A) en t e v r (s : st) : en_tr en = Some t -> In (en_to en) U -> In (t_tgt t) LU ->
  stays (Nat.pred (entry_calls en)) any s (bind (update_current_state m r en s) (fun _ s => bind (execute_action cb t e v s) (fun v' s => Done (x, v') s))).
Proof.
  intros He Hu Ht. change (Nat.pred (entry_calls en)) with (0 + Nat.pred (entry_calls en)). eapply stay_bind; [now apply update_state_w|]. intros _ s1 _.
  rewrite <- (Nat.add_0_r (Nat.pred _)). eapply stay_bind; [now apply action_w|]. intros v' s2 _. apply stay_pure. exact I.
Qed.
Lemma try_entries_w r e ens : In e EU -> in_table e ens -> forall v (s : st), stays (entries_calls ens) any s (try_entries cb m ens r e v s).
Proof.
  intros He. induction ens as [|en ens IH]; intros (all & Ha & Hi) v s; cbn [try_entries entries_calls]; [apply stay_pure; exact I|].
  destruct (en_defer en).
  { intros Hs. destruct Hs. split; [|cbn; split; [lia|exact I]]. constructor; auto. cbn. apply Forall_app. split; [assumption|]. now repeat constructor. }
  destruct (en_tr en) as [t|] eqn:Et; [|auto].
  replace (entry_calls en + entries_calls ens) with (1 + (Nat.pred (entry_calls en) + entries_calls ens)) by (unfold entry_calls; lia).
  eapply stay_bind; [apply guard_w|]. intros [b v'] s1 _. cbn [fst snd]. destruct b.
  - eapply stay_le; [| |apply fired_w; [exact Et|eapply H_to; [exact Ha|apply Hi; now left]|eapply H_tgt; [exact Ha|apply Hi; now left|exact Et]]]; [lia|auto].
  - eapply stay_le; [| |apply IH; exists all; split; [exact Ha|intros y Hy; apply Hi; now right]]; [lia|auto].
Qed.
Lemma try_region_w r e v (s : st) : In e EU -> stays M any s (try_region cb m r e v s).
Proof.
  intros He. unfold try_region. change M with (0 + M). eapply stay_bind; [apply entries_w|]. intros l s1 Hl. destruct l as [|en l]; [apply stay_pure; exact I|].
  rewrite <- (Nat.add_0_r M). eapply stay_bind; [|intros x s2 _; apply stay_pure; exact I].
  eapply stay_le; [apply (H_calls e), Hl|intros a Q; exact Q|]. apply try_entries_w; [exact He|]. exists (en :: l). split; [exact Hl|now intros y].
Qed.
Lemma region_loop_w fuel limit e : In e EU -> forall r agf ati v (s : st), stays (fuel * M) any s (region_loop cb m fuel limit r agf ati e v s).
Proof.
  intros He. induction fuel as [|f IH]; intros r agf ati v s; cbn [region_loop]; [auto|].
  destruct (Nat.ltb r limit); [|apply stay_pure; exact I]. cbn [Nat.mul]. eapply stay_bind; [now apply try_region_w|]. intros [t v'] s1 _.
  cbn [fst snd]. destruct t as [[| |]|]; try apply IH. apply stay_pure. exact I.
Qed.
Lemma try_anonymous_w r ens : in_table ENone ens -> forall v (s : st), stays (entries_calls ens) any s (try_anonymous cb m ens r v s).
Proof.
  induction ens as [|en ens IH]; intros (all & Ha & Hi) v s; cbn [try_anonymous entries_calls]; [apply stay_pure; exact I|].
  destruct (en_tr en) as [t|] eqn:Et; [|auto].
  replace (entry_calls en + entries_calls ens) with (1 + (Nat.pred (entry_calls en) + entries_calls ens)) by (unfold entry_calls; lia).
  eapply stay_bind; [apply guard_w|]. intros [b v'] s1 _. cbn [fst snd]. destruct b.
  - eapply stay_le; [| |apply fired_w; [exact Et|eapply H_to; [exact Ha|apply Hi; now left]|eapply H_tgt; [exact Ha|apply Hi; now left|exact Et]]]; [lia|auto].
  - eapply stay_le; [| |apply IH; exists all; split; [exact Ha|intros y Hy; apply Hi; now right]]; [lia|auto].
Qed.
Lemma anonymous_region_w r v (s : st) : stays M any s (anonymous_region cb m r v s).
Proof.
  unfold anonymous_region. change M with (0 + M). eapply stay_bind; [apply entries_w|]. intros l s1 Hl. destruct l as [|en l]; [apply stay_pure; exact I|].
  rewrite <- (Nat.add_0_r M). eapply stay_bind; [|intros x s2 _; apply stay_pure; exact I].
  eapply stay_le; [apply (H_calls ENone), Hl|intros a Q; exact Q|]. apply try_anonymous_w. exists (en :: l). split; [exact Hl|now intros y].
Qed.
Lemma anonymous_pass_w fuel limit : forall r agf v (s : st), stays (fuel * M) any s (anonymous_pass cb m fuel limit r agf v s).
Proof.
  induction fuel as [|f IH]; intros r agf v s; cbn [anonymous_pass]; [auto|].
  destruct (Nat.ltb r limit); [|apply stay_pure; exact I]. cbn [Nat.mul]. eapply stay_bind; [apply anonymous_region_w|]. intros [t v'] s1 _.
  cbn [fst snd]. destruct t as [b|]; [apply IH|]. apply stay_pure. exact I.
Qed.
Lemma anonymous_loop_w rfuel fuel : forall v (s : st), stays (fuel * (rfuel * M)) any s (anonymous_loop cb m rfuel fuel v s).
Proof.
  induction fuel as [|f IH]; intros v s; cbn [anonymous_loop]; [auto|]. cbn [Nat.mul].
  eapply stay_bind; [apply anonymous_pass_w|]. intros [t v'] s1 _. cbn [fst snd]. destruct t as [[|]|]; try apply IH; apply stay_pure; exact I.
Qed.
Variable vnone : V.
Lemma anonymous_w fuel (s : st) : stays (fuel * (fuel * M)) any s (process_anonymous cb m vnone fuel s).
Proof. unfold process_anonymous. destruct (has_anonymous m); [apply anonymous_loop_w|apply stay_pure; exact I]. Qed.
Definition internal_bound (fuel : nat) : nat := fuel * M + fuel * (fuel * M).
Lemma internal_w fuel e v (s : st) : In e EU -> stays (internal_bound fuel) any s (process_event_internal cb m vnone fuel e v s).
Proof.
  intros He. unfold process_event_internal, internal_bound. eapply stay_bind; [now apply region_loop_w|]. intros [p v'] s1 _. cbn [fst].
  destruct p; try (apply stay_pure; exact I). rewrite <- (Nat.add_0_r (fuel * _)). eapply stay_bind; [apply anonymous_w|]. intros; apply stay_pure; exact I.
Qed.
Lemma deferred_w fuel (s : st) : stays (internal_bound fuel) any s (process_deferred cb m vnone fuel s).
Proof.
  unfold process_deferred. destruct (has_deferred m); [|apply stay_pure; exact I]. destruct (rt_queue s) as [|[e v] q] eqn:E; [apply stay_pure; exact I|].
  rewrite <- (Nat.add_0_r (internal_bound fuel)). intros Hs. pose proof (wi_queue _ Hs) as F. rewrite E in F. inversion F; subst. cbn [fst] in *.
  assert (Hq : within (with_queue s q)) by (destruct Hs; constructor; auto).
  refine (stay_bind _ _ any any (with_queue s q) _ _ (internal_w fuel e v (with_queue s q) H1) _ Hq). intros; apply stay_pure; exact I.
Qed.
Lemma handler_w e v (s : st) : stays 1 any s (call_handler cb m e v s).
Proof.
  unfold call_handler. destruct (cd_unexpected _); [|apply stay_pure; exact I]. change 1 with (0 + 1). eapply stay_bind; [apply at_w|]. intros c s1 _.
  destruct (get_table (rt_htabs s1) e) as [arr|]; [|auto]. destruct (nth_at c arr) as [[[o d]|]|]; auto.
  destruct (alive s1 o); [apply keep_w, invoke_w|auto].
Qed.
Definition call_bound (fuel : nat) : nat := internal_bound fuel + (internal_bound fuel + 1).
Lemma process_w fuel e v (s : st) : In e EU -> stays (call_bound fuel) any s (process_event cb m vnone fuel e v s).
Proof.
  intros He. unfold process_event, call_bound. destruct (in_dec _ _ _); [|auto]. eapply stay_bind; [now apply internal_w|]. intros [p v'] s1 _. cbn [fst snd].
  destruct p; try (apply stay_pure; exact I).
  - apply (stay_le (1 + 0) _ any any); [lia|auto|]. eapply stay_bind; [apply handler_w|]. intros; apply stay_pure; exact I.
  - apply (stay_le (internal_bound fuel + 0) _ any any); [lia|auto|]. eapply stay_bind; [apply deferred_w|]. intros; apply stay_pure; exact I.
Qed.
Lemma status_loop_w fuel limit : forall r (s : st), stays 0 any s (status_loop m fuel limit r s).
Proof.
  induction fuel as [|f IH]; intros r s; cbn [status_loop]; [auto|]. destruct (Nat.ltb r limit); [|apply stay_pure; exact I].
  change 0 with (0 + 0). eapply stay_bind; [apply read_w|]. intros c s1 _. change 0 with (0 + 0). eapply stay_bind; [apply parent_w|]. intros p s2 _.
  change 0 with (0 + 0). eapply stay_bind; [apply state_w|]. intros q s3 _. change 0 with (0 + 0). eapply stay_bind; [apply IH|]. intros; apply stay_pure; exact I.
Qed.
(** Calls whose events and places are among the possible ones. *)
Definition call_in (k : call V) : Prop :=
  match k with
  | KProcess e _ => In e EU
  | KSet _ p q => In (combined_idx m p q) U
  | KSetDep _ => False
  | _ => True
  end.
Lemma do_call_w fuel k (s : st) : call_in k -> stays (call_bound fuel) any s (do_call cb m vnone fuel k s).
Proof.
  intros Hk. destruct k; cbn [do_call call_in] in *.
  - rewrite <- (Nat.add_0_r (call_bound fuel)). eapply stay_bind; [now apply process_w|]. intros; apply stay_pure; exact I.
  - apply (stay_le 0 _ any any); [lia|auto|]. change 0 with (0 + 0). eapply (stay_bind 0 0 any); [|intros; apply stay_pure; exact I].
    unfold q_is. change 0 with (0 + 0). eapply stay_bind; [apply parent_w|]. intros c s1 _. destruct (N.eqb _ _); [|apply stay_pure; exact I].
    change 0 with (0 + 0). eapply stay_bind; [apply state_w|]. intros; apply stay_pure; exact I.
  - apply (stay_le 0 _ any any); [lia|auto|]. change 0 with (0 + 0). eapply (stay_bind 0 0 any); [|intros; apply stay_pure; exact I].
    unfold q_parent_is. change 0 with (0 + 0). eapply stay_bind; [apply parent_w|]. intros; apply stay_pure; exact I.
  - apply (stay_le 0 _ any any); [lia|auto|]. change 0 with (0 + 0). eapply (stay_bind 0 0 any); [|intros; apply stay_pure; exact I].
    unfold set_state. destruct (in_dec _ _ _); [|auto]. destruct (in_dec _ _ _); [|auto]. destruct (upd_nth _ _ _) as [l|] eqn:E; [|auto]. intros Hs.
    destruct Hs as [A1 A2 A3 A4 A5 A6 A7 A8 A9]. destruct (upd_forall index_ok (Some _) Hk _ _ _ E A3) as [F L].
    split; [constructor; auto; cbn; congruence|]. split; [cbn; lia|exact I].
  - destruct Hk.
  - apply (stay_le 0 _ any any); [lia|auto|]. change 0 with (0 + 0). eapply (stay_bind 0 0 any); [apply status_loop_w|]. intros; apply stay_pure; exact I.
Qed.
Lemma catch_w fuel k (s : st) : call_in k -> stays (call_bound fuel) any s (do_call_catch cb m vnone fuel k s).
Proof.
  intros Hk Hs. pose proof (do_call_w fuel k s Hk Hs) as H. unfold do_call_catch. destruct (do_call cb m vnone fuel k s); auto.
  destruct H. split; [assumption|split; [assumption|exact I]].
Qed.
Lemma run_w fuel ks : (forall k, In k ks -> call_in k) -> forall (s : st) outs s', within s -> run cb m vnone fuel ks s = Done outs s' -> within s'.
Proof.
  induction ks as [|k ks IH]; intros Hk s outs s' Hs E; cbn [run] in E; [injection E as _ <-; exact Hs|].
  pose proof (catch_w fuel k s (Hk k (or_introl eq_refl)) Hs) as H. destruct (do_call_catch cb m vnone fuel k s) as [o s1| | |]; cbn [bind] in E; try discriminate.
  destruct (run cb m vnone fuel ks s1) as [os s2| | |] eqn:E2; cbn [bind] in E; try discriminate. injection E as _ <-.
  apply (IH (fun k' Hk' => Hk k' (or_intror Hk')) s1 os s2); [apply H|exact E2].
Qed.
End Within.

(** * Lists over a finite set *)
Fixpoint lists_of {A} (n : nat) (U : list A) : list (list A) :=
  match n with 0 => [[]] | S n' => flat_map (fun l => map (fun a => a :: l) U) (lists_of n' U) end.
Fixpoint lists_to {A} (n : nat) (U : list A) : list (list A) :=
  match n with 0 => [[]] | S n' => lists_of (S n') U ++ lists_to n' U end.
Fixpoint lists_like (shape : list nat) (U : list N) : list (list (list N)) :=
  match shape with [] => [[]] | n :: shape' => flat_map (fun l => map (fun a => a :: l) (lists_of n U)) (lists_like shape' U) end.
Lemma lists_of_in {A} (U : list A) l : Forall (fun a => In a U) l -> In l (lists_of (length l) U).
Proof.
  induction 1; cbn [length lists_of]; [now left|]. apply in_flat_map. exists l. split; [assumption|]. apply in_map_iff. now exists x.
Qed.
Lemma lists_to_in {A} (U : list A) n : forall l, Forall (fun a => In a U) l -> length l <= n -> In l (lists_to n U).
Proof.
  induction n as [|n IH]; intros l F L; cbn [lists_to].
  - destruct l; [now left|cbn in L; lia].
  - apply in_or_app. destruct (Nat.eq_dec (length l) (S n)) as [E|E]; [left; rewrite <- E; now apply lists_of_in|]. right. apply IH; [assumption|lia].
Qed.
Lemma lists_like_in (U : list N) l : Forall (Forall (fun c => In c U)) l -> In l (lists_like (map (@length N) l) U).
Proof.
  induction 1; cbn [map lists_like]; [now left|]. apply in_flat_map. exists l. split; [assumption|]. apply in_map_iff. exists x. split; [reflexivity|]. now apply lists_of_in.
Qed.


(** * Bounds of the sessions of a machine *)
Definition all_entries (tabs : tables) : list entry := flat_map (fun x => concat (snd x)) tabs.
Definition set_index (m : machine) (k : call unit) : list N := match k with KSet _ p q => [combined_idx m p q] | _ => [] end.
Definition call_event (k : call unit) : list ev := match k with KProcess e _ => [e] | _ => [] end.
Definition entry_target (en : entry) : list sref := match en_tr en with Some t => [t_tgt t] | None => [] end.
Definition indices {W} (m : machine) (calls : list (call unit)) (s0 : rt unit W) : list N :=
  map en_to (all_entries (rt_tabs s0)) ++ flat_map (set_index m) calls ++ flat_map (fun o => match o with Some c => [c] | None => [] end) (rt_cur s0) ++ concat (rt_hist s0).
Definition objects {W} (s0 : rt unit W) : list sref := rt_live s0 ++ flat_map entry_target (all_entries (rt_tabs s0)).
Definition region_counts {W} (m : machine) (s0 : rt unit W) : list nat := rt_regions s0 :: map (@length N) (initial_table m).
(** Every configuration within the bounds with a queue no longer than [qb]. *)
Definition configs {W} (m : machine) (calls : list (call unit)) (s0 : rt unit W) (qb : nat) : list config :=
  flat_map (fun cur => flat_map (fun hist => flat_map (fun q => flat_map (fun r => map (mkConfig cur hist q r)
    (lists_to (length (objects s0)) (objects s0))) (region_counts m s0))
    (lists_to qb (flat_map call_event calls))) (lists_like (map (@length N) (rt_hist s0)) (indices m calls s0)))
    (lists_of (length (rt_cur s0)) (None :: map Some (indices m calls s0))).
Definition within0 {W W0} (m : machine) (calls : list (call unit)) (s0 : rt unit W0) : rt unit W -> Prop :=
  within (rt_tabs s0) (indices m calls s0) (objects s0) (flat_map call_event calls) (region_counts m s0) (map (@length N) (rt_hist s0)) (length (rt_cur s0)).

Lemma within_in {W W0} m calls (s0 : rt unit W0) (s : rt unit W) qb : within0 m calls s0 s -> length (rt_queue s) <= qb -> In (config_of s) (configs m calls s0 qb).
Proof.
  intros [A1 A2 A3 A4 A5 A6 A7 A8 A9] Hq. unfold configs, config_of. apply in_flat_map. exists (rt_cur s). split.
  { rewrite <- A2. apply lists_of_in. eapply Forall_impl; [|exact A3]. intros [c|] H; [right; apply in_map_iff; now exists c|now left]. }
  apply in_flat_map. exists (rt_hist s). split; [rewrite <- A4; now apply lists_like_in|].
  apply in_flat_map. exists (map fst (rt_queue s)). split.
  { apply lists_to_in; [|now rewrite map_length]. rewrite Forall_map. exact A6. }
  apply in_flat_map. exists (rt_regions s). split; [exact A7|]. apply in_map_iff. exists (rt_live s). split; [reflexivity|].
  apply lists_to_in; [now apply Forall_forall|]. now apply NoDup_incl_length.
Qed.
Lemma entries_calls_app a b : entries_calls (a ++ b) = entries_calls a + entries_calls b.
Proof. induction a; cbn; lia. Qed.
Lemma cell_part tabs e ens : entries_of tabs e ens -> incl ens (all_entries tabs) /\ entries_calls ens <= entries_calls (all_entries tabs).
Proof.
  intros (arr & c & E & E1). rewrite nth_at_nth in E1. apply nth_error_In in E1. unfold all_entries.
  assert (Hc : incl ens (concat arr) /\ entries_calls ens <= entries_calls (concat arr)).
  { clear -E1. induction arr as [|x arr IH]; [destruct E1|]. cbn [concat]. rewrite entries_calls_app. destruct E1 as [->|E1].
    - split; [apply incl_appl, incl_refl|lia].
    - destruct (IH E1). split; [now apply incl_appr|lia]. }
  destruct Hc as [Hi Hl]. induction tabs as [|[e' a] tabs IH]; [discriminate|]. cbn [get_table flat_map snd] in *. rewrite entries_calls_app. destruct (ev_eq_dec e e').
  - injection E as ->. split; [now apply incl_appl|lia].
  - destruct (IH E). split; [now apply incl_appr|lia].
Qed.
Section Bounds.
Context {W W0 : Type}.
Variable m : machine.
Variable calls : list (call unit).
Hypothesis Hs : existsb is_set_dep calls = false.
Variable s0 : rt unit W0.
Notation U := (indices m calls s0).
Lemma to_in e ens en : entries_of (rt_tabs s0) e ens -> In en ens -> In (en_to en) U.
Proof. intros H Hi. apply in_or_app. left. apply in_map. now apply (cell_part _ _ _ H). Qed.
Lemma tgt_in e ens en t : entries_of (rt_tabs s0) e ens -> In en ens -> en_tr en = Some t -> In (t_tgt t) (objects s0).
Proof.
  intros H Hi Ht. apply in_or_app. right. apply in_flat_map. exists en. split; [now apply (cell_part _ _ _ H)|]. unfold entry_target. rewrite Ht. now left.
Qed.
Lemma regions_in p l : nth_at p (initial_table m) = Some l -> In (length l) (region_counts m s0).
Proof. intros H. rewrite nth_at_nth in H. apply nth_error_In in H. right. now apply in_map. Qed.
Lemma call_within k : In k calls -> call_in m U (flat_map call_event calls) k.
Proof.
  intros Hk. destruct k; cbn [call_in]; auto.
  - apply in_flat_map. eexists. split; [exact Hk|now left].
  - apply in_or_app. right. apply in_or_app. left. apply in_flat_map. eexists. split; [exact Hk|now left].
  - apply (no_set_dep _ Hs) in Hk. discriminate.
Qed.
Definition calls_bound (fuel : nat) : nat := call_bound (entries_calls (all_entries (rt_tabs s0))) fuel.
Lemma run_within (cb : cbfun unit W) fuel ks (s : rt unit W) outs s' : (forall k, In k ks -> In k calls) ->
  within0 m calls s0 s -> run cb m tt fuel ks s = Done outs s' -> within0 m calls s0 s'.
Proof.
  intros Hk. apply (run_w cb m (rt_tabs s0) U (objects s0) (flat_map call_event calls) (region_counts m s0) (map (@length N) (rt_hist s0))
    (entries_calls (all_entries (rt_tabs s0))) (length (rt_cur s0)) to_in tgt_in (fun e ens H => proj2 (cell_part _ e ens H)) regions_in (fun _ => 0)).
  - intros; lia.
  - intros; lia.
  - intros k H. now apply call_within, Hk.
Qed.
End Bounds.
Lemma start_within {W W'} m calls (s : rt unit W) (w : W') : rt_queue s = [] -> NoDup (rt_live s) -> within0 m calls s (bare_from 0 s w).
Proof.
  intros Hq Hn. constructor; cbn; auto.
  - apply Forall_forall. intros [c|] H; [|exact I]. cbn. unfold indices. rewrite !in_app_iff. right. right. left. apply in_flat_map. exists (Some c). split; [exact H|now left].
  - apply Forall_forall. intros l Hl. apply Forall_forall. intros c Hc. unfold indices. rewrite !in_app_iff. right. right. right. apply in_concat. eauto.
  - rewrite Hq. constructor.
  - now apply incl_appl, incl_refl.
Qed.

(** No call uses more answers than its bound. *)
Definition answers_left (w : option (list reply)) : nat := match w with Some p => S (length p) | None => 0 end.
Lemma attempt_short {W0} m fuel htabs calls (s0 : rt unit W0) c k p : existsb is_set_dep calls = false -> In k calls ->
  within0 m calls s0 (resume (rt_tabs s0) htabs c (Some p)) ->
  match attempt m fuel (rt_tabs s0) htabs c k p with Done _ s => rt_world s = None -> length p < calls_bound s0 fuel | _ => True end.
Proof.
  intros Hs Hk Hw. unfold attempt.
  assert (H : stays (rt_tabs s0) (indices m calls s0) (objects s0) (flat_map call_event calls) (region_counts m s0) (map (@length N) (rt_hist s0)) (length (rt_cur s0))
    answers_left (calls_bound s0 fuel) any (resume (rt_tabs s0) htabs c (Some p)) (do_call_catch reading m tt fuel k (resume (rt_tabs s0) htabs c (Some p)))).
  { apply (catch_w reading m); auto.
    - apply to_in.
    - apply tgt_in.
    - apply (fun e ens H => proj2 (cell_part _ e ens H)).
    - apply regions_in.
    - intros c0 a v [[|[b0|n0] l]|] b v' w' E; inversion E; subst; cbn; lia.
    - intros c0 a v [[|[b0|n0] l]|] b v' w' E; inversion E; subst; cbn; lia.
    - now apply call_within. }
  specialize (H Hw). destruct (do_call_catch _ _ _ _ _ _) as [o s|x s|u|]; auto. intros E. destruct H as (_ & H & _). rewrite E in H. cbn in H. lia.
Qed.
Lemma ends_total m fuel tabs htabs c k B : (forall p, match attempt m fuel tabs htabs c k p with Done _ s => rt_world s = None -> length p < B | Undef _ => True | _ => False end) ->
  forall depth p, B <= length p + depth -> exists l, ends m fuel tabs htabs depth c k p = Some l.
Proof.
  intros H. induction depth as [|depth IH]; intros p Hp; cbn [ends]; specialize (H p) as Hq; destruct (attempt m fuel tabs htabs c k p) as [o s|x s|u|]; try contradiction; eauto;
    destruct (rt_world s) as [r|]; eauto; [specialize (Hq eq_refl); lia|].
  destruct (IH (p ++ [Say true])) as [a ->]; [rewrite app_length; cbn; lia|]. destruct (IH (p ++ [Say false])) as [b ->]; [rewrite app_length; cbn; lia|].
  destruct (IH (p ++ [Fail 0])) as [e ->]; [rewrite app_length; cbn; lia|]. eauto.
Qed.
Lemma steps_total m fuel tabs htabs depth c ks : (forall k, In k ks -> exists l, ends m fuel tabs htabs depth c k [] = Some l) -> exists l, steps_by m fuel tabs htabs depth c ks = Some l.
Proof.
  induction ks as [|k ks IH]; intros H; cbn [steps_by]; eauto. destruct (H k (or_introl eq_refl)) as [a ->]. destruct IH as [b ->]; [intros; apply H; now right|]. eauto.
Qed.
Lemma fresh_nodup l : forall seen, NoDup (fresh seen l) /\ forall n, In n (fresh seen l) -> ~ In n seen.
Proof.
  induction l as [|x l IH]; intros seen; cbn [fresh]; [split; [constructor|intros n []]|]. destruct (in_dec node_eq_dec x seen) as [i|i]; [apply IH|].
  destruct (IH (x :: seen)) as [A B]. split.
  - constructor; [|exact A]. intros H. apply (B x H). now left.
  - intros n [<-|H]; [exact i|]. intros Hn. apply (B n H). now right.
Qed.
(** If everything found is in a finite set, exploration comes to an end. *)
Lemma close_total m fuel tabs htabs depth ks (R : option config -> Prop) all : (forall n, R n -> In n all) ->
  (forall n, R n -> exists ns, steps m fuel tabs htabs depth ks n = Some ns /\ forall n', In n' ns -> R n') ->
  forall rounds seen todo, NoDup seen -> incl todo seen -> (forall n, In n seen -> R n) -> length all + length todo <= rounds + length seen ->
  exists l, close m fuel tabs htabs rounds depth ks seen todo = Some l.
Proof.
  intros Hall Hst. induction rounds as [|rounds IH]; intros seen todo Hn Hi HR Hb; destruct todo as [|n todo]; cbn [close]; eauto.
  - assert (length seen <= length all) by (apply NoDup_incl_length; [exact Hn|intros x Hx; auto]). cbn in Hb. lia.
  - destruct (Hst n) as (ns & -> & Hns); [apply HR, Hi; now left|]. destruct (fresh_nodup ns seen) as [A B]. apply IH.
    + apply NoDup_app_intro; auto. intros x Hx Hf. now apply (B x Hf).
    + intros x Hx. apply in_app_or in Hx as [Hx|Hx]; apply in_or_app; [left; apply Hi; now right|now right].
    + intros x Hx. apply in_app_or in Hx as [Hx|Hx]; [now apply HR|]. apply Hns. eapply fresh_in, Hx.
    + rewrite !app_length. cbn in Hb. lia.
Qed.

(** What a session starts with. *)
Lemma construct_start {W} m fuel d (w : W) s : comp m -> construct (V:=unit) m fuel d w = Done tt s -> rt_queue s = [] /\ NoDup (rt_live s).
Proof.
  intros Hm. unfold construct. destruct (if cd_unexpected _ then _ else _) as [h|]; [|discriminate]. destruct (fill_dispatch _ _ _) as [t|]; [|discriminate].
  unfold init_current_state. destruct (nth_at _ _) as [l|]; [|discriminate].
  set (s1 := mkRt _ _ _ _ _ _ _ _ _). assert (H1 : rt_queue s1 = [] /\ NoDup (rt_live s1)) by (split; [reflexivity|now apply NoDup_filter, states_NoDup]).
  assert (Hi : forall f r (s s' : rt unit W), rt_queue s = [] /\ NoDup (rt_live s) -> init_loop f l r s = Done tt s' -> rt_queue s' = [] /\ NoDup (rt_live s')).
  { clear. induction f as [|f IH]; intros r s s' H; cbn [init_loop]; [discriminate|]. destruct (Nat.ltb _ _); [|intros [= <-]; exact H].
    destruct (nth_error l r) as [c|]; [|discriminate]. unfold write_cur. destruct (upd_nth _ _ _); cbn [bind]; [|discriminate]. now apply IH. }
  destruct (init_loop fuel l 0 s1) as [[] s2| | |] eqn:E; cbn [bind]; try discriminate. pose proof (Hi _ _ _ _ H1 E) as H2. clear -H2.
  unfold update_current_regions, current_parent, read_cur. destruct (parallel m); [|intros [= <-]; exact H2].
  destruct (nth_error (rt_cur s2) 0) as [[c|]|]; cbn [bind]; try discriminate. destruct (nth_at _ _); [|discriminate]. intros [= <-]. exact H2.
Qed.

(** * Exploration ends exactly if all sessions end and the queue is bounded *)
Definition bounded_sessions (m : machine) (fuel : nat) (d : dep) (calls : list (call unit)) (bound : nat) : Prop :=
  forall script ks, (forall k, In k ks -> In k calls) ->
  match session scripted m tt fuel d script ks with
  | Done _ s => length (rt_queue s) <= bound
  | Undef _ => True
  | _ => False
  end.
Section Ends.
Variable m : machine.
Variable fuel : nat.
Variable d : dep.
Variable calls : list (call unit).
Hypothesis Hs : existsb is_set_dep calls = false.
Hypothesis Hm : comp m.

Theorem explore_total bound : bounded_sessions m fuel d calls bound -> exists depth rounds l, explore m fuel depth rounds d calls = Some l.
Proof.
  intros HB. unfold explore. rewrite Hs. pose proof (construct_s (V := unit) (W := unit) (X := list reply) m fuel d tt) as C. unfold built in C.
  pose proof (HB [] [] (fun k H => match H with end)) as H0. unfold session in H0. rewrite C in H0.
  destruct (construct m fuel d tt) as [[] s0|x s|u|] eqn:E; cbn [bind] in H0; try contradiction; [|now exists 0, 0, [None]].
  destruct (construct_start _ _ _ _ _ Hm E) as [Hq Hn].
  set (all := None :: map Some (configs m calls s0 bound)). set (R := reached m fuel d calls (rt_tabs s0) (rt_htabs s0)).
  assert (HR : forall c, R (Some c) -> exists s : rt unit (list reply), within0 m calls s0 s /\ c = config_of s /\ length (rt_queue s) <= bound).
  { intros c (ks & script & Hks & Hr). pose proof (HB script ks Hks) as Hb. unfold session in *. rewrite C in *. cbn [bind] in *.
    destruct (run scripted m tt fuel ks (bare_from 0 s0 script)) as [outs s|x s|u|] eqn:Er; try contradiction; [|discriminate].
    destruct Hr as (Ec & _ & _). injection Ec as ->. exists s. split; [|now split]. eapply run_within; [exact Hs|exact Hks| |exact Er]. now apply start_within. }
  assert (Hall : forall n, R n -> In n all).
  { intros [c|] H; [|now left]. destruct (HR c H) as (s & A & -> & B). right. apply in_map. now apply within_in. }
  set (B := calls_bound s0 fuel). exists B, (length all), (match close m fuel (rt_tabs s0) (rt_htabs s0) (length all) B calls [Some (config_of s0)] [Some (config_of s0)] with Some l => l | None => [] end).
  destruct (close_total m fuel (rt_tabs s0) (rt_htabs s0) B calls R all Hall) with (rounds := length all) (seen := [Some (config_of s0)]) (todo := [Some (config_of s0)]) as [l ->]; auto.
  - intros n Hr. destruct n as [c|]; cbn [steps]; [|exists []; split; [reflexivity|intros n' []]].
    destruct (steps_total m fuel (rt_tabs s0) (rt_htabs s0) B c calls) as [ns Ens].
    { intros k Hk. apply (ends_total m fuel (rt_tabs s0) (rt_htabs s0) c k B); [|cbn; lia]. intros p.
      destruct (HR c Hr) as (s & Hw & -> & _).
      assert (Hw' : within0 m calls s0 (resume (rt_tabs s0) (rt_htabs s0) (config_of s) (Some p))).
      { destruct Hw. constructor; auto. cbn. rewrite map_map. rewrite Forall_map. assumption. }
      pose proof (attempt_short m fuel (rt_htabs s0) calls s0 (config_of s) k p Hs Hk Hw') as Sh.
      destruct (reached_call m fuel d calls Hs (rt_tabs s0) (rt_htabs s0) (config_of s) k p Hr Hk) as (ks & script & Hks & H).
      destruct (attempt m fuel (rt_tabs s0) (rt_htabs s0) (config_of s) k p) as [o s1|x s1|u|] eqn:Ea; auto.
      - unfold attempt in Ea. now apply not_threw in Ea.
      - specialize (HB script ks Hks). rewrite H in HB. exact HB. }
    exists ns. split; [exact Ens|]. intros n'. now apply (reached_step m fuel d calls Hs (rt_tabs s0) (rt_htabs s0) B (Some c) ns n' Hr Ens).
  - constructor; [intros []|constructor].
  - now intros x.
  - intros n [<-|[]]. exists [], []. split; [intros k []|]. unfold session. rewrite C. cbn [bind run]. rewrite config_bare. auto.
Qed.
Theorem explore_ends : (exists depth rounds l, explore m fuel depth rounds d calls = Some l) <-> exists bound, bounded_sessions m fuel d calls bound.
Proof.
  split; [|intros [b H]; exact (explore_total b H)]. intros (depth & rounds & l & Hl).
  exists (list_max (map (fun n => match n with Some c => length (cf_queue c) | None => 0 end) l)). intros script ks Hks.
  destruct (explore_covers m fuel depth rounds d calls l Hl scripted tt script ks) as (n & E & I).
  { intros k Hk. rewrite with_nothing. now apply Hks. }
  destruct (session scripted m tt fuel d script ks) as [outs s|x s|u|] eqn:Es; auto; try discriminate; [|now apply session_no_throw in Es].
  injection E as <-. pose proof (proj1 (list_max_le _ _) (Nat.le_refl (list_max (map (fun n => match n with Some c => length (cf_queue c) | None => 0 end) l)))) as F.
  rewrite Forall_forall in F. specialize (F (length (rt_queue s))). apply F. apply in_map_iff. exists (Some (config_of s)). split; [|exact I]. cbn. now rewrite map_length.
Qed.
End Ends.
