(** Termination: which parts always terminate, and independence of the result of
    the fuel.  No invariants are needed here. *)

From Coq Require Import List Arith NArith Bool Lia.
From Verif Require Import Types Static Dispatch Runtime.
Import ListNotations.

Section Term.
Context {V W : Type}.
Variable cb : cbfun V W.
Variable m : machine.
Notation st := (rt V W).

Lemma bind_timeout {A B} (r : res V W A) (f : A -> st -> res V W B) :
  r <> Timeout -> (forall a s, r = Done a s -> f a s <> Timeout) -> bind r f <> Timeout.
Proof. intros H1 H2. destruct r; cbn [bind]; auto; congruence. Qed.

Lemma invoke_timeout c a v s : invoke cb c a v s <> Timeout.
Proof. unfold invoke. destruct (cb c a v (rt_world s)); discriminate. Qed.
Lemma keep_timeout (r : res V W (bool * V)) : r <> Timeout -> keep_payload r <> Timeout.
Proof. intros H. apply bind_timeout; [exact H|discriminate]. Qed.
Lemma execute_guard_timeout t e v s : execute_guard cb t e v s <> Timeout.
Proof.
  unfold execute_guard. destruct (t_guard t); [discriminate|].
  destruct (alive s (t_src t) && alive s _); [apply invoke_timeout|discriminate].
Qed.
Lemma exec_body_timeout t e : forall b v s, exec_body cb b t e v s <> Timeout.
Proof.
  fix IH 1. intros [f|f|f|l] v s; cbn [exec_body].
  - apply keep_timeout, invoke_timeout.
  - apply bind_timeout; [apply invoke_timeout|discriminate].
  - destruct (alive s (t_tgt t)); [|discriminate]. apply bind_timeout; [apply invoke_timeout|discriminate].
  - revert v s. induction l as [|b l IHl]; intros v s; [discriminate|].
    apply bind_timeout; [apply IH|]. intros v' s' _. apply IHl.
Qed.
Lemma exec_steps_timeout t e : forall l v s, exec_steps cb l t e v s <> Timeout.
Proof.
  induction l as [|x l IH]; intros v s; cbn [exec_steps]; [discriminate|].
  apply bind_timeout; [|intros; apply IH].
  destruct x; cbn [exec_step]; auto using keep_timeout, invoke_timeout, exec_body_timeout.
Qed.
Lemma execute_action_timeout t e v s : execute_action cb t e v s <> Timeout.
Proof.
  unfold execute_action. destruct (t_act t); [|discriminate].
  destruct (alive s (t_src t) && _); [apply exec_steps_timeout|discriminate].
Qed.

Lemma read_cur_timeout (s : st) r : read_cur s r <> Timeout.
Proof. unfold read_cur. destruct (nth_error (rt_cur s) r) as [[?|]|]; discriminate. Qed.
Lemma at_cur_timeout (s : st) r : at_cur s r <> Timeout.
Proof. unfold at_cur. destruct (nth_error (rt_cur s) r) as [[?|]|]; discriminate. Qed.
Lemma write_cur_timeout (s : st) r c : write_cur s r c <> Timeout.
Proof. unfold write_cur. destruct (upd_nth _ _ _); discriminate. Qed.
Lemma current_parent_timeout (s : st) : current_parent m s <> Timeout.
Proof. apply bind_timeout; [apply read_cur_timeout|discriminate]. Qed.
Lemma current_state_timeout (s : st) r : current_state m s r <> Timeout.
Proof. apply bind_timeout; [apply at_cur_timeout|discriminate]. Qed.
Lemma update_current_regions_timeout (s : st) : update_current_regions m s <> Timeout.
Proof.
  unfold update_current_regions. destruct (parallel m); [|discriminate].
  apply bind_timeout; [apply current_parent_timeout|]. intros p s' _. destruct (nth_at p (initial_table m)); discriminate.
Qed.
Lemma write_hist_timeout (s : st) p r c : write_hist s p r c <> Timeout.
Proof.
  unfold write_hist. destruct (nth_at p (rt_hist s)); [|discriminate].
  destruct (upd_nth _ _ _); [|discriminate]. destruct (upd_at _ _ _); discriminate.
Qed.
Lemma read_hist_timeout (s : st) p r : read_hist s p r <> Timeout.
Proof.
  unfold read_hist. destruct (nth_at p (rt_hist s)); [|discriminate]. destruct (nth_error _ _); discriminate.
Qed.
Lemma update_timeout r en (s : st) : update_current_state m r en s <> Timeout.
Proof.
  unfold update_current_state. destruct (en_int en); [discriminate|].
  apply bind_timeout; [|intros; apply update_current_regions_timeout].
  destruct (has_history m); [|apply write_cur_timeout].
  apply bind_timeout; [apply current_parent_timeout|]. intros p s1 _.
  apply bind_timeout; [apply read_cur_timeout|]. intros c s2 _.
  apply bind_timeout; [apply write_hist_timeout|]. intros _ s3 _.
  destruct (en_hist en); [|apply write_cur_timeout].
  apply bind_timeout; [apply read_hist_timeout|]. intros. apply write_cur_timeout.
Qed.
Lemma get_entries_timeout e r (s : st) : get_entries e r s <> Timeout.
Proof.
  unfold get_entries. destruct (get_table (rt_tabs s) e); [|discriminate].
  apply bind_timeout; [apply read_cur_timeout|]. intros c s' _. destruct (nth_at c l); discriminate.
Qed.
Lemma try_entries_timeout r e : forall ens v s, try_entries cb m ens r e v s <> Timeout.
Proof.
  induction ens as [|en ens IH]; intros v s; cbn [try_entries]; [discriminate|].
  destruct (en_defer en); [discriminate|]. destruct (en_tr en); [|discriminate].
  apply bind_timeout; [apply execute_guard_timeout|]. intros [b v1] s1 _. cbn [fst snd]. destruct b; [|apply IH].
  apply bind_timeout; [apply update_timeout|]. intros _ s2 _.
  apply bind_timeout; [apply execute_action_timeout|discriminate].
Qed.
Lemma try_anonymous_timeout r : forall ens v s, try_anonymous cb m ens r v s <> Timeout.
Proof.
  induction ens as [|en ens IH]; intros v s; cbn [try_anonymous]; [discriminate|].
  destruct (en_tr en); [|discriminate].
  apply bind_timeout; [apply execute_guard_timeout|]. intros [b v1] s1 _. cbn [fst snd]. destruct b; [|apply IH].
  apply bind_timeout; [apply update_timeout|]. intros _ s2 _.
  apply bind_timeout; [apply execute_action_timeout|discriminate].
Qed.

Lemma try_region_timeout r e v s : try_region cb m r e v s <> Timeout.
Proof.
  apply bind_timeout; [apply get_entries_timeout|]. intros [|en ens] s1 _; [discriminate|].
  apply bind_timeout; [apply try_entries_timeout|discriminate].
Qed.
Lemma anonymous_region_timeout r v s : anonymous_region cb m r v s <> Timeout.
Proof.
  apply bind_timeout; [apply get_entries_timeout|]. intros [|en ens] s1 _; [discriminate|].
  apply bind_timeout; [apply try_anonymous_timeout|discriminate].
Qed.

Lemma next_region_S r limit : limit <= 255 -> r < limit -> next_region r = S r.
Proof. unfold next_region. destruct (Nat.eqb_spec r 255); lia. Qed.

(** The loops over the regions end if the counter does not wrap around. *)
Lemma region_loop_timeout e : forall fuel limit r agf ati v s, limit <= 255 -> limit - r < fuel ->
  region_loop cb m fuel limit r agf ati e v s <> Timeout.
Proof.
  induction fuel as [|fuel IH]; intros limit r agf ati v s HL Hf; [lia|]. cbn [region_loop].
  destruct (Nat.ltb_spec r limit) as [Hr|Hr]; [|discriminate].
  rewrite (next_region_S r limit HL Hr).
  apply bind_timeout; [apply try_region_timeout|]. intros [tv v1] s2 _.
  destruct tv as [[]|]; cbn [fst snd]; try discriminate; apply IH; lia.
Qed.
Lemma anonymous_pass_timeout : forall fuel limit r agf v s, limit <= 255 -> limit - r < fuel ->
  anonymous_pass cb m fuel limit r agf v s <> Timeout.
Proof.
  induction fuel as [|fuel IH]; intros limit r agf v s HL Hf; [lia|]. cbn [anonymous_pass].
  destruct (Nat.ltb_spec r limit) as [Hr|Hr]; [|discriminate].
  rewrite (next_region_S r limit HL Hr).
  apply bind_timeout; [apply anonymous_region_timeout|]. intros [[b|] v1] s2 _; [|discriminate]. apply IH; lia.
Qed.
Lemma status_loop_timeout : forall fuel limit r (s : st), limit <= 255 -> limit - r < fuel ->
  status_loop m fuel limit r s <> Timeout.
Proof.
  induction fuel as [|fuel IH]; intros limit r s HL Hf; [lia|]. cbn [status_loop].
  destruct (Nat.ltb_spec r limit) as [Hr|Hr]; [|discriminate].
  rewrite (next_region_S r limit HL Hr).
  apply bind_timeout; [apply read_cur_timeout|]. intros c s1 _.
  apply bind_timeout; [apply current_parent_timeout|]. intros p s2 _.
  apply bind_timeout; [apply current_state_timeout|]. intros q s3 _.
  apply bind_timeout; [apply IH; lia|discriminate].
Qed.

(** * More fuel does not change a result *)
Definition extends {A} (r r' : res V W A) : Prop := r <> Timeout -> r' = r.

Lemma extends_refl {A} (r : res V W A) : extends r r.
Proof. intros _. reflexivity. Qed.
Lemma extends_timeout {A} (r : res V W A) : extends Timeout r.
Proof. intros H. congruence. Qed.
Lemma extends_bind {A B} (r r' : res V W A) (f f' : A -> st -> res V W B) :
  extends r r' -> (forall a s, r = Done a s -> extends (f a s) (f' a s)) -> extends (bind r f) (bind r' f').
Proof.
  intros H1 H2 H. destruct r as [a s|x s|u|] eqn:E; cbn [bind] in *; try congruence;
    rewrite (H1 ltac:(discriminate)); cbn [bind]; auto. now apply H2.
Qed.

Lemma region_loop_mono e : forall fuel fuel' limit r agf ati v s, fuel <= fuel' ->
  extends (region_loop cb m fuel limit r agf ati e v s) (region_loop cb m fuel' limit r agf ati e v s).
Proof.
  induction fuel as [|fuel IH]; intros fuel' limit r agf ati v s Hf; [apply extends_timeout|].
  destruct fuel' as [|fuel']; [lia|]. cbn [region_loop].
  destruct (Nat.ltb r limit); [|apply extends_refl].
  apply extends_bind; [apply extends_refl|]. intros [tv v1] s2 _.
  destruct tv as [[]|]; cbn [fst snd]; first [apply extends_refl|apply IH; lia].
Qed.
Lemma anonymous_pass_mono : forall fuel fuel' limit r agf v s, fuel <= fuel' ->
  extends (anonymous_pass cb m fuel limit r agf v s) (anonymous_pass cb m fuel' limit r agf v s).
Proof.
  induction fuel as [|fuel IH]; intros fuel' limit r agf v s Hf; [apply extends_timeout|].
  destruct fuel' as [|fuel']; [lia|]. cbn [anonymous_pass].
  destruct (Nat.ltb r limit); [|apply extends_refl].
  apply extends_bind; [apply extends_refl|]. intros [[b|] v1] s2 _; [|apply extends_refl]. apply IH; lia.
Qed.
Lemma anonymous_loop_mono : forall fuel fuel' rfuel rfuel' v s, fuel <= fuel' -> rfuel <= rfuel' ->
  extends (anonymous_loop cb m rfuel fuel v s) (anonymous_loop cb m rfuel' fuel' v s).
Proof.
  induction fuel as [|fuel IH]; intros fuel' rfuel rfuel' v s Hf Hr; [apply extends_timeout|].
  destruct fuel' as [|fuel']; [lia|]. cbn [anonymous_loop].
  apply extends_bind; [now apply anonymous_pass_mono|]. intros [o v1] s1 _. cbn [fst snd].
  destruct o as [[|]|]; first [apply extends_refl|apply IH; lia].
Qed.
Lemma process_anonymous_mono vnone fuel fuel' s : fuel <= fuel' ->
  extends (process_anonymous cb m vnone fuel s) (process_anonymous cb m vnone fuel' s).
Proof.
  intros Hf. unfold process_anonymous. destruct (has_anonymous m); [|apply extends_refl].
  now apply anonymous_loop_mono.
Qed.
Lemma process_event_internal_mono vnone fuel fuel' e v s : fuel <= fuel' ->
  extends (process_event_internal cb m vnone fuel e v s) (process_event_internal cb m vnone fuel' e v s).
Proof.
  intros Hf. apply extends_bind; [now apply region_loop_mono|]. intros [p v1] s1 _. cbn [fst].
  destruct p; try apply extends_refl.
  apply extends_bind; [now apply process_anonymous_mono|]. intros. apply extends_refl.
Qed.
Lemma process_deferred_mono vnone fuel fuel' s : fuel <= fuel' ->
  extends (process_deferred cb m vnone fuel s) (process_deferred cb m vnone fuel' s).
Proof.
  intros Hf. unfold process_deferred. destruct (has_deferred m); [|apply extends_refl].
  destruct (rt_queue s) as [|[e v] q]; [apply extends_refl|].
  apply extends_bind; [now apply process_event_internal_mono|]. intros. apply extends_refl.
Qed.
Lemma process_event_mono vnone fuel fuel' e v s : fuel <= fuel' ->
  extends (process_event cb m vnone fuel e v s) (process_event cb m vnone fuel' e v s).
Proof.
  intros Hf. unfold process_event. destruct (in_dec ev_eq_dec e (events m)); [|apply extends_refl].
  apply extends_bind; [now apply process_event_internal_mono|]. intros [p v1] s1 _. cbn [fst snd].
  destruct p; try apply extends_refl.
  apply extends_bind; [now apply process_deferred_mono|]. intros. apply extends_refl.
Qed.
Lemma status_loop_mono : forall fuel fuel' limit r (s : st), fuel <= fuel' ->
  extends (status_loop m fuel limit r s) (status_loop m fuel' limit r s).
Proof.
  induction fuel as [|fuel IH]; intros fuel' limit r s Hf; [apply extends_timeout|].
  destruct fuel' as [|fuel']; [lia|]. cbn [status_loop].
  destruct (Nat.ltb r limit); [|apply extends_refl].
  apply extends_bind; [apply extends_refl|]. intros c s1 _.
  apply extends_bind; [apply extends_refl|]. intros p s2 _.
  apply extends_bind; [apply extends_refl|]. intros q s3 _.
  apply extends_bind; [apply IH; lia|]. intros. apply extends_refl.
Qed.
Lemma do_call_mono vnone fuel fuel' k s : fuel <= fuel' ->
  extends (do_call cb m vnone fuel k s) (do_call cb m vnone fuel' k s).
Proof.
  intros Hf. destruct k; cbn [do_call]; try apply extends_refl.
  - apply extends_bind; [now apply process_event_mono|]. intros. apply extends_refl.
  - apply extends_bind; [now apply status_loop_mono|]. intros. apply extends_refl.
Qed.
Lemma do_call_catch_mono vnone fuel fuel' k s : fuel <= fuel' ->
  extends (do_call_catch cb m vnone fuel k s) (do_call_catch cb m vnone fuel' k s).
Proof.
  intros Hf. pose proof (do_call_mono vnone fuel fuel' k s Hf) as H. unfold do_call_catch, extends in *.
  destruct (do_call cb m vnone fuel k s); try congruence; rewrite H by discriminate; reflexivity.
Qed.
Lemma run_mono vnone fuel fuel' : fuel <= fuel' -> forall ks s,
  extends (run cb m vnone fuel ks s) (run cb m vnone fuel' ks s).
Proof.
  intros Hf. induction ks as [|k ks IH]; intros s; cbn [run]; [apply extends_refl|].
  apply extends_bind; [now apply do_call_catch_mono|]. intros o s1 _.
  apply extends_bind; [apply IH|]. intros. apply extends_refl.
Qed.
Lemma init_loop_mono l : forall fuel fuel' r (s : st), fuel <= fuel' ->
  extends (init_loop fuel l r s) (init_loop fuel' l r s).
Proof.
  induction fuel as [|fuel IH]; intros fuel' r s Hf; [apply extends_timeout|].
  destruct fuel' as [|fuel']; [lia|]. cbn [init_loop].
  destruct (Nat.ltb r (length l)); [|apply extends_refl].
  destruct (nth_error l r); [|apply extends_refl].
  apply extends_bind; [apply extends_refl|]. intros. apply IH; lia.
Qed.
Lemma construct_mono fuel fuel' d w : fuel <= fuel' ->
  extends (construct (V:=V) m fuel d w) (construct m fuel' d w).
Proof.
  intros Hf. unfold construct.
  destruct (if cd_unexpected _ then _ else _); [|apply extends_refl].
  destruct (fill_dispatch m d (empty_tables m)); [|apply extends_refl].
  apply extends_bind; [|intros; apply extends_refl].
  unfold init_current_state. destruct (nth_at _ _); [|apply extends_refl]. now apply init_loop_mono.
Qed.
Lemma session_mono vnone fuel fuel' d w ks : fuel <= fuel' ->
  extends (session cb m vnone fuel d w ks) (session cb m vnone fuel' d w ks).
Proof.
  intros Hf. apply extends_bind; [now apply construct_mono|]. intros _ s _. now apply run_mono.
Qed.

(** Two terminating evaluations agree. *)
Lemma same_result {A} (f : nat -> res V W A) :
  (forall n n', n <= n' -> extends (f n) (f n')) ->
  forall n n', f n <> Timeout -> f n' <> Timeout -> f n = f n'.
Proof.
  intros H n n' H1 H2. destruct (Nat.le_ge_cases n n') as [L|L].
  - symmetry. now apply H.
  - now apply H.
Qed.
End Term.
