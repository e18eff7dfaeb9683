(** An event processed by the last callback of a transition. *)

From Coq Require Import List Arith NArith Bool Lia.
From Verif Require Import Types Static Dispatch Runtime ListFacts IndexFacts Spec
  DispatchFacts FlattenFacts Semantics RefineFacts StaticFacts TermFacts Reach ReachFacts TableFacts
  QueryFacts ProcessFacts Safe SafeFacts SafeObjects Reentry ReentryFacts ReentrySafe.
Import ListNotations.

(** The user code [cb], but the action [f] uses the machine before it returns. *)
Definition posting {V W} (f : nat) (k : call V) (cb : cbfun V W) : rcbfun V W := fun c a v w =>
  match cb c a v w with
  | Ret b v' w' =>
      match c with
      | CAction g => if Nat.eqb g f then PUse k w' (fun _ w'' => PRet b v' w'') else PRet b v' w'
      | _ => PRet b v' w'
      end
  | Raise n _ w' => PRaise (XUser n) w'
  end.

Section Last.
Context {V W : Type}.
Notation st := (rt V W).
Variables (f : nat) (k : call V) (cb : cbfun V W).
Variable use : call V -> st -> res V W out.
Let inv := rinvoke use (posting f k cb).

(** [r], then the call [k]. *)
Definition and_then {A} (r : res V W A) : res V W A :=
  bind r (fun a s => bind (use k s) (fun _ s' => Done a s')).

Lemma with_same (s : st) : with_world s (rt_world s) = s.
Proof. destruct s. reflexivity. Qed.
Lemma other c a v s : (forall g, c = CAction g -> g <> f) -> inv c a v s = invoke cb c a v s.
Proof.
  intros H. unfold inv, rinvoke, posting, invoke. destruct (cb c a v (rt_world s)) as [b v' w'|n v' w']; [|reflexivity].
  destruct c; try reflexivity. specialize (H f0 eq_refl). apply Nat.eqb_neq in H. now rewrite H.
Qed.
Lemma itself a v s : inv (CAction f) a v s = and_then (invoke cb (CAction f) a v s).
Proof.
  unfold inv, rinvoke, posting, invoke, and_then. destruct (cb (CAction f) a v (rt_world s)) as [b v' w'|n v' w']; [|reflexivity].
  rewrite Nat.eqb_refl. cbn [run_prog bind]. unfold with_world. cbn. 
  apply bind_same. intros o s'. f_equal. apply with_same.
Qed.

Variable m : machine.
Notation env := (mc_env m).

(** The row calls [f] last, and only then. *)
Definition ends_in (x : xrow) : Prop :=
  (exists ty, x_act x = Action ty (ACall f)) /\ entry_call env x = [] /\ initial_entry_call env x = [].

Lemma and_then_bind {A B} (r : res V W A) (g : A -> st -> res V W B) (h : A -> B) :
  (forall a s, g a s = Done (h a) s) -> bind (and_then r) g = and_then (bind r g).
Proof.
  intros H. unfold and_then. destruct r as [a s|x s|u|]; cbn; auto. rewrite H. cbn.
  destruct (use k s); cbn; auto.
Qed.
Lemma steps_app t e : forall l l' v s,
  g_steps inv (l ++ l') t e v s = bind (g_steps inv l t e v s) (fun v' s' => g_steps inv l' t e v' s').
Proof.
  induction l as [|a l IH]; intros l' v s; cbn; [reflexivity|].
  destruct (g_step inv a t e v s); cbn; auto.
Qed.
Lemma exec_app t e : forall l l' v s,
  exec_steps cb (l ++ l') t e v s = bind (exec_steps cb l t e v s) (fun v' s' => exec_steps cb l' t e v' s').
Proof.
  induction l as [|a l IH]; intros l' v s; cbn; [reflexivity|].
  destruct (exec_step cb a t e v s); cbn; auto.
Qed.
Lemma exits_same t e : forall l, (forall a, In a l -> exists c, a = StExit c) -> forall v s,
  g_steps inv l t e v s = exec_steps cb l t e v s.
Proof.
  induction l as [|a l IH]; intros H v s; cbn; [reflexivity|].
  destruct (H a (or_introl eq_refl)) as [c ->]. cbn. rewrite other by discriminate.
  apply bind_same. intros v' s'. apply IH. intros b Hb. apply H. now right.
Qed.

Lemma action_ends d x o e v s : ends_in x -> g_action inv (btrans m d x o) e v s = and_then (execute_action cb (btrans m d x o) e v s).
Proof.
  intros ((ty & Ea) & E1 & E2). unfold g_action, execute_action. cbn [t_act btrans].
  assert (R : exists l, resolve_action env x = Some (l ++ [StAct (ACall f)]) /\ forall a, In a l -> exists c, a = StExit c).
  { unfold resolve_action, has_action. rewrite Ea. cbn [action_ty is_some orb].
    exists (resolve_exit_action env x). unfold resolve_no_action. rewrite Ea.
    assert (F1 : resolve_entry_action env x = []).
    { unfold resolve_entry_action, entry_of. unfold entry_call, has_entry in E1. destruct (x_int x); [reflexivity|].
      destruct (x_tgt x); try reflexivity. destruct (cd_entry (lookup env c)); [discriminate|reflexivity]. }
    assert (F2 : resolve_initial_entry_action env x = []).
    { unfold resolve_initial_entry_action. destruct (initial_entry_of env (x_tgt x)) eqn:Ei; [exfalso|reflexivity].
      revert E2 Ei. unfold initial_entry_call, initial_entry_of, entry_of, has_entry, first_initial.
      destruct (x_tgt x) as [c0| | | | |]; cbn; try congruence. rewrite initials_spec.
      change (has_table env (SState c0)) with (is_composite env c0).
      destruct (is_composite env c0); [|cbn; congruence].
      destruct (hd_error (initial_states env c0)) as [[i| | | | |]|]; cbn; try congruence.
      destruct (cd_entry (lookup env i)); cbn; congruence. }
    rewrite F1, F2. split; [now rewrite ?orb_true_r|]. intros a.
    unfold resolve_exit_action. destruct (x_int x); [intros []|].
    destruct (exit_of env (x_src x)); [intros [<-|[]]; eauto|].
    destruct (pseudo_exit_of env x); [intros [<-|[]]; eauto|intros []]. }
  destruct R as (l & -> & Hl). destruct (_ && _); [|reflexivity].
  rewrite steps_app, exec_app, (exits_same _ _ l Hl).
  destruct (exec_steps cb l (btrans m d x o) e v s) as [v1 s1|x1 s1|u|]; cbn [bind]; auto.
  cbn [g_steps exec_steps g_step exec_step g_body exec_body]. unfold keep_payload. rewrite itself.
  unfold and_then. destruct (invoke cb (CAction f) _ v1 s1) as [bv s2|x2 s2|u|]; cbn; auto.
  destruct (use k s2); cbn; auto.
Qed.

Definition then_if {A} (b : A -> bool) (r : res V W A) : res V W A :=
  match r with Done a s => if b a then and_then r else r | _ => r end.

Definition fired (tv : tried * V) : bool := match fst tv with Fired => true | _ => false end.
Lemma entries_last here r e : forall ens, (forall en, In en ens -> exists d c, en = bentry m (d, c) /\
    match c with CRow x _ => ends_in x | CDefer => True end) -> forall v s,
  g_entries inv m ens here r e v s = then_if fired (try_entries cb m ens r e v s).
Proof.
  induction ens as [|en ens IH]; intros H v s; cbn [g_entries try_entries]; [reflexivity|].
  destruct (H en (or_introl eq_refl)) as (d & [|x o] & -> & Hx); [reflexivity|].
  rewrite bentry_tr. cbn [en_defer bentry centry fst snd entry_of_row].
  assert (G : g_guard inv (btrans m d x o) e v s = execute_guard cb (btrans m d x o) e v s).
  { unfold g_guard, execute_guard. destruct (t_guard (btrans m d x o)); [reflexivity|]. now rewrite other by discriminate. }
  rewrite G. destruct (execute_guard cb (btrans m d x o) e v s) as [[b v1] s1|x1 s1|u|] eqn:Eg; cbn [bind fst snd]; auto.
  destruct b.
  - destruct (update_current_state m r _ s1) as [[] s2|x2 s2|u|]; cbn [bind]; auto.
    rewrite (action_ends d x o e v1 s2 Hx). unfold and_then.
    destruct (execute_action cb (btrans m d x o) e v1 s2) as [v3 s3|x3 s3|u|]; cbn; auto.
    destruct (use k s3); cbn; auto.
  - unfold count. rewrite (guard_tabs cb _ _ _ _ _ _ Eg), Nat.eqb_refl. apply IH. intros en' Hen. apply H. now right.
Qed.

Variable vnone : V.
Hypothesis single : parallel m = false.
Hypothesis no_anon : has_anonymous m = false.
Hypothesis no_defer : has_deferred m = false.
Hypothesis no_throw : forall k s x s', use k s <> Threw x s'.

Definition accepted (o : out) : bool := match o with OBool b => b | _ => false end.
Lemma process_last f0 e v s ens : get_entries e 0 s = Done ens s ->
  (forall en, In en ens -> exists d c, en = bentry m (d, c) /\
     match c with CRow x _ => ends_in x | CDefer => True end) ->
  g_call_catch inv m vnone (S (S f0)) (KProcess e v) s =
  then_if accepted (do_call_catch cb m vnone (S (S f0)) (KProcess e v) s).
Proof.
  intros Ee He. unfold g_call_catch, do_call_catch, g_call, do_call, g_process, process_event.
  destruct (in_dec ev_eq_dec e (events m)); [|reflexivity].
  unfold g_internal, process_event_internal, current_regions. rewrite single.
  cbn [g_loop region_loop]. cbn [Nat.ltb Nat.leb]. unfold g_region, try_region. rewrite Ee. cbn [bind].
  destruct (get_entries_read e 0 s ens s Ee) as [_ [c Ec]]. destruct ens as [|en ens].
  - cbn. unfold g_handler, call_handler. destruct (cd_unexpected _); [|reflexivity].
    destruct (at_cur s 0) as [c0 s0|x0 s0|u0|]; cbn; auto. destruct (get_table _ e); [|reflexivity].
    destruct (nth_at c0 l) as [[[o d]|]|]; cbn; auto. destruct (alive s0 o); [|reflexivity]. rewrite other by discriminate.
    destruct (invoke cb CHandler _ v s0); reflexivity.
  - rewrite Ec. cbn [bind]. rewrite (entries_last c 0 e (en :: ens) He).
    destruct (try_entries cb m (en :: ens) 0 e v s) as [[t v1] s1|x1 s1|u|] eqn:Et; cbn [bind then_if fired fst]; auto.
    destruct t; cbn.
    + reflexivity.
    + unfold g_completion, process_anonymous. rewrite no_anon. cbn. unfold g_deferred, process_deferred. rewrite no_defer. cbn.
      unfold and_then. cbn. destruct (use k s1) eqn:Eu; cbn; auto.
      exfalso. exact (no_throw _ _ _ _ Eu).
    + reflexivity.
Qed.
End Last.

Lemma r_call_catches {V W} (cb : rcbfun V W) m vnone depth fuel k s x s' : r_call cb m vnone depth fuel k s <> Threw x s'.
Proof. destruct depth; cbn [r_call]; [discriminate|]. unfold g_call_catch. destruct (g_call _ _ _ _ k s); discriminate. Qed.

Lemma session_last V W (cb : cbfun V W) env root m : compile env root = Some m ->
  forall f k vnone depth fuel d w ks os s e v pl, well_formed env root ->
  well_typed env root k -> Forall (well_typed env root) ks ->
  r_session (posting f k cb) m vnone depth fuel d w ks = Done os s ->
  ~ region_exists env root 1 -> ~ (exists x, declared env root x /\ x_ev x = ENone) ->
  ~ (exists x c l, declared env root x /\ unmarked (x_src x) = SState c /\ cd_defer (lookup env c) = Some l) ->
  at_place m s 0 = Some pl -> event_of env root e ->
  (forall x o, offered env root e pl (CRow x o) ->
     (exists ty, x_act x = Action ty (ACall f)) /\ entry_call env x = [] /\ initial_entry_call env x = []) ->
  2 <= fuel ->
  r_call (posting f k cb) m vnone (S depth) fuel (KProcess e v) s =
  match do_call_catch cb m vnone fuel (KProcess e v) s with
  | Done (OBool true) s1 =>
      bind (r_call (posting f k cb) m vnone depth fuel k s1) (fun _ s2 => Done (OBool true) s2)
  | r => r
  end.
Proof.
  intros Hm f k vnone depth fuel d w ks os s e v pl Hwf Hk Ht Hs H1 H2 H3 Hat Hev Hends Hf.
  destruct (wf_inv env root m Hm Hwf) as (Hw & Hob & Han).
  destruct (compiled_itself env root m Hm) as (Hm' & He & Hr).
  pose proof (proj1 (compile_comp _ _ _ Hm)) as Hc.
  assert (Hu : forall c a v w, uses (well_typed env root) (posting f k cb c a v w)).
  { intros c a v0 w0. unfold posting. destruct (cb c a v0 w0); [|constructor]. destruct c; try constructor.
    destruct (Nat.eqb f0 f); repeat constructor; auto. }
  assert (Hu' : forall c a v w, uses (typed m) (posting f k cb c a v w)).
  { intros c a v0 w0. eapply uses_weaken; [|apply Hu]. intros k0. now apply (typed_iff env root m k0 Hm). }
  assert (Hg : guards_leave_tables (posting f k cb)).
  { split; [|right]; intros ty val a v0 w0; unfold posting; destruct (cb (CGuard ty val) a v0 w0); constructor. }
  apply (typed_all env root m ks Hm) in Ht.
  assert (Snd : sound m d s).
  { unfold r_session in Hs. pose proof (construct_placed (V := V) m Hc Hw fuel d w) as P.
    destruct (construct m fuel d w) as [[] s0|x s0|u|]; cbn [bind] in Hs; try discriminate.
    destruct P as (P1 & P2 & _).
    assert (Hs0 : sound m d s0).
    { exists [d]. split; [exact P1|]. intros q Hq Hd. rewrite P2. now apply filter_In. }
    pose proof (r_run_fine m Hm' Hw Hob Han d (posting f k cb) Hu' Hg vnone depth fuel ks s0 Hs0 Ht) as F.
    now rewrite Hs in F. }
  destruct Snd as (ds & P & _).
  assert (E1 : parallel m = false).
  { apply not_true_is_false. now rewrite (parallel_iff _ _ _ Hm). }
  assert (E2 : has_anonymous m = false).
  { apply not_true_is_false. now rewrite (anonymous_iff _ _ _ Hm). }
  assert (E3 : has_deferred m = false).
  { apply not_true_is_false. now rewrite (deferred_iff _ _ _ Hm). }
  apply (events_iff _ _ _ Hm) in Hev.
  pose proof (get_entries_total m Hc ds d e 0 s pl (pd_tinv _ _ _ _ P) Hev Hat) as Eg.
  destruct fuel as [|[|fuel]]; try lia. cbn [r_call].
  rewrite (process_last f k cb (r_call (posting f k cb) m vnone depth (S (S fuel))) m vnone E1 E2 E3
    (fun k s x s' => r_call_catches _ _ _ _ _ k s x s') fuel e v s _ Eg).
  - unfold then_if, and_then, accepted. destruct (do_call_catch cb m vnone (S (S fuel)) (KProcess e v) s) as [[[]| | |] s1|x s1|u|]; reflexivity.
  - intros en H. apply in_map_iff in H. destruct H as ([d' c] & <- & H). exists d', c. split; [reflexivity|].
    destruct c as [|x o]; [exact I|]. unfold ends_in. apply (bound_cands m ds e pl d' x o) in H.
    apply (offered_iff m Hm') in H. rewrite He, Hr in H. rewrite He. eapply Hends; eauto.
Qed.
