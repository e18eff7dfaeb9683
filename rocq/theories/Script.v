(** Scripts: user code that gives prepared answers. *)

From Coq Require Import List Arith NArith Bool Lia.
From Verif Require Import Types Static Dispatch Runtime Data DataUse.
Import ListNotations.

(** The answer to one call of user code: a verdict or an exception. *)
Inductive reply := Say (b : bool) | Fail (n : nat).
(** User code that reads its answers from a list, the world; events carry no data. At the
    end of the list it says no. *)
Definition scripted : cbfun unit (list reply) := fun _ _ _ w =>
  match w with
  | [] => Ret false tt []
  | Say b :: w' => Ret b tt w'
  | Fail n :: w' => Raise n tt w'
  end.
(** The machine without user data and without its first [n] calls of user code. *)
Definition bare_call {V} (k : called V) : called unit := mkCall (k_callee k) (k_args k) tt.
Definition bare_from {V W W'} (n : nat) (s : rt V W) (w : W') : rt unit W' :=
  mkRt (rt_cur s) (rt_hist s) (map (fun x => (fst x, tt)) (rt_queue s)) (rt_regions s) (rt_live s) (rt_tabs s) (rt_htabs s) w
    (skipn n (map bare_call (rt_trace s))).
(** The machine without user data. *)
Definition bare {V W W'} (s : rt V W) (w : W') : rt unit W' := translated (fun _ => tt) (fun _ => w) s.

(** Exceptions and outcomes with the numbers of the exceptions translated. *)
Definition exn_of (h : nat -> nat) (x : exn) : exn := match x with XUser n => XUser (h n) | _ => x end.
Definition out_of (h : nat -> nat) (o : out) : out := match o with OExn x => OExn (exn_of h x) | _ => o end.
(** No exception among the answers. *)
Definition all_say (l : list reply) : Prop := forall n, ~ In (Fail n) l.
Lemma all_say_app l l' : all_say l -> all_say l' -> all_say (l ++ l').
Proof. intros H H' n I. apply in_app_or in I. destruct I; [now apply (H n)|now apply (H' n)]. Qed.
(** Nothing of this is written by what calls no user code. *)
Definition framed {V W} (s s' : rt V W) : Prop :=
  rt_world s' = rt_world s /\ rt_tabs s' = rt_tabs s /\ rt_htabs s' = rt_htabs s /\ rt_trace s' = rt_trace s.

Section Scripts.
Context {V W X : Type}.
Variable cb : cbfun V W.
Variable m : machine.
Notation st := (rt V W).
(** User code [U] that reads its answers from a list; [P s l s']: what is to be known of
    the states before and behind the answers [l]. *)
Variable U : cbfun unit X.
Variable embed : list reply -> X.
Variable h : nat -> nat.
Hypothesis U_say : forall c a b l, U c a tt (embed (Say b :: l)) = Ret b tt (embed l).
Hypothesis U_fail : forall c a n l, U c a tt (embed (Fail n :: l)) = Raise (h n) tt (embed l).
Variable since : nat.
Notation bare := (bare_from since).
Variable P : st -> list reply -> st -> Prop.
Hypothesis P_app : forall s l s' l' s'', P s l s' -> P s' l' s'' -> P s (l ++ l') s''.
Hypothesis P_frame : forall s s', framed s s' -> P s [] s'.
Hypothesis P_say : forall c a v s b v' w' tr, cb c a v (rt_world s) = Ret b v' w' -> P s [Say b] (with_user s w' tr).
(** The same where the behaviour is undefined or the loop goes on and there is no state behind. *)
Variable PU : st -> list reply -> Prop.
Hypothesis PU_nil : forall s, PU s [].
Hypothesis PU_app : forall s l s' l', P s l s' -> all_say l -> PU s' l' -> PU s (l ++ l').
Hypothesis P_fail : forall c a v s n v' w' tr, cb c a v (rt_world s) = Raise n v' w' -> P s [Fail n] (with_user s w' tr).

Definition counts (s : st) : Prop := since <= length (rt_trace s).
(** [follows s0 fa r f]: from [s0], for the right list, whatever comes behind it, [f] gives
    the result [r] and leaves the rest. *)
Definition follows {A A'} (s0 : st) (fa : A -> A') (r : res V W A) (f : X -> res unit X A') : Prop :=
  counts s0 -> exists l, (forall rest, f (embed (l ++ rest)) =
    match r with
    | Done a s => Done (fa a) (bare s (embed rest))
    | Threw x s => Threw (exn_of h x) (bare s (embed rest))
    | Undef u => Undef u
    | Timeout => Timeout
    end) /\ match r with
     | Done _ s => P s0 l s /\ counts s /\ all_say l
     | Threw _ s => P s0 l s /\ counts s
     | Undef _ | Timeout => PU s0 l /\ all_say l
     end.
(** The same for calls whose exceptions are caught. *)
Definition tracks {A A'} (s0 : st) (fa : A -> A') (r : res V W A) (f : X -> res unit X A') : Prop :=
  counts s0 -> exists l, (forall rest, f (embed (l ++ rest)) =
    match r with
    | Done a s => Done (fa a) (bare s (embed rest))
    | Threw x s => Threw (exn_of h x) (bare s (embed rest))
    | Undef u => Undef u
    | Timeout => Timeout
    end) /\ match r with Done _ s | Threw _ s => P s0 l s /\ counts s | _ => True end.
Definition no_data {A} (x : A * V) : A * unit := (fst x, tt).
Definition gone (v : V) : unit := tt.
Definition same {A} (a : A) : A := a.

Lemma fr_refl (s : st) : framed s s. Proof. repeat split. Qed.
Lemma fr_trans (a b c : st) : framed a b -> framed b c -> framed a c.
Proof. intros (A & B & C & A') (D & E & F & D'). repeat split; congruence. Qed.
Hint Resolve fr_refl : core.
Lemma fr_counts s s' : framed s s' -> counts s -> counts s'.
Proof. intros (_ & _ & _ & H). unfold counts. now rewrite H. Qed.
Lemma fo_bind {A A' B B'} s0 (fa : A -> A') (fb : B -> B') (r : res V W A) f k k' : follows s0 fa r f ->
  (forall a s, follows s fb (k a s) (fun w => k' (fa a) (bare s w))) ->
  follows s0 fb (bind r k) (fun w => bind (f w) k').
Proof.
  intros H Hk C. destruct (H C) as (l & Hl & HP). destruct r as [a s|x s|u|]; cbn [bind].
  - destruct HP as (HP & Cs & Hs). destruct (Hk a s Cs) as (l2 & H2 & HP2). exists (l ++ l2). split.
    + intros rest. rewrite <- app_assoc, Hl. cbn [bind]. apply H2.
    + destruct (k a s) as [b s'|x s'|u|]; auto.
      * destruct HP2 as (A1 & A2 & A3). eauto using all_say_app.
      * destruct HP2 as (A1 & A2). eauto.
      * destruct HP2 as (A1 & A2). eauto using all_say_app.
      * destruct HP2 as (A1 & A2). eauto using all_say_app.
  - exists l. split; [intros rest; now rewrite Hl|exact HP].
  - exists l. split; [intros rest; now rewrite Hl|exact HP].
  - exists l. split; [intros rest; now rewrite Hl|exact HP].
Qed.
Lemma tr_bind {A A' B B'} s0 (fa : A -> A') (fb : B -> B') (r : res V W A) f k k' : tracks s0 fa r f ->
  (forall a s, tracks s fb (k a s) (fun w => k' (fa a) (bare s w))) ->
  tracks s0 fb (bind r k) (fun w => bind (f w) k').
Proof.
  intros H Hk C. destruct (H C) as (l & Hl & HP). destruct r as [a s|x s|u|]; cbn [bind].
  - destruct HP as [HP Cs]. destruct (Hk a s Cs) as (l2 & H2 & HP2). exists (l ++ l2). split.
    + intros rest. rewrite <- app_assoc, Hl. cbn [bind]. apply H2.
    + destruct (k a s); auto; destruct HP2; split; eauto.
  - exists l. split; [intros rest; now rewrite Hl|exact HP].
  - exists l. split; [intros rest; now rewrite Hl|exact I].
  - exists l. split; [intros rest; now rewrite Hl|exact I].
Qed.
Lemma tr_pure {A A'} (fa : A -> A') (a : A) (s : st) : tracks s fa (Done a s) (fun w => Done (fa a) (bare s w)).
Proof. intros C. exists []. split; [reflexivity|]. split; [now apply P_frame|exact C]. Qed.
Lemma say_nil : all_say []. Proof. intros n []. Qed.
Hint Resolve say_nil : core.
Lemma fo_frame {A A'} (fa : A -> A') (a : A) (s0 s : st) : framed s0 s -> follows s0 fa (Done a s) (fun w => Done (fa a) (bare s w)).
Proof. intros F C. exists []. split; [reflexivity|]. eauto using fr_counts. Qed.
Lemma fo_pure {A A'} (fa : A -> A') (a : A) (s : st) : follows s fa (Done a s) (fun w => Done (fa a) (bare s w)).
Proof. now apply fo_frame. Qed.
Lemma fo_undef {A A'} s0 (fa : A -> A') u : follows s0 fa (@Undef V W A u) (fun w => Undef u).
Proof. exists []. split; [reflexivity|auto]. Qed.
Lemma fo_timeout {A A'} s0 (fa : A -> A') : follows s0 fa (@Timeout V W A) (fun w => Timeout).
Proof. exists []. split; [reflexivity|auto]. Qed.
Lemma fo_range {A A'} (fa : A -> A') (s : st) : follows s fa (Threw XOutOfRange s) (fun w => Threw XOutOfRange (bare s w)).
Proof. exists []. split; [reflexivity|]. auto. Qed.
Lemma fo_from {A A'} s0 s1 (fa : A -> A') (r : res V W A) f : framed s0 s1 -> follows s1 fa r f -> follows s0 fa r f.
Proof.
  intros F H C. destruct (H (fr_counts _ _ F C)) as (l & Hl & HP). exists l. split; [exact Hl|].
  destruct r; auto; repeat match goal with Q : _ /\ _ |- _ => destruct Q end; repeat split; auto; change l with ([] ++ l); eauto.
Qed.
Hint Resolve fo_pure fo_range fo_undef fo_timeout : core.

Lemma skipn_app_le {A} n (l l' : list A) : n <= length l -> skipn n (l ++ l') = skipn n l ++ l'.
Proof. intros H. rewrite skipn_app. now replace (n - length l) with 0 by lia. Qed.
Lemma invoke_s c a v (s : st) : follows s no_data (invoke cb c a v s) (fun w => invoke U c a tt (bare s w)).
Proof.
  intros C. unfold counts in C. unfold invoke. destruct (cb c a v (rt_world s)) as [b v' w'|n v' w'] eqn:E.
  - exists [Say b]. split.
    + intros rest. cbn [app bare_from rt_world]. rewrite U_say. unfold bare_from. cbn. rewrite map_app, skipn_app_le by now rewrite map_length. reflexivity.
    + split; [eapply P_say, E|]. split; [unfold counts; cbn; rewrite app_length; lia|]. intros n [Q|[]]. discriminate.
  - exists [Fail n]. split.
    + intros rest. cbn [app bare_from rt_world]. rewrite U_fail. unfold bare_from. cbn. rewrite map_app, skipn_app_le by now rewrite map_length. reflexivity.
    + split; [eapply P_fail, E|]. unfold counts. cbn. rewrite app_length. lia.
Qed.
Lemma alive_s (s : st) (w : X) o : alive (bare s w) o = alive s o.
Proof. reflexivity. Qed.
Lemma guard_s t e v (s : st) : follows s no_data (execute_guard cb t e v s) (fun w => execute_guard U t e tt (bare s w)).
Proof.
  unfold execute_guard. destruct (t_guard t); [apply (fo_pure no_data (true, v) s)|].
  change (fun w => if alive (bare s w) (t_src t) && alive (bare s w) (if t_int t then t_src t else t_tgt t) then _ else _)
    with (fun w : X => if alive s (t_src t) && alive s (if t_int t then t_src t else t_tgt t)
      then invoke U (CGuard ty val) (mkArgs e (t_src t) (TObj (if t_int t then t_src t else t_tgt t)) (t_dep t)) tt (bare s w) else Undef UBNull).
  destruct (alive s (t_src t) && _); [apply invoke_s|auto].
Qed.
Lemma keep_s s0 (r : res V W (bool * V)) f : follows s0 no_data r f -> follows s0 gone (keep_payload r) (fun w => keep_payload (f w)).
Proof. intros H. unfold keep_payload. eapply fo_bind; [exact H|]. intros [b v] s. exact (fo_pure gone v s). Qed.
Lemma drop_s s0 v (r : res V W (bool * V)) f : follows s0 no_data r f -> follows s0 gone (drop_payload v r) (fun w => drop_payload tt (f w)).
Proof. intros H. unfold drop_payload. eapply fo_bind; [exact H|]. intros b s. exact (fo_pure gone v s). Qed.
Lemma body_s b : forall t e v (s : st), follows s gone (exec_body cb b t e v s) (fun w => exec_body U b t e tt (bare s w)).
Proof.
  induction b as [f|f|f|l F] using abody_all; intros t e v s; cbn [exec_body].
  - apply keep_s, invoke_s.
  - eapply fo_bind; [apply invoke_s|]. intros [b v'] s'. exact (fo_frame gone v s' (set_live s' (t_tgt t) b) ltac:(repeat split)).
  - change (fun w : X => if alive (bare s w) (t_tgt t) then drop_payload tt (invoke U (CReuse f) (mkArgs e (t_src t) (TObj (t_tgt t)) (t_dep t)) tt (bare s w)) else Undef UBNull)
      with (fun w : X => if alive s (t_tgt t) then drop_payload tt (invoke U (CReuse f) (mkArgs e (t_src t) (TObj (t_tgt t)) (t_dep t)) tt (bare s w)) else Undef UBNull).
    destruct (alive s (t_tgt t)); [apply drop_s, invoke_s|auto].
  - revert v s. induction F as [|b l Hb F IH]; intros v s; [exact (fo_pure gone v s)|].
    eapply fo_bind; [apply Hb|]. intros v' s'. apply IH.
Qed.
Lemma step_s x t e v (s : st) : follows s gone (exec_step cb x t e v s) (fun w => exec_step U x t e tt (bare s w)).
Proof. destruct x; cbn [exec_step]; try (apply keep_s, invoke_s). apply body_s. Qed.
Lemma steps_s t e l : forall v (s : st), follows s gone (exec_steps cb l t e v s) (fun w => exec_steps U l t e tt (bare s w)).
Proof.
  induction l as [|x l IH]; intros v s; cbn [exec_steps]; [exact (fo_pure gone v s)|].
  eapply fo_bind; [apply step_s|]. intros v' s'. apply IH.
Qed.
Lemma action_s t e v (s : st) : follows s gone (execute_action cb t e v s) (fun w => execute_action U t e tt (bare s w)).
Proof.
  unfold execute_action. destruct (t_act t) as [l|]; [|exact (fo_pure gone v s)].
  change (fun w : X => if alive (bare s w) (t_src t) && (t_ptr t || t_int t || alive (bare s w) (t_tgt t)) then exec_steps U l t e tt (bare s w) else Undef UBNull)
    with (fun w : X => if alive s (t_src t) && (t_ptr t || t_int t || alive s (t_tgt t)) then exec_steps U l t e tt (bare s w) else Undef UBNull).
  destruct (alive s (t_src t) && _); [apply steps_s|auto].
Qed.
(** What does not call user code. *)
Definition indifferent {A} (s0 : st) (r : res V W A) (f : X -> res unit X A) : Prop :=
  (forall w, f w = match r with
    | Done a s => Done a (bare s w) | Threw x s => Threw (exn_of h x) (bare s w) | Undef u => Undef u | Timeout => Timeout end) /\
  match r with Done _ s | Threw _ s => framed s0 s | _ => True end.
Lemma in_follows {A} s0 (r : res V W A) f : indifferent s0 r f -> follows s0 same r f.
Proof. intros [H F] C. exists []. split; [intros rest; cbn [app]; apply H|]. destruct r; eauto 6 using fr_counts. Qed.
Lemma in_bind {A B} s0 (r : res V W A) f k (k' : A -> rt unit X -> res unit X B) : indifferent s0 r f ->
  (forall a s, indifferent s (k a s) (fun w => k' a (bare s w))) -> indifferent s0 (bind r k) (fun w => bind (f w) k').
Proof.
  intros [H F] Hk. split.
  - intros w. rewrite H. destruct r as [a s|x s|u|]; cbn [bind]; auto. apply (proj1 (Hk a s)).
  - destruct r as [a s|x s|u|]; cbn [bind]; auto. pose proof (proj2 (Hk a s)) as G. destruct (k a s); auto; eapply fr_trans; eauto.
Qed.
Ltac indiff := split; [intros ?w; reflexivity|first [exact I|apply fr_refl|repeat split]].
Lemma read_s (s : st) r : indifferent s (read_cur s r) (fun w => read_cur (bare s w) r).
Proof. unfold read_cur. cbn [rt_cur bare_from]. destruct (nth_error (rt_cur s) r) as [[c|]|]; indiff. Qed.
Lemma at_s (s : st) r : indifferent s (at_cur s r) (fun w => at_cur (bare s w) r).
Proof. unfold at_cur. cbn [rt_cur bare_from]. destruct (nth_error (rt_cur s) r) as [[c|]|]; indiff. Qed.
Lemma write_s (s : st) r c : indifferent s (write_cur s r c) (fun w => write_cur (bare s w) r c).
Proof. unfold write_cur. cbn [rt_cur bare_from]. destruct (upd_nth r _ (rt_cur s)); indiff. Qed.
Lemma parent_s (s : st) : indifferent s (current_parent m s) (fun w => current_parent m (bare s w)).
Proof. unfold current_parent. apply in_bind; [apply read_s|]. intros a s'. indiff. Qed.
Lemma state_s (s : st) r : indifferent s (current_state m s r) (fun w => current_state m (bare s w) r).
Proof. unfold current_state. apply in_bind; [apply at_s|]. intros a s'. indiff. Qed.
Lemma update_regions_s (s : st) : indifferent s (update_current_regions m s) (fun w => update_current_regions m (bare s w)).
Proof.
  unfold update_current_regions. destruct (parallel m); [|indiff].
  apply in_bind; [apply parent_s|]. intros a s'. destruct (nth_at a (initial_table m)); indiff.
Qed.
Lemma write_hist_s (s : st) p r c : indifferent s (write_hist s p r c) (fun w => write_hist (bare s w) p r c).
Proof.
  unfold write_hist. cbn [rt_hist bare_from]. destruct (nth_at p (rt_hist s)) as [l|]; [|indiff].
  destruct (upd_nth r _ l) as [l'|]; [|indiff]. destruct (upd_at p _ (rt_hist s)); indiff.
Qed.
Lemma read_hist_s (s : st) p r : indifferent s (read_hist s p r) (fun w => read_hist (bare s w) p r).
Proof.
  unfold read_hist. cbn [rt_hist bare_from]. destruct (nth_at p (rt_hist s)) as [l|]; [|indiff].
  destruct (nth_error l r); indiff.
Qed.
Lemma update_state_s r en (s : st) : indifferent s (update_current_state m r en s) (fun w => update_current_state m r en (bare s w)).
Proof.
  unfold update_current_state. destruct (en_int en); [indiff|].
  apply in_bind; [|intros a s'; apply update_regions_s]. destruct (has_history m); [|apply write_s].
  apply in_bind; [apply parent_s|]. intros p s1. apply in_bind; [apply read_s|]. intros c s2.
  apply in_bind; [apply write_hist_s|]. intros _ s3. destruct (en_hist en); [|apply write_s].
  apply in_bind; [apply read_hist_s|]. intros x s4. apply write_s.
Qed.
Lemma entries_s e r (s : st) : indifferent s (get_entries e r s) (fun w => get_entries e r (bare s w)).
Proof.
  unfold get_entries. cbn [rt_tabs bare_from]. destruct (get_table (rt_tabs s) e) as [arr|]; [|indiff].
  apply in_bind; [apply read_s|]. intros c s'. destruct (nth_at c arr); indiff.
Qed.
Lemma fired_s {A} (x : A) t e v r en (s : st) :
  follows s no_data (bind (update_current_state m r en s) (fun _ s => bind (execute_action cb t e v s) (fun v' s => Done (x, v') s)))
    (fun w => bind (update_current_state m r en (bare s w)) (fun _ s => bind (execute_action U t e tt s) (fun v' s => Done (x, v') s))).
Proof.
  eapply fo_bind; [apply in_follows, update_state_s|]. intros _ s2. eapply fo_bind; [apply action_s|]. intros v' s3.
  exact (fo_pure no_data (x, v') s3).
Qed.
Lemma try_entries_s r e ens : forall v (s : st), follows s no_data (try_entries cb m ens r e v s) (fun w => try_entries U m ens r e tt (bare s w)).
Proof.
  induction ens as [|en ens IH]; intros v s; cbn [try_entries]; [exact (fo_pure no_data (Refused, v) s)|].
  destruct (en_defer en).
  { intros C. exists []. split; [|split; [apply P_frame; repeat split|split; [exact C|auto]]]. intros rest. cbn [app]. unfold bare_from, with_queue. cbn. now rewrite map_app. }
  destruct (en_tr en) as [t|]; [|auto]. eapply fo_bind; [apply guard_s|]. intros [b v'] s1. cbn [fst snd no_data].
  destruct b; [apply fired_s|apply IH].
Qed.
Lemma try_region_s r e v (s : st) : follows s no_data (try_region cb m r e v s) (fun w => try_region U m r e tt (bare s w)).
Proof.
  unfold try_region. eapply fo_bind; [apply in_follows, entries_s|]. intros l s1. destruct l; [exact (fo_pure no_data (None, v) s1)|].
  eapply fo_bind; [apply try_entries_s|]. intros [t v'] s2. exact (fo_pure no_data (Some t, v') s2).
Qed.
Lemma region_loop_s fuel limit e : forall r agf ati v (s : st),
  follows s no_data (region_loop cb m fuel limit r agf ati e v s) (fun w => region_loop U m fuel limit r agf ati e tt (bare s w)).
Proof.
  induction fuel as [|f IH]; intros r agf ati v s; cbn [region_loop]; [auto|].
  destruct (Nat.ltb r limit); [|exact (fo_pure no_data (_, v) s)]. eapply fo_bind; [apply try_region_s|]. intros [t v'] s1.
  cbn [fst snd no_data]. destruct t as [[| |]|]; try apply IH. exact (fo_pure no_data (PDeferred, v') s1).
Qed.
Lemma try_anonymous_s r ens : forall v (s : st), follows s no_data (try_anonymous cb m ens r v s) (fun w => try_anonymous U m ens r tt (bare s w)).
Proof.
  induction ens as [|en ens IH]; intros v s; cbn [try_anonymous]; [exact (fo_pure no_data (false, v) s)|].
  destruct (en_tr en) as [t|]; [|auto]. eapply fo_bind; [apply guard_s|]. intros [b v'] s1. cbn [fst snd no_data].
  destruct b; [apply fired_s|apply IH].
Qed.
Lemma anonymous_region_s r v (s : st) : follows s no_data (anonymous_region cb m r v s) (fun w => anonymous_region U m r tt (bare s w)).
Proof.
  unfold anonymous_region. eapply fo_bind; [apply in_follows, entries_s|]. intros l s1. destruct l; [exact (fo_pure no_data (None, v) s1)|].
  eapply fo_bind; [apply try_anonymous_s|]. intros [t v'] s2. exact (fo_pure no_data (Some t, v') s2).
Qed.
Lemma anonymous_pass_s fuel limit : forall r agf v (s : st),
  follows s no_data (anonymous_pass cb m fuel limit r agf v s) (fun w => anonymous_pass U m fuel limit r agf tt (bare s w)).
Proof.
  induction fuel as [|f IH]; intros r agf v s; cbn [anonymous_pass]; [auto|].
  destruct (Nat.ltb r limit); [|exact (fo_pure no_data (Some agf, v) s)]. eapply fo_bind; [apply anonymous_region_s|]. intros [t v'] s1.
  cbn [fst snd no_data]. destruct t as [b|]; [apply IH|]. exact (fo_pure no_data (None, v') s1).
Qed.
Lemma anonymous_loop_s rfuel fuel : forall v (s : st),
  follows s same (anonymous_loop cb m rfuel fuel v s) (fun w => anonymous_loop U m rfuel fuel tt (bare s w)).
Proof.
  induction fuel as [|f IH]; intros v s; cbn [anonymous_loop]; [auto|].
  eapply fo_bind; [apply anonymous_pass_s|]. intros [t v'] s1. cbn [fst snd no_data]. destruct t as [[|]|].
  - exact (fo_pure same tt s1).
  - apply IH.
  - exact (fo_pure same tt s1).
Qed.
Variable vnone : V.
Lemma anonymous_s fuel (s : st) : follows s same (process_anonymous cb m vnone fuel s) (fun w => process_anonymous U m tt fuel (bare s w)).
Proof. unfold process_anonymous. destruct (has_anonymous m); [apply anonymous_loop_s|exact (fo_pure same tt s)]. Qed.
Lemma internal_s fuel e v (s : st) : follows s no_data (process_event_internal cb m vnone fuel e v s) (fun w => process_event_internal U m tt fuel e tt (bare s w)).
Proof.
  unfold process_event_internal. eapply fo_bind; [apply region_loop_s|]. intros [p v'] s1. cbn [fst no_data].
  destruct p; try exact (fo_pure no_data (_, v') s1). eapply fo_bind; [apply anonymous_s|]. intros [] s2. exact (fo_pure no_data (PProcessed, v') s2).
Qed.
Lemma deferred_s fuel (s : st) : follows s same (process_deferred cb m vnone fuel s) (fun w => process_deferred U m tt fuel (bare s w)).
Proof.
  unfold process_deferred. destruct (has_deferred m); [|exact (fo_pure same tt s)]. cbn [rt_queue bare_from].
  destruct (rt_queue s) as [|[e v] q] eqn:E; cbn [map fst snd]; [exact (fo_pure same tt s)|].
  eapply fo_bind; [apply fo_from with (s1 := with_queue s q); [repeat split|apply (internal_s fuel e v (with_queue s q))]|].
  intros p s1. exact (fo_pure same tt s1).
Qed.
Lemma handler_s e v (s : st) : follows s gone (call_handler cb m e v s) (fun w => call_handler U m e tt (bare s w)).
Proof.
  unfold call_handler. destruct (cd_unexpected _); [|exact (fo_pure gone v s)]. eapply fo_bind; [apply in_follows, at_s|]. intros c s1.
  cbn [rt_htabs bare_from]. destruct (get_table (rt_htabs s1) e) as [arr|]; [|auto].
  change (same c) with c. destruct (nth_at c arr) as [[[o d]|]|]; auto.
  change (fun w : X => if alive (bare s1 w) o then keep_payload (invoke U CHandler (mkArgs e o TNone d) tt (bare s1 w)) else Undef UBNull)
    with (fun w : X => if alive s1 o then keep_payload (invoke U CHandler (mkArgs e o TNone d) tt (bare s1 w)) else Undef UBNull).
  destruct (alive s1 o); [apply keep_s, invoke_s|auto].
Qed.
Lemma process_s fuel e v (s : st) : follows s no_data (process_event cb m vnone fuel e v s) (fun w => process_event U m tt fuel e tt (bare s w)).
Proof.
  unfold process_event. destruct (in_dec _ _ _); [|auto]. eapply fo_bind; [apply internal_s|]. intros [p v'] s1. cbn [fst snd no_data].
  destruct p; try exact (fo_pure no_data (_, v') s1).
  - eapply fo_bind; [apply handler_s|]. intros v2 s2. exact (fo_pure no_data (false, v2) s2).
  - eapply fo_bind; [apply deferred_s|]. intros [] s2. exact (fo_pure no_data (true, v') s2).
Qed.
Lemma status_loop_s fuel limit : forall r (s : st), indifferent s (status_loop m fuel limit r s) (fun w => status_loop m fuel limit r (bare s w)).
Proof.
  induction fuel as [|f IH]; intros r s; cbn [status_loop]; [indiff|]. destruct (Nat.ltb r limit); [|indiff].
  apply in_bind; [apply read_s|]. intros c s1. apply in_bind; [apply parent_s|]. intros p s2. apply in_bind; [apply state_s|]. intros q s3.
  apply in_bind; [apply IH|]. intros l s4. indiff.
Qed.
Lemma fo_out s0 (r : res V W out) f : follows s0 same r f -> (forall o s, r = Done o s -> out_of h o = o) -> follows s0 (out_of h) r f.
Proof.
  intros F Ho C. destruct (F C) as (l & H & HP). exists l. split; [|exact HP]. intros rest. rewrite H. destruct r as [o s| | |]; try reflexivity. now rewrite (Ho o s eq_refl).
Qed.
(** Passing a dependency is the one call that writes the tables. *)
Definition may_set (k : call V) : Prop := forall d, k = KSetDep d -> forall s t, P s [] (with_tabs s t).
Lemma do_call_s fuel k (s : st) : may_set k ->
  follows s (out_of h) (do_call cb m vnone fuel k s) (fun w => do_call U m tt fuel (with_payload (fun _ => tt) k) (bare s w)).
Proof.
  intros Hk. destruct k; cbn [do_call with_payload].
  - eapply fo_bind; [apply process_s|]. intros [b v'] s1. exact (fo_pure (out_of h) (OBool b) s1).
  - eapply (fo_bind s same (out_of h)); [apply in_follows|intros b s1; exact (fo_pure (out_of h) (OBool b) s1)].
    unfold q_is. apply in_bind; [apply parent_s|]. intros c s1.
    destruct (N.eqb c (parent_idx m p)); [|indiff]. apply in_bind; [apply state_s|]. intros x s2. indiff.
  - eapply (fo_bind s same (out_of h)); [apply in_follows|intros b s1; exact (fo_pure (out_of h) (OBool b) s1)].
    unfold q_parent_is. apply in_bind; [apply parent_s|]. intros c s1. indiff.
  - eapply (fo_bind s same (out_of h)); [apply in_follows|intros b s1; exact (fo_pure (out_of h) OUnit s1)].
    unfold set_state. destruct (in_dec _ _ _); [|indiff]. destruct (in_dec _ _ _); [|indiff]. cbn [rt_cur bare_from].
    destruct (upd_nth _ _ _); indiff.
  - eapply (fo_bind s same (out_of h)); [|intros b s1; exact (fo_pure (out_of h) OUnit s1)].
    unfold set_dependency. cbn [rt_tabs bare_from]. destruct (fill_dispatch m d (rt_tabs s)); [|auto].
    intros C. exists []. split; [reflexivity|]. split; [now apply (Hk d)|split; [exact C|auto]].
  - eapply (fo_bind s same (out_of h)); [apply in_follows, status_loop_s|intros b s1; exact (fo_pure (out_of h) (OStatus b) s1)].
Qed.
Lemma catch_s fuel k (s : st) : may_set k ->
  tracks s (out_of h) (do_call_catch cb m vnone fuel k s) (fun w => do_call_catch U m tt fuel (with_payload (fun _ => tt) k) (bare s w)).
Proof.
  intros Hk C. destruct (do_call_s fuel k s Hk C) as (l & H & HP). exists l. unfold do_call_catch. split.
  - intros rest. rewrite H. destruct (do_call cb m vnone fuel k s); reflexivity.
  - destruct (do_call cb m vnone fuel k s); tauto.
Qed.
Lemma run_s fuel ks : (forall k, In k ks -> may_set k) -> forall s : st,
  tracks s (map (out_of h)) (run cb m vnone fuel ks s) (fun w => run U m tt fuel (map (with_payload (fun _ => tt)) ks) (bare s w)).
Proof.
  induction ks as [|k ks IH]; intros Hk s; cbn [run map]; [exact (tr_pure (map (out_of h)) [] s)|].
  eapply tr_bind; [apply catch_s, Hk; now left|]. intros o s1.
  eapply tr_bind; [apply IH; intros k' Hk'; apply Hk; now right|]. intros os s2. exact (tr_pure (map (out_of h)) (o :: os) s2).
Qed.
End Scripts.

(** Construction calls no user code. *)
Section Construct.
Context {V W X : Type}.
Notation bare := (bare_from 0).
Variable m : machine.
Notation st := (rt V W).
Definition built {A} (r : res V W A) (f : X -> res unit X A) : Prop :=
  forall w, f w = match r with
    | Done a s => Done a (bare s w) | Threw x s => Threw x (bare s w) | Undef u => Undef u | Timeout => Timeout end.
Lemma built_of {A} s0 (r : res V W A) (f : X -> res unit X A) : indifferent (fun n => n) 0 s0 r f -> built r f.
Proof. intros [H _] w. rewrite H. destruct r as [| [n| |] s| |]; reflexivity. Qed.
Lemma built_bind {A B} (r : res V W A) f k (k' : A -> rt unit X -> res unit X B) : built r f ->
  (forall a s, built (k a s) (fun w => k' a (bare s w))) -> built (bind r k) (fun w => bind (f w) k').
Proof. intros H Hk w. rewrite H. destruct r; cbn [bind]; auto. apply Hk. Qed.
Lemma init_loop_s fuel l : forall r (s : st), built (init_loop fuel l r s) (fun w => init_loop fuel l r (bare s w)).
Proof.
  induction fuel as [|f IH]; intros r s; cbn [init_loop]; [intros w; reflexivity|]. destruct (Nat.ltb _ _); [|intros w; reflexivity].
  destruct (nth_error l r) as [c|]; [|intros w; reflexivity]. apply built_bind; [eapply built_of, write_s|]. intros _ s1. apply IH.
Qed.
Lemma construct_s fuel d (w : W) : built (construct (V:=V) m fuel d w) (fun w => construct m fuel d w).
Proof.
  unfold construct. destruct (if cd_unexpected _ then _ else _) as [h|]; [|intros w'; reflexivity].
  destruct (fill_dispatch m d (empty_tables m)) as [t|]; [|intros w'; reflexivity].
  set (s0 := mkRt (repeat None (max_initials m)) (initial_table m) [] 0 (filter (defctor (mc_env m)) (states m)) t h w []).
  unfold init_current_state. destruct (nth_at (parent_idx m (mc_root m)) (initial_table m)) as [l|]; [|intros w'; reflexivity].
  apply (built_bind (init_loop fuel l 0 s0) (fun w' => init_loop fuel l 0 (bare s0 w'))); [apply init_loop_s|]. intros _ s1.
  eapply built_of, update_regions_s.
Qed.
End Construct.

(** Every session is a session of a script. *)
Theorem session_scripted {V W} (cb : cbfun V W) m vnone fuel d w ks :
  exists l, forall rest, session scripted m tt fuel d (l ++ rest) (map (with_payload (fun _ => tt)) ks) =
    match session cb m vnone fuel d w ks with
    | Done outs s => Done outs (bare s rest)
    | Threw x s => Threw x (bare s rest)
    | Undef u => Undef u
    | Timeout => Timeout
    end.
Proof.
  unfold session. pose proof (construct_s (X := list reply) m fuel d w (V := V)) as C. unfold built in C.
  destruct (construct m fuel d w) as [[] s|x s|u|] eqn:E; cbn [bind]; try (exists []; intros rest; now rewrite C).
  assert (F : tracks (fun l : list reply => l) (fun n => n) 0 (fun _ _ _ => True) s (map (out_of (fun n => n))) (run cb m vnone fuel ks s)
    (fun w => run scripted m tt fuel (map (with_payload (fun _ => tt)) ks) (bare_from 0 s w))).
  { refine (run_s cb m scripted (fun l => l) (fun n => n) _ _ 0 (fun _ _ _ => True) _ _ _ (fun _ _ => True) _ _ _ vnone fuel ks _ s); auto; try reflexivity.
    intros k _ x _ s1 t. exact I. }
  destruct (F (Nat.le_0_l _)) as (l & H & _).
  exists l. intros rest. rewrite C. cbn [bind]. rewrite H. destruct (run cb m vnone fuel ks s) as [outs s'|[n| |] s'|u|]; try reflexivity.
  f_equal. rewrite <- (map_id outs) at 2. apply map_ext. intros [b| |l0|[n| |]]; reflexivity.
Qed.
