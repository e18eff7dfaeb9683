(** A machine in a composite and the machine of the composite, side by side. *)

From Coq Require Import List Arith NArith Bool Lia.
From Verif Require Import Dsl Types Static Dispatch Runtime ListFacts IndexFacts Spec DispatchFacts FlattenFacts
  Semantics RefineFacts StaticFacts Reach ReachFacts ProcessFacts SpellRun Reorder Dead ReorderRun Part.
Import ListNotations.

Section PartRun.
Variable m m' : machine.
Hypothesis Hc : comp m.
Hypothesis Hc' : comp m'.
Notation env := (mc_env m).
Hypothesis Henv : mc_env m' = env.
(** The common states. *)
Definition inn (q : sref) : Prop := In q (states m) /\ In q (states m').
Hypothesis Hpar : forall p, In p (parents m') -> In p (parents m).
Hypothesis Hin : forall x, In x (mc_flat m') -> In (resolve_dst_parent env x) (parents m').
Variable again : bool.
Variable E : ev -> Prop.
Hypothesis HE : forall e, E e -> In e (events m) /\ In e (events m').
Hypothesis Hcand : forall e p q, E e \/ e = ENone /\ has_anonymous m = true -> In p (parents m') -> inn q ->
  same_choice again [] (cands m e (p, q)) (cands m' e (p, q)).
Hypothesis Hanon : has_anonymous m = true -> In ENone (events m) /\
  (has_anonymous m' = true /\ In ENone (events m') \/
   has_anonymous m' = false /\ forall p q, In p (parents m') -> inn q -> cands m' ENone (p, q) = []).
Hypothesis Hanon' : has_anonymous m' = true -> has_anonymous m = true.
Hypothesis Hdefer : has_deferred m' = true -> has_deferred m = true.
Hypothesis Hhist : has_history m' = true -> has_history m = true.
Hypothesis Hrows : forall x w p, In x (mc_flat m') -> x_tgt x = SHistory w p -> has_history m' = true.
Hypothesis Hdrows : forall e pl, In CDefer (cands m' e pl) -> has_deferred m' = true.
Definition ones : Prop := forall p, In p (parents m') -> length (initials env p) = 1.
Hypothesis Hreg : ones \/ parallel m' = parallel m /\ has_history m' = has_history m.
Hypothesis Hhandler : cd_unexpected (lookup env (mc_root m)) = cd_unexpected (lookup env (mc_root m')).
Context {V W : Type}.
Variable cb : cbfun V W.
Variable vnone : V.
Hypothesis Hlook : again = true -> guards_look cb.
Variable pre : list (called V).
Notation n := (max_initials m').

Lemma n_pos : 0 < n.
Proof. pose proof (cp_max m' Hc'). lia. Qed.
Lemma ones_fold l : l <> [] -> (forall p, In p l -> length (initials env p) = 1) ->
  fold_right Nat.max 0 (map (fun p => length (initials env p)) l) = 1.
Proof.
  induction l as [|p l IH]; intros N H; [easy|]. cbn [map fold_right]. rewrite (H p (or_introl eq_refl)).
  destruct l as [|q l]; [reflexivity|]. rewrite IH; [reflexivity|easy|intros a Ha; apply H; now right].
Qed.
Lemma ones_n : ones -> n = 1.
Proof.
  intros H. unfold max_initials. rewrite Henv. apply ones_fold; [|exact H].
  pose proof (root_parent m' Hc') as R. intros X. rewrite X in R. destruct R.
Qed.
Lemma ones_parallel : ones -> parallel m' = false.
Proof. intros H. unfold parallel. rewrite (ones_n H). reflexivity. Qed.

(** ** Numbers of one place, numbers of one parent *)
Inductive csim : N -> N -> Prop :=
| cs_in p q : In p (parents m') -> inn q -> csim (combined_idx m p q) (combined_idx m' p q).
Inductive psim : N -> N -> Prop :=
| ps_in p : In p (parents m') -> psim (parent_idx m p) (parent_idx m' p).
Lemma csim_parent c c' : csim c c' -> psim (calc_parent_idx (n_states m) c) (calc_parent_idx (n_states m') c').
Proof.
  intros [p q Hp Hq]. pose proof Hq as Hq0; destruct Hq0 as [Q Q']. rewrite (calc_parent_combined m Hc) by auto.
  rewrite (calc_parent_combined m' Hc') by auto. now constructor.
Qed.
Lemma csim_state c c' k : csim c c' ->
  N.eqb (calc_state_idx (n_states m') c') (state_idx m' k) = N.eqb (calc_state_idx (n_states m) c) (state_idx m k).
Proof.
  intros [p q Hp Hq]. pose proof Hq as Hq0; destruct Hq0 as [Q Q']. rewrite (calc_state_combined m Hc) by auto.
  rewrite (calc_state_combined m' Hc') by auto.
  apply bool_iff. rewrite !N.eqb_eq. split; intros X.
  - apply (state_idx_inj m' Hc') in X; [now subst|assumption].
  - apply (state_idx_inj m Hc) in X; [now subst|assumption].
Qed.
Lemma psim_eq a a' p : psim a a' -> N.eqb a' (parent_idx m' p) = N.eqb a (parent_idx m p).
Proof.
  intros [p0 Hp]. apply bool_iff. rewrite !N.eqb_eq. split; intros X.
  - apply (parent_idx_inj m' Hc') in X; [now subst|assumption].
  - apply (parent_idx_inj m Hc) in X; [now subst|auto].
Qed.

(** ** Related states of the two objects *)
Definition osim (a b : option N) : Prop :=
  match a, b with Some c, Some c' => csim c c' | None, None => True | _, _ => False end.
Definition cursim (l l' : list (option N)) : Prop := forall r, r < n ->
  exists a a', nth_error l r = Some a /\ nth_error l' r = Some a' /\ osim a a'.
Definition hsim (h h' : list (list N)) : Prop := forall p, In p (parents m') ->
  exists l l', nth_error h (parent_pos m p) = Some l /\ nth_error h' (parent_pos m' p) = Some l' /\ Forall2 csim l l'.
Definition hshape (h : list (list N)) : Prop := forall p, In p (parents m') ->
  exists l, nth_error h (parent_pos m p) = Some l /\ length l = length (initials env p).
Record sim (s s' : rt V W) : Prop := mkSim {
  si_len : length (rt_cur s') = n;
  si_cur : cursim (rt_cur s) (rt_cur s');
  si_zero : nth_error (rt_cur s') 0 <> Some None;
  si_hist : has_history m' = true -> hsim (rt_hist s) (rt_hist s');
  si_shape : hshape (rt_hist s);
  si_queue : rt_queue s = rt_queue s';
  si_own : forall e v, In (e, v) (rt_queue s') -> E e;
  si_noq : has_deferred m' = false -> rt_queue s' = [];
  si_regions : current_regions m s = current_regions m' s';
  si_le : current_regions m' s' <= n;
  si_live : forall o, inn o -> (In o (rt_live s) <-> In o (rt_live s'));
  si_tabs : exists ds, filled m ds (rt_tabs s) /\ filled m' ds (rt_tabs s');
  si_htabs : cd_unexpected (lookup env (mc_root m)) = true ->
    exists d, fill_handlers m d = Some (rt_htabs s) /\ fill_handlers m' d = Some (rt_htabs s');
  si_world : rt_world s = rt_world s';
  si_trace : counted again (rt_trace s) = pre ++ counted again (rt_trace s') }.
Inductive rs {A A'} (R : A -> A' -> Prop) : res V W A -> res V W A' -> Prop :=
| rs_done a a' s s' : R a a' -> sim s s' -> rs R (Done a s) (Done a' s')
| rs_threw x s s' : sim s s' -> rs R (Threw x s) (Threw x s')
| rs_undef u : rs R (Undef u) (Undef u)
| rs_timeout : rs R Timeout Timeout.
Lemma rs_bind {A A' B B'} (R : A -> A' -> Prop) (T : B -> B' -> Prop) r r' k k' :
  rs R r r' -> (forall a a' s s', R a a' -> sim s s' -> rs T (k a s) (k' a' s')) -> rs T (bind r k) (bind r' k').
Proof. intros [a a' s s' H1 H2|x s s' H|u|] Hk; cbn; auto; constructor; assumption. Qed.

(** ** User code *)
Lemma counted_app l k : counted again (l ++ k) = counted again l ++ @counted V again k.
Proof. unfold counted. destruct again; [apply filter_app|reflexivity]. Qed.
Lemma user_s s s' w k : sim s s' -> sim (with_user s w (rt_trace s ++ k)) (with_user s' w (rt_trace s' ++ k)).
Proof.
  intros S. destruct S; constructor; auto. cbn. rewrite !counted_app, si_trace0. now rewrite app_assoc.
Qed.
Lemma invoke_s c a v s s' : sim s s' -> rs eq (invoke cb c a v s) (invoke cb c a v s').
Proof.
  intros S. unfold invoke. rewrite (si_world _ _ S). destruct (cb c a v (rt_world s')); constructor; auto; now apply user_s.
Qed.
Lemma alive_s s s' o : sim s s' -> inn o -> alive s' o = alive s o.
Proof.
  intros S Ho. unfold alive. pose proof (si_live _ _ S o Ho).
  destruct (in_dec sref_eq_dec o (rt_live s)), (in_dec sref_eq_dec o (rt_live s')); tauto.
Qed.
Definition tin (t : trans) : Prop := inn (t_src t) /\ inn (t_tgt t).
Lemma execute_guard_s t e v s s' : tin t -> sim s s' -> rs eq (execute_guard cb t e v s) (execute_guard cb t e v s').
Proof.
  intros [T1 T2] S. unfold execute_guard. destruct (t_guard t) as [|ty val]; [now constructor|].
  rewrite !(alive_s s s' _ S) by (destruct (t_int t); assumption). destruct (_ && _); [|constructor]. now apply invoke_s.
Qed.
Lemma set_live_s s s' o b : inn o -> sim s s' -> sim (set_live s o b) (set_live s' o b).
Proof.
  intros Ho S. pose proof (si_live _ _ S) as L. destruct S; constructor; cbn; auto. intros k Hk. specialize (L k Hk) as Lk. specialize (L o Ho). destruct b.
  - destruct (in_dec sref_eq_dec o (rt_live s)) as [H1|H1], (in_dec sref_eq_dec o (rt_live s')) as [H2|H2]; cbn; tauto.
  - rewrite !filter_In. tauto.
Qed.
Lemma keep_s r r' : rs (A:=bool * V) eq r r' -> rs eq (keep_payload r) (keep_payload r').
Proof. intros H. eapply rs_bind; [exact H|]. intros a a' s s' -> S. now constructor. Qed.
Lemma exec_body_s t e : tin t -> forall b v s s', sim s s' -> rs eq (exec_body cb b t e v s) (exec_body cb b t e v s').
Proof.
  intros [T1 T2]. induction b using abody_ind2; intros v s s' S; cbn [exec_body].
  - apply keep_s. now apply invoke_s.
  - eapply rs_bind; [apply invoke_s; exact S|]. intros a a' s1 s1' -> S1. constructor; [reflexivity|]. now apply set_live_s.
  - rewrite (alive_s s s' _ S T2). destruct (alive s (t_tgt t)); [|constructor].
    unfold drop_payload. eapply rs_bind; [apply invoke_s; exact S|]. intros a a' s1 s1' _ S1. now constructor.
  - revert v s s' S. match goal with H : Forall _ _ |- _ => induction H as [|b l Hbl _ IH] end; intros v s s' S; [now constructor|].
    eapply rs_bind; [apply Hbl; exact S|]. intros a a' s1 s1' -> S1. now apply IH.
Qed.
Lemma exec_steps_s t e : tin t -> forall l v s s', sim s s' -> rs eq (exec_steps cb l t e v s) (exec_steps cb l t e v s').
Proof.
  intros T. induction l as [|st l IH]; intros v s s' S; [now constructor|]. cbn [exec_steps].
  eapply (rs_bind eq).
  - destruct st; cbn [exec_step]; try (apply keep_s; now apply invoke_s). now apply exec_body_s.
  - intros a a' s1 s1' -> S1. now apply IH.
Qed.
Lemma execute_action_s t e v s s' : tin t -> sim s s' -> rs eq (execute_action cb t e v s) (execute_action cb t e v s').
Proof.
  intros T S. unfold execute_action. destruct (t_act t) as [l|]; [|now constructor].
  rewrite !(alive_s s s' _ S) by apply T. destruct (_ && _); [|constructor]. now apply exec_steps_s.
Qed.

(** ** Bookkeeping *)
Lemma read_cur_s s s' r : sim s s' -> r < n -> rs csim (read_cur s r) (read_cur s' r).
Proof.
  intros S Hr. unfold read_cur. destruct (si_cur _ _ S r Hr) as (a & a' & -> & -> & H).
  destruct a as [c|], a' as [c'|]; cbn in H; try tauto; constructor; auto.
Qed.
Lemma at_cur_s s s' r : sim s s' -> r < n -> rs csim (at_cur s r) (at_cur s' r).
Proof.
  intros S Hr. unfold at_cur. destruct (si_cur _ _ S r Hr) as (a & a' & -> & -> & H).
  destruct a as [c|], a' as [c'|]; cbn in H; try tauto; constructor; auto.
Qed.
Lemma zero_s s s' : sim s s' -> exists c c', read_cur s 0 = Done c s /\ read_cur s' 0 = Done c' s' /\ csim c c'.
Proof.
  intros S. unfold read_cur. pose proof (si_zero _ _ S) as Z. destruct (si_cur _ _ S 0 n_pos) as (a & a' & E1 & E2 & H).
  rewrite E1, E2. rewrite E2 in Z. destruct a as [c|], a' as [c'|]; cbn in H; try tauto. eauto.
Qed.
Lemma upd_some (l : list (option N)) r a : r < length l -> exists l', upd_nth r (fun _ => a) l = Some l' /\ length l' = length l /\
  forall k, nth_error l' k = if Nat.eq_dec k r then Some a else nth_error l k.
Proof.
  intros H. pose proof (upd_nth_in (A := option N) a l r H) as U. exists (set_nth r a l). split; [exact U|]. split; [apply set_nth_length|].
  intros k. destruct (Nat.eq_dec k r) as [->|D]; [now apply nth_set_same|now apply nth_set_other].
Qed.
Lemma put_s s s' r a a' : sim s s' -> r < n -> csim a a' -> exists l l',
  upd_nth r (fun _ => Some a) (rt_cur s) = Some l /\ upd_nth r (fun _ => Some a') (rt_cur s') = Some l' /\ sim (with_cur s l) (with_cur s' l').
Proof.
  intros S Hr C. destruct (si_cur _ _ S r Hr) as (b & b' & E1 & E2 & _).
  destruct (upd_some (rt_cur s) r (Some a)) as (l & U & _ & N); [apply nth_error_Some; congruence|].
  destruct (upd_some (rt_cur s') r (Some a')) as (l' & U' & L' & N'); [apply nth_error_Some; congruence|].
  exists l, l'. split; [exact U|]. split; [exact U'|]. destruct S; constructor; cbn; auto; [congruence| |].
  - intros k Hk. rewrite N, N'. destruct (Nat.eq_dec k r); [exists (Some a), (Some a'); auto|now apply si_cur0].
  - change (nth_error l' 0 <> Some None). rewrite N'. destruct (Nat.eq_dec 0 r); [congruence|exact si_zero0].
Qed.
Lemma write_cur_s s s' r c c' : sim s s' -> r < n -> csim c c' -> rs eq (write_cur s r c) (write_cur s' r c').
Proof. intros S Hr C. unfold write_cur. destruct (put_s s s' r c c' S Hr C) as (l & l' & -> & -> & S1). now constructor. Qed.
Lemma current_parent_s s s' : sim s s' -> rs psim (current_parent m s) (current_parent m' s').
Proof.
  intros S. unfold current_parent. eapply rs_bind; [apply read_cur_s; [exact S|apply n_pos]|]. intros c c' s1 s1' C S1. constructor; [|exact S1].
  now apply csim_parent.
Qed.
Lemma parent_done s s' : sim s s' -> exists p, In p (parents m') /\ current_parent m s = Done (parent_idx m p) s /\
  current_parent m' s' = Done (parent_idx m' p) s'.
Proof.
  intros S. destruct (zero_s s s' S) as (c & c' & E1 & E2 & C). unfold current_parent. rewrite E1, E2. cbn [bind].
  apply csim_parent in C. inversion C as [p Hp X X']. exists p. auto.
Qed.
Lemma initial_nth k (Hk : comp k) p : mc_env k = env -> In p (parents k) -> exists l, nth_at (parent_idx k p) (initial_table k) = Some l /\ length l = length (initials env p).
Proof.
  intros He Hp. rewrite nth_at_nth, (parent_pos_idx k Hk), (initial_table_nth k Hk p Hp), He. eexists. split; [reflexivity|]. apply map_length.
Qed.
Lemma update_regions_s s s' : sim s s' -> rs eq (update_current_regions m s) (update_current_regions m' s').
Proof.
  intros S. unfold update_current_regions. destruct (parent_done s s' S) as (p & Hp & E1 & E2). rewrite E1, E2. cbn [bind].
  destruct (initial_nth m Hc p eq_refl (Hpar p Hp)) as (l & -> & L). destruct (initial_nth m' Hc' p Henv Hp) as (l' & -> & L').
  pose proof Hreg as Hreg0; destruct Hreg0 as [O|[P _]].
  - rewrite (ones_parallel O). pose proof (ones_parallel O) as F. destruct (parallel m) eqn:Pm; [|now constructor]. constructor; [reflexivity|].
    destruct S; constructor; cbn; auto. unfold current_regions. rewrite Pm, F. cbn. now rewrite L, (O p Hp).
  - rewrite P. destruct (parallel m) eqn:Pm; [|now constructor]. constructor; [reflexivity|].
    destruct S; constructor; cbn; auto; unfold current_regions; rewrite ?P, ?Pm; cbn; [congruence|].
    rewrite L', <- Henv. now apply initials_le_max.
Qed.
Lemma hist_at k (Hk : comp k) (h : list (list N)) p : nth_at (parent_idx k p) h = nth_error h (parent_pos k p).
Proof. now rewrite nth_at_nth, (parent_pos_idx k Hk). Qed.
Lemma upd_hist k (Hk : comp k) (h : list (list N)) p a l : nth_error h (parent_pos k p) = Some l -> exists h', upd_at (parent_idx k p) (fun _ => a) h = Some h' /\
  forall j, nth_error h' j = if Nat.eq_dec j (parent_pos k p) then Some a else nth_error h j.
Proof.
  intros H. rewrite upd_at_upd, (parent_pos_idx k Hk). destruct (upd_nth_some (fun _ => a) _ _ _ H) as (h' & U). exists h'. split; [exact U|].
  apply upd_nth_set in U. subst h'. intros j. destruct (Nat.eq_dec j (parent_pos k p)) as [->|D]; [|now apply nth_set_other].
  apply nth_set_same. apply nth_error_Some. congruence.
Qed.
Lemma pos_m p q : In p (parents m') -> parent_pos m p = parent_pos m q -> p = q.
Proof. intros Hp. apply pos_inj. auto. Qed.
Lemma pos_m' p q : In p (parents m') -> parent_pos m' p = parent_pos m' q -> p = q.
Proof. intros Hp. now apply pos_inj. Qed.
Lemma write_hist_s s s' p r c c' : has_history m' = true -> sim s s' -> In p (parents m') -> csim c c' ->
  rs eq (write_hist s (parent_idx m p) r c) (write_hist s' (parent_idx m' p) r c').
Proof.
  intros Hh S Hp C. unfold write_hist. rewrite (hist_at m Hc), (hist_at m' Hc').
  destruct (si_hist _ _ S Hh p Hp) as (l & l' & E1 & E2 & H). rewrite E1, E2.
  pose proof (Forall2_upd csim c c' _ _ C H r) as H'.
  destruct (upd_nth r _ l) as [k|] eqn:U, (upd_nth r _ l') as [k'|] eqn:U'; try tauto; [|constructor].
  destruct (upd_hist m Hc _ p k _ E1) as (h & -> & N). destruct (upd_hist m' Hc' _ p k' _ E2) as (h' & -> & N').
  constructor; [reflexivity|]. destruct S; constructor; cbn; auto.
  - intros _ q Hq. rewrite N, N'. destruct (Nat.eq_dec (parent_pos m q) (parent_pos m p)) as [X|X], (Nat.eq_dec (parent_pos m' q) (parent_pos m' p)) as [X'|X'].
    + eauto.
    + exfalso. apply X'. f_equal. now apply pos_m.
    + exfalso. apply X. f_equal. now apply pos_m'.
    + now apply si_hist0.
  - intros q Hq. rewrite N. destruct (Nat.eq_dec (parent_pos m q) (parent_pos m p)) as [X|X]; [|now apply si_shape0].
    exists k. split; [reflexivity|]. apply pos_m in X; [|assumption]. subst q. destruct (si_shape0 p Hp) as (l0 & X & L). rewrite E1 in X. injection X as <-.
    apply upd_nth_set in U. subst k. now rewrite set_nth_length.
Qed.
Lemma read_hist_s s s' p r : has_history m' = true -> sim s s' -> In p (parents m') ->
  rs csim (read_hist s (parent_idx m p) r) (read_hist s' (parent_idx m' p) r).
Proof.
  intros Hh S Hp. unfold read_hist. rewrite (hist_at m Hc), (hist_at m' Hc').
  destruct (si_hist _ _ S Hh p Hp) as (l & l' & -> & -> & H).
  pose proof (Forall2_nth _ _ _ H r) as H'. destruct (nth_error l r), (nth_error l' r); try tauto; constructor; auto.
Qed.
(** Only the whole remembers. *)
Lemma write_hist_more s s' p c : has_history m' = false -> ones -> sim s s' -> In p (parents m') ->
  exists s1, write_hist s (parent_idx m p) 0 c = Done tt s1 /\ sim s1 s'.
Proof.
  intros Hh O S Hp. unfold write_hist. rewrite (hist_at m Hc). destruct (si_shape _ _ S p Hp) as (l & E1 & L). rewrite E1.
  rewrite (O p Hp) in L. destruct l as [|a [|b l]]; try discriminate. cbn [upd_nth].
  destruct (upd_hist m Hc _ p [c] _ E1) as (h & -> & N). eexists. split; [reflexivity|]. destruct S; constructor; cbn; auto; [congruence|].
  intros q Hq. rewrite N. destruct (Nat.eq_dec (parent_pos m q) (parent_pos m p)) as [X|X]; [|now apply si_shape0].
  exists [c]. split; [reflexivity|]. now rewrite (O q Hq).
Qed.

(** ** Table entries *)
Record esim (en en' : entry) : Prop := mkEsim {
  es_hist : en_hist en' = en_hist en;
  es_defer : en_defer en' = en_defer en;
  es_int : en_int en' = en_int en;
  es_tr : en_tr en' = en_tr en;
  es_to : en_tr en <> None -> en_int en = true \/ csim (en_to en) (en_to en') /\ (en_hist en = true -> has_history m' = true);
  es_in : forall t, en_tr en = Some t -> tin t;
  es_dq : en_defer en = true -> has_deferred m' = true;
  es_dn : en_defer en = true -> en_tr en = None }.
Lemma update_state_s r en en' s s' : r < n -> esim en en' -> en_tr en <> None -> sim s s' ->
  rs eq (update_current_state m r en s) (update_current_state m' r en' s').
Proof.
  intros Hr X Ht S. unfold update_current_state. rewrite (es_int _ _ X), (es_hist _ _ X).
  destruct (es_to _ _ X Ht) as [->|[C Ch]]; [now constructor|].
  destruct (en_int en); [now constructor|]. eapply (rs_bind eq); [|intros u u' s1 s1' _ S1; now apply update_regions_s].
  destruct (Bool.bool_dec (has_history m') true) as [Hh|Hh]; [|apply not_true_is_false in Hh]; rewrite Hh.
  - rewrite (Hhist Hh). destruct (parent_done s s' S) as (p & Hp & E1 & E2). rewrite E1, E2. cbn [bind].
    eapply rs_bind; [now apply read_cur_s|]. intros c c' s2 s2' C2 S2.
    eapply rs_bind; [now apply write_hist_s|]. intros u u' s3 s3' _ S3.
    destruct (en_hist en); [|now apply write_cur_s].
    apply csim_parent in C. inversion C as [q Hq X1 X2].
    eapply rs_bind; [now apply read_hist_s|]. intros c3 c3' s4 s4' C4 S4. now apply write_cur_s.
  - destruct (Bool.bool_dec (has_history m) true) as [Hm|Hm]; [|apply not_true_is_false in Hm]; rewrite Hm; [|now apply write_cur_s].
    pose proof Hreg as Hreg0; destruct Hreg0 as [O|[_ X1]]; [|congruence]. pose proof (ones_n O) as N1. assert (r = 0) as -> by lia.
    destruct (parent_done s s' S) as (p & Hp & E1 & _). destruct (zero_s s s' S) as (c & c' & E2 & _ & _). rewrite E1. cbn [bind]. rewrite E2. cbn [bind].
    destruct (write_hist_more s s' p c Hh O S Hp) as (s1 & -> & S1). cbn [bind].
    destruct (en_hist en); [rewrite (Ch eq_refl) in Hh; discriminate|]. now apply write_cur_s.
Qed.
Lemma dst_of_p x : dst_of m x = dst_of m' x.
Proof. unfold dst_of. now rewrite Henv. Qed.
Lemma centry_s e pl d c : In c (cands m e pl) -> In c (cands m' e pl) -> esim (centry m d c) (centry m' d c).
Proof.
  intros H H'. destruct c as [|x o]; [constructor; try reflexivity; cbn; try congruence; intros _; eapply Hdrows; eauto|]. cbn [centry].
  apply (cand_row m) in H. apply (cand_row m') in H'. destruct H as [Hx Eo], H' as [Hx' _].
  pose proof (row_accepted_states m x (cp_rows m Hc x Hx)) as A. pose proof (row_accepted_states m' x (cp_rows m' Hc' x Hx')) as A'.
  rewrite <- dst_of_p, <- Eo in A'. rewrite <- Eo in A.
  assert (Ho : inn o) by (split; tauto). assert (Hd : inn (dst_of m x)) by (split; tauto).
  constructor; cbn [entry_of_row en_hist en_defer en_int en_tr en_to]; try reflexivity; try congruence.
  - now rewrite !dst_of_p, Henv.
  - intros _. rewrite <- !dst_of_p, Henv. apply in_app_iff in Hx'. destruct Hx' as [Hx'|Hx'].
    + right. split; [constructor; [now apply Hin|exact Hd]|]. unfold resolve_history. destruct (x_tgt x) eqn:Et; try discriminate. intros _. eapply Hrows; eauto.
    + left. now apply (internal_flat_int m' Hc').
  - intros t X. injection X as <-. split; cbn; assumption.
Qed.
Definition taken (en : entry) : Prop := match en_tr en with None => True | Some t => t_guard t = NoGuard end.
Inductive esims : list entry -> list entry -> list entry -> Prop :=
| es_nil seen : esims seen [] []
| es_last seen en en' l l' : esim en en' -> taken en -> esims seen (en :: l) (en' :: l')
| es_cons seen en en' l l' : esim en en' -> esims (en :: seen) l l' -> esims seen (en :: l) (en' :: l')
| es_copy seen en l l' : again = true -> In en seen -> esims seen l l' -> esims seen (en :: l) l'.
Lemma decisive_taken d c : decisive c = true -> taken (centry m d c).
Proof. destruct c as [|x o]; cbn; [reflexivity|]. unfold taken, entry_of_row. cbn. destruct (x_guard x); [reflexivity|discriminate]. Qed.
Lemma choice_esims e pl d L L' seen cs cs' :
  same_choice again seen cs cs' -> (forall c, In c cs -> In c (cands m e pl)) -> (forall c, In c cs' -> In c (cands m' e pl)) -> (forall S, esims S L L') ->
  forall S, (forall c, In c seen -> In (centry m d c) S) -> esims S (map (centry m d) cs ++ L) (map (centry m' d) cs' ++ L').
Proof.
  intros H. induction H as [seen|seen c l l' D|seen c l l' H IH|seen c l l' Ha Hc0 H IH]; intros Hs Hs' HL S HS; cbn [map app].
  - apply HL.
  - apply es_last; [apply (centry_s e pl); [apply Hs|apply Hs']; now left|now apply decisive_taken].
  - apply es_cons; [apply (centry_s e pl); [apply Hs|apply Hs']; now left|]. apply IH; [intros k Hk; apply Hs; now right|intros k Hk; apply Hs'; now right|exact HL|].
    intros k [<-|Hk]; [now left|right; auto].
  - apply es_copy; auto. apply IH; auto. intros k Hk. apply Hs. now right.
Qed.
Lemma all_esims e pl ds : same_choice again [] (cands m e pl) (cands m' e pl) -> forall S,
  esims S (flat_map (fun d => map (centry m d) (cands m e pl)) ds) (flat_map (fun d => map (centry m' d) (cands m' e pl)) ds).
Proof.
  intros H. induction ds as [|d ds IH]; intros S; [constructor|]. cbn [flat_map].
  eapply choice_esims; eauto. intros c [].
Qed.
Lemma entries_at k (Hk : comp k) ds s e p q : filled k ds (rt_tabs s) -> In e (events k) -> In p (parents k) -> In q (states k) ->
  read_cur s 0 = read_cur s 0 -> forall r, nth_error (rt_cur s) r = Some (Some (combined_idx k p q)) ->
  get_entries e r s = Done (flat_map (fun d => map (centry k d) (cands k e (p, q))) ds) (s : rt V W).
Proof.
  intros F He Hp Hq _ r Hr. unfold get_entries. pose proof (filled_shape k Hk _ _ F) as Sh.
  destruct (get_table (rt_tabs s) e) as [arr|] eqn:G.
  2:{ exfalso. apply (get_none k Hk _ e Sh) in G. now apply G. }
  unfold read_cur. rewrite Hr. cbn [bind]. rewrite (tget_nth k Hk _ _ _ _ Sh G), (filled_get k Hk ds _ e p q F He Hp Hq). reflexivity.
Qed.
Lemma get_entries_s e r s s' : In e (events m) -> In e (events m') -> E e \/ e = ENone /\ has_anonymous m = true -> r < n -> sim s s' ->
  rs (esims []) (get_entries e r s) (get_entries e r s').
Proof.
  intros He He' Hx Hr S. destruct (si_cur _ _ S r Hr) as (a & a' & E1 & E2 & H). destruct (si_tabs _ _ S) as (ds & F & F').
  destruct a as [c|], a' as [c'|]; cbn in H; try tauto.
  - destruct H as [p q Hp Hq]. pose proof Hq as Hq0; destruct Hq0 as [Q Q'].
    rewrite (entries_at m Hc ds s e p q F He (Hpar p Hp) Q eq_refl r E1), (entries_at m' Hc' ds s' e p q F' He' Hp Q' eq_refl r E2).
    constructor; [|exact S]. apply all_esims; auto.
  - unfold get_entries, read_cur. rewrite E1, E2.
    destruct (get_table (rt_tabs s) e) as [arr|] eqn:G.
    2:{ exfalso. apply (get_none m Hc _ e (filled_shape m Hc _ _ F)) in G. now apply G. }
    destruct (get_table (rt_tabs s') e) as [arr'|] eqn:G'.
    2:{ exfalso. apply (get_none m' Hc' _ e (filled_shape m' Hc' _ _ F')) in G'. now apply G'. }
    constructor.
Qed.

(** ** Event processing *)
(** A guard that was asked and said no says no again. *)
Definition refusing (e : ev) (v : V) (s : rt V W) (en : entry) : Prop :=
  en_defer en = false /\ exists t ty val, en_tr en = Some t /\ t_guard t = Guard ty val /\
    alive s (t_src t) && alive s (if t_int t then t_src t else t_tgt t) = true /\
    cb (CGuard ty val) (mkArgs e (t_src t) (TObj (if t_int t then t_src t else t_tgt t)) (t_dep t)) v (rt_world s) = Ret false v (rt_world s).
Lemma refusing_asked e v s en : refusing e v s en -> exists t, en_tr en = Some t /\ en_defer en = false /\
  exists k, is_guard_call k = true /\ execute_guard cb t e v s = Done (false, v) (with_user s (rt_world s) (rt_trace s ++ [k])).
Proof.
  intros (D & t & ty & val & T & G & A & C). exists t. split; [exact T|]. split; [exact D|].
  eexists. split; [|unfold execute_guard; rewrite G, A; unfold invoke; rewrite C; reflexivity]. reflexivity.
Qed.
Lemma asked_again_s s s' k : again = true -> is_guard_call k = true -> sim s s' -> sim (with_user s (rt_world s) (rt_trace s ++ [k])) s'.
Proof.
  intros Ha Hk S. destruct S; constructor; auto. cbn. rewrite counted_app, si_trace0. unfold counted at 2. rewrite Ha. cbn. rewrite Hk. cbn. now rewrite app_nil_r.
Qed.
Lemma refusing_user e v s en tr : refusing e v s en -> refusing e v (with_user s (rt_world s) tr) en.
Proof. intros H. exact H. Qed.
(** What a guard that only looks leaves behind. *)
Lemma look_refuses e v s s1 v1 t en : again = true -> en_tr en = Some t -> en_defer en = false ->
  execute_guard cb t e v s = Done (false, v1) s1 -> v1 = v /\ refusing e v s1 en /\ exists tr, s1 = with_user s (rt_world s) tr.
Proof.
  intros Ha T D X. unfold execute_guard in X. destruct (t_guard t) as [|ty val] eqn:G; [discriminate|].
  destruct (alive s (t_src t) && alive s _) eqn:A; [|discriminate]. unfold invoke in X.
  destruct (Hlook Ha ty val (mkArgs e (t_src t) (TObj (if t_int t then t_src t else t_tgt t)) (t_dep t)) v (rt_world s)) as (b & Cb).
  rewrite Cb in X. injection X as -> <- <-. split; [reflexivity|]. split; [|eauto].
  split; [exact D|]. exists t, ty, val. auto.
Qed.
Definition ready (seen : list entry) e v s : Prop := again = true -> forall en, In en seen -> refusing e v s en.
Lemma ready_next seen e v s s1 v1 t en : ready seen e v s -> en_tr en = Some t -> en_defer en = false ->
  execute_guard cb t e v s = Done (false, v1) s1 -> ready (en :: seen) e v1 s1.
Proof.
  intros R T D X Ha k Hk. destruct (look_refuses e v s s1 v1 t en Ha T D X) as (-> & Rf & tr & ->).
  destruct Hk as [<-|Hk]; [exact Rf|]. apply refusing_user. now apply R.
Qed.
Lemma fire_s r e t en en' v s s' : r < n -> esim en en' -> en_tr en = Some t -> sim s s' ->
  rs eq (bind (update_current_state m r en s) (fun _ s => bind (execute_action cb t e v s) (fun v' s => Done (Fired, v') s)))
        (bind (update_current_state m' r en' s') (fun _ s => bind (execute_action cb t e v s) (fun v' s => Done (Fired, v') s))).
Proof.
  intros Hr X T S. eapply rs_bind; [apply update_state_s; [exact Hr|exact X|congruence|exact S]|]. intros _ _ s2 s2' _ S2.
  eapply rs_bind; [apply execute_action_s; [now apply (es_in _ _ X)|exact S2]|]. intros v1 v1' s3 s3' <- S3. now constructor.
Qed.
Lemma fire_anonymous_s r t en en' v s s' : r < n -> esim en en' -> en_tr en = Some t -> sim s s' ->
  rs eq (bind (update_current_state m r en s) (fun _ s => bind (execute_action cb t ENone v s) (fun v' s => Done (true, v') s)))
        (bind (update_current_state m' r en' s') (fun _ s => bind (execute_action cb t ENone v s) (fun v' s => Done (true, v') s))).
Proof.
  intros Hr X T S. eapply rs_bind; [apply update_state_s; [exact Hr|exact X|congruence|exact S]|]. intros _ _ s2 s2' _ S2.
  eapply rs_bind; [apply execute_action_s; [now apply (es_in _ _ X)|exact S2]|]. intros v1 v1' s3 s3' <- S3. now constructor.
Qed.
Lemma guard_taken t e v (s : rt V W) : t_guard t = NoGuard -> execute_guard cb t e v s = Done (true, v) s.
Proof. intros G. unfold execute_guard. now rewrite G. Qed.
Lemma defer_s e v s s' : E e -> has_deferred m' = true -> sim s s' ->
  sim (with_queue s (rt_queue s ++ [(e, v)])) (with_queue s' (rt_queue s' ++ [(e, v)])).
Proof.
  intros He Hd S. destruct S; constructor; auto; cbn; [congruence| |congruence].
  intros e0 v0 H. apply in_app_iff in H. destruct H as [H|[H|[]]]; [eauto|]. now injection H as <- <-.
Qed.
Lemma try_entries_s r e : r < n -> E e -> forall seen ens ens', esims seen ens ens' -> forall v s s', sim s s' -> ready seen e v s ->
  rs eq (try_entries cb m ens r e v s) (try_entries cb m' ens' r e v s').
Proof.
  intros Hr He seen ens ens' X. induction X as [seen|seen en en' ens ens' X T|seen en en' ens ens' X _ IH|seen en ens ens' Ha Hen _ IH]; intros v s s' S R.
  - now constructor.
  - cbn [try_entries]; rewrite (es_defer _ _ X). destruct (en_defer en) eqn:D.
    { constructor; [reflexivity|]. apply defer_s; auto. now apply (es_dq _ _ X). }
    rewrite (es_tr _ _ X). unfold taken in T. destruct (en_tr en) as [t|] eqn:Et; [|constructor].
    rewrite !(guard_taken t e v) by exact T. cbn [bind fst snd]. now apply fire_s.
  - cbn [try_entries]; rewrite (es_defer _ _ X). destruct (en_defer en) eqn:D.
    { constructor; [reflexivity|]. apply defer_s; auto. now apply (es_dq _ _ X). }
    rewrite (es_tr _ _ X). destruct (en_tr en) as [t|] eqn:Et; [|constructor].
    pose proof (execute_guard_s t e v s s' (es_in _ _ X t Et) S) as G.
    destruct (execute_guard cb t e v s) as [bv s1|x s1|u|] eqn:G1; inversion G as [a a' t1 t1' Hb S1 Q1 Q2| | |]; subst; cbn [bind]; try (now constructor).
    destruct a' as [[] v1]; cbn [fst snd]; [now apply fire_s|]. apply IH; [exact S1|]. eapply ready_next; eauto.
  - destruct (refusing_asked e v s en (R Ha en Hen)) as (t & Et & D & k & Hk & G). cbn [try_entries]. rewrite D, Et, G. cbn [bind fst snd].
    apply IH; [now apply asked_again_s|]. intros _ en0 H0. apply refusing_user. now apply R.
Qed.
Lemma esims_cases ens ens' : esims [] ens ens' -> ens = [] /\ ens' = [] \/ exists a l a' l', ens = a :: l /\ ens' = a' :: l'.
Proof. intros H. inversion H; subst; eauto 8. match goal with H : In _ [] |- _ => destruct H end. Qed.
Lemma ready_nil e v s : ready [] e v s.
Proof. intros _ en []. Qed.
Lemma try_region_s r e v s s' : r < n -> E e -> sim s s' -> rs eq (try_region cb m r e v s) (try_region cb m' r e v s').
Proof.
  intros Hr He S. unfold try_region. destruct (HE e He) as [H1 H2]. eapply rs_bind; [apply get_entries_s; auto|]. intros ens ens' s1 s1' X S1.
  pose proof (try_entries_s r e Hr He [] ens ens' X v s1 s1' S1 (ready_nil e v s1)) as T.
  destruct (esims_cases _ _ X) as [[-> ->]|(a & l & a' & l' & -> & ->)]; [now constructor|].
  eapply rs_bind; [exact T|]. intros a0 a0' s2 s2' <- S2. now constructor.
Qed.
Lemma region_loop_s e limit : E e -> limit <= n -> forall fuel r agf ati v s s', sim s s' ->
  rs eq (region_loop cb m fuel limit r agf ati e v s) (region_loop cb m' fuel limit r agf ati e v s').
Proof.
  intros He Hl. induction fuel as [|fuel IH]; intros r agf ati v s s' S; [constructor|]. cbn [region_loop]. destruct (Nat.ltb_spec r limit) as [L|L]; [|now constructor].
  eapply rs_bind; [apply try_region_s; auto; lia|]. intros [[[]|] v'] a' s1 s1' <- S1; cbn [fst snd]; try (now apply IH). now constructor.
Qed.
Lemma try_anonymous_s r : r < n -> forall seen ens ens', esims seen ens ens' -> forall v s s', sim s s' -> ready seen ENone v s ->
  rs eq (try_anonymous cb m ens r v s) (try_anonymous cb m' ens' r v s').
Proof.
  intros Hr seen ens ens' X. induction X as [seen|seen en en' ens ens' X T|seen en en' ens ens' X _ IH|seen en ens ens' Ha Hen _ IH]; intros v s s' S R.
  - now constructor.
  - cbn [try_anonymous]. rewrite (es_tr _ _ X). unfold taken in T. destruct (en_tr en) as [t|] eqn:Et; [|constructor].
    rewrite !(guard_taken t ENone v) by exact T. cbn [bind fst snd]. now apply fire_anonymous_s.
  - cbn [try_anonymous]. rewrite (es_tr _ _ X). destruct (en_tr en) as [t|] eqn:Et; [|constructor].
    pose proof (execute_guard_s t ENone v s s' (es_in _ _ X t Et) S) as G.
    destruct (execute_guard cb t ENone v s) as [bv s1|x s1|u|] eqn:G1; inversion G as [a a' t1 t1' Hb S1 Q1 Q2| | |]; subst; cbn [bind]; try (now constructor).
    destruct a' as [[] v1]; cbn [fst snd]; [now apply fire_anonymous_s|]. apply IH; [exact S1|].
    destruct (en_defer en) eqn:D; [|eapply ready_next; eauto].
    rewrite (es_dn _ _ X D) in Et. discriminate.
  - destruct (refusing_asked ENone v s en (R Ha en Hen)) as (t & Et & D & k & Hk & G). cbn [try_anonymous]. rewrite Et, G. cbn [bind fst snd].
    apply IH; [now apply asked_again_s|]. intros _ en0 H0. apply refusing_user. now apply R.
Qed.
Lemma anonymous_region_s r v s s' : has_anonymous m = true -> In ENone (events m) -> In ENone (events m') -> r < n -> sim s s' ->
  rs eq (anonymous_region cb m r v s) (anonymous_region cb m' r v s').
Proof.
  intros Ha N N' Hr S. unfold anonymous_region. eapply rs_bind; [apply get_entries_s; auto|]. intros ens ens' s1 s1' X S1.
  pose proof (try_anonymous_s r Hr [] ens ens' X v s1 s1' S1 (ready_nil ENone v s1)) as T.
  destruct (esims_cases _ _ X) as [[-> ->]|(a & l & a' & l' & -> & ->)]; [now constructor|].
  eapply rs_bind; [exact T|]. intros a0 a0' s2 s2' <- S2. now constructor.
Qed.
Lemma anonymous_pass_s limit : has_anonymous m = true -> In ENone (events m) -> In ENone (events m') -> limit <= n ->
  forall fuel r agf v s s', sim s s' -> rs eq (anonymous_pass cb m fuel limit r agf v s) (anonymous_pass cb m' fuel limit r agf v s').
Proof.
  intros Ha N N' Hl. induction fuel as [|fuel IH]; intros r agf v s s' S; [constructor|]. cbn [anonymous_pass].
  destruct (Nat.ltb_spec r limit) as [L|L]; [|now constructor].
  eapply rs_bind; [apply anonymous_region_s; auto; lia|]. intros [[b|] v'] a' s1 s1' <- S1; cbn [fst snd]; [now apply IH|now constructor].
Qed.
Lemma anonymous_loop_s rfuel : has_anonymous m = true -> In ENone (events m) -> In ENone (events m') ->
  forall fuel v s s', sim s s' -> rs eq (anonymous_loop cb m rfuel fuel v s) (anonymous_loop cb m' rfuel fuel v s').
Proof.
  intros Ha N N'. induction fuel as [|fuel IH]; intros v s s' S; [constructor|]. cbn [anonymous_loop]. rewrite (si_regions _ _ S).
  eapply rs_bind; [apply anonymous_pass_s; auto; apply (si_le _ _ S)|]. intros [[[]|] v'] a' s1 s1' <- S1; cbn [fst snd]; try (now constructor). now apply IH.
Qed.
Lemma same_choice_nil cs : same_choice again [] cs [] -> cs = [].
Proof. intros H. inversion H; subst; [reflexivity|]. match goal with H : In _ [] |- _ => destruct H end. Qed.
(** Nothing to do in the whole: the part never completes. *)
Lemma idle_s fuel v s s' : has_anonymous m = true -> In ENone (events m) -> (forall p q, In p (parents m') -> inn q -> cands m' ENone (p, q) = []) ->
  sim s s' -> anonymous_loop cb m (S fuel) (S fuel) v s = Done tt s.
Proof.
  intros Ha N Hnil S. cbn [anonymous_loop anonymous_pass]. destruct (Nat.ltb_spec 0 (current_regions m s)) as [L|L]; [|reflexivity].
  destruct (si_cur _ _ S 0 n_pos) as (a & a' & E1 & E2 & H). destruct (si_tabs _ _ S) as (ds & F & _).
  pose proof (si_zero _ _ S) as Z. rewrite E2 in Z. destruct a as [c|], a' as [c'|]; cbn in H; try tauto.
  destruct H as [p q Hp Hq]. pose proof Hq as Hq0; destruct Hq0 as [Q Q'].
  unfold anonymous_region. rewrite (entries_at m Hc ds s ENone p q F N (Hpar p Hp) Q eq_refl 0 E1).
  pose proof (Hcand ENone p q (or_intror (conj eq_refl Ha)) Hp Hq) as X. rewrite (Hnil p q Hp Hq) in X. apply same_choice_nil in X. rewrite X.
  assert (flat_map (fun d => map (centry m d) []) ds = []) as -> by (clear; induction ds; cbn; auto). reflexivity.
Qed.
Lemma process_anonymous_s fuel s s' : 0 < fuel -> sim s s' ->
  rs eq (process_anonymous cb m vnone fuel s) (process_anonymous cb m' vnone fuel s').
Proof.
  intros Hf S. unfold process_anonymous. destruct (Bool.bool_dec (has_anonymous m) true) as [Ha|Ha]; [|apply not_true_is_false in Ha]; rewrite Ha.
  - destruct (Hanon Ha) as [N [[Ha' N']|[Ha' Hnil]]]; rewrite Ha'; [now apply anonymous_loop_s|].
    destruct fuel as [|fuel]; [lia|]. rewrite (idle_s fuel vnone s s' Ha N Hnil S). now constructor.
  - destruct (Bool.bool_dec (has_anonymous m') true) as [Ha'|Ha']; [|apply not_true_is_false in Ha'; rewrite Ha'; now constructor].
    rewrite (Hanon' Ha') in Ha. discriminate.
Qed.
Lemma process_internal_s fuel e v s s' : E e -> sim s s' ->
  rs eq (process_event_internal cb m vnone fuel e v s) (process_event_internal cb m' vnone fuel e v s').
Proof.
  intros He S. unfold process_event_internal. rewrite (si_regions _ _ S). destruct fuel as [|fuel]; [constructor|].
  eapply rs_bind; [apply region_loop_s; auto; apply (si_le _ _ S)|].
  intros [[] v'] a' s1 s1' <- S1; cbn [fst snd]; try (now constructor).
  eapply rs_bind; [apply process_anonymous_s; [lia|exact S1]|]. intros u u' s2 s2' _ S2. now constructor.
Qed.
Lemma process_deferred_s fuel s s' : sim s s' ->
  rs eq (process_deferred cb m vnone fuel s) (process_deferred cb m' vnone fuel s').
Proof.
  intros S. unfold process_deferred. destruct (Bool.bool_dec (has_deferred m') true) as [Hd|Hd]; [|apply not_true_is_false in Hd]; rewrite Hd.
  - rewrite (Hdefer Hd), (si_queue _ _ S). destruct (rt_queue s') as [|[e v] q] eqn:Eq; [now constructor|].
    assert (H : forall e0 v0, In (e0, v0) ((e, v) :: q) -> E e0) by (intros e0 v0 H; rewrite <- Eq in H; now apply (si_own _ _ S) in H).
    eapply rs_bind; [apply process_internal_s; [apply (H e v); now left|]|intros u u' s1 s1' _ S1; now constructor].
    destruct S; constructor; cbn; auto; [|congruence]. intros e0 v0 H0. apply (H e0 v0). now right.
  - rewrite (si_queue _ _ S), (si_noq _ _ S Hd). destruct (has_deferred m); now constructor.
Qed.
Lemma call_handler_s e v s s' : E e -> sim s s' -> rs eq (call_handler cb m e v s) (call_handler cb m' e v s').
Proof.
  intros He S. destruct (HE e He) as [He1 He2]. unfold call_handler. rewrite Henv, <- Hhandler. destruct (cd_unexpected (lookup env (mc_root m))) eqn:Eu; [|now constructor].
  eapply rs_bind; [apply at_cur_s; [exact S|apply n_pos]|]. intros c c' s1 s1' C S1.
  destruct (si_htabs _ _ S1 Eu) as (d & F & F'). destruct C as [p q Hp Hq]. pose proof Hq as Hq0; destruct Hq0 as [Q Q'].
  pose proof (fill_handlers_get m Hc d _ e p q F He1 (Hpar p Hp) Q) as G.
  pose proof (fill_handlers_get m' Hc' d _ e p q F' He2 Hp Q') as G'.
  destruct (get_table (rt_htabs s1) e) as [arr|]; [|tauto]. destruct (get_table (rt_htabs s1') e) as [arr'|]; [|tauto].
  rewrite !nth_at_nth, (proj1 G), (proj1 G'). rewrite (alive_s s1 s1' q S1 Hq). destruct (alive s1 q); [|constructor].
  apply keep_s. now apply invoke_s.
Qed.
Lemma process_event_s fuel e v s s' : E e -> sim s s' ->
  rs eq (process_event cb m vnone fuel e v s) (process_event cb m' vnone fuel e v s').
Proof.
  intros Hx S. destruct (HE e Hx) as [H1 H2]. unfold process_event.
  destruct (in_dec ev_eq_dec e (events m)) as [He|He]; [|easy]. destruct (in_dec ev_eq_dec e (events m')) as [He'|He']; [|easy].
  eapply rs_bind; [now apply process_internal_s|]. intros [[] v'] a' s1 s1' <- S1; cbn [fst snd]; try (now constructor).
  - eapply rs_bind; [now apply call_handler_s|]. intros v1 v1' s2 s2' <- S2. now constructor.
  - eapply rs_bind; [now apply process_deferred_s|]. intros u u' s2 s2' _ S2. now constructor.
Qed.

(** ** Other members *)
Lemma q_is_s r p k s s' : to_region r < n -> sim s s' -> rs eq (q_is m r p k s) (q_is m' r p k s').
Proof.
  intros Hr S. unfold q_is. eapply rs_bind; [now apply current_parent_s|]. intros cp cp' s1 s1' P S1.
  rewrite (psim_eq _ _ p P). destruct (N.eqb cp (parent_idx m p)); [|now constructor]. unfold current_state.
  eapply rs_bind with (R := fun a b => exists c c', csim c c' /\ a = calc_state_idx (n_states m) c /\ b = calc_state_idx (n_states m') c').
  - eapply rs_bind; [now apply at_cur_s|]. intros c c' s2 s2' C S2. constructor; eauto.
  - intros a b s2 s2' (c & c' & C & -> & ->) S2. constructor; [|exact S2]. symmetry. now apply csim_state.
Qed.
Lemma q_parent_is_s p s s' : sim s s' -> rs eq (q_parent_is m p s) (q_parent_is m' p s').
Proof.
  intros S. unfold q_parent_is. eapply rs_bind; [now apply current_parent_s|]. intros cp cp' s1 s1' P S1.
  constructor; [|exact S1]. symmetry. now apply psim_eq.
Qed.
Lemma set_state_s r p k s s' : to_region r < n -> In p (parents m') -> inn k -> sim s s' -> rs eq (set_state m r p k s) (set_state m' r p k s').
Proof.
  intros Hr Hp Hk S. pose proof Hk as Hk0; destruct Hk0 as [K K']. unfold set_state.
  destruct (in_dec sref_eq_dec k (states m)) as [H|H]; [|easy]. destruct (in_dec sref_eq_dec k (states m')) as [H'|H']; [|easy].
  destruct (in_dec Nat.eq_dec p (parents m)) as [P|P]; [|exfalso; auto]. destruct (in_dec Nat.eq_dec p (parents m')) as [P'|P']; [|easy].
  destruct (put_s s s' (to_region r) _ _ S Hr (cs_in p k Hp Hk)) as (l & l' & -> & -> & S1). now constructor.
Qed.
Lemma set_dependency_s d s s' : sim s s' -> rs eq (set_dependency m d s) (set_dependency m' d s').
Proof.
  intros S. unfold set_dependency. destruct (si_tabs _ _ S) as (ds & F & F').
  destruct (proj2 (fill_ok_iff m Hc d _ (filled_shape m Hc _ _ F)) (filled_regs m Hc _ _ F)) as (t & E1).
  destruct (proj2 (fill_ok_iff m' Hc' d _ (filled_shape m' Hc' _ _ F')) (filled_regs m' Hc' _ _ F')) as (t' & E2).
  rewrite E1, E2. constructor; [reflexivity|]. destruct S; constructor; cbn; auto. exists (d :: ds). split; eapply filled_again; eauto.
Qed.

(** ** Clients *)
Definition own (k : call V) : Prop :=
  match k with
  | KProcess e _ => E e
  | KIs r _ _ => to_region r < n
  | KParentIs _ => True
  | KSet r p q => to_region r < n /\ In p (parents m') /\ inn q
  | KSetDep _ => True
  | KStatus => False
  end.
Lemma do_call_s fuel k s s' : own k -> sim s s' ->
  rs eq (do_call cb m vnone fuel k s) (do_call cb m' vnone fuel k s').
Proof.
  intros O S. destruct k; cbn [do_call own] in *.
  - eapply rs_bind; [now apply process_event_s|]. intros a a' s1 s1' <- S1. now constructor.
  - eapply rs_bind; [now apply q_is_s|]. intros a a' s1 s1' <- S1. now constructor.
  - eapply rs_bind; [now apply q_parent_is_s|]. intros a a' s1 s1' <- S1. now constructor.
  - eapply rs_bind; [apply set_state_s; tauto|]. intros a a' s1 s1' <- S1. now constructor.
  - eapply rs_bind; [now apply set_dependency_s|]. intros a a' s1 s1' <- S1. now constructor.
  - destruct O.
Qed.
Lemma do_call_catch_s fuel k s s' : own k -> sim s s' ->
  rs eq (do_call_catch cb m vnone fuel k s) (do_call_catch cb m' vnone fuel k s').
Proof.
  intros O S. unfold do_call_catch. destruct (do_call_s fuel k s s' O S); constructor; auto.
Qed.
Lemma run_s fuel : forall ks s s', Forall own ks -> sim s s' ->
  rs eq (run cb m vnone fuel ks s) (run cb m' vnone fuel ks s').
Proof.
  induction ks as [|k ks IH]; intros s s' O S; [now constructor|]. cbn [run]. inversion O as [|k0 ks0 O1 O2]; subst k0 ks0.
  eapply rs_bind; [apply do_call_catch_s; eauto|]. intros o o' s1 s1' <- S1.
  eapply rs_bind; [apply IH; eauto|]. intros os os' s2 s2' <- S2. now constructor.
Qed.
End PartRun.
