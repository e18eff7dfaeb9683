(** Running a machine and the machine of its respelled program side by side. *)

From Coq Require Import List Arith NArith Bool Lia.
From Verif Require Import Dsl Types Static Dispatch Runtime ListFacts IndexFacts Spec DispatchFacts FlattenFacts
  Semantics RefineFacts StaticFacts Reach ReachFacts Respell Spelling.
Import ListNotations.

Lemma Forall2_nth {A B} (R : A -> B -> Prop) l l' : Forall2 R l l' -> forall n,
  match nth_error l n, nth_error l' n with
  | Some a, Some b => R a b
  | None, None => True
  | _, _ => False
  end.
Proof. induction 1 as [|a b l l' H _ IH]; intros [|n]; cbn; auto. apply IH. Qed.
Lemma Forall2_upd {A B} (R : A -> B -> Prop) a b l l' : R a b -> Forall2 R l l' -> forall n,
  match upd_nth n (fun _ => a) l, upd_nth n (fun _ => b) l' with
  | Some k, Some k' => Forall2 R k k'
  | None, None => True
  | _, _ => False
  end.
Proof.
  intros Hab. induction 1 as [|c d l l' H Hl IH]; intros [|n]; cbn; auto.
  specialize (IH n). destruct (upd_nth n (fun _ => a) l), (upd_nth n (fun _ => b) l'); cbn; auto.
Qed.
Lemma Forall2_same {A B C} (R : B -> C -> Prop) (g : A -> B) (h : A -> C) l : (forall a, In a l -> R (g a) (h a)) ->
  Forall2 R (map g l) (map h l).
Proof. induction l as [|a l IH]; cbn; intros H; constructor; auto. Qed.

Section SpellRun.
Variable f : sref -> sref.
Hypothesis Hf : spelling f.
Variable m : machine.
Hypothesis Hc : comp m.
Notation m' := (fm f m).
Hypothesis Hc' : comp m'.
Notation env := (mc_env m).
Notation env' := (respell f (mc_env m)).
Hypothesis Hini : forall c s t, In s (child_states env c) -> In t (child_states env c) ->
  is_initial s = true -> f s = f t -> s = t.
Hypothesis Hint : forall c s t, has_internal env (SState c) = true ->
  In s (child_states env c) -> In t (child_states env c) -> f s = f t -> s = t.
Context {V W : Type}.
Variable cb cb' : cbfun V W.
Hypothesis Hcb : same_user f cb cb'.
Variable vnone : V.

(** ** Numbers of one place *)
Inductive csim : N -> N -> Prop :=
| cs_in p q : In p (parents m) -> In q (states m) -> proper m (p, q) ->
    csim (combined_idx m p q) (combined_idx m' p (f q))
| cs_out : csim (N.of_nat (n_parents m) * n_states m)%N (N.of_nat (n_parents m') * n_states m')%N.

Lemma csim_parent c c' : csim c c' -> calc_parent_idx (n_states m') c' = calc_parent_idx (n_states m) c.
Proof.
  intros [p q Hp Hq _|].
  - rewrite (calc_parent_combined m Hc) by assumption.
    rewrite (calc_parent_combined m' Hc'); [apply parent_idx_f|now rewrite parents_f|now apply states_f_in].
  - unfold calc_parent_idx. pose proof (n_states_pos m). pose proof (n_states_pos m').
    rewrite !N.div_mul by lia. now rewrite n_parents_f.
Qed.
Lemma hd_unique {A} (dec : forall a b : A, {a = b} + {a <> b}) l : hd_error (unique dec l) = hd_error l.
Proof. destruct l; reflexivity. Qed.
Lemma hd_states : hd_error (states m') = option_map f (hd_error (states m)).
Proof.
  unfold states, child_states_rec. cbn [fm mc_flat mc_root].
  pose proof (cp_flat m Hc) as H. destruct (mc_flat m) as [|x l]; [congruence|]. cbn. now rewrite f_unwrap.
Qed.
Lemma state_idx_0 n (Hn : comp n) s : (0 =? state_idx n s)%N = true <-> hd_error (states n) = Some s.
Proof.
  rewrite (state_idx_pos n Hn). pose proof (states_nonempty n) as Hp. destruct (states n) as [|a l]; [cbn in Hp; lia|].
  cbn [pos hd_error]. destruct (sref_eq_dec s a) as [->|Hne].
  - split; [reflexivity|]. intros _. reflexivity.
  - rewrite N.eqb_eq. split; [lia|]. intros E. congruence.
Qed.
Lemma bool_iff (a b : bool) : (a = true <-> b = true) -> a = b.
Proof. destruct a, b; intuition congruence. Qed.
Lemma csim_state c c' k : csim c c' ->
  N.eqb (calc_state_idx (n_states m') c') (state_idx m' (SState k)) = N.eqb (calc_state_idx (n_states m) c) (state_idx m (SState k)).
Proof.
  intros [p q Hp Hq _|].
  - rewrite (calc_state_combined m Hc) by assumption.
    rewrite (calc_state_combined m' Hc') by (try (now rewrite parents_f); now apply states_f_in).
    apply bool_iff. rewrite !N.eqb_eq. split; intros E.
    + apply (state_idx_inj m' Hc') in E; [|now apply states_f_in]. apply f_plain in E; [now subst|assumption].
    + apply (state_idx_inj m Hc) in E; [|assumption]. subst. now rewrite f_state.
  - unfold calc_state_idx. pose proof (n_states_pos m). pose proof (n_states_pos m'). rewrite !N.mod_mul by lia.
    apply bool_iff. rewrite (state_idx_0 m' Hc'), (state_idx_0 m Hc), hd_states. destruct (hd_error (states m)) as [a|]; cbn; [|intuition discriminate].
    split; intros E; injection E as E.
    + apply f_plain in E; [now subst|assumption].
    + subst. now rewrite f_state.
Qed.

(** ** Related states of the two objects *)
Definition osim (a b : option N) : Prop :=
  match a, b with Some c, Some c' => csim c c' | None, None => True | _, _ => False end.
Record sim (s s' : rt V W) : Prop := mkSim {
  si_cur : Forall2 osim (rt_cur s) (rt_cur s');
  si_hist : Forall2 (Forall2 csim) (rt_hist s) (rt_hist s');
  si_queue : rt_queue s' = rt_queue s;
  si_regions : rt_regions s' = rt_regions s;
  si_live : forall o, In o (states m) -> (In o (rt_live s) <-> In (f o) (rt_live s'));
  si_tabs : exists ds, filled m ds (rt_tabs s) /\ filled m' ds (rt_tabs s');
  si_htabs : cd_unexpected (lookup env (mc_root m)) = true ->
    exists d, fill_handlers m d = Some (rt_htabs s) /\ fill_handlers m' d = Some (rt_htabs s');
  si_world : rt_world s' = rt_world s;
  si_trace : rt_trace s' = map (respell_called f) (rt_trace s) }.
Inductive rs {A A'} (R : A -> A' -> Prop) : res V W A -> res V W A' -> Prop :=
| rs_done a a' s s' : R a a' -> sim s s' -> rs R (Done a s) (Done a' s')
| rs_threw x s s' : sim s s' -> rs R (Threw x s) (Threw x s')
| rs_undef u : rs R (Undef u) (Undef u)
| rs_timeout : rs R Timeout Timeout.
Lemma rs_bind {A A' B B'} (R : A -> A' -> Prop) (T : B -> B' -> Prop) r r' k k' :
  rs R r r' -> (forall a a' s s', R a a' -> sim s s' -> rs T (k a s) (k' a' s')) -> rs T (bind r k) (bind r' k').
Proof. intros [a a' s s' H1 H2|x s s' H|u|] Hk; cbn; auto; constructor; assumption. Qed.
Ltac sims := match goal with H : sim _ _ |- sim _ _ => destruct H; constructor; cbn; auto end.

Lemma invoke_s c a v s s' : sim s s' -> rs eq (invoke cb c a v s) (invoke cb' c (respell_args f a) v s').
Proof.
  intros S. unfold invoke. rewrite (si_world _ _ S), Hcb. destruct (cb c a v (rt_world s)); constructor; auto;
  destruct S; constructor; cbn; auto; now rewrite si_trace0, map_app.
Qed.
Lemma alive_s s s' o : sim s s' -> In o (states m) -> alive s' (f o) = alive s o.
Proof.
  intros S Ho. unfold alive. pose proof (si_live _ _ S o Ho).
  destruct (in_dec sref_eq_dec o (rt_live s)), (in_dec sref_eq_dec (f o) (rt_live s')); tauto.
Qed.
(** Transitions whose objects exist. *)
Record tok (t : trans) : Prop := mkTok {
  tk_src : In (t_src t) (states m);
  tk_tgt : In (t_tgt t) (states m);
  tk_ptr : forall l b, t_act t = Some l -> In (StAct b) l -> needs_ptr b = true -> exists c, t_tgt t = SState c }.
Lemma execute_guard_s t e v s s' : tok t -> sim s s' ->
  rs eq (execute_guard cb t e v s) (execute_guard cb' (ftr f t) e v s').
Proof.
  intros T S. unfold execute_guard. cbn [ftr t_guard t_int t_src t_tgt t_dep]. destruct (t_guard t) as [|ty val]; [now constructor|].
  destruct (t_int t); rewrite ?(alive_s s s' _ S (tk_src _ T)), ?(alive_s s s' _ S (tk_tgt _ T)); (destruct (_ && _); [|constructor]);
  apply (invoke_s _ (mkArgs e _ (TObj _) _)); assumption.
Qed.
Lemma set_live_s s s' c b : sim s s' -> sim (set_live s (SState c) b) (set_live s' (SState c) b).
Proof.
  intros S. pose proof (si_live _ _ S) as L. assert (E : forall o, o = SState c <-> f o = SState c).
  { intros o. split; [intros ->; now apply f_state|]. now apply f_plain. }
  destruct S; constructor; cbn; auto. intros o Ho. destruct b.
  - destruct (in_dec sref_eq_dec (SState c) (rt_live s)) as [H1|H1], (in_dec sref_eq_dec (SState c) (rt_live s')) as [H2|H2]; cbn.
    + now apply L.
    + rewrite (L o Ho). split; [auto|]. intros [E'|?]; [|assumption]. symmetry in E'. apply E in E'. subst o. now apply L.
    + rewrite <- (L o Ho). split; [|auto]. intros [E'|?]; [|assumption]. subst o. apply L; [assumption|]. now rewrite f_state.
    + rewrite (L o Ho). split; intros [X|X]; auto; left; symmetry; apply (E o); congruence.
  - rewrite !filter_In, (L o Ho). destruct (sref_eq_dec o (SState c)) as [E1|E1], (sref_eq_dec (f o) (SState c)) as [E2|E2]; specialize (E o); try tauto; intuition discriminate.
Qed.
Lemma keep_s r r' : rs (A:=bool * V) eq r r' -> rs eq (keep_payload r) (keep_payload r').
Proof. intros H. eapply rs_bind; [exact H|]. intros a a' s s' -> S. now constructor. Qed.
Lemma exec_body_s t e : tok t -> forall b, (needs_ptr b = true -> exists c, t_tgt t = SState c) -> forall v s s', sim s s' ->
  rs eq (exec_body cb b t e v s) (exec_body cb' b (ftr f t) e v s').
Proof.
  intros T. induction b using abody_ind2; intros Hb v s s' S; cbn [exec_body].
  - rewrite action_args_f. apply keep_s. now apply invoke_s.
  - destruct (Hb eq_refl) as [c Et]. eapply rs_bind; [apply (invoke_s _ (mkArgs e (t_src t) TNone (t_dep t))); exact S|].
    intros a a' s1 s1' -> S1. constructor; [reflexivity|]. cbn [ftr t_tgt]. rewrite Et, f_state by assumption. now apply set_live_s.
  - cbn [ftr t_tgt t_src t_dep]. rewrite (alive_s s s' _ S (tk_tgt _ T)). destruct (alive s (t_tgt t)); [|constructor].
    unfold drop_payload. eapply rs_bind; [apply (invoke_s _ (mkArgs e (t_src t) (TObj (t_tgt t)) (t_dep t))); exact S|].
    intros a a' s1 s1' _ S1. now constructor.
  - revert v s s' S. match goal with H : Forall _ _ |- _ => induction H as [|b l Hbl _ IH] end; intros v s s' S; [now constructor|].
    eapply rs_bind; [apply Hbl; [|exact S]|].
    + intros E. apply Hb. cbn. now rewrite E.
    + intros a a' s1 s1' -> S1. apply IH; [|exact S1]. intros E. apply Hb. cbn in *. rewrite E. apply orb_true_r.
Qed.
Lemma exec_steps_s t e : tok t -> forall l, (forall b, In (StAct b) l -> needs_ptr b = true -> exists c, t_tgt t = SState c) ->
  forall v s s', sim s s' -> rs eq (exec_steps cb l t e v s) (exec_steps cb' l (ftr f t) e v s').
Proof.
  intros T. induction l as [|st l IH]; intros Hl v s s' S; [now constructor|]. cbn [exec_steps].
  eapply (rs_bind eq).
  - destruct st; cbn [exec_step]; rewrite ?action_args_f; try (apply keep_s; now apply invoke_s).
    apply exec_body_s; auto. apply Hl. now left.
  - intros a a' s1 s1' -> S1. apply IH; [|exact S1]. intros b H. apply Hl. now right.
Qed.
Lemma execute_action_s t e v s s' : tok t -> sim s s' ->
  rs eq (execute_action cb t e v s) (execute_action cb' (ftr f t) e v s').
Proof.
  intros T S. unfold execute_action. cbn [ftr t_act t_src t_tgt t_int t_ptr]. destruct (t_act t) as [l|] eqn:E; [|now constructor].
  rewrite (alive_s s s' _ S (tk_src _ T)), (alive_s s s' _ S (tk_tgt _ T)). destruct (_ && _); [|constructor].
  apply exec_steps_s; auto. intros b. now apply (tk_ptr _ T l).
Qed.

(** ** Bookkeeping *)
Lemma read_cur_s s s' r : sim s s' -> rs csim (read_cur s r) (read_cur s' r).
Proof.
  intros S. unfold read_cur. pose proof (Forall2_nth _ _ _ (si_cur _ _ S) r) as H.
  destruct (nth_error (rt_cur s) r) as [[c|]|], (nth_error (rt_cur s') r) as [[c'|]|]; cbn in H; try tauto; constructor; auto.
Qed.
Lemma at_cur_s s s' r : sim s s' -> rs csim (at_cur s r) (at_cur s' r).
Proof.
  intros S. unfold at_cur. pose proof (Forall2_nth _ _ _ (si_cur _ _ S) r) as H.
  destruct (nth_error (rt_cur s) r) as [[c|]|], (nth_error (rt_cur s') r) as [[c'|]|]; cbn in H; try tauto; constructor; auto.
Qed.
Lemma write_cur_s s s' r c c' : sim s s' -> csim c c' -> rs eq (write_cur s r c) (write_cur s' r c').
Proof.
  intros S C. unfold write_cur. pose proof (Forall2_upd osim (Some c) (Some c') _ _ C (si_cur _ _ S) r) as H.
  destruct (upd_nth r _ (rt_cur s)), (upd_nth r _ (rt_cur s')); try tauto; constructor; auto. sims.
Qed.
Lemma current_parent_s s s' : sim s s' -> rs eq (current_parent m s) (current_parent m' s').
Proof.
  intros S. unfold current_parent. eapply rs_bind; [now apply read_cur_s|]. intros c c' s1 s1' C S1. constructor; [|exact S1].
  symmetry. now apply csim_parent.
Qed.
Lemma child_state p q : In p (parents m) -> In q (child_typeids env p) -> In q (states m).
Proof.
  intros Hp Hq. apply (state_iff m Hc). right. exists p. apply (parents_iff m Hc) in Hp. split; [tauto|]. now apply child_typeids_iff.
Qed.
Lemma csim_any p q : proper m (p, q) -> csim (combined_idx m p q) (combined_idx m' p (f q)).
Proof.
  intros Hp. destruct (in_dec Nat.eq_dec p (parents m)) as [H1|H1].
  - destruct (in_dec sref_eq_dec q (states m)) as [H2|H2]; [now constructor|].
    rewrite (combined_idx_absent m Hc) by tauto. rewrite (combined_idx_absent m' Hc'); [constructor|].
    intros [_ H]. destruct Hp as [[c Hq]|[_ Hq]]; cbn in Hq; [|apply H2; eapply child_state; eauto].
    subst q. rewrite f_state in H by assumption. now apply states_plain in H.
  - rewrite (combined_idx_absent m Hc) by tauto. rewrite (combined_idx_absent m' Hc'); [constructor|]. rewrite parents_f. tauto.
Qed.
Lemma csim_plain p c : csim (combined_idx m p (SState c)) (combined_idx m' p (SState c)).
Proof. rewrite <- (f_state f Hf c) at 2. apply csim_any. left. cbn. eauto. Qed.
Lemma initial_table_s : Forall2 (Forall2 csim) (initial_table m) (initial_table m').
Proof.
  unfold initial_table. rewrite parents_f. apply Forall2_same. intros p Hp. cbn [fm mc_env]. fold (fm f m).
  rewrite (initials_eq f Hf m Hini). apply Forall2_same. intros s Hs.
  destruct (initials_state _ _ _ Hs) as [c ->]. apply csim_plain.
Qed.
Lemma Forall2_length {A B} (R : A -> B -> Prop) l l' : Forall2 R l l' -> length l' = length l.
Proof. induction 1; cbn; congruence. Qed.
Lemma update_regions_s s s' : sim s s' -> rs eq (update_current_regions m s) (update_current_regions m' s').
Proof.
  intros S. unfold update_current_regions. rewrite (parallel_eq f Hf m Hini). destruct (parallel m); [|now constructor].
  eapply rs_bind; [now apply current_parent_s|]. intros p p' s1 s1' <- S1. rewrite !nth_at_nth.
  pose proof (Forall2_nth _ _ _ initial_table_s (N.to_nat p)) as H.
  destruct (nth_error (initial_table m) (N.to_nat p)), (nth_error (initial_table m') (N.to_nat p)); try tauto; constructor; auto.
  apply Forall2_length in H. sims.
Qed.
Lemma current_regions_s s s' : sim s s' -> current_regions m' s' = current_regions m s.
Proof. intros S. unfold current_regions. rewrite (parallel_eq f Hf m Hini). now rewrite (si_regions _ _ S). Qed.
Lemma write_hist_s s s' p r c c' : sim s s' -> csim c c' -> rs eq (write_hist s p r c) (write_hist s' p r c').
Proof.
  intros S C. unfold write_hist. rewrite !nth_at_nth. pose proof (Forall2_nth _ _ _ (si_hist _ _ S) (N.to_nat p)) as H.
  destruct (nth_error (rt_hist s) (N.to_nat p)) as [l|], (nth_error (rt_hist s') (N.to_nat p)) as [l'|]; try tauto; [|constructor].
  pose proof (Forall2_upd csim c c' _ _ C H r) as H'.
  destruct (upd_nth r _ l) as [k|], (upd_nth r _ l') as [k'|]; try tauto; [|constructor]. rewrite !upd_at_upd.
  pose proof (Forall2_upd (Forall2 csim) k k' _ _ H' (si_hist _ _ S) (N.to_nat p)) as H2.
  destruct (upd_nth _ _ (rt_hist s)), (upd_nth _ _ (rt_hist s')); try tauto; constructor; auto. sims.
Qed.
Lemma read_hist_s s s' p r : sim s s' -> rs csim (read_hist s p r) (read_hist s' p r).
Proof.
  intros S. unfold read_hist. rewrite !nth_at_nth. pose proof (Forall2_nth _ _ _ (si_hist _ _ S) (N.to_nat p)) as H.
  destruct (nth_error (rt_hist s) (N.to_nat p)) as [l|], (nth_error (rt_hist s') (N.to_nat p)) as [l'|]; try tauto; [|constructor].
  pose proof (Forall2_nth _ _ _ H r) as H'. destruct (nth_error l r), (nth_error l' r); try tauto; constructor; auto.
Qed.

(** ** Table entries *)
Record esim (en en' : entry) : Prop := mkEsim {
  es_hist : en_hist en' = en_hist en;
  es_defer : en_defer en' = en_defer en;
  es_int : en_int en' = en_int en;
  es_tr : en_tr en' = option_map (ftr f) (en_tr en);
  es_tok : forall t, en_tr en = Some t -> tok t /\ csim (en_to en) (en_to en') }.
Lemma update_state_s r en en' s s' : esim en en' -> en_tr en <> None -> sim s s' ->
  rs eq (update_current_state m r en s) (update_current_state m' r en' s').
Proof.
  intros E Ht S. unfold update_current_state. rewrite (es_int _ _ E), (es_hist _ _ E), has_history_f by assumption.
  destruct (en_tr en) as [t|] eqn:Et; [|congruence]. destruct (es_tok _ _ E t Et) as [_ C].
  destruct (en_int en); [now constructor|]. eapply (rs_bind eq).
  - destruct (has_history m); [|now apply write_cur_s].
    eapply rs_bind; [now apply current_parent_s|]. intros p p' s1 s1' <- S1.
    eapply rs_bind; [now apply read_cur_s|]. intros c c' s2 s2' C2 S2.
    eapply rs_bind; [now apply write_hist_s|]. intros u u' s3 s3' _ S3.
    destruct (en_hist en); [|now apply write_cur_s]. rewrite (csim_parent _ _ C).
    eapply rs_bind; [now apply read_hist_s|]. intros c3 c3' s4 s4' C4 S4. now apply write_cur_s.
  - intros u u' s1 s1' _ S1. now apply update_regions_s.
Qed.
Lemma resolve_dst_plain x d : resolve_dst env x = Some d ->
  (exists c, d = SState c) \/ (d = x_tgt x /\ exists w p q, x_tgt x = SExit w p q).
Proof.
  unfold resolve_dst. destruct (x_tgt x) as [c|w c|w p c|w p c|w p c|w p] eqn:Et; intros H; try (injection H as <-; eauto 6; fail).
  - left. destruct (has_table env (SState c)); [|injection H as <-; eauto].
    destruct (initials env c) as [|i l] eqn:Ei; [discriminate|]. injection H as <-. apply (initials_state env c). rewrite Ei. now left.
  - left. destruct (initials env p) as [|i l] eqn:Ei; [discriminate|]. injection H as <-. apply (initials_state env p). rewrite Ei. now left.
Qed.
Lemma row_child x : In x (mc_flat m ++ internal_flat m) -> forall w p q, x_tgt x = SExit w p q -> In (x_tgt x) (child_typeids env (x_parent x)).
Proof.
  intros Hx w p q Et. apply child_typeids_iff. apply in_app_iff in Hx. destruct Hx as [Hx|Hx].
  - apply (flat_declared m Hc) in Hx. destruct Hx as (c & r & _ & Hr & ->). exists r. cbn. auto.
  - apply (internal_flat_declared m Hc) in Hx. destruct Hx as [p' c i s _ _ _ (r & Hr & Hs)|p' c i _ _ _]; cbn in *; [|discriminate].
    subst s. exists r. split; [exact Hr|]. destruct Hs as [E|E]; [left|now right]. rewrite <- E. reflexivity.
Qed.
Lemma target_csim x : In x (mc_flat m ++ internal_flat m) ->
  csim (combined_idx m (resolve_dst_parent env x) (dst_of m x))
       (combined_idx m' (resolve_dst_parent env' (fx f x)) (dst_of m' (fx f x))).
Proof.
  intros Hx. pose proof (row_accepted_dst m x (cp_rows m Hc x Hx)) as Hd. rewrite dst_of_f by assumption.
  rewrite resolve_dst_parent_f by (try assumption; apply initials_eq; assumption). apply csim_any.
  destruct (resolve_dst env x) as [d|] eqn:Ed; [|congruence].
  unfold dst_of. rewrite Ed. destruct (resolve_dst_plain x d Ed) as [H|[-> (w & p & q & Et)]]; [now left|].
  right. cbn [fst snd]. split; [eauto|]. unfold resolve_dst_parent. rewrite Et, <- Et. eapply row_child; eauto.
Qed.
Lemma cand_row e pl x o : In (CRow x o) (cands m e pl) -> In x (mc_flat m ++ internal_flat m) /\ o = resolve_src x.
Proof.
  intros H. unfold cands, priority in H. rewrite !in_app_iff, <- !in_rev in H.
  assert (G : forall l, In (CRow x o) (rows_at (comp_b m) (child_typeids env) e pl l) -> In x l /\ o = resolve_src x).
  { intros l Hl. apply (rows_at_iff m) in Hl. destruct Hl as (y & o' & Hy & _ & Ho & E). injection E as <- <-. split; [exact Hy|].
    apply (offers_iff m) in Ho. destruct Ho as [[_ ->]|(_ & c & q & Es & _ & _ & _ & ->)].
    - now rewrite source_place_resolve.
    - unfold resolve_src. now rewrite Es. }
  rewrite in_app_iff. destruct H as [H|[H|H]].
  - apply (defers_at_iff m) in H. destruct H; discriminate.
  - apply G in H. tauto.
  - apply G in H. tauto.
Qed.
Lemma step_act x l b : resolve_action env x = Some l -> In (StAct b) l -> exists ty, x_act x = Action ty b.
Proof.
  unfold resolve_action. destruct (has_action env x); [|discriminate]. intros E H. injection E as <-.
  rewrite !in_app_iff in H. destruct H as [H|[H|[H|H]]].
  - unfold resolve_exit_action in H. destruct (x_int x); [destruct H|]. destruct (exit_of env (x_src x)); [destruct H as [H|[]]; discriminate|].
    destruct (pseudo_exit_of env x); [destruct H as [H|[]]; discriminate|destruct H].
  - unfold resolve_no_action in H. destruct (x_act x); [destruct H|]. destruct H as [H|[]]. injection H as ->. eauto.
  - unfold resolve_entry_action in H. destruct (x_int x); [destruct H|]. destruct (entry_of env (x_tgt x)); [destruct H as [H|[]]; discriminate|destruct H].
  - unfold resolve_initial_entry_action in H. destruct (initial_entry_of env (x_tgt x)); [destruct H as [H|[]]; discriminate|destruct H].
Qed.
Lemma centry_s e pl d c : In c (cands m e pl) -> esim (centry m d c) (centry m' d (fcand f c)).
Proof.
  intros H. destruct c as [|x o]; [constructor; try reflexivity; discriminate|]. cbn [fcand centry].
  apply cand_row in H. destruct H as [Hx ->]. pose proof (cp_rows m Hc x Hx) as Hr.
  destruct (row_accepted_states m x Hr) as [H1 H2]. pose proof (row_accepted_dst m x Hr) as Hd.
  constructor; cbn [entry_of_row en_hist en_defer en_int en_tr en_to option_map ftr t_guard t_act t_src t_tgt t_dep t_int t_ptr].
  - apply resolve_history_f; assumption.
  - reflexivity.
  - reflexivity.
  - unfold ftr. cbn [t_guard t_act t_src t_tgt t_dep t_int t_ptr fm mc_env]. fold (fm f m).
    rewrite dst_of_f, defctor_f by assumption.
    rewrite resolve_action_f by (try assumption; apply initials_eq; assumption).
    rewrite <- resolve_src_f by assumption. reflexivity.
  - intros t E. injection E as <-. split; [|now apply target_csim]. constructor; cbn [t_src t_tgt t_act]; auto.
    intros l b El Hb Hp. destruct (step_act x l b El Hb) as (ty & Ea). unfold row_accepted in Hr. unfold dst_of.
    destruct (resolve_dst env x) as [dd|] eqn:Ed; [|discriminate]. rewrite !andb_true_iff in Hr. destruct Hr as [_ Hr].
    rewrite Ea, Hp in Hr. cbn in Hr. destruct dd; cbn in Hr; try discriminate. eauto.
Qed.
Lemma get_none n (Hn : comp n) t e : shape n t -> (get_table t e = None <-> ~ In e (events n)).
Proof.
  intros [H _]. rewrite <- H. pose proof (get_table_In t e) as G. destruct (get_table t e) as [a|].
  - split; [discriminate|]. intros X. exfalso. apply X, G. eauto.
  - split; [|reflexivity]. intros _ X. apply G in X. destruct X; discriminate.
Qed.
Lemma tget_nth n (Hn : comp n) t e arr k : shape n t -> get_table t e = Some arr -> nth_at k arr = tget t e k.
Proof. intros _ H. unfold tget. rewrite H. apply nth_at_nth. Qed.
Lemma nth_out n (Hn : comp n) t e arr : shape n t -> get_table t e = Some arr -> nth_at (N.of_nat (n_parents n) * n_states n)%N arr = None.
Proof.
  intros [_ H] E. unfold nth_at. rewrite (H e arr E), (places_length n). now rewrite N.ltb_irrefl.
Qed.
Lemma get_entries_s e r s s' : sim s s' -> rs (Forall2 esim) (get_entries e r s) (get_entries e r s').
Proof.
  intros S. unfold get_entries. destruct (si_tabs _ _ S) as (ds & F & F').
  pose proof (filled_shape m Hc _ _ F) as Sh. pose proof (filled_shape m' Hc' _ _ F') as Sh'.
  pose proof (get_none m Hc _ e Sh) as G. pose proof (get_none m' Hc' _ e Sh') as G'. rewrite (events_eq f Hf m Hint) in G'.
  destruct (get_table (rt_tabs s) e) as [arr|] eqn:E, (get_table (rt_tabs s') e) as [arr'|] eqn:E'.
  2,3: exfalso; intuition discriminate. 2: constructor.
  assert (He : In e (events m)).
  { destruct (in_dec ev_eq_dec e (events m)); [assumption|]. exfalso. apply G in n. discriminate. }
  eapply rs_bind; [now apply read_cur_s|]. intros c c' s1 s1' C S1. destruct C as [p q Hp Hq Hpr|].
  - rewrite (tget_nth m Hc _ _ _ _ Sh E), (tget_nth m' Hc' _ _ _ _ Sh' E').
    rewrite (filled_get m Hc ds _ e p q F He Hp Hq).
    rewrite (filled_get m' Hc' ds _ e p (f q) F'); [|rewrite (events_eq f Hf m Hint); assumption|now rewrite parents_f|now apply states_f_in].
    constructor; [|exact S1]. change (p, f q) with (fpl f (p, q)). rewrite cands_f by assumption. clear F F'.
    induction ds as [|d l IH]; [constructor|]. cbn [flat_map]. apply Forall2_app; [|exact IH].
    rewrite map_map. apply Forall2_same. intros k Hk. eapply centry_s; eauto.
  - rewrite (nth_out m Hc _ _ _ Sh E), (nth_out m' Hc' _ _ _ Sh' E'). constructor.
Qed.

(** ** Event processing *)
Lemma try_entries_s r e : forall ens ens', Forall2 esim ens ens' -> forall v s s', sim s s' ->
  rs eq (try_entries cb m ens r e v s) (try_entries cb' m' ens' r e v s').
Proof.
  induction 1 as [|en en' ens ens' E _ IH]; intros v s s' S; [now constructor|]. cbn [try_entries]. rewrite (es_defer _ _ E).
  destruct (en_defer en); [constructor; [reflexivity|]; rewrite (si_queue _ _ S); sims|].
  rewrite (es_tr _ _ E). destruct (en_tr en) as [t|] eqn:Et; [|constructor]. cbn [option_map]. destruct (es_tok _ _ E t Et) as [T _].
  eapply rs_bind; [now apply execute_guard_s|]. intros bv bv' s1 s1' <- S1. destruct (fst bv); [|now apply IH].
  eapply rs_bind; [apply update_state_s; [exact E|congruence|exact S1]|]. intros _ _ s2 s2' _ S2.
  eapply rs_bind; [now apply execute_action_s|]. intros v1 v1' s3 s3' <- S3. now constructor.
Qed.
Lemma try_region_s r e v s s' : sim s s' -> rs eq (try_region cb m r e v s) (try_region cb' m' r e v s').
Proof.
  intros S. unfold try_region. eapply rs_bind; [now apply get_entries_s|]. intros ens ens' s1 s1' E S1.
  destruct E as [|en en' ens ens' E1 E2]; [now constructor|].
  eapply rs_bind; [apply try_entries_s; [now constructor|exact S1]|]. intros a a' s2 s2' <- S2. now constructor.
Qed.
Lemma region_loop_s e limit : forall fuel r agf ati v s s', sim s s' ->
  rs eq (region_loop cb m fuel limit r agf ati e v s) (region_loop cb' m' fuel limit r agf ati e v s').
Proof.
  induction fuel as [|fuel IH]; intros r agf ati v s s' S; [constructor|]. cbn [region_loop]. destruct (Nat.ltb r limit); [|now constructor].
  eapply rs_bind; [now apply try_region_s|]. intros [[[]|] v'] a' s1 s1' <- S1; cbn [fst snd]; try (now apply IH). now constructor.
Qed.
Lemma try_anonymous_s r : forall ens ens', Forall2 esim ens ens' -> forall v s s', sim s s' ->
  rs eq (try_anonymous cb m ens r v s) (try_anonymous cb' m' ens' r v s').
Proof.
  induction 1 as [|en en' ens ens' E _ IH]; intros v s s' S; [now constructor|]. cbn [try_anonymous].
  rewrite (es_tr _ _ E). destruct (en_tr en) as [t|] eqn:Et; [|constructor]. cbn [option_map]. destruct (es_tok _ _ E t Et) as [T _].
  eapply rs_bind; [now apply execute_guard_s|]. intros bv bv' s1 s1' <- S1. destruct (fst bv); [|now apply IH].
  eapply rs_bind; [apply update_state_s; [exact E|congruence|exact S1]|]. intros _ _ s2 s2' _ S2.
  eapply rs_bind; [now apply execute_action_s|]. intros v1 v1' s3 s3' <- S3. now constructor.
Qed.
Lemma anonymous_region_s r v s s' : sim s s' -> rs eq (anonymous_region cb m r v s) (anonymous_region cb' m' r v s').
Proof.
  intros S. unfold anonymous_region. eapply rs_bind; [now apply get_entries_s|]. intros ens ens' s1 s1' E S1.
  destruct E as [|en en' ens ens' E1 E2]; [now constructor|].
  eapply rs_bind; [apply try_anonymous_s; [now constructor|exact S1]|]. intros a a' s2 s2' <- S2. now constructor.
Qed.
Lemma anonymous_pass_s limit : forall fuel r agf v s s', sim s s' ->
  rs eq (anonymous_pass cb m fuel limit r agf v s) (anonymous_pass cb' m' fuel limit r agf v s').
Proof.
  induction fuel as [|fuel IH]; intros r agf v s s' S; [constructor|]. cbn [anonymous_pass]. destruct (Nat.ltb r limit); [|now constructor].
  eapply rs_bind; [now apply anonymous_region_s|]. intros [[b|] v'] a' s1 s1' <- S1; cbn [fst snd]; [now apply IH|now constructor].
Qed.
Lemma anonymous_loop_s rfuel : forall fuel v s s', sim s s' ->
  rs eq (anonymous_loop cb m rfuel fuel v s) (anonymous_loop cb' m' rfuel fuel v s').
Proof.
  induction fuel as [|fuel IH]; intros v s s' S; [constructor|]. cbn [anonymous_loop]. rewrite (current_regions_s s s' S).
  eapply rs_bind; [now apply anonymous_pass_s|]. intros [[[]|] v'] a' s1 s1' <- S1; cbn [fst snd]; try (now constructor). now apply IH.
Qed.
Lemma process_anonymous_s fuel s s' : sim s s' ->
  rs eq (process_anonymous cb m vnone fuel s) (process_anonymous cb' m' vnone fuel s').
Proof.
  intros S. unfold process_anonymous. rewrite has_anonymous_f by assumption.
  destruct (has_anonymous m); [now apply anonymous_loop_s|now constructor].
Qed.
Lemma process_internal_s fuel e v s s' : sim s s' ->
  rs eq (process_event_internal cb m vnone fuel e v s) (process_event_internal cb' m' vnone fuel e v s').
Proof.
  intros S. unfold process_event_internal. rewrite (current_regions_s s s' S). eapply rs_bind; [now apply region_loop_s|].
  intros [[] v'] a' s1 s1' <- S1; cbn [fst snd]; try (now constructor).
  eapply rs_bind; [now apply process_anonymous_s|]. intros u u' s2 s2' _ S2. now constructor.
Qed.
Lemma process_deferred_s fuel s s' : sim s s' ->
  rs eq (process_deferred cb m vnone fuel s) (process_deferred cb' m' vnone fuel s').
Proof.
  intros S. unfold process_deferred. rewrite has_deferred_f by assumption. destruct (has_deferred m); [|now constructor].
  rewrite (si_queue _ _ S). destruct (rt_queue s) as [|[e v] q] eqn:Eq; [now constructor|].
  eapply rs_bind; [apply process_internal_s; sims|]. intros u u' s1 s1' _ S1. now constructor.
Qed.
Lemma parent_ex n : comp n -> exists p, In p (parents n).
Proof.
  intros Hn. pose proof (cp_flat n Hn) as H. unfold parents. destruct (mc_flat n) as [|x l]; [congruence|].
  exists (x_parent x). apply unique_In. now left.
Qed.
Lemma call_handler_s e v s s' : In e (events m) -> sim s s' -> rs eq (call_handler cb m e v s) (call_handler cb' m' e v s').
Proof.
  intros He S. unfold call_handler. cbn [fm mc_env mc_root]. rewrite unexpected_f. destruct (cd_unexpected _) eqn:Eu; [|now constructor].
  eapply rs_bind; [now apply at_cur_s|]. intros c c' s1 s1' C S1.
  destruct (si_htabs _ _ S1 Eu) as (d & F & F'). assert (He' : In e (events m')) by (now rewrite (events_eq f Hf m Hint)).
  destruct C as [p q Hp Hq Hpr|].
  - pose proof (fill_handlers_get m Hc d _ e p q F He Hp Hq) as G.
    pose proof (fill_handlers_get m' Hc' d _ e p (f q) F' He') as G'. rewrite parents_f in G'. specialize (G' Hp (states_f_in f Hf m q Hq)).
    destruct (get_table (rt_htabs s1) e) as [arr|]; [|tauto]. destruct (get_table (rt_htabs s1') e) as [arr'|]; [|tauto].
    rewrite !nth_at_nth, (proj1 G), (proj1 G'). rewrite (alive_s s1 s1' q S1 Hq). destruct (alive s1 q); [|constructor].
    apply keep_s. now apply (invoke_s CHandler (mkArgs e q TNone d)).
  - destruct (parent_ex m Hc) as [p Hp]. assert (Hq : In (SState (mc_root m)) (states m)) by (unfold states; rewrite in_app_iff; cbn; auto).
    pose proof (fill_handlers_get m Hc d _ e p _ F He Hp Hq) as G.
    pose proof (fill_handlers_get m' Hc' d _ e p (f (SState (mc_root m))) F' He') as G'. rewrite parents_f in G'. specialize (G' Hp (states_f_in f Hf m _ Hq)).
    destruct (get_table (rt_htabs s1) e) as [arr|]; [|tauto]. destruct (get_table (rt_htabs s1') e) as [arr'|]; [|tauto].
    unfold nth_at. rewrite (proj2 G), (proj2 G'), (places_length m), (places_length m'), !N.ltb_irrefl. now constructor.
Qed.
Lemma process_event_s fuel e v s s' : sim s s' ->
  rs eq (process_event cb m vnone fuel e v s) (process_event cb' m' vnone fuel e v s').
Proof.
  intros S. unfold process_event. rewrite (events_eq f Hf m Hint). destruct (in_dec ev_eq_dec e (events m)) as [He|]; [|constructor].
  eapply rs_bind; [now apply process_internal_s|]. intros [[] v'] a' s1 s1' <- S1; cbn [fst snd]; try (now constructor).
  - eapply rs_bind; [now apply call_handler_s|]. intros v1 v1' s2 s2' <- S2. now constructor.
  - eapply rs_bind; [now apply process_deferred_s|]. intros u u' s2 s2' _ S2. now constructor.
Qed.

(** ** Other members *)
Definition stsim (l l' : nat * N * N * N) : Prop :=
  fst (fst (fst l')) = fst (fst (fst l)) /\ snd (fst l') = snd (fst l) /\
  exists c c', csim c c' /\ snd (fst (fst l)) = c /\ snd (fst (fst l')) = c' /\
    snd l = calc_state_idx (n_states m) c /\ snd l' = calc_state_idx (n_states m') c'.
Lemma q_is_s r p k s s' : sim s s' -> rs eq (q_is m r p (SState k) s) (q_is m' r p (SState k) s').
Proof.
  intros S. unfold q_is. rewrite parent_idx_f. eapply rs_bind; [now apply current_parent_s|]. intros cp cp' s1 s1' <- S1.
  destruct (N.eqb cp (parent_idx m p)); [|now constructor]. unfold current_state.
  eapply rs_bind with (R := fun a b => exists c c', csim c c' /\ a = calc_state_idx (n_states m) c /\ b = calc_state_idx (n_states m') c').
  - eapply rs_bind; [now apply at_cur_s|]. intros c c' s2 s2' C S2. constructor; eauto.
  - intros a b s2 s2' (c & c' & C & -> & ->) S2. constructor; [|exact S2]. symmetry. now apply csim_state.
Qed.
Lemma q_parent_is_s p s s' : sim s s' -> rs eq (q_parent_is m p s) (q_parent_is m' p s').
Proof.
  intros S. unfold q_parent_is. rewrite parent_idx_f. eapply rs_bind; [now apply current_parent_s|]. intros cp cp' s1 s1' <- S1. now constructor.
Qed.
Lemma set_state_s r p k s s' : sim s s' -> rs eq (set_state m r p (SState k) s) (set_state m' r p (SState k) s').
Proof.
  intros S. unfold set_state. pose proof (states_plain f Hf m k) as Hk.
  destruct (in_dec sref_eq_dec (SState k) (states m)) as [H|H], (in_dec sref_eq_dec (SState k) (states m')) as [H'|H']; try tauto; [|constructor].
  rewrite parents_f. destruct (in_dec Nat.eq_dec p (parents m)); [|constructor].
  pose proof (Forall2_upd osim (Some (combined_idx m p (SState k))) (Some (combined_idx m' p (SState k))) _ _ (csim_plain p k) (si_cur _ _ S) (to_region r)) as U.
  destruct (upd_nth _ _ (rt_cur s)), (upd_nth _ _ (rt_cur s')); try tauto; constructor; auto. sims.
Qed.
Lemma status_loop_s limit : forall fuel r s s', sim s s' ->
  rs (Forall2 stsim) (status_loop m fuel limit r s) (status_loop m' fuel limit r s').
Proof.
  induction fuel as [|fuel IH]; intros r s s' S; [constructor|]. cbn [status_loop]. destruct (Nat.ltb r limit); [|constructor; [constructor|exact S]].
  pose proof (Forall2_nth _ _ _ (si_cur _ _ S) r) as Hr.
  unfold read_cur. destruct (nth_error (rt_cur s) r) as [[c|]|] eqn:E, (nth_error (rt_cur s') r) as [[c'|]|] eqn:E'; cbn in Hr; try tauto; try constructor.
  cbn [bind]. pose proof (current_parent_s s s' S) as P. unfold current_parent, read_cur in *.
  destruct (nth_error (rt_cur s) 0) as [[d|]|] eqn:D, (nth_error (rt_cur s') 0) as [[d'|]|] eqn:D'; cbn [bind] in *; inversion P; subst; try constructor.
  unfold current_state, at_cur. rewrite E, E'. cbn [bind].
  eapply rs_bind; [now apply IH|]. intros l l' s2 s2' L S2. constructor; [|exact S2]. constructor; [|exact L].
  split; [reflexivity|]. split; [cbn; congruence|]. exists c, c'. auto.
Qed.
Lemma status_s fuel s s' : sim s s' -> rs (Forall2 stsim) (status m fuel s) (status m' fuel s').
Proof. intros S. unfold status. rewrite (current_regions_s s s' S). now apply status_loop_s. Qed.
Lemma set_dependency_s d s s' : sim s s' -> rs eq (set_dependency m d s) (set_dependency m' d s').
Proof.
  intros S. unfold set_dependency. destruct (si_tabs _ _ S) as (ds & F & F').
  destruct (proj2 (fill_ok_iff m Hc d _ (filled_shape m Hc _ _ F)) (filled_regs m Hc _ _ F)) as (t & E).
  destruct (proj2 (fill_ok_iff m' Hc' d _ (filled_shape m' Hc' _ _ F')) (filled_regs m' Hc' _ _ F')) as (t' & E').
  rewrite E, E'. constructor; [reflexivity|]. destruct S; constructor; cbn; auto. exists (d :: ds). split; eapply filled_again; eauto.
Qed.

(** ** Construction *)
Lemma inrange_f pl : inrange m pl -> inrange m' (fpl f pl).
Proof. intros [H1 H2]. split; cbn [fpl fst snd]; [now rewrite parents_f|now apply states_f_in]. Qed.
Lemma composite_f c : composite env' c <-> composite env c.
Proof. unfold composite. rewrite table_f. now destruct (cd_table (lookup env c)). Qed.
Lemma deferring_flat x : In x (deferring m) -> In x (mc_flat m ++ internal_flat m).
Proof. unfold deferring. rewrite filter_In, in_app_iff. tauto. Qed.
Lemma regs_ok_iff : regs_ok m <-> regs_ok m'.
Proof.
  split; intros [R1 R2]; split.
  - intros x' po' Hx' Ho'. rewrite (internal_flat_eq f Hf m Hint) in Hx'. cbn [fm mc_flat] in Hx'. rewrite <- map_app in Hx'.
    apply in_map_iff in Hx'. destruct Hx' as (x & <- & Hx). destruct po' as [pl' o']. apply (offers_iff m') in Ho'.
    destruct Ho' as [[-> _]|(Hi & c & q' & Es & Hcc & Hch & -> & _)].
    + cbn [fst]. rewrite source_f by assumption. apply inrange_f. apply (R1 x (source_place x, snd (source_place x))); [assumption|].
      apply (offers_iff m). auto.
    + cbn [fst]. apply (child_typeids_iff m') in Hch. cbn [fm mc_env] in Hch, Hcc. apply (child_typeids_in f Hf m) in Hch. destruct Hch as (q & Hq & ->). change (inrange m' (fpl f (c, q))). apply inrange_f.
      cbn [fx x_int x_src] in *. apply f_plain in Es; [|assumption].
      apply (R1 x ((c, q), SState c)); [assumption|]. apply (offers_iff m). right. split; [assumption|].
      exists c, q. apply child_typeids_iff in Hq. apply composite_f in Hcc. auto 6.
  - intros x' Hx' Hd. rewrite deferring_f in Hx' by assumption. apply in_map_iff in Hx'. destruct Hx' as (x & <- & Hx).
    rewrite deferred_events_f in Hd by assumption. rewrite source_f by assumption. apply inrange_f. now apply R2.
  - intros x [pl o] Hx Ho. assert (Hx2 : In x (mc_flat m ++ internal_flat m)) by (rewrite in_app_iff in *; tauto).
    assert (Hx' : In (fx f x) (internal_flat m' ++ mc_flat m')).
    { rewrite (internal_flat_eq f Hf m Hint). cbn [fm mc_flat]. rewrite <- map_app. now apply in_map. }
    apply (offers_iff m) in Ho. destruct Ho as [[-> _]|(Hi & c & q & Es & Hcc & Hch & -> & _)]; cbn [fst].
    + destruct (R1 (fx f x) (source_place (fx f x), snd (source_place (fx f x))) Hx') as [H1 _]; [apply (offers_iff m'); auto|].
      cbn [fst] in H1. rewrite source_f, parents_f in H1 by assumption. split; [exact H1|].
      rewrite source_place_resolve. cbn [snd]. apply (row_accepted_states m x). now apply (cp_rows m Hc).
    + assert (H1 : In c (parents m)).
      { destruct (R1 (fx f x) ((c, f q), SState c) Hx') as [H1 _]; [|cbn [fst] in H1; now rewrite parents_f in H1].
        apply (offers_iff m'). right. split; [exact Hi|]. exists c, (f q). cbn [fx x_src]. rewrite Es, f_state by assumption.
        split; [reflexivity|]. split; [now apply composite_f|]. split; [|auto]. apply (child_typeids_iff m'). apply (child_typeids_in f Hf m). exists q. split; [now apply child_typeids_iff|reflexivity]. }
      split; [exact H1|]. cbn [snd]. apply (child_state c); [exact H1|now apply child_typeids_iff].
  - intros x Hx Hd. destruct (R2 (fx f x)) as [H1 _].
    + rewrite deferring_f by assumption. now apply in_map.
    + now rewrite deferred_events_f.
    + rewrite source_f, parents_f in H1 by assumption. split; [exact H1|].
      rewrite source_place_resolve. cbn [snd]. apply (row_accepted_states m x). apply (cp_rows m Hc). now apply deferring_flat.
Qed.
Lemma init_loop_s l l' : Forall2 csim l l' -> forall fuel r s s', sim s s' -> rs eq (init_loop fuel l r s) (init_loop fuel l' r s').
Proof.
  intros L. induction fuel as [|fuel IH]; intros r s s' S; [constructor|]. cbn [init_loop]. rewrite (Forall2_length _ _ _ L).
  destruct (Nat.ltb r (length l)); [|now constructor]. pose proof (Forall2_nth _ _ _ L r) as H.
  destruct (nth_error l r), (nth_error l' r); try tauto; [|constructor].
  eapply rs_bind; [now apply write_cur_s|]. intros u u' s1 s1' _ S1. now apply IH.
Qed.
Lemma repeat_s n : Forall2 osim (repeat None n) (repeat None n).
Proof. induction n; cbn; constructor; auto. exact I. Qed.
Lemma construct_s fuel d w : rs eq (construct m fuel d w) (construct m' fuel d w).
Proof.
  unfold construct. cbn [fm mc_env mc_root]. fold (fm f m). rewrite unexpected_f.
  destruct (fill_handlers_total m Hc d) as (h & Eh). destruct (fill_handlers_total m' Hc' d) as (h' & Eh'). rewrite Eh, Eh'.
  pose proof (fill_ok_iff m Hc d _ (empty_tables_shape m)) as F. pose proof (fill_ok_iff m' Hc' d _ (empty_tables_shape m')) as F'.
  rewrite <- regs_ok_iff in F'.
  destruct (fill_dispatch m d (empty_tables m)) as [t|] eqn:Et, (fill_dispatch m' d (empty_tables m')) as [t'|] eqn:Et'.
  2:{ exfalso. destruct (proj2 F') as [? H]; [apply F; eauto|discriminate]. }
  2:{ exfalso. destruct (proj2 F) as [? H]; [apply F'; eauto|discriminate]. }
  2:{ destruct (cd_unexpected _); constructor. }
  assert (G : forall k k', (cd_unexpected (lookup env (mc_root m)) = true -> exists d, fill_handlers m d = Some k /\ fill_handlers m' d = Some k') ->
    rs eq (bind (init_current_state m fuel (mkRt (repeat None (max_initials m)) (initial_table m) [] 0 (filter (defctor env) (states m)) t k w []))
            (fun _ s => update_current_regions m s))
          (bind (init_current_state m' fuel (mkRt (repeat None (max_initials m')) (initial_table m') [] 0 (filter (defctor env') (states m')) t' k' w []))
            (fun _ s => update_current_regions m' s))).
  { intros k k' Hk.
    assert (S : sim (mkRt (repeat None (max_initials m)) (initial_table m) [] 0 (filter (defctor env) (states m)) t k w [])
                    (mkRt (repeat None (max_initials m')) (initial_table m') [] 0 (filter (defctor env') (states m')) t' k' w [])).
    { constructor; cbn [rt_cur rt_hist rt_queue rt_regions rt_live rt_tabs rt_htabs rt_world rt_trace map]; auto.
      - rewrite (max_initials_eq f Hf m Hini). apply repeat_s.
      - apply initial_table_s.
      - intros o Ho. rewrite !filter_In, defctor_f by assumption. pose proof (states_f_in f Hf m o Ho). tauto.
      - exists [d]. split; now apply filled_new. }
    eapply (rs_bind eq); [|intros; now apply update_regions_s].
    unfold init_current_state. cbn [fm mc_root]. fold (fm f m). rewrite (parent_idx_f f m), !nth_at_nth.
    pose proof (Forall2_nth _ _ _ initial_table_s (N.to_nat (parent_idx m (mc_root m)))) as H.
    destruct (nth_error (initial_table m) _), (nth_error (initial_table m') _); try tauto; [|constructor].
    now apply init_loop_s. }
  destruct (cd_unexpected (lookup env (mc_root m))) eqn:Eu; apply G; [eauto|discriminate].
Qed.

(** ** Clients *)
(** A client that names plain states only. *)
Definition plain_call (k : call V) : Prop :=
  match k with KIs _ _ q | KSet _ _ q => exists c, q = SState c | _ => True end.
Definition same_out (o o' : out) : Prop :=
  match o, o' with
  | OStatus l, OStatus l' => Forall2 stsim l l'
  | _, _ => o' = o
  end.
Lemma do_call_s fuel k s s' : plain_call k -> sim s s' ->
  rs same_out (do_call cb m vnone fuel k s) (do_call cb' m' vnone fuel k s').
Proof.
  intros K S. destruct k; cbn [do_call plain_call] in *.
  - eapply rs_bind; [now apply process_event_s|]. intros a a' s1 s1' <- S1. now constructor.
  - destruct K as [c ->]. eapply rs_bind; [now apply q_is_s|]. intros a a' s1 s1' <- S1. now constructor.
  - eapply rs_bind; [now apply q_parent_is_s|]. intros a a' s1 s1' <- S1. now constructor.
  - destruct K as [c ->]. eapply rs_bind; [now apply set_state_s|]. intros a a' s1 s1' <- S1. now constructor.
  - eapply rs_bind; [now apply set_dependency_s|]. intros a a' s1 s1' <- S1. now constructor.
  - eapply rs_bind; [now apply status_s|]. intros a a' s1 s1' H S1. now constructor.
Qed.
Lemma do_call_catch_s fuel k s s' : plain_call k -> sim s s' ->
  rs same_out (do_call_catch cb m vnone fuel k s) (do_call_catch cb' m' vnone fuel k s').
Proof.
  intros K S. unfold do_call_catch. destruct (do_call_s fuel k s s' K S); constructor; auto. reflexivity.
Qed.
Lemma run_s fuel : forall ks, (forall k, In k ks -> plain_call k) -> forall s s', sim s s' ->
  rs (Forall2 same_out) (run cb m vnone fuel ks s) (run cb' m' vnone fuel ks s').
Proof.
  induction ks as [|k ks IH]; intros K s s' S; [constructor; [constructor|exact S]|]. cbn [run].
  eapply rs_bind; [apply do_call_catch_s; [apply K; now left|exact S]|]. intros o o' s1 s1' O S1.
  eapply rs_bind; [apply IH; [|exact S1]; intros; apply K; now right|]. intros os os' s2 s2' Os S2. constructor; [|exact S2]. now constructor.
Qed.
Lemma session_s fuel d w ks : (forall k, In k ks -> plain_call k) ->
  rs (Forall2 same_out) (session cb m vnone fuel d w ks) (session cb' m' vnone fuel d w ks).
Proof.
  intros K. unfold session. eapply rs_bind; [apply construct_s|]. intros u u' s s' _ S. now apply run_s.
Qed.
End SpellRun.
