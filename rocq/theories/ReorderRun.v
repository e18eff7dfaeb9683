(** Two machines in whose places the same candidates are reached, side by side. *)

From Coq Require Import List Arith NArith Bool Lia.
From Verif Require Import Dsl Types Static Dispatch Runtime ListFacts IndexFacts Spec DispatchFacts FlattenFacts
  Semantics RefineFacts StaticFacts Reach ReachFacts ProcessFacts SpellRun Reorder Dead.
Import ListNotations.

Lemma upd_nth_some {A} (f : A -> A) l : forall n a, nth_error l n = Some a -> exists l', upd_nth n f l = Some l'.
Proof.
  induction l as [|b l IH]; intros [|n] a H; cbn in *; try discriminate; eauto.
  destruct (IH n a H) as (l' & ->). cbn. eauto.
Qed.

Section ReorderRun.
Variable m m' : machine.
Hypothesis Hc : comp m.
Hypothesis Hc' : comp m'.
Notation env := (mc_env m).
Notation env' := (mc_env m').
Notation root := (mc_root m).
Hypothesis Hroot : mc_root m' = root.
Hypothesis Hmem : forall c, same_members (lookup env c) (lookup env' c).
Hypothesis Htab : forall s, has_table env' s = has_table env s.
Hypothesis Hini : forall c, initials env' c = initials env c.
Hypothesis Hpar : forall p, In p (parents m') <-> In p (parents m).
Hypothesis Hsta : forall s, In s (states m') <-> In s (states m).
Hypothesis Hev : forall e, In e (events m') <-> In e (events m).
Hypothesis Hcand : forall e p q, In p (parents m) -> In q (states m) -> live (cands m' e (p, q)) = live (cands m e (p, q)).
Hypothesis has_history_r : has_history m' = has_history m.
Hypothesis has_anonymous_r : has_anonymous m' = has_anonymous m.
Hypothesis has_deferred_r : has_deferred m' = has_deferred m.
Hypothesis Hreg : regs_ok m <-> regs_ok m'.
Hypothesis Hin : forall x, In x (mc_flat m) -> In (resolve_dst_parent env x) (parents m).
Context {V W : Type}.
Variable cb : cbfun V W.
Variable vnone : V.

(** ** What depends on the program only through these *)
Lemma fold_max_le n l : fold_right Nat.max 0 l <= n <-> forall a, In a l -> a <= n.
Proof.
  induction l as [|a l IH]; cbn [fold_right]; [split; [intros _ a []|lia]|]. split.
  - intros H b [<-|Hb]; [lia|]. apply IH; [lia|assumption].
  - intros H. apply Nat.max_lub; [apply H; now left|]. apply IH. intros b Hb. apply H. now right.
Qed.
Lemma fold_max_same l l' : (forall a, In a l' <-> In a l) -> fold_right Nat.max 0 l' = fold_right Nat.max 0 l.
Proof.
  intros H. apply Nat.le_antisymm; apply fold_max_le; intros a Ha.
  - apply H in Ha. revert a Ha. now apply fold_max_le.
  - apply H in Ha. revert a Ha. now apply fold_max_le.
Qed.
Lemma max_initials_r : max_initials m' = max_initials m.
Proof.
  unfold max_initials. apply fold_max_same. intros a. rewrite !in_map_iff.
  split; intros (p & <- & Hp); exists p; (split; [now rewrite Hini|now apply Hpar]).
Qed.
Lemma parallel_r : parallel m' = parallel m.
Proof. unfold parallel. now rewrite max_initials_r. Qed.
Lemma entry_of_r s : entry_of env' s = entry_of env s.
Proof. destruct s; try reflexivity. cbn. now rewrite (sb_entry _ _ (Hmem c)). Qed.
Lemma exit_of_r s : exit_of env' s = exit_of env s.
Proof. destruct s; try reflexivity. cbn. now rewrite (sb_exit _ _ (Hmem c)). Qed.
Lemma defctor_r s : defctor env' s = defctor env s.
Proof. destruct s; try reflexivity. apply Hmem. Qed.
Lemma resolve_dst_r x : resolve_dst env' x = resolve_dst env x.
Proof. unfold resolve_dst. destruct (x_tgt x); rewrite ?Htab, ?Hini; reflexivity. Qed.
Lemma dst_of_r x : dst_of m' x = dst_of m x.
Proof. unfold dst_of. now rewrite resolve_dst_r. Qed.
Lemma dst_parent_r x : resolve_dst_parent env' x = resolve_dst_parent env x.
Proof. unfold resolve_dst_parent. destruct (x_tgt x); rewrite ?Htab; reflexivity. Qed.
Lemma initial_entry_r s : initial_entry_of env' s = initial_entry_of env s.
Proof.
  destruct s; try reflexivity. cbn [initial_entry_of]. rewrite Htab, Hini. destruct (has_table env (SState c)); [|reflexivity].
  destruct (hd_error (initials env c)); [apply entry_of_r|reflexivity].
Qed.
Lemma pseudo_exit_r x : pseudo_exit_of env' x = pseudo_exit_of env x.
Proof. unfold pseudo_exit_of. destruct (x_src x); try reflexivity. apply exit_of_r. Qed.
Lemma resolve_action_r x : resolve_action env' x = resolve_action env x.
Proof.
  unfold resolve_action, has_action, resolve_exit_action, resolve_entry_action, resolve_initial_entry_action.
  now rewrite !entry_of_r, !exit_of_r, !initial_entry_r, !pseudo_exit_r.
Qed.

(** ** Numbers of one place, numbers of one parent *)
Inductive csim : N -> N -> Prop :=
| cs_in p q : In p (parents m) -> In q (states m) -> csim (combined_idx m p q) (combined_idx m' p q).
Inductive psim : N -> N -> Prop :=
| ps_in p : In p (parents m) -> psim (parent_idx m p) (parent_idx m' p).

Lemma csim_parent c c' : csim c c' -> psim (calc_parent_idx (n_states m) c) (calc_parent_idx (n_states m') c').
Proof.
  intros [p q Hp Hq]. rewrite (calc_parent_combined m Hc) by assumption.
  rewrite (calc_parent_combined m' Hc') by (now apply Hpar || now apply Hsta). now constructor.
Qed.
Lemma csim_state c c' k : csim c c' ->
  N.eqb (calc_state_idx (n_states m') c') (state_idx m' k) = N.eqb (calc_state_idx (n_states m) c) (state_idx m k).
Proof.
  intros [p q Hp Hq]. rewrite (calc_state_combined m Hc) by assumption.
  rewrite (calc_state_combined m' Hc') by (now apply Hpar || now apply Hsta).
  apply bool_iff. rewrite !N.eqb_eq. split; intros E.
  - apply (state_idx_inj m' Hc') in E; [now subst|]. now apply Hsta.
  - apply (state_idx_inj m Hc) in E; [now subst|assumption].
Qed.
Lemma psim_eq n n' p : psim n n' -> N.eqb n' (parent_idx m' p) = N.eqb n (parent_idx m p).
Proof.
  intros [p0 Hp]. apply bool_iff. rewrite !N.eqb_eq. split; intros E.
  - apply (parent_idx_inj m' Hc') in E; [now subst|]. now apply Hpar.
  - apply (parent_idx_inj m Hc) in E; [now subst|assumption].
Qed.
Lemma parent_pos_idx n (Hn : comp n) p : N.to_nat (parent_idx n p) = parent_pos n p.
Proof. rewrite (parent_idx_pos n Hn). apply Nat2N.id. Qed.

(** ** Related states of the two objects *)
Definition osim (a b : option N) : Prop :=
  match a, b with Some c, Some c' => csim c c' | None, None => True | _, _ => False end.
Definition hsim (h h' : list (list N)) : Prop := forall p, In p (parents m) ->
  match nth_error h (parent_pos m p), nth_error h' (parent_pos m' p) with
  | Some l, Some l' => Forall2 csim l l'
  | None, None => True
  | _, _ => False
  end.
Record sim (s s' : rt V W) : Prop := mkSim {
  si_cur : Forall2 osim (rt_cur s) (rt_cur s');
  si_hist : hsim (rt_hist s) (rt_hist s');
  si_queue : rt_queue s' = rt_queue s;
  si_regions : rt_regions s' = rt_regions s;
  si_live : forall o, In o (rt_live s') <-> In o (rt_live s);
  si_tabs : exists ds, filled m ds (rt_tabs s) /\ filled m' ds (rt_tabs s');
  si_htabs : cd_unexpected (lookup env root) = true ->
    exists d, fill_handlers m d = Some (rt_htabs s) /\ fill_handlers m' d = Some (rt_htabs s');
  si_world : rt_world s' = rt_world s;
  si_trace : rt_trace s' = rt_trace s }.
Inductive rs {A A'} (R : A -> A' -> Prop) : res V W A -> res V W A' -> Prop :=
| rs_done a a' s s' : R a a' -> sim s s' -> rs R (Done a s) (Done a' s')
| rs_threw x s s' : sim s s' -> rs R (Threw x s) (Threw x s')
| rs_undef u : rs R (Undef u) (Undef u)
| rs_timeout : rs R Timeout Timeout.
Lemma rs_bind {A A' B B'} (R : A -> A' -> Prop) (T : B -> B' -> Prop) r r' k k' :
  rs R r r' -> (forall a a' s s', R a a' -> sim s s' -> rs T (k a s) (k' a' s')) -> rs T (bind r k) (bind r' k').
Proof. intros [a a' s s' H1 H2|x s s' H|u|] Hk; cbn; auto; constructor; assumption. Qed.
Ltac sims := match goal with H : sim _ _ |- sim _ _ => destruct H; constructor; cbn; auto end.

(** ** User code *)
Lemma invoke_s c a v s s' : sim s s' -> rs eq (invoke cb c a v s) (invoke cb c a v s').
Proof.
  intros S. unfold invoke. rewrite (si_world _ _ S). destruct (cb c a v (rt_world s)); constructor; auto;
  destruct S; constructor; cbn; auto; now rewrite si_trace0.
Qed.
Lemma alive_s s s' o : sim s s' -> alive s' o = alive s o.
Proof.
  intros S. unfold alive. pose proof (si_live _ _ S o).
  destruct (in_dec sref_eq_dec o (rt_live s)), (in_dec sref_eq_dec o (rt_live s')); tauto.
Qed.
Lemma execute_guard_s t e v s s' : sim s s' -> rs eq (execute_guard cb t e v s) (execute_guard cb t e v s').
Proof.
  intros S. unfold execute_guard. destruct (t_guard t) as [|ty val]; [now constructor|].
  rewrite !(alive_s s s' _ S). destruct (_ && _); [|constructor]. now apply invoke_s.
Qed.
Lemma set_live_s s s' o b : sim s s' -> sim (set_live s o b) (set_live s' o b).
Proof.
  intros S. pose proof (si_live _ _ S) as L. destruct S; constructor; cbn; auto. intros k. destruct b.
  - destruct (in_dec sref_eq_dec o (rt_live s)) as [H1|H1], (in_dec sref_eq_dec o (rt_live s')) as [H2|H2]; cbn; rewrite ?L; try tauto.
    + exfalso. apply H2. now apply L.
    + exfalso. apply H1. now apply L.
  - rewrite !filter_In, L. reflexivity.
Qed.
Lemma keep_s r r' : rs (A:=bool * V) eq r r' -> rs eq (keep_payload r) (keep_payload r').
Proof. intros H. eapply rs_bind; [exact H|]. intros a a' s s' -> S. now constructor. Qed.
Lemma exec_body_s t e : forall b v s s', sim s s' -> rs eq (exec_body cb b t e v s) (exec_body cb b t e v s').
Proof.
  induction b using abody_ind2; intros v s s' S; cbn [exec_body].
  - apply keep_s. now apply invoke_s.
  - eapply rs_bind; [apply invoke_s; exact S|]. intros a a' s1 s1' -> S1. constructor; [reflexivity|]. now apply set_live_s.
  - rewrite (alive_s s s' _ S). destruct (alive s (t_tgt t)); [|constructor].
    unfold drop_payload. eapply rs_bind; [apply invoke_s; exact S|]. intros a a' s1 s1' _ S1. now constructor.
  - revert v s s' S. match goal with H : Forall _ _ |- _ => induction H as [|b l Hbl _ IH] end; intros v s s' S; [now constructor|].
    eapply rs_bind; [apply Hbl; exact S|]. intros a a' s1 s1' -> S1. now apply IH.
Qed.
Lemma exec_steps_s t e : forall l v s s', sim s s' -> rs eq (exec_steps cb l t e v s) (exec_steps cb l t e v s').
Proof.
  induction l as [|st l IH]; intros v s s' S; [now constructor|]. cbn [exec_steps].
  eapply (rs_bind eq).
  - destruct st; cbn [exec_step]; try (apply keep_s; now apply invoke_s). now apply exec_body_s.
  - intros a a' s1 s1' -> S1. now apply IH.
Qed.
Lemma execute_action_s t e v s s' : sim s s' -> rs eq (execute_action cb t e v s) (execute_action cb t e v s').
Proof.
  intros S. unfold execute_action. destruct (t_act t) as [l|]; [|now constructor].
  rewrite !(alive_s s s' _ S). destruct (_ && _); [|constructor]. now apply exec_steps_s.
Qed.

(** ** Bookkeeping *)
Lemma read_cur_s s s' r : sim s s' -> rs csim (read_cur s r) (read_cur s' r).
Proof.
  intros S. unfold read_cur. pose proof (Forall2_nth _ _ _ (si_cur _ _ S) r) as H.
  destruct (nth_error (rt_cur s) r) as [[c|]|], (nth_error (rt_cur s') r) as [[c'|]|]; cbn in H; try tauto; constructor; auto.
Qed.
Lemma at_cur_s s s' r : sim s s' -> rs csim (at_cur s r) (at_cur s' r).
Proof.
  intros S. unfold at_cur. pose proof (Forall2_nth _ _ _ (si_cur _ _ S) r) as H.
  destruct (nth_error (rt_cur s) r) as [[c|]|], (nth_error (rt_cur s') r) as [[c'|]|]; cbn in H; try tauto; constructor; auto.
Qed.
Lemma write_cur_s s s' r c c' : sim s s' -> csim c c' -> rs eq (write_cur s r c) (write_cur s' r c').
Proof.
  intros S C. unfold write_cur. pose proof (Forall2_upd osim (Some c) (Some c') _ _ C (si_cur _ _ S) r) as H.
  destruct (upd_nth r _ (rt_cur s)), (upd_nth r _ (rt_cur s')); try tauto; constructor; auto. sims.
Qed.
Lemma current_parent_s s s' : sim s s' -> rs psim (current_parent m s) (current_parent m' s').
Proof.
  intros S. unfold current_parent. eapply rs_bind; [now apply read_cur_s|]. intros c c' s1 s1' C S1. constructor; [|exact S1].
  now apply csim_parent.
Qed.
Lemma initial_table_s : hsim (initial_table m) (initial_table m').
Proof.
  intros p Hp. rewrite (initial_table_nth m Hc p Hp), (initial_table_nth m' Hc' p) by (now apply Hpar).
  rewrite Hini. apply Forall2_same. intros s Hs. rewrite (code_combined m Hc), (code_combined m' Hc').
  constructor; [assumption|]. eapply (initials_states m Hc); eauto.
Qed.
Lemma psim_nth {B} n n' (h h' : list B) (R : B -> B -> Prop) : psim n n' ->
  (forall p, In p (parents m) -> match nth_error h (parent_pos m p), nth_error h' (parent_pos m' p) with
    | Some l, Some l' => R l l' | None, None => True | _, _ => False end) ->
  match nth_at n h, nth_at n' h' with Some l, Some l' => R l l' | None, None => True | _, _ => False end.
Proof.
  intros [p Hp] H. rewrite !nth_at_nth. rewrite (parent_pos_idx m Hc), (parent_pos_idx m' Hc'). now apply H.
Qed.
Lemma update_regions_s s s' : sim s s' -> rs eq (update_current_regions m s) (update_current_regions m' s').
Proof.
  intros S. unfold update_current_regions. rewrite parallel_r. destruct (parallel m); [|now constructor].
  eapply rs_bind; [now apply current_parent_s|]. intros p p' s1 s1' P S1.
  pose proof (psim_nth _ _ _ _ _ P initial_table_s) as H.
  destruct (nth_at p (initial_table m)), (nth_at p' (initial_table m')); try tauto; constructor; auto.
  apply Forall2_length in H. sims.
Qed.
Lemma current_regions_s s s' : sim s s' -> current_regions m' s' = current_regions m s.
Proof. intros S. unfold current_regions. rewrite parallel_r. now rewrite (si_regions _ _ S). Qed.
Lemma write_hist_s s s' n n' r c c' : sim s s' -> psim n n' -> csim c c' -> rs eq (write_hist s n r c) (write_hist s' n' r c').
Proof.
  intros S P C. unfold write_hist. pose proof (psim_nth _ _ _ _ _ P (si_hist _ _ S)) as H.
  destruct (nth_at n (rt_hist s)) as [l|] eqn:En, (nth_at n' (rt_hist s')) as [l'|] eqn:En'; try tauto; [|constructor].
  pose proof (Forall2_upd csim c c' _ _ C H r) as H'.
  destruct (upd_nth r _ l) as [k|], (upd_nth r _ l') as [k'|]; try tauto; [|constructor].
  rewrite !upd_at_upd. rewrite nth_at_nth in En, En'. destruct P as [p Hp].
  rewrite (parent_pos_idx m Hc), (parent_pos_idx m' Hc') in *.
  destruct (upd_nth_some (fun _ => k) _ _ _ En) as (h & U), (upd_nth_some (fun _ => k') _ _ _ En') as (h' & U').
  rewrite U, U'. apply upd_nth_spec in U, U'. destruct U as (_ & _ & U), U' as (_ & _ & U'). constructor; [reflexivity|].
  destruct S; constructor; cbn; auto. intros q Hq. specialize (si_hist0 q Hq). rewrite U, U'.
  destruct (Nat.eq_dec (parent_pos m q) (parent_pos m p)) as [E|E], (Nat.eq_dec (parent_pos m' q) (parent_pos m' p)) as [E'|E'].
  - rewrite E, E', En, En'. exact H'.
  - exfalso. apply E'. f_equal. eapply pos_inj; eauto.
  - exfalso. apply E. f_equal. eapply pos_inj; [|exact E']. now apply Hpar.
  - exact si_hist0.
Qed.
Lemma read_hist_s s s' n n' r : sim s s' -> psim n n' -> rs csim (read_hist s n r) (read_hist s' n' r).
Proof.
  intros S P. unfold read_hist. pose proof (psim_nth _ _ _ _ _ P (si_hist _ _ S)) as H.
  destruct (nth_at n (rt_hist s)) as [l|], (nth_at n' (rt_hist s')) as [l'|]; try tauto; [|constructor].
  pose proof (Forall2_nth _ _ _ H r) as H'. destruct (nth_error l r), (nth_error l' r); try tauto; constructor; auto.
Qed.

(** ** Table entries *)
Record esim (en en' : entry) : Prop := mkEsim {
  es_hist : en_hist en' = en_hist en;
  es_defer : en_defer en' = en_defer en;
  es_int : en_int en' = en_int en;
  es_tr : en_tr en' = en_tr en;
  es_to : en_tr en <> None -> en_int en = true \/ csim (en_to en) (en_to en') }.
Lemma update_state_s r en en' s s' : esim en en' -> en_tr en <> None -> sim s s' ->
  rs eq (update_current_state m r en s) (update_current_state m' r en' s').
Proof.
  intros E Ht S. unfold update_current_state. rewrite (es_int _ _ E), (es_hist _ _ E), has_history_r.
  destruct (es_to _ _ E Ht) as [->|C]; [now constructor|].
  destruct (en_int en); [now constructor|]. eapply (rs_bind eq).
  - destruct (has_history m); [|now apply write_cur_s].
    eapply rs_bind; [now apply current_parent_s|]. intros p p' s1 s1' P S1.
    eapply rs_bind; [now apply read_cur_s|]. intros c c' s2 s2' C2 S2.
    eapply rs_bind; [now apply write_hist_s|]. intros u u' s3 s3' _ S3.
    destruct (en_hist en); [|now apply write_cur_s].
    eapply rs_bind; [apply read_hist_s; [exact S3|now apply csim_parent]|]. intros c3 c3' s4 s4' C4 S4. now apply write_cur_s.
  - intros u u' s1 s1' _ S1. now apply update_regions_s.
Qed.
Lemma centry_s e pl d c : In c (cands m e pl) -> esim (centry m d c) (centry m' d c).
Proof.
  intros H. destruct c as [|x o]; [constructor; try reflexivity; cbn; congruence|]. cbn [centry].
  apply (cand_row m) in H. destruct H as [Hx ->]. pose proof (cp_rows m Hc x Hx) as Hr.
  constructor; cbn [entry_of_row en_hist en_defer en_int en_tr en_to]; try reflexivity.
  - now rewrite resolve_action_r, dst_of_r, defctor_r.
  - intros _. rewrite dst_of_r, dst_parent_r. apply in_app_iff in Hx. destruct Hx as [Hx|Hx].
    + right. constructor; [now apply Hin|]. now apply (row_accepted_states m x).
    + left. now apply (internal_flat_int m Hc).
Qed.
(** Equal up to and including the first entry that is always taken. *)
Definition taken (en : entry) : Prop := match en_tr en with None => True | Some t => t_guard t = NoGuard end.
Inductive esims : list entry -> list entry -> Prop :=
| es_nil : esims [] []
| es_last en en' l l' : esim en en' -> taken en -> esims (en :: l) (en' :: l')
| es_cons en en' l l' : esim en en' -> esims l l' -> esims (en :: l) (en' :: l').
Lemma esims_app l l' k k' : Forall2 esim l l' -> esims k k' -> esims (l ++ k) (l' ++ k').
Proof. induction 1; cbn; [auto|]. intros. apply es_cons; auto. Qed.
Lemma esims_stop l l' en en' k k' : Forall2 esim l l' -> esim en en' -> taken en -> esims (l ++ en :: k) (l' ++ en' :: k').
Proof. intros H E T. apply esims_app; [exact H|]. now apply es_last. Qed.
Lemma decisive_taken d c : decisive c = true -> taken (centry m d c).
Proof.
  destruct c as [|x o]; cbn; [reflexivity|]. unfold taken, entry_of_row. cbn. destruct (x_guard x); [reflexivity|discriminate].
Qed.
Lemma live_cases : forall l l', live l' = live l ->
  l' = l \/ exists a c b b', l = a ++ c :: b /\ l' = a ++ c :: b' /\ decisive c = true.
Proof.
  induction l as [|c l IH]; intros [|c' l'] E; cbn [live] in E; try discriminate; [now left|].
  injection E as -> E. destruct (decisive c) eqn:D.
  - right. exists [], c, l, l'. auto.
  - destruct (IH l' E) as [->|(a & k & b & b' & -> & -> & Hk)]; [now left|]. right. exists (c :: a), k, b, b'. auto.
Qed.
Lemma get_entries_s e r s s' : sim s s' -> rs esims (get_entries e r s) (get_entries e r s').
Proof.
  intros S. unfold get_entries. destruct (si_tabs _ _ S) as (ds & F & F').
  pose proof (filled_shape m Hc _ _ F) as Sh. pose proof (filled_shape m' Hc' _ _ F') as Sh'.
  pose proof (get_none m Hc _ e Sh) as G. pose proof (get_none m' Hc' _ e Sh') as G'. rewrite Hev in G'.
  destruct (get_table (rt_tabs s) e) as [arr|] eqn:E, (get_table (rt_tabs s') e) as [arr'|] eqn:E'.
  2,3: exfalso; intuition discriminate. 2: constructor.
  assert (He : In e (events m)).
  { destruct (in_dec ev_eq_dec e (events m)); [assumption|]. exfalso. apply G in n. discriminate. }
  eapply rs_bind; [now apply read_cur_s|]. intros c c' s1 s1' C S1. destruct C as [p q Hp Hq].
  rewrite (tget_nth m Hc _ _ _ _ Sh E), (tget_nth m' Hc' _ _ _ _ Sh' E').
  rewrite (filled_get m Hc ds _ e p q F He Hp Hq).
  rewrite (filled_get m' Hc' ds _ e p q F') by (now apply Hev || now apply Hpar || now apply Hsta).
  constructor; [|exact S1]. clear F F'. pose proof (Hcand e p q Hp Hq) as L. apply live_cases in L.
  assert (K : forall k, In k (cands m e (p, q)) -> forall d, esim (centry m d k) (centry m' d k)) by (intros; eapply centry_s; eauto).
  destruct L as [->|(a & k & b & b' & Ea & -> & Hk)].
  - induction ds as [|d l IH]; [constructor|]. cbn [flat_map]. apply esims_app; [|exact IH]. apply Forall2_same. auto.
  - destruct ds as [|d l]; [constructor|]. cbn [flat_map]. rewrite Ea in *. rewrite !map_app. cbn [map]. rewrite <- !app_assoc. cbn [app].
    apply esims_stop; [|apply K; apply in_elt|now apply decisive_taken].
    apply Forall2_same. intros j Hj. apply K. apply in_app_iff. now left.
Qed.

(** ** Event processing *)
Lemma try_entries_s r e : forall ens ens', esims ens ens' -> forall v s s', sim s s' ->
  rs eq (try_entries cb m ens r e v s) (try_entries cb m' ens' r e v s').
Proof.
  intros ens ens' X. induction X as [|en en' ens ens' E T|en en' ens ens' E _ IH]; intros v s s' S; [now constructor| |];
    cbn [try_entries]; rewrite (es_defer _ _ E);
    (destruct (en_defer en); [constructor; [reflexivity|]; rewrite (si_queue _ _ S); sims|]);
    rewrite (es_tr _ _ E); (destruct (en_tr en) as [t|] eqn:Et; [|constructor]).
  { unfold taken in T. rewrite Et in T. unfold execute_guard. rewrite T. cbn [bind fst snd].
    eapply rs_bind; [apply update_state_s; [exact E|congruence|exact S]|]. intros _ _ s2 s2' _ S2.
    eapply rs_bind; [now apply execute_action_s|]. intros v1 v1' s3 s3' <- S3. now constructor. }
  eapply rs_bind; [now apply execute_guard_s|]. intros bv bv' s1 s1' <- S1. destruct (fst bv); [|now apply IH].
  eapply rs_bind; [apply update_state_s; [exact E|congruence|exact S1]|]. intros _ _ s2 s2' _ S2.
  eapply rs_bind; [now apply execute_action_s|]. intros v1 v1' s3 s3' <- S3. now constructor.
Qed.
Lemma try_region_s r e v s s' : sim s s' -> rs eq (try_region cb m r e v s) (try_region cb m' r e v s').
Proof.
  intros S. unfold try_region. eapply rs_bind; [now apply get_entries_s|]. intros ens ens' s1 s1' E S1.
  pose proof E as E0. destruct E; [now constructor| |]; (eapply rs_bind; [apply try_entries_s; [exact E0|exact S1]|]). all: intros a0 a' s2 s2' <- S2; now constructor.
Qed.
Lemma region_loop_s e limit : forall fuel r agf ati v s s', sim s s' ->
  rs eq (region_loop cb m fuel limit r agf ati e v s) (region_loop cb m' fuel limit r agf ati e v s').
Proof.
  induction fuel as [|fuel IH]; intros r agf ati v s s' S; [constructor|]. cbn [region_loop]. destruct (Nat.ltb r limit); [|now constructor].
  eapply rs_bind; [now apply try_region_s|]. intros [[[]|] v'] a' s1 s1' <- S1; cbn [fst snd]; try (now apply IH). now constructor.
Qed.
Lemma try_anonymous_s r : forall ens ens', esims ens ens' -> forall v s s', sim s s' ->
  rs eq (try_anonymous cb m ens r v s) (try_anonymous cb m' ens' r v s').
Proof.
  intros ens ens' X. induction X as [|en en' ens ens' E T|en en' ens ens' E _ IH]; intros v s s' S; [now constructor| |];
    cbn [try_anonymous]; rewrite (es_tr _ _ E); (destruct (en_tr en) as [t|] eqn:Et; [|constructor]).
  { unfold taken in T. rewrite Et in T. unfold execute_guard. rewrite T. cbn [bind fst snd].
    eapply rs_bind; [apply update_state_s; [exact E|congruence|exact S]|]. intros _ _ s2 s2' _ S2.
    eapply rs_bind; [now apply execute_action_s|]. intros v1 v1' s3 s3' <- S3. now constructor. }
  eapply rs_bind; [now apply execute_guard_s|]. intros bv bv' s1 s1' <- S1. destruct (fst bv); [|now apply IH].
  eapply rs_bind; [apply update_state_s; [exact E|congruence|exact S1]|]. intros _ _ s2 s2' _ S2.
  eapply rs_bind; [now apply execute_action_s|]. intros v1 v1' s3 s3' <- S3. now constructor.
Qed.
Lemma anonymous_region_s r v s s' : sim s s' -> rs eq (anonymous_region cb m r v s) (anonymous_region cb m' r v s').
Proof.
  intros S. unfold anonymous_region. eapply rs_bind; [now apply get_entries_s|]. intros ens ens' s1 s1' E S1.
  pose proof E as E0. destruct E; [now constructor| |]; (eapply rs_bind; [apply try_anonymous_s; [exact E0|exact S1]|]). all: intros a0 a' s2 s2' <- S2; now constructor.
Qed.
Lemma anonymous_pass_s limit : forall fuel r agf v s s', sim s s' ->
  rs eq (anonymous_pass cb m fuel limit r agf v s) (anonymous_pass cb m' fuel limit r agf v s').
Proof.
  induction fuel as [|fuel IH]; intros r agf v s s' S; [constructor|]. cbn [anonymous_pass]. destruct (Nat.ltb r limit); [|now constructor].
  eapply rs_bind; [now apply anonymous_region_s|]. intros [[b|] v'] a' s1 s1' <- S1; cbn [fst snd]; [now apply IH|now constructor].
Qed.
Lemma anonymous_loop_s rfuel : forall fuel v s s', sim s s' ->
  rs eq (anonymous_loop cb m rfuel fuel v s) (anonymous_loop cb m' rfuel fuel v s').
Proof.
  induction fuel as [|fuel IH]; intros v s s' S; [constructor|]. cbn [anonymous_loop]. rewrite (current_regions_s s s' S).
  eapply rs_bind; [now apply anonymous_pass_s|]. intros [[[]|] v'] a' s1 s1' <- S1; cbn [fst snd]; try (now constructor). now apply IH.
Qed.
Lemma process_anonymous_s fuel s s' : sim s s' ->
  rs eq (process_anonymous cb m vnone fuel s) (process_anonymous cb m' vnone fuel s').
Proof.
  intros S. unfold process_anonymous. rewrite has_anonymous_r.
  destruct (has_anonymous m); [now apply anonymous_loop_s|now constructor].
Qed.
Lemma process_internal_s fuel e v s s' : sim s s' ->
  rs eq (process_event_internal cb m vnone fuel e v s) (process_event_internal cb m' vnone fuel e v s').
Proof.
  intros S. unfold process_event_internal. rewrite (current_regions_s s s' S). eapply rs_bind; [now apply region_loop_s|].
  intros [[] v'] a' s1 s1' <- S1; cbn [fst snd]; try (now constructor).
  eapply rs_bind; [now apply process_anonymous_s|]. intros u u' s2 s2' _ S2. now constructor.
Qed.
Lemma process_deferred_s fuel s s' : sim s s' ->
  rs eq (process_deferred cb m vnone fuel s) (process_deferred cb m' vnone fuel s').
Proof.
  intros S. unfold process_deferred. rewrite has_deferred_r. destruct (has_deferred m); [|now constructor].
  rewrite (si_queue _ _ S). destruct (rt_queue s) as [|[e v] q] eqn:Eq; [now constructor|].
  eapply rs_bind; [apply process_internal_s; sims|]. intros u u' s1 s1' _ S1. now constructor.
Qed.
Lemma unexpected_r : cd_unexpected (lookup env' (mc_root m')) = cd_unexpected (lookup env root).
Proof. rewrite Hroot. apply Hmem. Qed.
Lemma call_handler_s e v s s' : In e (events m) -> sim s s' -> rs eq (call_handler cb m e v s) (call_handler cb m' e v s').
Proof.
  intros He S. unfold call_handler. rewrite unexpected_r. destruct (cd_unexpected (lookup env root)) eqn:Eu; [|now constructor].
  eapply rs_bind; [now apply at_cur_s|]. intros c c' s1 s1' C S1.
  destruct (si_htabs _ _ S1 Eu) as (d & F & F'). destruct C as [p q Hp Hq].
  pose proof (fill_handlers_get m Hc d _ e p q F He Hp Hq) as G.
  pose proof (fill_handlers_get m' Hc' d _ e p q F' (proj2 (Hev e) He) (proj2 (Hpar p) Hp) (proj2 (Hsta q) Hq)) as G'.
  destruct (get_table (rt_htabs s1) e) as [arr|]; [|tauto]. destruct (get_table (rt_htabs s1') e) as [arr'|]; [|tauto].
  rewrite !nth_at_nth, (proj1 G), (proj1 G'). rewrite (alive_s s1 s1' q S1). destruct (alive s1 q); [|constructor].
  apply keep_s. now apply invoke_s.
Qed.
Lemma process_event_s fuel e v s s' : sim s s' ->
  rs eq (process_event cb m vnone fuel e v s) (process_event cb m' vnone fuel e v s').
Proof.
  intros S. unfold process_event.
  destruct (in_dec ev_eq_dec e (events m)) as [He|He], (in_dec ev_eq_dec e (events m')) as [He'|He'];
    [|exfalso; apply He'; now apply Hev|exfalso; apply He; now apply Hev|constructor].
  eapply rs_bind; [now apply process_internal_s|]. intros [[] v'] a' s1 s1' <- S1; cbn [fst snd]; try (now constructor).
  - eapply rs_bind; [now apply call_handler_s|]. intros v1 v1' s2 s2' <- S2. now constructor.
  - eapply rs_bind; [now apply process_deferred_s|]. intros u u' s2 s2' _ S2. now constructor.
Qed.

(** ** Other members *)
Definition stsim (l l' : nat * N * N * N) : Prop :=
  exists r p q p0, In p (parents m) /\ In q (states m) /\ In p0 (parents m) /\
    l = line_of m r p q p0 /\ l' = line_of m' r p q p0.
Lemma q_is_s r p k s s' : sim s s' -> rs eq (q_is m r p k s) (q_is m' r p k s').
Proof.
  intros S. unfold q_is. eapply rs_bind; [now apply current_parent_s|]. intros cp cp' s1 s1' P S1.
  rewrite (psim_eq _ _ p P). destruct (N.eqb cp (parent_idx m p)); [|now constructor]. unfold current_state.
  eapply rs_bind with (R := fun a b => exists c c', csim c c' /\ a = calc_state_idx (n_states m) c /\ b = calc_state_idx (n_states m') c').
  - eapply rs_bind; [now apply at_cur_s|]. intros c c' s2 s2' C S2. constructor; eauto.
  - intros a b s2 s2' (c & c' & C & -> & ->) S2. constructor; [|exact S2]. symmetry. now apply csim_state.
Qed.
Lemma q_parent_is_s p s s' : sim s s' -> rs eq (q_parent_is m p s) (q_parent_is m' p s').
Proof.
  intros S. unfold q_parent_is. eapply rs_bind; [now apply current_parent_s|]. intros cp cp' s1 s1' P S1.
  constructor; [|exact S1]. symmetry. now apply psim_eq.
Qed.
Lemma set_state_s r p k s s' : sim s s' -> rs eq (set_state m r p k s) (set_state m' r p k s').
Proof.
  intros S. unfold set_state.
  destruct (in_dec sref_eq_dec k (states m)) as [H|H], (in_dec sref_eq_dec k (states m')) as [H'|H'];
    [|exfalso; apply H'; now apply Hsta|exfalso; apply H; now apply Hsta|constructor].
  destruct (in_dec Nat.eq_dec p (parents m)) as [P|P], (in_dec Nat.eq_dec p (parents m')) as [P'|P'];
    [|exfalso; apply P'; now apply Hpar|exfalso; apply P; now apply Hpar|constructor].
  pose proof (Forall2_upd osim (Some (combined_idx m p k)) (Some (combined_idx m' p k)) _ _ (cs_in p k P H) (si_cur _ _ S) (to_region r)) as U.
  destruct (upd_nth _ _ (rt_cur s)), (upd_nth _ _ (rt_cur s')); try tauto; constructor; auto. sims.
Qed.
Lemma status_loop_s limit : forall fuel r s s', sim s s' ->
  rs (Forall2 stsim) (status_loop m fuel limit r s) (status_loop m' fuel limit r s').
Proof.
  induction fuel as [|fuel IH]; intros r s s' S; [constructor|]. cbn [status_loop]. destruct (Nat.ltb r limit); [|constructor; [constructor|exact S]].
  pose proof (Forall2_nth _ _ _ (si_cur _ _ S) r) as Hr.
  unfold read_cur. destruct (nth_error (rt_cur s) r) as [[c|]|] eqn:E, (nth_error (rt_cur s') r) as [[c'|]|] eqn:E'; cbn in Hr; try tauto; try constructor.
  cbn [bind]. pose proof (current_parent_s s s' S) as P. unfold current_parent, read_cur in *.
  destruct (nth_error (rt_cur s) 0) as [[d|]|] eqn:D, (nth_error (rt_cur s') 0) as [[d'|]|] eqn:D'; cbn [bind] in *; inversion P; subst; try constructor.
  unfold current_state, at_cur. rewrite E, E'. cbn [bind].
  eapply rs_bind; [now apply IH|]. intros l l' s2 s2' L S2. constructor; [|exact S2]. constructor; [|exact L].
  match goal with H : psim _ _ |- _ => inversion H as [p0 Hp0 Ep Ep'] end. destruct Hr as [p q Hp Hq].
  exists r, p, q, p0. do 3 (split; [assumption|]). unfold line_of.
  rewrite (calc_state_combined m Hc) by assumption.
  now rewrite (calc_state_combined m' Hc') by (now apply Hpar || now apply Hsta).
Qed.
Lemma status_s fuel s s' : sim s s' -> rs (Forall2 stsim) (status m fuel s) (status m' fuel s').
Proof. intros S. unfold status. rewrite (current_regions_s s s' S). now apply status_loop_s. Qed.
Lemma set_dependency_s d s s' : sim s s' -> rs eq (set_dependency m d s) (set_dependency m' d s').
Proof.
  intros S. unfold set_dependency. destruct (si_tabs _ _ S) as (ds & F & F').
  destruct (proj2 (fill_ok_iff m Hc d _ (filled_shape m Hc _ _ F)) (filled_regs m Hc _ _ F)) as (t & E).
  destruct (proj2 (fill_ok_iff m' Hc' d _ (filled_shape m' Hc' _ _ F')) (filled_regs m' Hc' _ _ F')) as (t' & E').
  rewrite E, E'. constructor; [reflexivity|]. destruct S; constructor; cbn; auto. exists (d :: ds). split; eapply filled_again; eauto.
Qed.

(** ** Construction *)
Lemma init_loop_s l l' : Forall2 csim l l' -> forall fuel r s s', sim s s' -> rs eq (init_loop fuel l r s) (init_loop fuel l' r s').
Proof.
  intros L. induction fuel as [|fuel IH]; intros r s s' S; [constructor|]. cbn [init_loop]. rewrite (Forall2_length _ _ _ L).
  destruct (Nat.ltb r (length l)); [|now constructor]. pose proof (Forall2_nth _ _ _ L r) as H.
  destruct (nth_error l r), (nth_error l' r); try tauto; [|constructor].
  eapply rs_bind; [now apply write_cur_s|]. intros u u' s1 s1' _ S1. now apply IH.
Qed.
Lemma repeat_s n : Forall2 osim (repeat None n) (repeat None n).
Proof. induction n; cbn; constructor; auto. exact I. Qed.
Lemma construct_s fuel d w : rs eq (construct m fuel d w) (construct m' fuel d w).
Proof.
  unfold construct. rewrite unexpected_r.
  destruct (fill_handlers_total m Hc d) as (h & Eh). destruct (fill_handlers_total m' Hc' d) as (h' & Eh'). rewrite Eh, Eh'.
  pose proof (fill_ok_iff m Hc d _ (empty_tables_shape m)) as F. pose proof (fill_ok_iff m' Hc' d _ (empty_tables_shape m')) as F'.
  rewrite <- Hreg in F'.
  destruct (fill_dispatch m d (empty_tables m)) as [t|] eqn:Et, (fill_dispatch m' d (empty_tables m')) as [t'|] eqn:Et'.
  2:{ exfalso. destruct (proj2 F') as [? H]; [apply F; eauto|discriminate]. }
  2:{ exfalso. destruct (proj2 F) as [? H]; [apply F'; eauto|discriminate]. }
  2:{ destruct (cd_unexpected _); constructor. }
  assert (G : forall k k', (cd_unexpected (lookup env root) = true -> exists d, fill_handlers m d = Some k /\ fill_handlers m' d = Some k') ->
    rs eq (bind (init_current_state m fuel (mkRt (repeat None (max_initials m)) (initial_table m) [] 0 (filter (defctor env) (states m)) t k w []))
            (fun _ s => update_current_regions m s))
          (bind (init_current_state m' fuel (mkRt (repeat None (max_initials m')) (initial_table m') [] 0 (filter (defctor env') (states m')) t' k' w []))
            (fun _ s => update_current_regions m' s))).
  { intros k k' Hk.
    assert (S : sim (mkRt (repeat None (max_initials m)) (initial_table m) [] 0 (filter (defctor env) (states m)) t k w [])
                    (mkRt (repeat None (max_initials m')) (initial_table m') [] 0 (filter (defctor env') (states m')) t' k' w [])).
    { constructor; cbn [rt_cur rt_hist rt_queue rt_regions rt_live rt_tabs rt_htabs rt_world rt_trace map]; auto.
      - rewrite max_initials_r. apply repeat_s.
      - apply initial_table_s.
      - intros o. rewrite !filter_In, defctor_r, Hsta. reflexivity.
      - exists [d]. split; now apply filled_new. }
    eapply (rs_bind eq); [|intros; now apply update_regions_s].
    unfold init_current_state. pose proof (psim_nth _ _ _ _ _ (ps_in root (root_parent m Hc)) initial_table_s) as H. rewrite Hroot.
    destruct (nth_at (parent_idx m root) (initial_table m)), (nth_at (parent_idx m' root) (initial_table m')); try tauto; [|constructor].
    now apply init_loop_s. }
  destruct (cd_unexpected (lookup env root)) eqn:Eu; apply G; [eauto|discriminate].
Qed.

(** ** Clients *)
Definition same_out (o o' : out) : Prop :=
  match o, o' with
  | OStatus l, OStatus l' => Forall2 stsim l l'
  | _, _ => o' = o
  end.
Lemma do_call_s fuel k s s' : sim s s' ->
  rs same_out (do_call cb m vnone fuel k s) (do_call cb m' vnone fuel k s').
Proof.
  intros S. destruct k; cbn [do_call] in *.
  - eapply rs_bind; [now apply process_event_s|]. intros a a' s1 s1' <- S1. now constructor.
  - eapply rs_bind; [now apply q_is_s|]. intros a a' s1 s1' <- S1. now constructor.
  - eapply rs_bind; [now apply q_parent_is_s|]. intros a a' s1 s1' <- S1. now constructor.
  - eapply rs_bind; [now apply set_state_s|]. intros a a' s1 s1' <- S1. now constructor.
  - eapply rs_bind; [now apply set_dependency_s|]. intros a a' s1 s1' <- S1. now constructor.
  - eapply rs_bind; [now apply status_s|]. intros a a' s1 s1' H S1. now constructor.
Qed.
Lemma do_call_catch_s fuel k s s' : sim s s' ->
  rs same_out (do_call_catch cb m vnone fuel k s) (do_call_catch cb m' vnone fuel k s').
Proof.
  intros S. unfold do_call_catch. destruct (do_call_s fuel k s s' S); constructor; auto. reflexivity.
Qed.
Lemma run_s fuel : forall ks s s', sim s s' ->
  rs (Forall2 same_out) (run cb m vnone fuel ks s) (run cb m' vnone fuel ks s').
Proof.
  induction ks as [|k ks IH]; intros s s' S; [constructor; [constructor|exact S]|]. cbn [run].
  eapply rs_bind; [apply do_call_catch_s; exact S|]. intros o o' s1 s1' O S1.
  eapply rs_bind; [apply IH; exact S1|]. intros os os' s2 s2' Os S2. constructor; [|exact S2]. now constructor.
Qed.
Lemma session_s fuel d w ks :
  rs (Forall2 same_out) (session cb m vnone fuel d w ks) (session cb m' vnone fuel d w ks).
Proof. unfold session. eapply rs_bind; [apply construct_s|]. intros u u' s s' _ S. now apply run_s. Qed.

(** ** Names *)
Lemma csim_decode c c' : csim c c' -> nth_error (places m') (N.to_nat c') = nth_error (places m) (N.to_nat c).
Proof.
  intros [p q Hp Hq]. rewrite (places_at_combined m Hc) by assumption.
  apply (places_at_combined m' Hc'); [now apply Hpar|now apply Hsta].
Qed.
Lemma sim_matching s s' : sim s s' -> matching_state m m' s s'.
Proof.
  intros S. destruct S; constructor; auto.
  - now apply Forall2_length in si_cur0.
  - intros r. unfold at_place. pose proof (Forall2_nth _ _ _ si_cur0 r) as H.
    destruct (nth_error (rt_cur s) r) as [[c|]|], (nth_error (rt_cur s') r) as [[c'|]|]; cbn in H; try tauto. now apply csim_decode.
  - intros p r Hp. apply (parent_iff m Hc) in Hp. unfold remembered, history_of. specialize (si_hist0 p Hp).
    destruct (nth_error (rt_hist s) (parent_pos m p)) as [l|], (nth_error (rt_hist s') (parent_pos m' p)) as [l'|]; try tauto.
    pose proof (Forall2_nth _ _ _ si_hist0 r) as H.
    destruct (nth_error l r), (nth_error l' r); try tauto. now apply csim_decode.
Qed.
Lemma out_matching o o' : same_out o o' -> matching_output m m' o o'.
Proof.
  destruct o, o'; cbn; auto. induction 1 as [|a b l l' H _ IH]; constructor; [|exact IH].
  destruct H as (r & p & q & p0 & Hp & Hq & Hp0 & E & E'). exists r, p, q, p0. split; [|split; [now apply (parent_iff m Hc)|auto]].
  split; cbn; [now apply (parent_iff m Hc)|now apply (state_iff m Hc)].
Qed.
Lemma session_matching fuel d w ks :
  matching_run m m' (session cb m vnone fuel d w ks) (session cb m' vnone fuel d w ks).
Proof.
  destruct (session_s fuel d w ks) as [os os' s s' O S|x s s' S|u|]; constructor; try (now apply sim_matching).
  induction O as [|o o' l l' H _ IH]; constructor; [|exact IH]. now apply out_matching.
Qed.
End ReorderRun.
