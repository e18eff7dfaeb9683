(** Classes that a program does not mention do not count. *)

From Coq Require Import List Arith NArith Bool Lia.
From Verif Require Import Types Static Dispatch Runtime Spec FlattenFacts.
Import ListNotations.

(** The classes a state is written with. *)
Definition named_in (s : sref) (c : cls) : Prop :=
  match s with
  | SState k | SInitial _ k => c = k
  | SDirect _ p k | SEntry _ p k | SExit _ p k => c = p \/ c = k
  | SHistory _ p => c = p
  end.
(** The root, and what the tables of such classes name. *)
Inductive mentioned (env : cenv) (root : cls) : cls -> Prop :=
| me_root : mentioned env root root
| me_row p r c : mentioned env root p -> In r (table env p) ->
    named_in (r_src r) c \/ named_in (r_tgt r) c -> mentioned env root c.
(** Two programs with the same text of all these classes. *)
Definition same_text (env env' : cenv) (root : cls) : Prop :=
  forall c, mentioned env root c -> lookup env' c = lookup env c.

Lemma same_text_sym env env' root : same_text env env' root -> same_text env' env root.
Proof.
  intros H. assert (M : forall c, mentioned env' root c -> mentioned env root c).
  { intros c Hc. induction Hc as [|p r c Hp IH Hr Hn]; [constructor|].
    eapply me_row; [exact IH| |exact Hn]. unfold table in *. now rewrite (H p IH) in Hr. }
  intros c Hc. symmetry. apply H, M, Hc.
Qed.

(** * Machines that look the same at run time *)
Record same_view (m m' : machine) : Prop := mkSameView {
  sv_states : states m' = states m;
  sv_parents : parents m' = parents m;
  sv_initial : initial_table m' = initial_table m;
  sv_max : max_initials m' = max_initials m;
  sv_history : has_history m' = has_history m;
  sv_anonymous : has_anonymous m' = has_anonymous m;
  sv_deferred : has_deferred m' = has_deferred m;
  sv_events : events m' = events m;
  sv_root : mc_root m' = mc_root m;
  sv_unexpected : cd_unexpected (lookup (mc_env m') (mc_root m')) = cd_unexpected (lookup (mc_env m) (mc_root m));
  sv_live : filter (defctor (mc_env m')) (states m') = filter (defctor (mc_env m)) (states m);
  sv_fill : forall d t, fill_dispatch m' d t = fill_dispatch m d t;
  sv_handlers : forall d, fill_handlers m' d = fill_handlers m d }.

Section View.
Context {V W : Type}.
Variable cb : cbfun V W.
Variables m m' : machine.
Variable vnone : V.
Hypothesis H : same_view m m'.
Notation st := (rt V W).

Lemma bind_ext {A B} (r : res V W A) (k k' : A -> st -> res V W B) :
  (forall a s, k' a s = k a s) -> bind r k' = bind r k.
Proof. intros E. destruct r; cbn; auto. Qed.
Ltac go := apply bind_ext; intros.

Lemma n_states_v : n_states m' = n_states m.
Proof. unfold n_states. now rewrite (sv_states _ _ H). Qed.
Lemma current_parent_v (s : st) : current_parent m' s = current_parent m s.
Proof. unfold current_parent. go. now rewrite n_states_v. Qed.
Lemma current_state_v (s : st) r : current_state m' s r = current_state m s r.
Proof. unfold current_state. go. now rewrite n_states_v. Qed.
Lemma parallel_v : parallel m' = parallel m.
Proof. unfold parallel. now rewrite (sv_max _ _ H). Qed.
Lemma update_regions_v (s : st) : update_current_regions m' s = update_current_regions m s.
Proof.
  unfold update_current_regions. rewrite parallel_v, current_parent_v. destruct (parallel m); [|reflexivity].
  go. now rewrite (sv_initial _ _ H).
Qed.
Lemma regions_v (s : st) : current_regions m' s = current_regions m s.
Proof. unfold current_regions. now rewrite parallel_v. Qed.
Lemma update_state_v r en (s : st) : update_current_state m' r en s = update_current_state m r en s.
Proof.
  unfold update_current_state. destruct (en_int en); [reflexivity|]. rewrite (sv_history _ _ H), current_parent_v.
  transitivity (bind (if has_history m
       then bind (current_parent m s) (fun p s => bind (read_cur s r) (fun c s => bind (write_hist s p r c) (fun _ s =>
         if en_hist en then bind (read_hist s (calc_parent_idx (n_states m) (en_to en)) r) (fun c' s => write_cur s r c')
         else write_cur s r (en_to en))))
       else write_cur s r (en_to en)) (fun _ s => update_current_regions m' s)).
  - f_equal. destruct (has_history m); [|reflexivity]. do 3 go. now rewrite n_states_v.
  - go. apply update_regions_v.
Qed.
Lemma try_entries_v r e ens : forall v (s : st), try_entries cb m' ens r e v s = try_entries cb m ens r e v s.
Proof.
  induction ens as [|en ens IH]; intros v s; [reflexivity|]. cbn [try_entries].
  destruct (en_defer en); [reflexivity|]. destruct (en_tr en); [|reflexivity]. go.
  destruct (fst a); [|apply IH]. now rewrite update_state_v.
Qed.
Lemma try_region_v r e v (s : st) : try_region cb m' r e v s = try_region cb m r e v s.
Proof. unfold try_region. go. destruct a; [reflexivity|]. now rewrite try_entries_v. Qed.
Lemma region_loop_v fuel limit e : forall r agf ati v (s : st),
  region_loop cb m' fuel limit r agf ati e v s = region_loop cb m fuel limit r agf ati e v s.
Proof.
  induction fuel as [|f IH]; intros r agf ati v s; [reflexivity|]. cbn [region_loop].
  destruct (Nat.ltb r limit); [|reflexivity]. rewrite try_region_v. go. destruct (fst a) as [[| |]|]; auto.
Qed.
Lemma try_anonymous_v r ens : forall v (s : st), try_anonymous cb m' ens r v s = try_anonymous cb m ens r v s.
Proof.
  induction ens as [|en ens IH]; intros v s; [reflexivity|]. cbn [try_anonymous].
  destruct (en_tr en); [|reflexivity]. go. destruct (fst a); [|apply IH]. now rewrite update_state_v.
Qed.
Lemma anonymous_region_v r v (s : st) : anonymous_region cb m' r v s = anonymous_region cb m r v s.
Proof. unfold anonymous_region. go. destruct a; [reflexivity|]. now rewrite try_anonymous_v. Qed.
Lemma anonymous_pass_v fuel limit : forall r agf v (s : st),
  anonymous_pass cb m' fuel limit r agf v s = anonymous_pass cb m fuel limit r agf v s.
Proof.
  induction fuel as [|f IH]; intros r agf v s; [reflexivity|]. cbn [anonymous_pass].
  destruct (Nat.ltb r limit); [|reflexivity]. rewrite anonymous_region_v. go. destruct (fst a); auto.
Qed.
Lemma anonymous_loop_v rfuel fuel : forall v (s : st),
  anonymous_loop cb m' rfuel fuel v s = anonymous_loop cb m rfuel fuel v s.
Proof.
  induction fuel as [|f IH]; intros v s; [reflexivity|]. cbn [anonymous_loop].
  rewrite regions_v, anonymous_pass_v. go. destruct (fst a) as [[|]|]; auto.
Qed.
Lemma process_anonymous_v fuel (s : st) : process_anonymous cb m' vnone fuel s = process_anonymous cb m vnone fuel s.
Proof. unfold process_anonymous. now rewrite (sv_anonymous _ _ H), anonymous_loop_v. Qed.
Lemma internal_v fuel e v (s : st) : process_event_internal cb m' vnone fuel e v s = process_event_internal cb m vnone fuel e v s.
Proof.
  unfold process_event_internal. rewrite regions_v, region_loop_v. go. destruct (fst a); try reflexivity.
  now rewrite process_anonymous_v.
Qed.
Lemma deferred_v fuel (s : st) : process_deferred cb m' vnone fuel s = process_deferred cb m vnone fuel s.
Proof.
  unfold process_deferred. rewrite (sv_deferred _ _ H). destruct (has_deferred m); [|reflexivity].
  destruct (rt_queue s) as [|[e v] q]; [reflexivity|]. now rewrite internal_v.
Qed.
Lemma handler_v e v (s : st) : call_handler cb m' e v s = call_handler cb m e v s.
Proof. unfold call_handler. now rewrite (sv_unexpected _ _ H). Qed.
Lemma process_v fuel e v (s : st) : process_event cb m' vnone fuel e v s = process_event cb m vnone fuel e v s.
Proof.
  unfold process_event. rewrite (sv_events _ _ H). destruct (in_dec _ _ _); [|reflexivity].
  rewrite internal_v. go. destruct (fst a); try reflexivity; [now rewrite handler_v|now rewrite deferred_v].
Qed.
Lemma state_idx_v q : state_idx m' q = state_idx m q.
Proof. unfold state_idx. now rewrite (sv_states _ _ H). Qed.
Lemma parent_idx_v p : parent_idx m' p = parent_idx m p.
Proof. unfold parent_idx. now rewrite (sv_parents _ _ H). Qed.
Lemma combined_idx_v p q : combined_idx m' p q = combined_idx m p q.
Proof. unfold combined_idx. now rewrite (sv_parents _ _ H), (sv_states _ _ H). Qed.
Lemma is_v r p q (s : st) : q_is m' r p q s = q_is m r p q s.
Proof.
  unfold q_is. rewrite current_parent_v. go. rewrite parent_idx_v. destruct (N.eqb _ _); [|reflexivity].
  rewrite current_state_v. go. now rewrite state_idx_v.
Qed.
Lemma parent_is_v p (s : st) : q_parent_is m' p s = q_parent_is m p s.
Proof. unfold q_parent_is. rewrite current_parent_v. go. now rewrite parent_idx_v. Qed.
Lemma set_v r p q (s : st) : set_state m' r p q s = set_state m r p q s.
Proof. unfold set_state. now rewrite (sv_states _ _ H), (sv_parents _ _ H), combined_idx_v. Qed.
Lemma status_loop_v fuel limit : forall r (s : st), status_loop m' fuel limit r s = status_loop m fuel limit r s.
Proof.
  induction fuel as [|f IH]; intros r s; [reflexivity|]. cbn [status_loop]. destruct (Nat.ltb r limit); [|reflexivity].
  go. rewrite current_parent_v. go. rewrite current_state_v. go. now rewrite IH.
Qed.
Lemma status_v fuel (s : st) : status m' fuel s = status m fuel s.
Proof. unfold status. now rewrite regions_v, status_loop_v. Qed.
Lemma dependency_v d (s : st) : set_dependency m' d s = set_dependency m d s.
Proof. unfold set_dependency. now rewrite (sv_fill _ _ H). Qed.
Lemma empty_v : empty_tables m' = empty_tables m.
Proof. unfold empty_tables, n_parents. now rewrite (sv_events _ _ H), n_states_v, (sv_parents _ _ H). Qed.
Lemma construct_v fuel d (w : W) : construct (V:=V) m' fuel d w = construct m fuel d w.
Proof.
  unfold construct. rewrite (sv_unexpected _ _ H), (sv_handlers _ _ H).
  destruct (if cd_unexpected (lookup (mc_env m) (mc_root m)) then fill_handlers m d else Some []) as [h|]; [|reflexivity].
  rewrite empty_v, (sv_fill _ _ H). destruct (fill_dispatch m d (empty_tables m)); [|reflexivity].
  rewrite (sv_max _ _ H), (sv_initial _ _ H), (sv_live _ _ H). unfold init_current_state.
  rewrite (sv_initial _ _ H), parent_idx_v, (sv_root _ _ H). go. apply update_regions_v.
Qed.
Lemma do_call_v fuel k (s : st) : do_call cb m' vnone fuel k s = do_call cb m vnone fuel k s.
Proof.
  destruct k; cbn [do_call]; now rewrite ?process_v, ?is_v, ?parent_is_v, ?set_v, ?dependency_v, ?status_v.
Qed.
Lemma run_v fuel ks : forall s : st, run cb m' vnone fuel ks s = run cb m vnone fuel ks s.
Proof.
  induction ks as [|k ks IH]; intros s; [reflexivity|]. cbn [run]. unfold do_call_catch. rewrite do_call_v. go. now rewrite IH.
Qed.
Lemma session_v fuel d w ks : session cb m' vnone fuel d w ks = session cb m vnone fuel d w ks.
Proof. unfold session. rewrite construct_v. go. apply run_v. Qed.
End View.

(** * Compilation of programs with the same text *)
Section Text.
Variables env env' : cenv.
Variable root : cls.
Hypothesis H : same_text env env' root.
Notation men := (mentioned env root).
Definition known (s : sref) : Prop := forall c, named_in s c -> men c.
Record fine (x : xrow) : Prop := mkFine {
  fi_parent : men (x_parent x);
  fi_src : known (x_src x);
  fi_tgt : known (x_tgt x) }.

Lemma table_known p r : men p -> In r (table env p) -> known (r_src r) /\ known (r_tgt r).
Proof. intros Hp Hr. split; intros c Hc; eapply me_row; eauto. Qed.
Lemma has_table_t s : known s -> has_table env' s = has_table env s.
Proof. intros K. unfold has_table, table_of. destruct s; try reflexivity. rewrite H; [reflexivity|]. now apply K. Qed.
Lemma rows_of_t p : men p -> rows_of env' p = rows_of env p.
Proof. intros Hp. unfold rows_of. now rewrite H. Qed.
Lemma rows_of_table p : rows_of env p = table env p.
Proof. reflexivity. Qed.
Lemma child_states_t p : men p -> child_states env' p = child_states env p.
Proof. intros Hp. unfold child_states. now rewrite rows_of_t. Qed.
Lemma child_typeids_t p : men p -> child_typeids env' p = child_typeids env p.
Proof. intros Hp. unfold child_typeids. now rewrite rows_of_t. Qed.
Lemma initials_t p : men p -> initials env' p = initials env p.
Proof. intros Hp. unfold initials. now rewrite child_states_t. Qed.
Lemma in_unique {A} dec (l : list A) a : In a (unique dec l) -> In a l.
Proof.
  unfold unique. generalize (@nil A). induction l as [|b l IH]; intros seen Ha; [exact Ha|]. cbn [unique_acc] in Ha.
  destruct (in_dec dec b seen); [right; eapply IH; eauto|]. destruct Ha as [->|Ha]; [now left|right; eapply IH; eauto].
Qed.
Lemma child_known p s : men p -> In s (child_states env p) -> known s.
Proof.
  intros Hp Hs. apply in_unique, in_flat_map in Hs. destruct Hs as (r & Hr & Hs).
  destruct (table_known p r Hp Hr). destruct Hs as [<-|[<-|[]]]; assumption.
Qed.
Lemma typeids_known p s : men p -> In s (child_typeids env p) -> known s.
Proof.
  intros Hp Hs. apply in_unique, in_flat_map in Hs. destruct Hs as (r & Hr & Hs).
  destruct (table_known p r Hp Hr) as [K K']. destruct Hs as [<-|[<-|[]]]; [|assumption].
  intros c Hc. apply K. destruct (r_src r); exact Hc.
Qed.
Lemma initials_known p s : men p -> In s (initials env p) -> known s.
Proof.
  intros Hp Hs. apply in_map_iff in Hs. destruct Hs as (q & <- & Hq). apply filter_In in Hq. destruct Hq as [Hq _].
  pose proof (child_known p q Hp Hq) as K. intros c Hc. apply K. destruct q; exact Hc.
Qed.

Lemma flatten_t : forall f c, men c -> flatten f env' c = flatten f env c.
Proof.
  induction f as [|f IH]; intros c Hc; [reflexivity|]. rewrite !flatten_S, (H c Hc).
  destruct (cd_table (lookup env c)) as [rows|] eqn:E; [|reflexivity]. f_equal. apply map_ext_in. intros r Hr.
  assert (Hr' : In r (table env c)) by (unfold table; now rewrite E).
  destruct (table_known c r Hc Hr') as [_ K]. unfold contrib.
  assert (K' : known (sub_state_parent (r_tgt r))).
  { intros k Hk. apply K. destruct (r_tgt r); cbn in *; auto. }
  destruct (sub_state_parent (r_tgt r)) eqn:Es; try reflexivity. rewrite has_table_t by exact K'.
  destruct (has_table env (SState c0)); [|reflexivity]. now rewrite IH by now apply K'.
Qed.
Lemma used_mentioned p : used env root p -> men p.
Proof.
  induction 1 as [|p r c Hp IH Hr Hl Hc]; [constructor|]. eapply me_row; [exact IH|exact Hr|]. right.
  destruct Hl; cbn; auto.
Qed.
Lemma flat_fine f fl x : flatten f env root = Some fl -> In x fl -> fine x.
Proof.
  intros E Hx. destruct (flatten_sound _ _ _ _ _ E Hx) as (p & r & Hp & Hr & ->). apply used_mentioned in Hp.
  destruct (table_known p r Hp Hr). now split.
Qed.

Variable fl : list xrow.
Hypothesis Hfl : forall x, In x fl -> fine x.
Notation m := (mkMachine env root fl).
Notation m' := (mkMachine env' root fl).

Lemma parents_known p : In p (parents m) -> men p.
Proof. intros Hp. apply in_unique, in_map_iff in Hp. destruct Hp as (x & <- & Hx). now apply Hfl. Qed.
Lemma states_known s : In s (states m) -> known s.
Proof.
  unfold states. intros Hs. apply in_app_or in Hs. destruct Hs as [Hs|[<-|[]]].
  - apply in_unique, in_flat_map in Hs. destruct Hs as (x & Hx & Hs). destruct (Hfl x Hx) as [_ K K'].
    destruct Hs as [<-|[<-|[]]]; [|assumption]. intros c Hc. apply K. destruct (x_src x); exact Hc.
  - intros c ->. constructor.
Qed.
Lemma pairs_known p s : In (p, s) (state_pairs m) -> men p /\ known s.
Proof.
  intros Hs. apply in_unique in Hs. destruct Hs as [Hs|Hs].
  - inversion Hs; subst. split; [constructor|]. intros c ->. constructor.
  - apply in_flat_map in Hs. destruct Hs as (x & Hx & Hs). destruct (Hfl x Hx) as [P K K'].
    destruct Hs as [Hs|[Hs|[]]]; inversion Hs; subst; split; auto. intros c Hc. apply K. destruct (x_src x); exact Hc.
Qed.
Lemma internal_pair_t pr : In pr (state_pairs m) -> internal_of_pair env' pr = internal_of_pair env pr.
Proof.
  destruct pr as [p s]. intros Hp. destruct (pairs_known p s Hp) as [_ K]. unfold internal_of_pair. destruct s; try reflexivity.
  assert (Hc : men c) by now apply K. rewrite (H c Hc). destruct (cd_internal (lookup env c)); [|reflexivity].
  rewrite has_table_t by exact K. now rewrite child_states_t.
Qed.
Lemma flat_map_ext_in {A B} (f g : A -> list B) l : (forall a, In a l -> f a = g a) -> flat_map f l = flat_map g l.
Proof. induction l as [|a l IH]; intros E; [reflexivity|]. cbn. rewrite E by now left. f_equal. apply IH. intros b Hb. apply E. now right. Qed.
Lemma in_unique_by {A K} dec (key : A -> K) l a : In a (unique_by dec key l) -> In a l.
Proof.
  unfold unique_by. generalize (@nil K). induction l as [|b l IH]; intros seen Ha; [exact Ha|]. cbn [unique_by_acc] in Ha.
  destruct (in_dec dec (key b) seen); [right; eapply IH; eauto|]. destruct Ha as [->|Ha]; [now left|right; eapply IH; eauto].
Qed.
Lemma internal_flat_t : internal_flat m' = internal_flat m.
Proof. unfold internal_flat. f_equal. apply flat_map_ext_in. intros pr Hp. now apply internal_pair_t. Qed.
Lemma internal_fine x : In x (internal_flat m) -> fine x.
Proof.
  intros Hx. apply in_unique_by, in_flat_map in Hx. destruct Hx as ([p s] & Hp & Hx). destruct (pairs_known p s Hp) as [P K].
  unfold internal_of_pair in Hx. destruct s; try contradiction. cbn [mc_env] in Hx. destruct (cd_internal (lookup env c)); [|contradiction].
  apply in_flat_map in Hx. destruct Hx as (i & _ & Hx). destruct (has_table env (SState c)).
  - apply in_map_iff in Hx. destruct Hx as (ch & <- & Hch). assert (Hc : men c) by now apply K.
    pose proof (child_known c ch Hc Hch). now split.
  - destruct Hx as [<-|[]]. now split.
Qed.
Lemma events_t : events m' = events m.
Proof. unfold events. now rewrite internal_flat_t. Qed.
Lemma max_t : max_initials m' = max_initials m.
Proof.
  unfold max_initials. f_equal. apply map_ext_in. intros p Hp. cbn [mc_env]. rewrite initials_t; [reflexivity|].
  now apply parents_known.
Qed.
Lemma initial_table_t : initial_table m' = initial_table m.
Proof.
  unfold initial_table. apply map_ext_in. intros p Hp. cbn [mc_env]. rewrite initials_t; [reflexivity|].
  now apply parents_known.
Qed.

(** ** Rows *)
Lemma resolve_dst_t x : fine x -> resolve_dst env' x = resolve_dst env x.
Proof.
  intros [_ _ K]. unfold resolve_dst. destruct (x_tgt x) eqn:E; try reflexivity.
  - rewrite has_table_t by exact K. rewrite initials_t; [reflexivity|now apply K].
  - rewrite initials_t; [reflexivity|now apply K].
Qed.
Lemma dst_known x d : fine x -> resolve_dst env x = Some d -> known d.
Proof.
  intros [_ _ K] E. unfold resolve_dst in E.
  assert (A : forall p, men p -> hd_error (initials env p) = Some d -> known d).
  { intros p Hp Ei. apply (initials_known p); [exact Hp|]. destruct (initials env p); inversion Ei. now left. }
  destruct (x_tgt x) eqn:Et; cbn in K.
  - destruct (has_table env (SState c)); [apply (A c); [now apply K|exact E]|]. now inversion E.
  - inversion E. intros k Hk. now apply K.
  - inversion E. intros k Hk. cbn in Hk. subst. apply K. now right.
  - inversion E. intros k Hk. cbn in Hk. subst. apply K. now right.
  - inversion E. exact K.
  - apply (A p); [now apply K|exact E].
Qed.
Lemma dst_parent_t x : fine x -> resolve_dst_parent env' x = resolve_dst_parent env x.
Proof.
  intros [_ _ K]. unfold resolve_dst_parent. destruct (x_tgt x) eqn:E; try reflexivity. now rewrite has_table_t by exact K.
Qed.
Lemma defctor_t s : known s -> defctor env' s = defctor env s.
Proof. intros K. unfold defctor. destruct s; try reflexivity. rewrite H; [reflexivity|now apply K]. Qed.
Lemma entry_of_t s : known s -> entry_of env' s = entry_of env s.
Proof. intros K. unfold entry_of. destruct s; try reflexivity. rewrite H; [reflexivity|now apply K]. Qed.
Lemma exit_of_t s : known s -> exit_of env' s = exit_of env s.
Proof. intros K. unfold exit_of. destruct s; try reflexivity. rewrite H; [reflexivity|now apply K]. Qed.
Lemma defer_of_t s : known s -> defer_of env' s = defer_of env s.
Proof. intros K. unfold defer_of. destruct s; try reflexivity. rewrite H; [reflexivity|now apply K]. Qed.
Lemma has_internal_t s : known s -> has_internal env' s = has_internal env s.
Proof. intros K. unfold has_internal, internal_of. destruct s; try reflexivity. rewrite H; [reflexivity|now apply K]. Qed.
Lemma initial_entry_t s : known s -> initial_entry_of env' s = initial_entry_of env s.
Proof.
  intros K. unfold initial_entry_of. destruct s; try reflexivity. rewrite has_table_t by exact K.
  assert (Hc : men c) by now apply K. rewrite initials_t by exact Hc. destruct (has_table env (SState c)); [|reflexivity].
  destruct (initials env c) as [|i l] eqn:E; [reflexivity|]. cbn. apply entry_of_t, (initials_known c); [exact Hc|]. rewrite E. now left.
Qed.
Lemma pseudo_exit_t x : fine x -> pseudo_exit_of env' x = pseudo_exit_of env x.
Proof.
  intros [_ K _]. unfold pseudo_exit_of. destruct (x_src x) eqn:E; try reflexivity. apply exit_of_t.
  intros k Hk. cbn in Hk. subst. apply K. now left.
Qed.
Lemma resolve_action_t x : fine x -> resolve_action env' x = resolve_action env x.
Proof.
  intros F. pose proof (pseudo_exit_t x F) as P. destruct F as [_ K K'].
  unfold resolve_action, has_action, resolve_exit_action, resolve_entry_action, resolve_initial_entry_action.
  now rewrite P, (entry_of_t _ K'), (initial_entry_t _ K'), (exit_of_t _ K).
Qed.
Lemma row_accepted_t x : fine x -> row_accepted m' x = row_accepted m x.
Proof.
  intros F. unfold row_accepted. cbn [mc_env]. rewrite resolve_dst_t by exact F. destruct (resolve_dst env x) as [d|] eqn:E; [|reflexivity].
  rewrite defctor_t by (eapply dst_known; eauto). destruct F as [_ _ K].
  destruct (x_tgt x) eqn:Et; try reflexivity. rewrite has_table_t; [reflexivity|]. intros k Hk. now apply K.
Qed.
Lemma src_known x : In x fl -> known (unwrap_initial (x_src x)).
Proof. intros Hx c Hc. apply (Hfl x Hx). destruct (x_src x); exact Hc. Qed.
Lemma deferring_t : deferring m' = deferring m.
Proof. unfold deferring. cbn [mc_flat mc_env]. apply filter_ext_in. intros x Hx. rewrite defer_of_t; [reflexivity|now apply src_known]. Qed.
Lemma deferred_events_t x : In x fl -> deferred_events m' x = deferred_events m x.
Proof. intros Hx. unfold deferred_events. cbn [mc_env]. rewrite defer_of_t; [reflexivity|now apply src_known]. Qed.
Lemma forallb_ext_in {A} (f g : A -> bool) l : (forall a, In a l -> f a = g a) -> forallb f l = forallb g l.
Proof. induction l as [|a l IH]; intros E; [reflexivity|]. cbn. rewrite E by now left. f_equal. apply IH. intros b Hb. apply E. now right. Qed.
Lemma accepted_t : accepted m' = accepted m.
Proof.
  assert (R : men root) by constructor. unfold accepted. cbn [mc_env mc_root mc_flat].
  rewrite (H root R), max_t, (initials_t root R), internal_flat_t, events_t, deferring_t.
  rewrite (forallb_ext_in (fun s => negb (has_table env' s)) (fun s => negb (has_table env s)))
    by (intros s Hs; rewrite has_table_t; [reflexivity|now apply (initials_known root)]).
  rewrite (forallb_ext_in (fun s => negb (has_internal env' s)) (fun s => negb (has_internal env s)))
    by (intros s Hs; rewrite has_internal_t; [reflexivity|now apply (initials_known root)]).
  rewrite (forallb_ext_in (row_accepted m') (row_accepted m)).
  2:{ intros x Hx. apply row_accepted_t. apply in_app_or in Hx. destruct Hx; [now apply Hfl|now apply internal_fine]. }
  rewrite (forallb_ext_in _ (fun x => forallb (fun e => if in_dec ev_eq_dec e (events m) then true else false) (deferred_events m x)) (deferring m)); [reflexivity|].
  intros x Hx. apply filter_In in Hx. now rewrite deferred_events_t by apply Hx.
Qed.

(** ** Tables *)
Lemma foldM_ext {A S} (f g : A -> S -> option S) l : (forall a s, In a l -> f a s = g a s) -> forall s, foldM f l s = foldM g l s.
Proof.
  intros E. induction l as [|a l IH]; intros s; [reflexivity|]. cbn. rewrite E by now left. destruct (g a s); [|reflexivity].
  apply IH. intros b s' Hb. apply E. now right.
Qed.
Lemma entry_t d x src dst : fine x -> known dst -> entry_of_row m' d x src dst = entry_of_row m d x src dst.
Proof.
  intros F K. unfold entry_of_row. cbn [mc_env]. rewrite dst_parent_t, resolve_action_t, defctor_t by assumption. reflexivity.
Qed.
Lemma add_row_t d x t : fine x -> add_row m' d x t = add_row m d x t.
Proof.
  intros F. unfold add_row, add_entry, add_exits. cbn [mc_env]. rewrite resolve_dst_t by exact F.
  destruct (resolve_dst env x) as [dst|] eqn:E; [|reflexivity]. pose proof (dst_known x dst F E) as K.
  rewrite entry_t by assumption.
  change (combined_idx m') with (combined_idx m).
  destruct (push_front_at t (x_ev x) (combined_idx m (resolve_src_parent x) (resolve_src x)) (entry_of_row m d x (resolve_src x) dst));
    [|reflexivity]. destruct (x_int x); [reflexivity|]. destruct (x_src x) eqn:Es; try reflexivity.
  assert (Kc : known (SState c)) by (rewrite <- Es; apply F). rewrite has_table_t by exact Kc.
  rewrite child_typeids_t by now apply Kc. destruct (has_table env (SState c)); [|reflexivity].
  apply foldM_ext. intros ch s _. now rewrite entry_t.
Qed.
Lemma fill_t d l t : (forall x, In x l -> fine x) -> fill_transitions m' d l t = fill_transitions m d l t.
Proof.
  intros F. unfold fill_transitions. apply foldM_ext. intros e s _. apply foldM_ext. intros x s' Hx. apply add_row_t, F.
  unfold filter_ev in Hx. apply filter_In in Hx. apply Hx.
Qed.
Lemma fill_deferred_t t : fill_deferred m' t = fill_deferred m t.
Proof.
  unfold fill_deferred. rewrite deferring_t. apply foldM_ext. intros x s Hx. apply filter_In in Hx.
  rewrite deferred_events_t by apply Hx. reflexivity.
Qed.
Lemma view_t : same_view m m'.
Proof.
  assert (R : men root) by constructor.
  constructor; try reflexivity.
  - apply initial_table_t.
  - apply max_t.
  - unfold has_deferred. now rewrite deferring_t.
  - apply events_t.
  - cbn [mc_env mc_root]. now rewrite (H root R).
  - change (states m') with (states m). apply filter_ext_in. intros s Hs. apply defctor_t. now apply states_known.
  - intros d t. unfold fill_dispatch. rewrite internal_flat_t, fill_t by apply internal_fine.
    destruct (fill_transitions m d (internal_flat m) t); [|reflexivity].
    rewrite (fill_t d fl) by exact Hfl. cbn [mc_flat]. destruct (fill_transitions m d fl t0); [|reflexivity]. apply fill_deferred_t.
  - intros d. unfold fill_handlers. now rewrite events_t.
Qed.
End Text.

Lemma context_compile env env' root m : same_text env env' root -> compile env root = Some m ->
  exists m', compile env' root = Some m' /\ same_view m m'.
Proof.
  intros H Hm. pose proof Hm as Hm0. unfold compile in Hm. destruct (flatten (S (length env)) env root) as [fl|] eqn:E; [|discriminate].
  destruct (accepted _) eqn:A; [|discriminate]. inversion Hm; subst m. clear Hm.
  assert (F : forall x, In x fl -> fine env root x) by (intros x; eapply flat_fine; eauto).
  assert (R : mentioned env root root) by constructor.
  assert (E' : flatten (S (length env)) env' root = Some fl) by (now rewrite (flatten_t env env' root H)).
  exists (mkMachine env' root fl). split; [|now apply view_t].
  unfold compile. destruct (flatten_acyclic env' root) as [fl' E2].
  - unfold composite. rewrite (H root R). rewrite flatten_S in E. destruct (cd_table (lookup env root)); congruence.
  - intros Hr. rewrite (flatten_recursive _ _ Hr) in E'. discriminate.
  - rewrite E2. rewrite (flatten_det _ _ _ _ _ _ E2 E'). rewrite (accepted_t env env' root H fl F), A. reflexivity.
Qed.

Theorem context_free env env' root : same_text env env' root ->
  ((exists m, compile env root = Some m) <-> (exists m', compile env' root = Some m')) /\
  forall m m', compile env root = Some m -> compile env' root = Some m' ->
  forall V W (cb : cbfun V W) vnone fuel d w ks, session cb m' vnone fuel d w ks = session cb m vnone fuel d w ks.
Proof.
  intros H. split.
  - split; intros (m & Hm).
    + destruct (context_compile env env' root m H Hm) as (m' & Hm' & _). eauto.
    + destruct (context_compile env' env root m (same_text_sym _ _ _ H) Hm) as (m' & Hm' & _). eauto.
  - intros m m' Hm Hm'. destruct (context_compile env env' root m H Hm) as (m2 & Hm2 & Hv).
    assert (m2 = m') by congruence. subst m2. intros. now apply session_v.
Qed.

(** A class that is not mentioned can be added, changed or left out; so can any number of
    them; and the order in which the classes are written does not matter. *)
Lemma lookup_skip env1 env2 c d k : k <> c -> lookup (env1 ++ (c, d) :: env2) k = lookup (env1 ++ env2) k.
Proof.
  intros N. induction env1 as [|[c1 d1] env1 IH]; cbn [app lookup].
  - destruct (Nat.eq_dec k c); [contradiction|reflexivity].
  - now rewrite IH.
Qed.
Lemma unmentioned_text env1 env2 root c d : ~ mentioned (env1 ++ env2) root c ->
  same_text (env1 ++ env2) (env1 ++ (c, d) :: env2) root.
Proof. intros N k Hk. apply lookup_skip. intros ->. contradiction. Qed.

From Coq Require Import Permutation.
Lemma lookup_in env c d : NoDup (map fst env) -> In (c, d) env -> lookup env c = d.
Proof.
  induction env as [|[k d'] env IH]; cbn [map fst]; intros N Hin; [destruct Hin|]. inversion N; subst. cbn [lookup].
  destruct Hin as [E|Hin]; [inversion E; subst; destruct (Nat.eq_dec c c); congruence|].
  destruct (Nat.eq_dec c k) as [->|]; [|now apply IH]. exfalso. apply H1. apply in_map_iff. exists (k, d). auto.
Qed.
Lemma lookup_out env c : ~ In c (map fst env) -> lookup env c = lookup [] c.
Proof.
  induction env as [|[k d'] env IH]; cbn [map fst]; intros N; [reflexivity|]. cbn [lookup].
  destruct (Nat.eq_dec c k) as [->|]; [exfalso; apply N; now left|]. apply IH. intros Hin. apply N. now right.
Qed.
Lemma lookup_perm env env' : NoDup (map fst env) -> Permutation env env' -> forall c, lookup env' c = lookup env c.
Proof.
  intros N P c. assert (P' : Permutation (map fst env) (map fst env')) by now apply Permutation_map.
  destruct (in_dec Nat.eq_dec c (map fst env)) as [Hin|Hout].
  - apply in_map_iff in Hin. destruct Hin as ([k d] & <- & Hin). cbn. rewrite (lookup_in env k d N Hin).
    apply lookup_in; [eapply Permutation_NoDup; eauto|eapply Permutation_in; eauto].
  - rewrite (lookup_out env c Hout). apply lookup_out. intros Hin. apply Hout. eapply Permutation_in; [symmetry|]; eauto.
Qed.
Lemma order_text env env' root : NoDup (map fst env) -> Permutation env env' -> same_text env env' root.
Proof. intros N P c _. now apply lookup_perm. Qed.
