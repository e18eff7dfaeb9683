(** Names.  Giving the classes, events and functor types of a program other names,
    different names for different things, turns it into a program whose machine does
    the same, call for call: nothing depends on what types are called. *)

From Coq Require Import List Arith NArith Bool Lia.
From Verif Require Import Types Static Dispatch Runtime Respell.
Import ListNotations.

(** New names for classes, events, guard types, guard values, action types, callables,
    and tuples of dependencies. *)
Record names := mkNames {
  n_cls : cls -> cls;
  n_event : nat -> nat;
  n_gty : nat -> nat;
  n_gval : nat -> nat;
  n_aty : nat -> nat;
  n_fun : nat -> nat;
  n_dep : dep -> dep }.

(** Types stay apart.  Functor values and dependencies need not. *)
Record distinct (n : names) : Prop := mkDistinct {
  ds_cls : forall a b, n_cls n a = n_cls n b -> a = b;
  ds_event : forall a b, n_event n a = n_event n b -> a = b;
  ds_gty : forall a b, n_gty n a = n_gty n b -> a = b;
  ds_aty : forall a b, n_aty n a = n_aty n b -> a = b }.

Section Names.
Variable n : names.
Notation fc := (n_cls n).

(** * The program under new names *)
Definition re_sref (s : sref) : sref :=
  match s with
  | SState c => SState (fc c)
  | SInitial w c => SInitial w (fc c)
  | SDirect w p q => SDirect w (fc p) (fc q)
  | SEntry w p q => SEntry w (fc p) (fc q)
  | SExit w p q => SExit w (fc p) (fc q)
  | SHistory w p => SHistory w (fc p)
  end.
Definition re_ev (e : ev) : ev := match e with ENone => ENone | EUser k => EUser (n_event n k) end.
Definition re_guard (g : guard) : guard :=
  match g with NoGuard => NoGuard | Guard ty val => Guard (n_gty n ty) (n_gval n val) end.
Fixpoint re_body (b : abody) : abody :=
  match b with
  | ACall k => ACall (n_fun n k)
  | ACreate k => ACreate (n_fun n k)
  | AReuse k => AReuse (n_fun n k)
  | AChain l => AChain (map re_body l)
  end.
Definition re_action (a : action) : action :=
  match a with NoAction => NoAction | Action ty b => Action (n_aty n ty) (re_body b) end.
Definition re_row (r : row) : row :=
  mkRow (re_sref (r_src r)) (re_ev (r_ev r)) (re_guard (r_guard r)) (re_action (r_act r)) (re_sref (r_tgt r)).
Definition re_irow (r : irow) : irow := mkIrow (re_ev (i_ev r)) (re_guard (i_guard r)) (re_action (i_act r)).
Definition re_def (d : cdef) : cdef :=
  mkCdef (option_map (map re_row) (cd_table d)) (option_map (map re_irow) (cd_internal d)) (cd_entry d) (cd_exit d)
         (cd_unexpected d) (option_map (map re_ev) (cd_defer d)) (cd_defctor d).
Definition renamed (env : cenv) : cenv := map (fun cd => (fc (fst cd), re_def (snd cd))) env.

(** * What user code and clients see *)
Definition re_callee (c : callee) : callee :=
  match c with
  | CGuard ty val => CGuard (n_gty n ty) (n_gval n val)
  | CAction k => CAction (n_fun n k)
  | CFactory k => CFactory (n_fun n k)
  | CReuse k => CReuse (n_fun n k)
  | CEntry c => CEntry (fc c)
  | CExit c => CExit (fc c)
  | CHandler => CHandler
  end.
Definition re_targ (t : targ) : targ :=
  match t with TObj s => TObj (re_sref s) | TPtr s => TPtr (re_sref s) | TNone => TNone end.
Definition re_args (a : args) : args :=
  mkArgs (re_ev (a_ev a)) (re_sref (a_src a)) (re_targ (a_tgt a)) (n_dep n (a_dep a)).
Definition re_called {V} (k : called V) : called V :=
  mkCall (re_callee (k_callee k)) (re_args (k_args k)) (k_payload k).
Definition re_call {V} (k : call V) : call V :=
  match k with
  | KProcess e v => KProcess (re_ev e) v
  | KIs r p q => KIs r (fc p) (re_sref q)
  | KParentIs p => KParentIs (fc p)
  | KSet r p q => KSet r (fc p) (re_sref q)
  | KSetDep d => KSetDep (n_dep n d)
  | KStatus => KStatus
  end.
(** The same user code under new names. *)
Definition user_alike {V W} (cb cb' : cbfun V W) : Prop :=
  forall c a v w, cb' (re_callee c) (re_args a) v w = cb c a v w.
End Names.

(** * Tables and states *)
Section Tables.
Variable n : names.
Definition re_xrow (x : xrow) : xrow :=
  mkXrow (n_cls n (x_parent x)) (re_sref n (x_src x)) (re_ev n (x_ev x)) (re_guard n (x_guard x)) (re_action n (x_act x))
         (re_sref n (x_tgt x)) (x_int x).
Definition re_machine (m : machine) : machine :=
  mkMachine (renamed n (mc_env m)) (n_cls n (mc_root m)) (map re_xrow (mc_flat m)).
Definition re_place (pl : place) : place := (n_cls n (fst pl), re_sref n (snd pl)).
Definition re_step (s : step) : step :=
  match s with
  | StExit c => StExit (n_cls n c)
  | StAct b => StAct (re_body n b)
  | StEntry c => StEntry (n_cls n c)
  | StInit c => StInit (n_cls n c)
  end.
Definition re_trans (t : trans) : trans :=
  mkTrans (re_guard n (t_guard t)) (option_map (map re_step) (t_act t)) (re_sref n (t_src t)) (re_sref n (t_tgt t))
          (n_dep n (t_dep t)) (t_int t) (t_ptr t).
Definition re_entry (e : entry) : entry :=
  mkEntry (en_to e) (en_hist e) (en_defer e) (en_int e) (option_map re_trans (en_tr e)).
Definition re_tabs (t : tables) : tables := map (fun p => (re_ev n (fst p), map (map re_entry) (snd p))) t.
Definition re_hand (h : option (sref * dep)) : option (sref * dep) :=
  option_map (fun p => (re_sref n (fst p), n_dep n (snd p))) h.
Definition re_htabs (t : handler_tables) : handler_tables :=
  map (fun p => (re_ev n (fst p), map re_hand (snd p))) t.
Definition re_state {V W} (s : rt V W) : rt V W :=
  mkRt (rt_cur s) (rt_hist s) (map (fun ev => (re_ev n (fst ev), snd ev)) (rt_queue s)) (rt_regions s)
       (map (re_sref n) (rt_live s)) (re_tabs (rt_tabs s)) (re_htabs (rt_htabs s)) (rt_world s)
       (map (re_called n) (rt_trace s)).
Definition re_res {V W A B} (g : A -> B) (r : res V W A) : res V W B :=
  match r with
  | Done a s => Done (g a) (re_state s)
  | Threw x s => Threw x (re_state s)
  | Undef u => Undef u
  | Timeout => Timeout
  end.
End Tables.

Section Rename.
Variable n : names.
Hypothesis Hn : distinct n.
Notation fc := (n_cls n).
Notation f := (re_sref n).
Notation fe := (re_ev n).
Notation fx := (re_xrow n).

Lemma fc_inj a b : fc a = fc b -> a = b.
Proof. apply (ds_cls n Hn). Qed.
Lemma f_inj a b : f a = f b -> a = b.
Proof. destruct a, b; cbn; intros E; inversion E; f_equal; now apply fc_inj. Qed.
Lemma fe_inj a b : fe a = fe b -> a = b.
Proof. destruct a, b; cbn; intros E; inversion E; f_equal; try reflexivity. now apply (ds_event n Hn). Qed.
Lemma fp_inj a b : re_place n a = re_place n b -> a = b.
Proof. destruct a, b. unfold re_place. cbn. intros E. injection E as E1 E2. apply fc_inj in E1. apply f_inj in E2. now subst. Qed.

(** ** Deciding *)
Lemma dec_inj {A B} (dec : forall a b : A, {a = b} + {a <> b}) (g : A -> A) : (forall a b, g a = g b -> a = b) ->
  forall a b (x y : B), (if dec (g a) (g b) then x else y) = if dec a b then x else y.
Proof. intros H a b x y. destruct (dec (g a) (g b)) as [E|E], (dec a b) as [E'|E']; subst; try congruence. now apply H in E. Qed.
Lemma in_inj {A B} (dec : forall a b : A, {a = b} + {a <> b}) (g : A -> A) : (forall a b, g a = g b -> a = b) ->
  forall a l (x y : B), (if in_dec dec (g a) (map g l) then x else y) = if in_dec dec a l then x else y.
Proof.
  intros H a l x y. destruct (in_dec dec (g a) (map g l)) as [E|E], (in_dec dec a l) as [E'|E']; try reflexivity; exfalso.
  - apply in_map_iff in E. destruct E as (b & E & Hb). apply H in E. now subst.
  - apply E. now apply in_map.
Qed.
Lemma unique_re {A} (dec : forall a b : A, {a = b} + {a <> b}) (g : A -> A) : (forall a b, g a = g b -> a = b) ->
  forall l, unique dec (map g l) = map g (unique dec l).
Proof. intros H l. apply (unique_inj dec g H l []). Qed.

(** ** Traits *)
Lemma initial_re s : is_initial (f s) = is_initial s.
Proof. now destruct s. Qed.
Lemma history_re s : is_history (f s) = is_history s.
Proof. now destruct s. Qed.
Lemma unwrap_re s : unwrap_initial (f s) = f (unwrap_initial s).
Proof. now destruct s. Qed.
Lemma sub_re s : sub_state_parent (f s) = f (sub_state_parent s).
Proof. now destruct s. Qed.
Lemma lookup_re env c : lookup (renamed n env) (fc c) = re_def n (lookup env c).
Proof.
  induction env as [|[c' d] env IH]; [reflexivity|]. cbn. destruct (Nat.eq_dec (fc c) (fc c')) as [E|E], (Nat.eq_dec c c') as [E'|E']; subst; auto; try congruence.
  now apply fc_inj in E.
Qed.
Lemma has_table_re env s : has_table (renamed n env) (f s) = has_table env s.
Proof. unfold has_table, table_of. destruct s; try reflexivity. cbn [re_sref]. rewrite lookup_re. cbn. now destruct (cd_table _). Qed.
Lemma has_internal_re env s : has_internal (renamed n env) (f s) = has_internal env s.
Proof. unfold has_internal, internal_of. destruct s; try reflexivity. cbn [re_sref]. rewrite lookup_re. cbn. now destruct (cd_internal _). Qed.
Lemma entry_of_re env s : entry_of (renamed n env) (f s) = option_map fc (entry_of env s).
Proof. unfold entry_of. destruct s; try reflexivity. cbn [re_sref]. rewrite lookup_re. cbn. now destruct (cd_entry _). Qed.
Lemma exit_of_re env s : exit_of (renamed n env) (f s) = option_map fc (exit_of env s).
Proof. unfold exit_of. destruct s; try reflexivity. cbn [re_sref]. rewrite lookup_re. cbn. now destruct (cd_exit _). Qed.
Lemma defer_of_re env s : defer_of (renamed n env) (f s) = option_map (map fe) (defer_of env s).
Proof. unfold defer_of. destruct s; try reflexivity. cbn [re_sref]. now rewrite lookup_re. Qed.
Lemma defctor_re env s : defctor (renamed n env) (f s) = defctor env s.
Proof. unfold defctor. destruct s; try reflexivity. cbn [re_sref]. now rewrite lookup_re. Qed.

(** ** Flattening *)
Lemma concat_opt_re (l : list (option (list xrow))) :
  concat_opt (map (option_map (map fx)) l) = option_map (map fx) (concat_opt l).
Proof.
  induction l as [|[a|] l IH]; cbn; [reflexivity| |reflexivity]. rewrite IH.
  destruct (concat_opt l); cbn; [now rewrite map_app|reflexivity].
Qed.
Lemma flatten_re env : forall fuel c, flatten fuel (renamed n env) (fc c) = option_map (map fx) (flatten fuel env c).
Proof.
  induction fuel as [|fuel IH]; intros c; [reflexivity|]. cbn [flatten]. rewrite lookup_re. cbn [re_def cd_table].
  destruct (cd_table (lookup env c)) as [rows|]; [|reflexivity]. cbn [option_map].
  rewrite <- concat_opt_re. f_equal. rewrite !map_map. apply map_ext. intros r. cbn [re_row r_tgt].
  rewrite sub_re. destruct (sub_state_parent (r_tgt r)) as [p| | | | |] eqn:E; try reflexivity. cbn [re_sref].
  change (SState (fc p)) with (f (SState p)). rewrite has_table_re. destruct (has_table env (SState p)); [|reflexivity].
  rewrite IH. now destruct (flatten fuel env p).
Qed.
Lemma rows_of_re env c : rows_of (renamed n env) (fc c) = map (re_row n) (rows_of env c).
Proof. unfold rows_of. rewrite lookup_re. cbn. now destruct (cd_table _). Qed.
Lemma child_states_re env c : child_states (renamed n env) (fc c) = map f (child_states env c).
Proof. unfold child_states. rewrite rows_of_re, <- (unique_re sref_eq_dec f f_inj), flat_map_map, map_flat_map. reflexivity. Qed.
Lemma child_typeids_re env c : child_typeids (renamed n env) (fc c) = map f (child_typeids env c).
Proof.
  unfold child_typeids. rewrite rows_of_re, <- (unique_re sref_eq_dec f f_inj), flat_map_map, map_flat_map. f_equal.
  apply flat_map_ext. intros r. cbn. now rewrite unwrap_re.
Qed.
Lemma initials_re env c : initials (renamed n env) (fc c) = map f (initials env c).
Proof.
  unfold initials. rewrite child_states_re, filter_map, !map_map.
  rewrite (filter_ext _ is_initial initial_re). apply map_ext. intros s. now rewrite unwrap_re.
Qed.
Lemma events_of_re l : events_of (map fx l) = map fe (events_of l).
Proof. unfold events_of. rewrite <- (unique_re ev_eq_dec fe fe_inj), !map_map. reflexivity. Qed.
Lemma filter_ev_re e l : filter_ev (fe e) (map fx l) = map fx (filter_ev e l).
Proof. unfold filter_ev. rewrite filter_map. f_equal. apply filter_ext. intros x. cbn [re_xrow x_ev]. apply (dec_inj ev_eq_dec fe fe_inj). Qed.
Lemma get_table_re t e : get_table (re_tabs n t) (fe e) = option_map (map (map (re_entry n))) (get_table t e).
Proof. induction t as [|[e' a] t IH]; cbn; [reflexivity|]. rewrite (dec_inj ev_eq_dec fe fe_inj). destruct (ev_eq_dec e e'); [reflexivity|apply IH]. Qed.
Lemma get_htable_re t e : get_table (re_htabs n t) (fe e) = option_map (map (re_hand n)) (get_table t e).
Proof. induction t as [|[e' a] t IH]; cbn; [reflexivity|]. rewrite (dec_inj ev_eq_dec fe fe_inj). destruct (ev_eq_dec e e'); [reflexivity|apply IH]. Qed.
Lemma push_front_re t e i en : push_front_at (re_tabs n t) (fe e) i (re_entry n en) = option_map (re_tabs n) (push_front_at t e i en).
Proof.
  induction t as [|[e' a] t IH]; [reflexivity|]. cbn [re_tabs map push_front_at fst snd]. rewrite (dec_inj ev_eq_dec fe fe_inj). destruct (ev_eq_dec e e').
  - rewrite (upd_at_map (map (re_entry n)) (cons en)) by reflexivity. now destruct (upd_at i (cons en) a).
  - unfold re_tabs in IH. rewrite IH. now destruct (push_front_at t e i en).
Qed.

(** ** The machine *)
Variable m : machine.
Notation m' := (re_machine n m).
Notation env := (mc_env m).
Notation env' := (renamed n (mc_env m)).
Lemma parents_re : parents m' = map fc (parents m).
Proof. unfold parents. cbn [mc_flat re_machine]. rewrite <- (unique_re Nat.eq_dec fc fc_inj), !map_map. reflexivity. Qed.
Lemma n_parents_re : n_parents m' = n_parents m.
Proof. unfold n_parents. now rewrite parents_re, map_length. Qed.
Lemma has_anonymous_re : has_anonymous m' = has_anonymous m.
Proof.
  unfold has_anonymous. cbn [re_machine mc_flat]. rewrite existsb_map. apply existsb_ext'. intros x. unfold is_anonymous. cbn [re_xrow x_ev].
  apply (dec_inj ev_eq_dec fe fe_inj (x_ev x) ENone).
Qed.
Lemma has_history_re : has_history m' = has_history m.
Proof. unfold has_history. cbn [re_machine mc_flat]. rewrite existsb_map. apply existsb_ext'. intros x. apply history_re. Qed.
Lemma parent_idx_re p : parent_idx m' (fc p) = parent_idx m p.
Proof. unfold parent_idx. rewrite parents_re. apply (index_inj Nat.eq_dec fc fc_inj). Qed.
Lemma resolve_src_re x : resolve_src (fx x) = f (resolve_src x).
Proof. unfold resolve_src. cbn [re_xrow x_src]. now destruct (x_src x). Qed.
Lemma resolve_src_parent_re x : resolve_src_parent (fx x) = fc (resolve_src_parent x).
Proof. unfold resolve_src_parent. cbn [re_xrow x_src x_parent]. now destruct (x_src x). Qed.
Lemma resolve_history_re x : resolve_history (fx x) = resolve_history x.
Proof. apply history_re. Qed.
Lemma hd_map {A B} (g : A -> B) l : hd_error (map g l) = option_map g (hd_error l).
Proof. now destruct l. Qed.
Lemma has_table_state c : has_table env' (SState (fc c)) = has_table env (SState c).
Proof. apply (has_table_re env (SState c)). Qed.
Lemma resolve_dst_re x : resolve_dst env' (fx x) = option_map f (resolve_dst env x).
Proof.
  unfold resolve_dst. cbn [re_xrow x_tgt]. destruct (x_tgt x); cbn [re_sref]; try reflexivity.
  - rewrite has_table_state, initials_re, hd_map. now destruct (has_table env (SState c)).
  - now rewrite initials_re, hd_map.
Qed.
Lemma resolve_dst_parent_re x : resolve_dst_parent env' (fx x) = fc (resolve_dst_parent env x).
Proof.
  unfold resolve_dst_parent. cbn [re_xrow x_tgt x_parent]. destruct (x_tgt x); cbn [re_sref]; try reflexivity.
  rewrite has_table_state. now destruct (has_table env (SState c)).
Qed.
Lemma initial_entry_of_re t : initial_entry_of env' (f t) = option_map fc (initial_entry_of env t).
Proof.
  unfold initial_entry_of. destruct t; cbn [re_sref]; try reflexivity. rewrite has_table_state, initials_re, hd_map.
  destruct (has_table env (SState c)); [|reflexivity]. destruct (hd_error (initials env c)); [|reflexivity]. apply entry_of_re.
Qed.
Lemma pseudo_exit_of_re x : pseudo_exit_of env' (fx x) = option_map fc (pseudo_exit_of env x).
Proof. unfold pseudo_exit_of. cbn [re_xrow x_src]. destruct (x_src x); cbn [re_sref]; try reflexivity. apply (exit_of_re env (SState p)). Qed.
Lemma is_some_map {A B} (g : A -> B) o : is_some (option_map g o) = is_some o.
Proof. now destruct o. Qed.
Lemma has_action_re x : has_action env' (fx x) = has_action env x.
Proof.
  unfold has_action. rewrite pseudo_exit_of_re. cbn [re_xrow x_src x_tgt x_act].
  rewrite entry_of_re, initial_entry_of_re, exit_of_re, !is_some_map. now destruct (x_act x).
Qed.
Lemma opt_step_re (o : option cls) (k : cls -> step) : (forall c, re_step n (k c) = k (fc c)) -> opt_step (option_map fc o) k = map (re_step n) (opt_step o k).
Proof. intros H. destruct o; cbn; [now rewrite H|reflexivity]. Qed.
Lemma resolve_action_re x : resolve_action env' (fx x) = option_map (map (re_step n)) (resolve_action env x).
Proof.
  unfold resolve_action. rewrite has_action_re. destruct (has_action env x); [|reflexivity]. cbn [option_map]. rewrite !map_app.
  f_equal. f_equal; [|f_equal; [|f_equal]].
  - unfold resolve_exit_action. rewrite pseudo_exit_of_re. cbn [re_xrow x_src x_int]. rewrite exit_of_re. destruct (x_int x); [reflexivity|].
    destruct (exit_of env (x_src x)); [reflexivity|]. now apply opt_step_re.
  - unfold resolve_no_action. cbn [re_xrow x_act]. now destruct (x_act x).
  - unfold resolve_entry_action. cbn [re_xrow x_tgt x_int]. rewrite entry_of_re. destruct (x_int x); [reflexivity|]. now apply opt_step_re.
  - unfold resolve_initial_entry_action. cbn [re_xrow x_tgt]. rewrite initial_entry_of_re. now apply opt_step_re.
Qed.
Lemma deferring_re : deferring m' = map fx (deferring m).
Proof.
  unfold deferring. cbn [re_machine mc_flat mc_env]. rewrite filter_map. f_equal. apply filter_ext. intros x.
  cbn [re_xrow x_src]. now rewrite unwrap_re, defer_of_re, is_some_map.
Qed.
Lemma deferred_events_re x : deferred_events m' (fx x) = map fe (deferred_events m x).
Proof. unfold deferred_events. cbn [re_machine mc_env re_xrow x_src]. rewrite unwrap_re, defer_of_re. now destruct (defer_of env _). Qed.
Lemma has_deferred_re : has_deferred m' = has_deferred m.
Proof. unfold has_deferred. now rewrite deferring_re, map_length. Qed.
Lemma child_rec_re : child_states_rec m' = map f (child_states_rec m).
Proof.
  unfold child_states_rec. cbn [mc_flat re_machine]. rewrite <- (unique_re sref_eq_dec f f_inj), flat_map_map, map_flat_map. f_equal.
  apply flat_map_ext. intros r. cbn. now rewrite unwrap_re.
Qed.
Lemma states_re : states m' = map f (states m).
Proof. unfold states. now rewrite child_rec_re, map_app. Qed.
Lemma n_states_re : n_states m' = n_states m.
Proof. unfold n_states. now rewrite states_re, map_length. Qed.
Lemma pairs_re : state_pairs m' = map (re_place n) (state_pairs m).
Proof.
  unfold state_pairs. rewrite <- (unique_re place_eq_dec (re_place n) fp_inj). f_equal. cbn [mc_flat re_machine map mc_root].
  f_equal. rewrite flat_map_map, map_flat_map. apply flat_map_ext. intros x. cbn. now rewrite unwrap_re.
Qed.
Lemma internal_of_pair_re pr : internal_of_pair env' (re_place n pr) = map fx (internal_of_pair env pr).
Proof.
  destruct pr as [p s]. unfold internal_of_pair, re_place. cbn [fst snd]. destruct s; cbn [re_sref]; try reflexivity.
  rewrite lookup_re. cbn [re_def cd_internal]. destruct (cd_internal (lookup env c)) as [is|]; [|reflexivity]. cbn [option_map].
  rewrite map_flat_map, flat_map_map. apply flat_map_ext. intros i.
  rewrite has_table_state. destruct (has_table env (SState c)); [|reflexivity].
  rewrite child_states_re, !map_map. reflexivity.
Qed.
Definition re_key (k : xkey) : xkey :=
  let '(p, s, e, g, a, t) := k in (fc p, f s, fe e, option_map (n_gty n) g, option_map (n_aty n) a, f t).
Lemma omap_inj {A} (g : A -> A) : (forall a b, g a = g b -> a = b) -> forall x y, option_map g x = option_map g y -> x = y.
Proof. intros H [a|] [b|]; cbn; intros E; inversion E; f_equal; auto. Qed.
Lemma key_inj a b : re_key a = re_key b -> a = b.
Proof.
  destruct a as [[[[[p s] e] g] a] t], b as [[[[[p2 s2] e2] g2] a2] t2]. cbn. intros E. injection E as E0 E1 E2 E3 E4 E5.
  apply fc_inj in E0. apply f_inj in E1. apply fe_inj in E2. apply (omap_inj _ (ds_gty n Hn)) in E3. apply (omap_inj _ (ds_aty n Hn)) in E4.
  apply f_inj in E5. now subst.
Qed.
Lemma key_re x : xrow_key (fx x) = re_key (xrow_key x).
Proof. unfold xrow_key, re_key, re_xrow. cbn. destruct (x_guard x), (x_act x); reflexivity. Qed.
Lemma unique_by_re l : forall seen, unique_by_acc xkey_eq_dec xrow_key (map re_key seen) (map fx l) =
  map fx (unique_by_acc xkey_eq_dec xrow_key seen l).
Proof.
  induction l as [|a l IH]; intros seen; [reflexivity|]. cbn [map unique_by_acc]. rewrite key_re.
  rewrite (in_inj xkey_eq_dec re_key key_inj). destruct (in_dec xkey_eq_dec (xrow_key a) seen); [apply IH|].
  cbn [map]. now rewrite <- (IH (xrow_key a :: seen)).
Qed.
Lemma internal_flat_re : internal_flat m' = map fx (internal_flat m).
Proof.
  unfold internal_flat, unique_by. rewrite pairs_re. cbn [re_machine mc_env]. rewrite <- (unique_by_re _ []). cbn [map]. f_equal.
  rewrite flat_map_map, map_flat_map. apply flat_map_ext. apply internal_of_pair_re.
Qed.
Lemma events_re : events m' = map fe (events m).
Proof. unfold events. cbn [re_machine mc_flat]. now rewrite internal_flat_re, <- map_app, events_of_re. Qed.
Lemma max_initials_re : max_initials m' = max_initials m.
Proof.
  unfold max_initials. rewrite parents_re, map_map. f_equal. apply map_ext. intros p. cbn [re_machine mc_env]. now rewrite initials_re, map_length.
Qed.
Lemma parallel_re : parallel m' = parallel m.
Proof. unfold parallel. now rewrite max_initials_re. Qed.
Lemma list_prod_re (l : list cls) k : list_prod (map fc l) (map f k) = map (re_place n) (list_prod l k).
Proof. induction l as [|a l IH]; [reflexivity|]. cbn. rewrite map_app, IH, !map_map. reflexivity. Qed.
Lemma combined_re p s : combined_idx m' (fc p) (f s) = combined_idx m p s.
Proof.
  unfold combined_idx. rewrite parents_re, states_re, list_prod_re.
  apply (index_inj place_eq_dec (re_place n) fp_inj _ (p, s)).
Qed.
Lemma state_idx_re s : state_idx m' (f s) = state_idx m s.
Proof. unfold state_idx. rewrite states_re. apply (index_inj sref_eq_dec f f_inj). Qed.
Fixpoint needs_ptr_re b {struct b} : needs_ptr (re_body n b) = needs_ptr b.
Proof.
  destruct b as [k|k|k|l]; try reflexivity. cbn [re_body needs_ptr]. induction l as [|b l IH]; [reflexivity|].
  cbn [map existsb]. now rewrite needs_ptr_re, IH.
Qed.
Lemma row_accepted_re x : row_accepted m' (fx x) = row_accepted m x.
Proof.
  unfold row_accepted. cbn [re_machine mc_env]. rewrite resolve_dst_re. destruct (resolve_dst env x) as [d|]; [|reflexivity]. cbn [option_map].
  fold (re_machine n m). rewrite states_re, resolve_src_re, !(in_inj sref_eq_dec f f_inj), defctor_re. cbn [re_xrow x_tgt x_act]. f_equal; [f_equal|].
  - destruct (x_tgt x); cbn [re_sref]; try reflexivity. apply has_table_state.
  - destruct (x_act x); [reflexivity|]. cbn [re_action]. now rewrite needs_ptr_re.
Qed.
Lemma accepted_re : accepted m' = accepted m.
Proof.
  unfold accepted. rewrite internal_flat_re, max_initials_re, events_re, deferring_re, child_rec_re, n_parents_re, n_states_re.
  cbn [re_machine mc_env mc_root mc_flat]. fold (re_machine n m). rewrite initials_re, lookup_re, map_length, <- map_app, !forallb_map.
  rewrite (forallb_ext' (fun a => negb (has_table env' (f a))) (fun s => negb (has_table env s))) by (intros; now rewrite has_table_re).
  rewrite (forallb_ext' (fun a => negb (has_internal env' (f a))) (fun s => negb (has_internal env s))) by (intros; now rewrite has_internal_re).
  rewrite (forallb_ext' (fun a => row_accepted m' (fx a)) (row_accepted m)) by apply row_accepted_re.
  rewrite (forallb_ext' (fun a => forallb (fun e => if in_dec ev_eq_dec e (map fe (events m)) then true else false) (deferred_events m' (fx a)))
    (fun x => forallb (fun e => if in_dec ev_eq_dec e (events m) then true else false) (deferred_events m x))).
  2:{ intros x. rewrite deferred_events_re, forallb_map. apply forallb_ext'. intros e. apply (in_inj ev_eq_dec fe fe_inj). }
  rewrite (in_inj sref_eq_dec f f_inj (SState (mc_root m))). cbn [re_def cd_table]. now rewrite is_some_map.
Qed.

(** ** Dispatch tables *)
Lemma entry_of_row_re d x src dst : entry_of_row m' (n_dep n d) (fx x) (f src) (f dst) = re_entry n (entry_of_row m d x src dst).
Proof.
  unfold entry_of_row. cbn [re_machine mc_env]. rewrite resolve_dst_parent_re. fold (re_machine n m). rewrite combined_re.
  rewrite resolve_history_re, resolve_action_re, defctor_re. reflexivity.
Qed.
Lemma add_entry_re d x t : add_entry m' (n_dep n d) (fx x) (re_tabs n t) = option_map (re_tabs n) (add_entry m d x t).
Proof.
  unfold add_entry. cbn [re_machine mc_env]. rewrite resolve_dst_re. destruct (resolve_dst env x) as [dst|]; [|reflexivity]. cbn [option_map].
  fold (re_machine n m). rewrite resolve_src_re, resolve_src_parent_re, combined_re, entry_of_row_re. apply push_front_re.
Qed.
Lemma add_exits_re d x t : add_exits m' (n_dep n d) (fx x) (re_tabs n t) = option_map (re_tabs n) (add_exits m d x t).
Proof.
  unfold add_exits. cbn [re_machine mc_env]. rewrite resolve_dst_re. cbn [re_xrow x_int x_src x_ev]. destruct (x_int x); [reflexivity|].
  fold (re_machine n m) (re_xrow n x). destruct (x_src x); cbn [re_sref]; try (now destruct (resolve_dst env x)).
  destruct (resolve_dst env x) as [dst|]; [|reflexivity]. cbn [option_map].
  rewrite has_table_state. destruct (has_table env (SState c)); [|reflexivity].
  rewrite child_typeids_re. apply foldM_map. intros ch t'. rewrite combined_re, <- push_front_re.
  f_equal. apply (entry_of_row_re d x (SState c) dst).
Qed.
Lemma add_row_re d x t : add_row m' (n_dep n d) (fx x) (re_tabs n t) = option_map (re_tabs n) (add_row m d x t).
Proof. unfold add_row. rewrite add_entry_re. destruct (add_entry m d x t); [apply add_exits_re|reflexivity]. Qed.
Lemma fill_transitions_re d l t :
  fill_transitions m' (n_dep n d) (map fx l) (re_tabs n t) = option_map (re_tabs n) (fill_transitions m d l t).
Proof.
  unfold fill_transitions. rewrite events_of_re. apply foldM_map. intros e s. rewrite filter_ev_re. apply foldM_map.
  intros x t'. apply add_row_re.
Qed.
Lemma fill_deferred_re t : fill_deferred m' (re_tabs n t) = option_map (re_tabs n) (fill_deferred m t).
Proof.
  unfold fill_deferred. rewrite deferring_re. apply foldM_map. intros x s. rewrite deferred_events_re. apply foldM_map.
  intros e t'. rewrite resolve_src_re, resolve_src_parent_re, combined_re, <- push_front_re. reflexivity.
Qed.
Lemma fill_dispatch_re d t : fill_dispatch m' (n_dep n d) (re_tabs n t) = option_map (re_tabs n) (fill_dispatch m d t).
Proof.
  unfold fill_dispatch. rewrite internal_flat_re, fill_transitions_re. destruct (fill_transitions m d (internal_flat m) t) as [t1|]; [|reflexivity].
  cbn [option_map]. change (mc_flat m') with (map fx (mc_flat m)). rewrite fill_transitions_re.
  destruct (fill_transitions m d (mc_flat m) t1) as [t2|]; [|reflexivity]. apply fill_deferred_re.
Qed.
Lemma empty_tables_re : empty_tables m' = re_tabs n (empty_tables m).
Proof.
  unfold empty_tables, re_tabs. rewrite events_re, n_states_re, n_parents_re, !map_map. apply map_ext. intros e. cbn [fst snd].
  now rewrite map_repeat.
Qed.
Lemma fill_handlers_re d : fill_handlers m' (n_dep n d) = option_map (re_htabs n) (fill_handlers m d).
Proof.
  unfold fill_handlers, handler_places. rewrite events_re, n_states_re, n_parents_re, parents_re, states_re, list_prod_re.
  refine (foldM_map fe (re_htabs n) _ _ _ (events m) []). intros e t.
  match goal with |- context [repeat None ?k] => replace (repeat (@None (sref * dep)) k) with (map (re_hand n) (repeat None k)) at 1 by (now rewrite map_repeat) end.
  rewrite (foldM_map (re_place n) (map (re_hand n)) (fun (pr : place) arr => upd_at (combined_idx m (fst pr) (snd pr)) (fun _ => Some (snd pr, d)) arr)).
  - destruct (foldM _ _ _); [|reflexivity]. cbn [option_map]. unfold re_htabs. now rewrite map_app.
  - intros pr arr. cbn [re_place fst snd]. rewrite combined_re. now apply upd_at_map.
Qed.
Lemma initial_table_re : initial_table m' = initial_table m.
Proof.
  unfold initial_table. rewrite parents_re, map_map. apply map_ext. intros p. cbn [re_machine mc_env]. fold (re_machine n m).
  rewrite initials_re, map_map. apply map_ext. intros s. apply combined_re.
Qed.
End Rename.

(** * Compilation *)
Lemma compile_re n (Hn : distinct n) env root :
  compile (renamed n env) (n_cls n root) = option_map (re_machine n) (compile env root).
Proof.
  unfold compile. rewrite (flatten_re n Hn). unfold renamed at 1. rewrite map_length.
  destruct (flatten (S (length env)) env root) as [fl|]; [|reflexivity]. cbn [option_map].
  change (mkMachine (renamed n env) (n_cls n root) (map (re_xrow n) fl)) with (re_machine n (mkMachine env root fl)).
  rewrite (accepted_re n Hn). now destruct (accepted _).
Qed.

(** * Running *)
Section Run.
Variable n : names.
Hypothesis Hn : distinct n.
Notation fc := (n_cls n).
Notation f := (re_sref n).
Notation fe := (re_ev n).
Context {V W : Type}.
Variable cb cb' : cbfun V W.
Hypothesis Hcb : user_alike n cb cb'.
Variable m : machine.
Notation m' := (re_machine n m).
Variable vnone : V.

Lemma bind_re {A A' B B'} (g : A -> A') (h : B -> B') (r : res V W A) (r' : res V W A') k k' :
  r' = re_res n g r -> (forall a s, k' (g a) (re_state n s) = re_res n h (k a s)) -> bind r' k' = re_res n h (bind r k).
Proof. intros -> H. destruct r; cbn; auto. Qed.
Definition same {A} (a : A) : A := a.
Lemma invoke_re c a v s : invoke cb' (re_callee n c) (re_args n a) v (re_state n s) = re_res n same (invoke cb c a v s).
Proof.
  unfold invoke. cbn [re_state rt_world rt_trace]. rewrite Hcb. destruct (cb c a v (rt_world s)); cbn;
  unfold re_state, with_user; cbn; now rewrite map_app.
Qed.
Lemma alive_re (s : rt V W) o : alive (re_state n s) (f o) = alive s o.
Proof. unfold alive. cbn [re_state rt_live]. now apply (in_inj sref_eq_dec f (f_inj n Hn)). Qed.
Lemma execute_guard_re t e v s : execute_guard cb' (re_trans n t) (fe e) v (re_state n s) = re_res n same (execute_guard cb t e v s).
Proof.
  unfold execute_guard. cbn [re_trans t_guard t_int t_src t_tgt t_dep]. destruct (t_guard t) as [|ty val]; [reflexivity|].
  destruct (t_int t); rewrite !alive_re; (destruct (_ && _); [|reflexivity]); rewrite <- invoke_re; reflexivity.
Qed.
Lemma action_args_re t e : action_args (re_trans n t) (fe e) = re_args n (action_args t e).
Proof. unfold action_args, re_args. cbn. now destruct (t_ptr t), (t_int t). Qed.
Lemma set_live_re (s : rt V W) o b : set_live (re_state n s) (f o) b = re_state n (set_live s o b).
Proof.
  unfold set_live, with_live, re_state. cbn. f_equal. destruct b.
  - rewrite (in_inj sref_eq_dec f (f_inj n Hn)). now destruct (in_dec sref_eq_dec o (rt_live s)).
  - rewrite filter_map. f_equal. apply filter_ext. intros x. now apply (dec_inj sref_eq_dec f (f_inj n Hn)).
Qed.
Lemma keep_re r r' : r' = re_res n same r -> keep_payload (V:=V) (W:=W) r' = re_res n same (keep_payload r).
Proof. intros ->. now destruct r. Qed.
Fixpoint exec_body_re b t e v s {struct b} : exec_body cb' (re_body n b) (re_trans n t) (fe e) v (re_state n s) = re_res n same (exec_body cb b t e v s).
Proof.
  destruct b as [g|g|g|l]; cbn [exec_body re_body].
  - rewrite action_args_re. apply keep_re. apply (invoke_re (CAction g)).
  - eapply bind_re; [apply (invoke_re (CFactory g) (mkArgs e (t_src t) TNone (t_dep t)))|]. intros a s'. cbn. now rewrite set_live_re.
  - cbn [re_trans t_tgt t_src t_dep]. rewrite alive_re. destruct (alive s (t_tgt t)); [|reflexivity]. unfold drop_payload.
    eapply bind_re; [apply (invoke_re (CReuse g) (mkArgs e (t_src t) (TObj (t_tgt t)) (t_dep t)))|]. reflexivity.
  - revert v s. induction l as [|b l IH]; intros v s; [reflexivity|].
    eapply bind_re; [apply exec_body_re|]. intros a s'. apply IH.
Qed.
Lemma exec_step_re st t e v s : exec_step cb' (re_step n st) (re_trans n t) (fe e) v (re_state n s) = re_res n same (exec_step cb st t e v s).
Proof.
  destruct st as [c|b|c|c]; cbn [exec_step re_step]; rewrite ?action_args_re.
  - apply keep_re. apply (invoke_re (CExit c)).
  - apply exec_body_re.
  - apply keep_re. apply (invoke_re (CEntry c)).
  - apply keep_re. apply (invoke_re (CEntry c)).
Qed.
Lemma exec_steps_re l t e : forall v s, exec_steps cb' (map (re_step n) l) (re_trans n t) (fe e) v (re_state n s) = re_res n same (exec_steps cb l t e v s).
Proof.
  induction l as [|st l IH]; intros v s; [reflexivity|]. cbn [exec_steps]. eapply bind_re; [apply exec_step_re|]. intros a s'. apply IH.
Qed.
Lemma execute_action_re t e v s : execute_action cb' (re_trans n t) (fe e) v (re_state n s) = re_res n same (execute_action cb t e v s).
Proof.
  unfold execute_action. cbn [re_trans t_act t_src t_tgt t_int t_ptr]. destruct (t_act t) as [l|]; [|reflexivity].
  rewrite !alive_re. destruct (_ && _); [apply exec_steps_re|reflexivity].
Qed.
Lemma read_cur_re (s : rt V W) r : read_cur (re_state n s) r = re_res n same (read_cur s r).
Proof. unfold read_cur. cbn [re_state rt_cur]. destruct (nth_error (rt_cur s) r) as [[c|]|]; reflexivity. Qed.
Lemma at_cur_re (s : rt V W) r : at_cur (re_state n s) r = re_res n same (at_cur s r).
Proof. unfold at_cur. cbn [re_state rt_cur]. destruct (nth_error (rt_cur s) r) as [[c|]|]; reflexivity. Qed.
Lemma write_cur_re (s : rt V W) r c : write_cur (re_state n s) r c = re_res n same (write_cur s r c).
Proof. unfold write_cur. cbn [re_state rt_cur]. now destruct (upd_nth _ _ (rt_cur s)). Qed.
Lemma current_parent_re (s : rt V W) : current_parent m' (re_state n s) = re_res n same (current_parent m s).
Proof. unfold current_parent. rewrite n_states_re by assumption. eapply bind_re; [apply read_cur_re|reflexivity]. Qed.
Lemma current_state_re (s : rt V W) r : current_state m' (re_state n s) r = re_res n same (current_state m s r).
Proof. unfold current_state. rewrite n_states_re by assumption. eapply bind_re; [apply at_cur_re|reflexivity]. Qed.
Lemma update_current_regions_re (s : rt V W) : update_current_regions m' (re_state n s) = re_res n same (update_current_regions m s).
Proof.
  unfold update_current_regions. rewrite parallel_re, initial_table_re by assumption. destruct (parallel m); [|reflexivity].
  eapply bind_re; [apply current_parent_re|]. intros p s'. unfold same. now destruct (nth_at p (initial_table m)).
Qed.
Lemma current_regions_re (s : rt V W) : current_regions m' (re_state n s) = current_regions m s.
Proof. unfold current_regions. now rewrite parallel_re by assumption. Qed.
Lemma write_hist_re (s : rt V W) p r c : write_hist (re_state n s) p r c = re_res n same (write_hist s p r c).
Proof.
  unfold write_hist. cbn [re_state rt_hist]. destruct (nth_at p (rt_hist s)) as [l|]; [|reflexivity].
  destruct (upd_nth _ _ l) as [l'|]; [|reflexivity]. now destruct (upd_at _ _ (rt_hist s)).
Qed.
Lemma read_hist_re (s : rt V W) p r : read_hist (re_state n s) p r = re_res n same (read_hist s p r).
Proof.
  unfold read_hist. cbn [re_state rt_hist]. destruct (nth_at p (rt_hist s)) as [l|]; [|reflexivity]. now destruct (nth_error l r).
Qed.
Lemma update_current_state_re r en (s : rt V W) :
  update_current_state m' r (re_entry n en) (re_state n s) = re_res n same (update_current_state m r en s).
Proof.
  unfold update_current_state. rewrite has_history_re, n_states_re by assumption. cbn [re_entry en_int en_hist en_to].
  destruct (en_int en); [reflexivity|]. eapply bind_re; [|intros; apply update_current_regions_re].
  destruct (has_history m); [|apply write_cur_re].
  eapply bind_re; [apply current_parent_re|]. intros p s1. eapply bind_re; [apply read_cur_re|]. intros c s2.
  eapply bind_re; [apply write_hist_re|]. intros _ s3. destruct (en_hist en); [|apply write_cur_re].
  eapply bind_re; [apply read_hist_re|]. intros c' s4. apply write_cur_re.
Qed.
Lemma get_entries_re e r (s : rt V W) : get_entries (fe e) r (re_state n s) = re_res n (map (re_entry n)) (get_entries e r s).
Proof.
  unfold get_entries. cbn [re_state rt_tabs]. rewrite (get_table_re n Hn). destruct (get_table (rt_tabs s) e) as [arr|]; [|reflexivity].
  cbn [option_map]. eapply bind_re; [apply read_cur_re|]. intros c s'. unfold same. rewrite nth_at_map.
  now destruct (nth_at c arr).
Qed.
Lemma try_entries_re r e : forall ens v s,
  try_entries cb' m' (map (re_entry n) ens) r (fe e) v (re_state n s) = re_res n same (try_entries cb m ens r e v s).
Proof.
  induction ens as [|en ens IH]; intros v s; [reflexivity|]. cbn [map try_entries].
  destruct (en_defer en) eqn:Ed; cbn [re_entry en_defer en_tr]; rewrite Ed;
    [unfold re_state, with_queue; cbn; unfold re_state; cbn; now rewrite map_app|].
  destruct (en_tr en) as [t|]; [|reflexivity]. cbn [option_map].
  eapply bind_re; [apply execute_guard_re|]. intros bv s1. unfold same at 1 2. destruct (fst bv); [|apply IH].
  eapply bind_re; [apply (update_current_state_re r en)|]. intros u s2.
  eapply bind_re; [apply execute_action_re|]. reflexivity.
Qed.
Lemma try_region_re r e v s : try_region cb' m' r (fe e) v (re_state n s) = re_res n same (try_region cb m r e v s).
Proof.
  unfold try_region. eapply bind_re; [apply get_entries_re|]. intros [|en ens] s1; [reflexivity|]. cbn [map].
  change (re_entry n en :: map (re_entry n) ens) with (map (re_entry n) (en :: ens)).
  eapply bind_re; [apply try_entries_re|]. reflexivity.
Qed.
Lemma region_loop_re e limit : forall fuel r agf ati v s,
  region_loop cb' m' fuel limit r agf ati (fe e) v (re_state n s) = re_res n same (region_loop cb m fuel limit r agf ati e v s).
Proof.
  induction fuel as [|fuel IH]; intros r agf ati v s; [reflexivity|]. cbn [region_loop]. destruct (Nat.ltb r limit); [|reflexivity].
  eapply bind_re; [apply try_region_re|]. intros [[[]|] v'] s1; cbn [same fst snd]; try apply IH. reflexivity.
Qed.
Lemma try_anonymous_re r : forall ens v s,
  try_anonymous cb' m' (map (re_entry n) ens) r v (re_state n s) = re_res n same (try_anonymous cb m ens r v s).
Proof.
  induction ens as [|en ens IH]; intros v s; [reflexivity|]. cbn [map try_anonymous].
  cbn [re_entry en_tr]. destruct (en_tr en) as [t|]; [|reflexivity]. cbn [option_map].
  eapply bind_re; [apply (execute_guard_re t ENone)|]. intros bv s1. unfold same at 1 2. destruct (fst bv); [|apply IH].
  eapply bind_re; [apply (update_current_state_re r en)|]. intros u s2.
  eapply bind_re; [apply (execute_action_re t ENone)|]. reflexivity.
Qed.
Lemma anonymous_region_re r v s : anonymous_region cb' m' r v (re_state n s) = re_res n same (anonymous_region cb m r v s).
Proof.
  unfold anonymous_region. eapply bind_re; [apply (get_entries_re ENone)|]. intros [|en ens] s1; [reflexivity|]. cbn [map].
  change (re_entry n en :: map (re_entry n) ens) with (map (re_entry n) (en :: ens)).
  eapply bind_re; [apply try_anonymous_re|]. reflexivity.
Qed.
Lemma anonymous_pass_re limit : forall fuel r agf v s,
  anonymous_pass cb' m' fuel limit r agf v (re_state n s) = re_res n same (anonymous_pass cb m fuel limit r agf v s).
Proof.
  induction fuel as [|fuel IH]; intros r agf v s; [reflexivity|]. cbn [anonymous_pass]. destruct (Nat.ltb r limit); [|reflexivity].
  eapply bind_re; [apply anonymous_region_re|]. intros [[b|] v'] s1; cbn [same fst snd]; [apply IH|reflexivity].
Qed.
Lemma anonymous_loop_re rfuel : forall fuel v s,
  anonymous_loop cb' m' rfuel fuel v (re_state n s) = re_res n same (anonymous_loop cb m rfuel fuel v s).
Proof.
  induction fuel as [|fuel IH]; intros v s; [reflexivity|]. cbn [anonymous_loop]. rewrite current_regions_re.
  eapply bind_re; [apply anonymous_pass_re|]. intros [[[]|] v'] s1; cbn [same fst snd]; try reflexivity. apply IH.
Qed.
Lemma process_anonymous_re fuel s : process_anonymous cb' m' vnone fuel (re_state n s) = re_res n same (process_anonymous cb m vnone fuel s).
Proof. unfold process_anonymous. rewrite has_anonymous_re by assumption. destruct (has_anonymous m); [apply anonymous_loop_re|reflexivity]. Qed.
Lemma process_internal_re fuel e v s :
  process_event_internal cb' m' vnone fuel (fe e) v (re_state n s) = re_res n same (process_event_internal cb m vnone fuel e v s).
Proof.
  unfold process_event_internal. rewrite current_regions_re. eapply bind_re; [apply region_loop_re|].
  intros [[] v'] s1; cbn [same fst snd]; try reflexivity. eapply bind_re; [apply process_anonymous_re|]. reflexivity.
Qed.
Lemma process_deferred_re fuel s : process_deferred cb' m' vnone fuel (re_state n s) = re_res n same (process_deferred cb m vnone fuel s).
Proof.
  unfold process_deferred. rewrite has_deferred_re by assumption. destruct (has_deferred m); [|reflexivity]. cbn [re_state rt_queue].
  destruct (rt_queue s) as [|[e v] q]; [reflexivity|]. eapply bind_re; [apply (process_internal_re fuel e v (with_queue s q))|]. reflexivity.
Qed.
Lemma unexpected_re c : cd_unexpected (lookup (renamed n (mc_env m)) (fc c)) = cd_unexpected (lookup (mc_env m) c).
Proof. now rewrite lookup_re. Qed.
Lemma call_handler_re e v s : call_handler cb' m' (fe e) v (re_state n s) = re_res n same (call_handler cb m e v s).
Proof.
  unfold call_handler. cbn [re_machine mc_env mc_root]. rewrite unexpected_re. destruct (cd_unexpected _); [|reflexivity].
  eapply bind_re; [apply at_cur_re|]. intros c s1. unfold same at 1. cbn [re_state rt_htabs]. rewrite (get_htable_re n Hn).
  destruct (get_table (rt_htabs s1) e) as [arr|]; [|reflexivity]. cbn [option_map]. rewrite nth_at_map.
  destruct (nth_at c arr) as [[[o d]|]|]; cbn [option_map re_hand fst snd]; try reflexivity.
  fold (re_state n s1). rewrite alive_re. destruct (alive s1 o); [|reflexivity]. apply keep_re. apply (invoke_re CHandler (mkArgs e o TNone d)).
Qed.
Lemma process_event_re fuel e v s : process_event cb' m' vnone fuel (fe e) v (re_state n s) = re_res n same (process_event cb m vnone fuel e v s).
Proof.
  unfold process_event. rewrite events_re by assumption. rewrite (in_inj ev_eq_dec fe (fe_inj n Hn)). destruct (in_dec ev_eq_dec e (events m)); [|reflexivity].
  eapply bind_re; [apply process_internal_re|]. intros [[] v'] s1; cbn [same fst snd]; try reflexivity.
  - eapply bind_re; [apply call_handler_re|]. reflexivity.
  - eapply bind_re; [apply process_deferred_re|]. reflexivity.
Qed.
Lemma q_is_re r p st (s : rt V W) : q_is m' r (fc p) (f st) (re_state n s) = re_res n same (q_is m r p st s).
Proof.
  unfold q_is. rewrite parent_idx_re, state_idx_re by assumption. eapply bind_re; [apply current_parent_re|]. intros cp s1. unfold same at 1.
  destruct (N.eqb cp (parent_idx m p)); [|reflexivity]. eapply bind_re; [apply current_state_re|]. reflexivity.
Qed.
Lemma q_is0_re st (s : rt V W) : q_is0 m' (f st) (re_state n s) = re_res n same (q_is0 m st s).
Proof. unfold q_is0. rewrite state_idx_re by assumption. eapply bind_re; [apply current_state_re|]. reflexivity. Qed.
Lemma q_parent_is_re p (s : rt V W) : q_parent_is m' (fc p) (re_state n s) = re_res n same (q_parent_is m p s).
Proof. unfold q_parent_is. rewrite parent_idx_re by assumption. eapply bind_re; [apply current_parent_re|]. reflexivity. Qed.
Lemma set_state_re r p st (s : rt V W) : set_state m' r (fc p) (f st) (re_state n s) = re_res n same (set_state m r p st s).
Proof.
  unfold set_state. rewrite states_re, parents_re, combined_re, (in_inj sref_eq_dec f (f_inj n Hn)), (in_inj Nat.eq_dec fc (fc_inj n Hn)) by assumption. cbn [re_state rt_cur].
  destruct (in_dec sref_eq_dec st (states m)); [|reflexivity]. destruct (in_dec Nat.eq_dec p (parents m)); [|reflexivity].
  now destruct (upd_nth _ _ (rt_cur s)).
Qed.
Lemma status_loop_re limit : forall fuel r (s : rt V W), status_loop m' fuel limit r (re_state n s) = re_res n same (status_loop m fuel limit r s).
Proof.
  induction fuel as [|fuel IH]; intros r s; [reflexivity|]. cbn [status_loop]. destruct (Nat.ltb r limit); [|reflexivity].
  eapply bind_re; [apply read_cur_re|]. intros c s1. eapply bind_re; [apply current_parent_re|]. intros p s2.
  eapply bind_re; [apply current_state_re|]. intros st s3. eapply bind_re; [apply IH|]. reflexivity.
Qed.
Lemma status_re fuel (s : rt V W) : status m' fuel (re_state n s) = re_res n same (status m fuel s).
Proof. unfold status. rewrite current_regions_re. apply status_loop_re. Qed.
Lemma set_dependency_re d (s : rt V W) : set_dependency m' (n_dep n d) (re_state n s) = re_res n same (set_dependency m d s).
Proof. unfold set_dependency. cbn [re_state rt_tabs]. rewrite (fill_dispatch_re n Hn). now destruct (fill_dispatch m d (rt_tabs s)). Qed.
Lemma init_loop_re l : forall fuel r (s : rt V W), init_loop fuel l r (re_state n s) = re_res n same (init_loop fuel l r s).
Proof.
  induction fuel as [|fuel IH]; intros r s; [reflexivity|]. cbn [init_loop]. destruct (Nat.ltb r (length l)); [|reflexivity].
  destruct (nth_error l r); [|reflexivity]. eapply bind_re; [apply write_cur_re|]. intros a s1. apply IH.
Qed.
Lemma construct_re fuel d (w : W) : construct m' fuel (n_dep n d) w = re_res (V:=V) (W:=W) n same (construct m fuel d w).
Proof.
  unfold construct. cbn [re_machine mc_env mc_root]. fold (re_machine n m). rewrite unexpected_re, (fill_handlers_re n Hn), (empty_tables_re n Hn).
  rewrite (fill_dispatch_re n Hn), (max_initials_re n Hn), (initial_table_re n Hn), (states_re n Hn), filter_map.
  assert (E : forall h, match (if cd_unexpected (lookup (mc_env m) (mc_root m)) then option_map (re_htabs n) h else Some []) with
     | Some h' => Some h' | None => None end = option_map (re_htabs n) (if cd_unexpected (lookup (mc_env m) (mc_root m)) then h else Some [])).
  { intros [h|]; now destruct (cd_unexpected _). }
  destruct (cd_unexpected (lookup (mc_env m) (mc_root m))).
  - destruct (fill_handlers m d) as [h|]; [|reflexivity]. cbn [option_map]. destruct (fill_dispatch m d (empty_tables m)) as [t|]; [|reflexivity].
    cbn [option_map]. eapply bind_re; [|intros; apply update_current_regions_re].
    unfold init_current_state. cbn [re_machine mc_root]. fold (re_machine n m). rewrite (parent_idx_re n Hn), (initial_table_re n Hn).
    destruct (nth_at _ _) as [l|]; [|reflexivity]. rewrite <- init_loop_re. f_equal. unfold re_state. cbn. f_equal. f_equal.
    apply filter_ext. intros o. now apply defctor_re.
  - destruct (fill_dispatch m d (empty_tables m)) as [t|]; [|reflexivity].
    cbn [option_map]. eapply bind_re; [|intros; apply update_current_regions_re].
    unfold init_current_state. cbn [re_machine mc_root]. fold (re_machine n m). rewrite (parent_idx_re n Hn), (initial_table_re n Hn).
    destruct (nth_at _ _) as [l|]; [|reflexivity]. rewrite <- init_loop_re. f_equal. unfold re_state. cbn. f_equal. f_equal.
    apply filter_ext. intros o. now apply defctor_re.
Qed.
Lemma do_call_re fuel k s : do_call cb' m' vnone fuel (re_call n k) (re_state n s) = re_res n same (do_call cb m vnone fuel k s).
Proof.
  destruct k; cbn [re_call do_call].
  - eapply bind_re; [apply process_event_re|]. reflexivity.
  - eapply bind_re; [apply q_is_re|]. reflexivity.
  - eapply bind_re; [apply q_parent_is_re|]. reflexivity.
  - eapply bind_re; [apply set_state_re|]. reflexivity.
  - eapply bind_re; [apply set_dependency_re|]. reflexivity.
  - eapply bind_re; [apply status_re|]. reflexivity.
Qed.
Lemma do_call_catch_re fuel k s :
  do_call_catch cb' m' vnone fuel (re_call n k) (re_state n s) = re_res n same (do_call_catch cb m vnone fuel k s).
Proof. unfold do_call_catch. rewrite do_call_re. now destruct (do_call cb m vnone fuel k s). Qed.
Lemma run_re fuel : forall ks s,
  run cb' m' vnone fuel (map (re_call n) ks) (re_state n s) = re_res n same (run cb m vnone fuel ks s).
Proof.
  induction ks as [|k ks IH]; intros s; [reflexivity|]. cbn [map run]. eapply bind_re; [apply do_call_catch_re|]. intros o s1.
  eapply bind_re; [apply IH|]. reflexivity.
Qed.
Lemma session_re fuel d w ks :
  session cb' m' vnone fuel (n_dep n d) w (map (re_call n) ks) = re_res n same (session cb m vnone fuel d w ks).
Proof. unfold session. eapply bind_re; [apply construct_re|]. intros u s. apply run_re. Qed.
End Run.

(** * Statements *)
(** All that client and user code can see after the calls, under the new names. *)
Definition seen_as {V W} (n : names) (s s' : rt V W) : Prop :=
  rt_cur s' = rt_cur s /\ rt_hist s' = rt_hist s /\ rt_regions s' = rt_regions s /\
  rt_queue s' = map (fun ev => (re_ev n (fst ev), snd ev)) (rt_queue s) /\
  rt_live s' = map (re_sref n) (rt_live s) /\
  rt_world s' = rt_world s /\ rt_trace s' = map (re_called n) (rt_trace s).

Theorem rename_session : forall n, distinct n -> forall env root m, compile env root = Some m ->
  exists m', compile (renamed n env) (n_cls n root) = Some m' /\
  forall V W (cb cb' : cbfun V W) vnone fuel d w ks, user_alike n cb cb' ->
  match session cb m vnone fuel d w ks, session cb' m' vnone fuel (n_dep n d) w (map (re_call n) ks) with
  | Done outs s, Done outs' s' => outs' = outs /\ seen_as n s s'
  | Threw x s, Threw x' s' => x' = x /\ seen_as n s s'
  | Undef u, Undef u' => u' = u
  | Timeout, Timeout => True
  | _, _ => False
  end.
Proof.
  intros n Hn env root m Hm. exists (re_machine n m). split; [now rewrite (compile_re n Hn), Hm|].
  intros V W cb cb' vnone fuel d w ks Hcb. rewrite (session_re n Hn cb cb' Hcb m vnone).
  destruct (session cb m vnone fuel d w ks); cbn; auto; unfold seen_as; cbn; auto 10.
Qed.

Theorem rename_compiles : forall n, distinct n -> forall env root,
  compile (renamed n env) (n_cls n root) = None <-> compile env root = None.
Proof. intros n Hn env root. rewrite (compile_re n Hn). destruct (compile env root); cbn; split; congruence. Qed.

(** Names that can be taken back. *)
Record undone_by (n k : names) : Prop := mkUndone {
  ub_cls : forall a, n_cls k (n_cls n a) = a;
  ub_event : forall a, n_event k (n_event n a) = a;
  ub_gty : forall a, n_gty k (n_gty n a) = a;
  ub_gval : forall a, n_gval k (n_gval n a) = a;
  ub_aty : forall a, n_aty k (n_aty n a) = a;
  ub_fun : forall a, n_fun k (n_fun n a) = a;
  ub_dep : forall a, n_dep k (n_dep n a) = a }.
Theorem rename_user : forall n k, undone_by n k -> distinct n /\
  forall V W (cb : cbfun V W), user_alike n cb (fun c a v w => cb (re_callee k c) (re_args k a) v w).
Proof.
  intros n k [H1 H2 H3 H4 H5 H6 H7]. split.
  - constructor; intros a b E; [rewrite <- (H1 a), <- (H1 b)|rewrite <- (H2 a), <- (H2 b)|rewrite <- (H3 a), <- (H3 b)|rewrite <- (H5 a), <- (H5 b)];
      now rewrite E.
  - intros V W cb c a v w. cbn beta.
    assert (Es : forall s, re_sref k (re_sref n s) = s) by (intros []; cbn; now rewrite ?H1).
    replace (re_callee k (re_callee n c)) with c by (destruct c; cbn; rewrite ?H1, ?H3, ?H4, ?H6; reflexivity).
    replace (re_args k (re_args n a)) with a; [reflexivity|]. destruct a as [e s t d]. unfold re_args. cbn. rewrite Es, H7. f_equal.
    + destruct e; cbn; now rewrite ?H2.
    + destruct t; cbn; now rewrite ?Es.
Qed.
