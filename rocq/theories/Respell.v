(** Spelling of pseudo states.  A map of state references that only exchanges the
    wrappers (state_t<..> against initial_t, direct_t, entry_t, exit_t, history_t)
    turns a program into one whose machine does the same, call for call. *)

From Coq Require Import List Arith NArith Bool Lia.
From Verif Require Import Dsl Types Static Dispatch Runtime.
Import ListNotations.

(** * Renaming the references in a program *)
Definition respell_row (f : sref -> sref) (r : row) : row :=
  mkRow (f (r_src r)) (r_ev r) (r_guard r) (r_act r) (f (r_tgt r)).
Definition respell_def (f : sref -> sref) (d : cdef) : cdef :=
  mkCdef (option_map (map (respell_row f)) (cd_table d)) (cd_internal d) (cd_entry d) (cd_exit d)
         (cd_unexpected d) (cd_defer d) (cd_defctor d).
Definition respell (f : sref -> sref) (env : cenv) : cenv :=
  map (fun cd => (fst cd, respell_def f (snd cd))) env.

(** Only wrappers change. *)
Definition spelling (f : sref -> sref) : Prop := forall s, as_state (f s) = as_state s.
Definition one_to_one (f : sref -> sref) : Prop := forall s t, f s = f t -> s = t.

(** What user code and clients see. *)
Definition respell_targ (f : sref -> sref) (t : targ) : targ :=
  match t with TObj s => TObj (f s) | TPtr s => TPtr (f s) | TNone => TNone end.
Definition respell_args (f : sref -> sref) (a : args) : args :=
  mkArgs (a_ev a) (f (a_src a)) (respell_targ f (a_tgt a)) (a_dep a).
Definition respell_called {V} (f : sref -> sref) (k : called V) : called V :=
  mkCall (k_callee k) (respell_args f (k_args k)) (k_payload k).
Definition respell_call {V} (f : sref -> sref) (k : call V) : call V :=
  match k with
  | KIs r p q => KIs r p (f q)
  | KSet r p q => KSet r p (f q)
  | k => k
  end.
(** The same user code, seeing the objects under their new names. *)
Definition same_user {V W} (f : sref -> sref) (cb cb' : cbfun V W) : Prop :=
  forall c a v w, cb' c (respell_args f a) v w = cb c a v w.

(** * Tables and states *)
Definition fx (f : sref -> sref) (x : xrow) : xrow :=
  mkXrow (x_parent x) (f (x_src x)) (x_ev x) (x_guard x) (x_act x) (f (x_tgt x)) (x_int x).
Definition fm (f : sref -> sref) (m : machine) : machine :=
  mkMachine (respell f (mc_env m)) (mc_root m) (map (fx f) (mc_flat m)).
Definition fpl (f : sref -> sref) (pl : place) : place := (fst pl, f (snd pl)).
Definition ftr (f : sref -> sref) (t : trans) : trans :=
  mkTrans (t_guard t) (t_act t) (f (t_src t)) (f (t_tgt t)) (t_dep t) (t_int t) (t_ptr t).
Definition fen (f : sref -> sref) (e : entry) : entry :=
  mkEntry (en_to e) (en_hist e) (en_defer e) (en_int e) (option_map (ftr f) (en_tr e)).
Definition ftabs (f : sref -> sref) (t : tables) : tables := map (fun p => (fst p, map (map (fen f)) (snd p))) t.
Definition fhand (f : sref -> sref) (h : option (sref * dep)) : option (sref * dep) :=
  option_map (fun p => (f (fst p), snd p)) h.
Definition fhtabs (f : sref -> sref) (t : handler_tables) : handler_tables :=
  map (fun p => (fst p, map (fhand f) (snd p))) t.
Definition frt {V W} (f : sref -> sref) (s : rt V W) : rt V W :=
  mkRt (rt_cur s) (rt_hist s) (rt_queue s) (rt_regions s) (map f (rt_live s)) (ftabs f (rt_tabs s))
       (fhtabs f (rt_htabs s)) (rt_world s) (map (respell_called f) (rt_trace s)).
Definition fres {V W A B} (f : sref -> sref) (g : A -> B) (r : res V W A) : res V W B :=
  match r with
  | Done a s => Done (g a) (frt f s)
  | Threw x s => Threw x (frt f s)
  | Undef u => Undef u
  | Timeout => Timeout
  end.

Section Respell.
Variable f : sref -> sref.
Hypothesis Hf : spelling f.

Ltac shape s := let H := fresh in let t := fresh in
  pose proof (Hf s) as H; remember (f s) as t; destruct s, t; cbn in H |- *; inversion H; subst; clear H; try reflexivity; try congruence.

Lemma f_state c : f (SState c) = SState c.
Proof. pose proof (Hf (SState c)) as H. destruct (f (SState c)); cbn in H; congruence. Qed.
Lemma f_initial s : is_initial (f s) = is_initial s.
Proof. shape s. Qed.
Lemma f_history s : is_history (f s) = is_history s.
Proof. shape s. Qed.
Lemma f_unwrap s : unwrap_initial (f s) = f (unwrap_initial s).
Proof. pose proof (Hf s) as H. destruct s as [c|w c|w p c|w p c|w p c|w p]; destruct (f _) eqn:E; cbn in *; try discriminate; try congruence.
  rewrite f_state. congruence. Qed.
Lemma f_sub s : sub_state_parent (f s) = f (sub_state_parent s).
Proof. pose proof (Hf s) as H. destruct s as [c|w c|w p c|w p c|w p c|w p]; destruct (f _) eqn:E; cbn in *; try discriminate; rewrite ?f_state; congruence. Qed.
Lemma lookup_f env c : lookup (respell f env) c = respell_def f (lookup env c).
Proof. induction env as [|[c' d] env IH]; [reflexivity|]. cbn. destruct (Nat.eq_dec c c'); auto. Qed.
Lemma table_f env c : cd_table (lookup (respell f env) c) = option_map (map (respell_row f)) (cd_table (lookup env c)).
Proof. now rewrite lookup_f. Qed.
Lemma has_table_f env s : has_table (respell f env) (f s) = has_table env s.
Proof.
  unfold has_table, table_of. destruct s; [rewrite f_state, table_f; now destruct (cd_table _)|..];
  match goal with |- context [f ?s] => pose proof (Hf s) as H; destruct (f s); cbn in H; try discriminate; reflexivity end.
Qed.
Ltac by_state s := destruct s; [rewrite f_state; cbn; rewrite ?lookup_f; reflexivity|..];
  match goal with |- context [f ?s] => let H := fresh in pose proof (Hf s) as H; destruct (f s); cbn in H; try discriminate; reflexivity end.
Lemma has_internal_f env s : has_internal (respell f env) (f s) = has_internal env s.
Proof. unfold has_internal, internal_of. by_state s. Qed.
Lemma entry_of_f env s : entry_of (respell f env) (f s) = entry_of env s.
Proof. unfold entry_of. by_state s. Qed.
Lemma exit_of_f env s : exit_of (respell f env) (f s) = exit_of env s.
Proof. unfold exit_of. by_state s. Qed.
Lemma defer_of_f env s : defer_of (respell f env) (f s) = defer_of env s.
Proof. unfold defer_of. by_state s. Qed.
Lemma defctor_f env s : defctor (respell f env) (f s) = defctor env s.
Proof. unfold defctor. by_state s. Qed.

Lemma extend_f c r : extend c (respell_row f r) = fx f (extend c r).
Proof. reflexivity. Qed.
Lemma concat_opt_f (l : list (option (list xrow))) :
  concat_opt (map (option_map (map (fx f))) l) = option_map (map (fx f)) (concat_opt l).
Proof.
  induction l as [|[a|] l IH]; cbn; [reflexivity| |reflexivity]. rewrite IH.
  destruct (concat_opt l); cbn; [now rewrite map_app|reflexivity].
Qed.
Lemma flatten_f env : forall fuel c, flatten fuel (respell f env) c = option_map (map (fx f)) (flatten fuel env c).
Proof.
  induction fuel as [|fuel IH]; intros c; [reflexivity|]. cbn [flatten]. rewrite table_f.
  destruct (cd_table (lookup env c)) as [rows|]; [|reflexivity]. cbn [option_map].
  rewrite <- concat_opt_f. f_equal. rewrite !map_map. apply map_ext. intros r. cbn [respell_row r_tgt].
  rewrite f_sub. destruct (sub_state_parent (r_tgt r)) as [p| | | | |] eqn:E.
  - rewrite f_state. rewrite <- (f_state p) at 1. rewrite has_table_f. destruct (has_table env (SState p)); [|reflexivity].
    rewrite IH. now destruct (flatten fuel env p).
  - match goal with |- context [f ?s] => pose proof (Hf s) as H; destruct (f s); cbn in H; try discriminate; reflexivity end.
  - match goal with |- context [f ?s] => pose proof (Hf s) as H; destruct (f s); cbn in H; try discriminate; reflexivity end.
  - match goal with |- context [f ?s] => pose proof (Hf s) as H; destruct (f s); cbn in H; try discriminate; reflexivity end.
  - match goal with |- context [f ?s] => pose proof (Hf s) as H; destruct (f s); cbn in H; try discriminate; reflexivity end.
  - match goal with |- context [f ?s] => pose proof (Hf s) as H; destruct (f s); cbn in H; try discriminate; reflexivity end.
Qed.

Lemma rows_of_f env c : rows_of (respell f env) c = map (respell_row f) (rows_of env c).
Proof. unfold rows_of. rewrite table_f. now destruct (cd_table _). Qed.
Lemma flat_map_map {A B C} (g : B -> list C) (h : A -> B) l : flat_map g (map h l) = flat_map (fun a => g (h a)) l.
Proof. induction l; cbn; congruence. Qed.
Lemma map_flat_map {A B C} (g : B -> C) (h : A -> list B) l : map g (flat_map h l) = flat_map (fun a => map g (h a)) l.
Proof. induction l; cbn; rewrite ?map_app; congruence. Qed.
Lemma filter_map {A B} (p : B -> bool) (g : A -> B) l : filter p (map g l) = map g (filter (fun a => p (g a)) l).
Proof. induction l as [|a l IH]; [reflexivity|]. cbn. destruct (p (g a)); cbn; now rewrite IH. Qed.
Lemma initials_state env c s : In s (initials env c) -> exists q, s = SState q.
Proof.
  unfold initials. intros H. apply in_map_iff in H. destruct H as (t & <- & H). apply filter_In in H.
  destruct H as [_ H]. destruct t; try discriminate. cbn. eauto.
Qed.
Lemma events_of_f l : events_of (map (fx f) l) = events_of l.
Proof. unfold events_of. now rewrite map_map. Qed.
Lemma existsb_map {A B} (p : B -> bool) (g : A -> B) l : existsb p (map g l) = existsb (fun a => p (g a)) l.
Proof. induction l as [|a l IH]; [reflexivity|]. cbn. now rewrite IH. Qed.
Lemma existsb_ext' {A} (p q : A -> bool) l : (forall a, p a = q a) -> existsb p l = existsb q l.
Proof. intros H. induction l as [|a l IH]; [reflexivity|]. cbn. now rewrite H, IH. Qed.
Ltac both s := let H := fresh in let E := fresh "Ef" in
  pose proof (Hf s) as H; destruct s; destruct (f _) eqn:E; cbn in H; try discriminate; injection H; intros; subst; clear H.
Lemma forallb_map {A B} (p : B -> bool) (g : A -> B) l : forallb p (map g l) = forallb (fun a => p (g a)) l.
Proof. induction l as [|a l IH]; [reflexivity|]. cbn. now rewrite IH. Qed.
Lemma forallb_ext' {A} (p q : A -> bool) l : (forall a, p a = q a) -> forallb p l = forallb q l.
Proof. intros H. induction l as [|a l IH]; [reflexivity|]. cbn. now rewrite H, IH. Qed.
Lemma upd_nth_map {A B} (h : A -> B) (g : A -> A) (g' : B -> B) : (forall a, g' (h a) = h (g a)) ->
  forall n l, upd_nth n g' (map h l) = option_map (map h) (upd_nth n g l).
Proof.
  intros H. induction n as [|n IH]; intros [|a l]; cbn; try reflexivity; [now rewrite H|]. rewrite IH. now destruct (upd_nth n g l).
Qed.
Lemma upd_at_map {A B} (h : A -> B) (g : A -> A) (g' : B -> B) : (forall a, g' (h a) = h (g a)) ->
  forall n l, upd_at n g' (map h l) = option_map (map h) (upd_at n g l).
Proof. intros H n l. unfold upd_at. rewrite map_length. destruct (N.ltb _ _); [now apply upd_nth_map|reflexivity]. Qed.
Lemma nth_at_map {A B} (h : A -> B) n l : nth_at n (map h l) = option_map h (nth_at n l).
Proof. unfold nth_at. rewrite map_length. destruct (N.ltb _ _); [apply nth_error_map|reflexivity]. Qed.
Lemma foldM_map {A B S T} (h : A -> B) (k : S -> T) (g : A -> S -> option S) (g' : B -> T -> option T) :
  (forall a s, g' (h a) (k s) = option_map k (g a s)) ->
  forall l s, foldM g' (map h l) (k s) = option_map k (foldM g l s).
Proof.
  intros H. induction l as [|a l IH]; intros s; cbn; [reflexivity|]. rewrite H. destruct (g a s); cbn; [apply IH|reflexivity].
Qed.
Lemma foldM_same {A S T} (k : S -> T) (g : A -> S -> option S) (g' : A -> T -> option T) :
  (forall a s, g' a (k s) = option_map k (g a s)) ->
  forall l s, foldM g' l (k s) = option_map k (foldM g l s).
Proof.
  intros H. induction l as [|a l IH]; intros s; cbn; [reflexivity|]. rewrite H. destruct (g a s); cbn; [apply IH|reflexivity].
Qed.
Lemma get_table_f t e : get_table (ftabs f t) e = option_map (map (map (fen f))) (get_table t e).
Proof. induction t as [|[e' a] t IH]; cbn; [reflexivity|]. destruct (ev_eq_dec e e'); [reflexivity|apply IH]. Qed.
Lemma get_htable_f t e : get_table (fhtabs f t) e = option_map (map (fhand f)) (get_table t e).
Proof. induction t as [|[e' a] t IH]; cbn; [reflexivity|]. destruct (ev_eq_dec e e'); [reflexivity|apply IH]. Qed.
Lemma push_front_f t e i en : push_front_at (ftabs f t) e i (fen f en) = option_map (ftabs f) (push_front_at t e i en).
Proof.
  induction t as [|[e' a] t IH]; [reflexivity|]. cbn [ftabs map push_front_at fst snd]. destruct (ev_eq_dec e e').
  - rewrite (upd_at_map (map (fen f)) (cons en)) by reflexivity. now destruct (upd_at i (cons en) a).
  - unfold ftabs in IH. rewrite IH. now destruct (push_front_at t e i en).
Qed.
Lemma filter_ev_f e l : filter_ev e (map (fx f) l) = map (fx f) (filter_ev e l).
Proof. unfold filter_ev. now rewrite filter_map. Qed.
Lemma f_plain s c : f s = SState c -> s = SState c.
Proof. pose proof (Hf s) as H. intros E. rewrite E in H. destruct s; cbn in H; congruence. Qed.

Variable m : machine.
Notation m' := (fm f m).
Notation env := (mc_env m).
Notation env' := (respell f (mc_env m)).
Lemma parents_f : parents m' = parents m.
Proof. unfold parents. cbn [mc_flat fm]. now rewrite map_map. Qed.
Lemma n_parents_f : n_parents m' = n_parents m.
Proof. unfold n_parents. now rewrite parents_f. Qed.
Lemma has_anonymous_f : has_anonymous m' = has_anonymous m.
Proof. unfold has_anonymous. cbn [fm mc_flat]. now rewrite existsb_map. Qed.
Lemma has_history_f : has_history m' = has_history m.
Proof. unfold has_history. cbn [fm mc_flat]. rewrite existsb_map. apply existsb_ext'. intros x. apply f_history. Qed.
Lemma parent_idx_f p : parent_idx m' p = parent_idx m p.
Proof. unfold parent_idx. now rewrite parents_f. Qed.
Lemma has_table_state c : has_table env' (SState c) = has_table env (SState c).
Proof. rewrite <- (f_state c) at 1. apply has_table_f. Qed.
Lemma resolve_src_f x : resolve_src (fx f x) = f (resolve_src x).
Proof.
  unfold resolve_src. cbn [fx x_src]. both (x_src x); rewrite ?f_state; congruence.
Qed.
Lemma resolve_src_parent_f x : resolve_src_parent (fx f x) = resolve_src_parent x.
Proof. unfold resolve_src_parent. cbn [fx x_src x_parent]. both (x_src x); reflexivity. Qed.
Lemma resolve_history_f x : resolve_history (fx f x) = resolve_history x.
Proof. apply f_history. Qed.
Lemma exit_of_state c : exit_of env' (SState c) = exit_of env (SState c).
Proof. rewrite <- (f_state c) at 1. apply exit_of_f. Qed.
Lemma pseudo_exit_of_f x : pseudo_exit_of env' (fx f x) = pseudo_exit_of env x.
Proof. unfold pseudo_exit_of. cbn [fx x_src]. both (x_src x); try reflexivity. apply exit_of_state. Qed.
Lemma unwrap_defer s : defer_of env' (unwrap_initial (f s)) = defer_of env (unwrap_initial s).
Proof. rewrite f_unwrap. apply defer_of_f. Qed.
Lemma deferring_f : deferring m' = map (fx f) (deferring m).
Proof.
  unfold deferring. cbn [fm mc_flat mc_env]. rewrite filter_map. f_equal. apply filter_ext. intros x.
  cbn [fx x_src]. now rewrite unwrap_defer.
Qed.
Lemma deferred_events_f x : deferred_events m' (fx f x) = deferred_events m x.
Proof. unfold deferred_events. cbn [fm mc_env fx x_src]. now rewrite unwrap_defer. Qed.
Lemma has_deferred_f : has_deferred m' = has_deferred m.
Proof. unfold has_deferred. now rewrite deferring_f, map_length. Qed.


(** ** Resolution, when the initial states are the same *)
Section Resolve.
Hypothesis Hinit : forall c, initials env' c = initials env c.
Lemma initials_map c : map f (initials env c) = initials env c.
Proof.
  rewrite <- map_id. apply map_ext_in. intros s H. apply initials_state in H. destruct H as [q ->]. apply f_state.
Qed.
Lemma hd_map {A B} (g : A -> B) l : hd_error (map g l) = option_map g (hd_error l).
Proof. now destruct l. Qed.
Lemma hd_initials c : hd_error (initials env c) = option_map f (hd_error (initials env c)).
Proof. now rewrite <- hd_map, initials_map. Qed.
Lemma resolve_dst_f x : resolve_dst env' (fx f x) = option_map f (resolve_dst env x).
Proof.
  unfold resolve_dst. cbn [fx x_tgt]. both (x_tgt x).
  - rewrite has_table_state, Hinit. destruct (has_table env _); [apply hd_initials|]. cbn. now rewrite f_state.
  - cbn. now rewrite f_state.
  - cbn. now rewrite f_state.
  - cbn. now rewrite f_state.
  - cbn. now rewrite Ef.
  - rewrite Hinit. apply hd_initials.
Qed.
Lemma resolve_dst_parent_f x : resolve_dst_parent env' (fx f x) = resolve_dst_parent env x.
Proof.
  unfold resolve_dst_parent. cbn [fx x_tgt x_parent]. both (x_tgt x); try reflexivity. now rewrite has_table_state.
Qed.
Lemma initial_entry_of_f t : initial_entry_of env' (f t) = initial_entry_of env t.
Proof.
  unfold initial_entry_of. both t; try reflexivity. rewrite has_table_state, Hinit.
  match goal with |- context [initials env ?k] => generalize (initials_state env k); destruct (has_table env (SState k)); [|reflexivity];
    destruct (initials env k) as [|s l]; [reflexivity|] end.
  intros Hs. destruct (Hs s (or_introl eq_refl)) as [q ->]. cbn [hd_error]. rewrite <- (f_state q) at 1. apply entry_of_f.
Qed.
Lemma has_action_f x : has_action env' (fx f x) = has_action env x.
Proof.
  unfold has_action. rewrite pseudo_exit_of_f. cbn [fx x_src x_tgt x_act].
  now rewrite entry_of_f, initial_entry_of_f, exit_of_f.
Qed.
Lemma resolve_action_f x : resolve_action env' (fx f x) = resolve_action env x.
Proof.
  unfold resolve_action, resolve_exit_action, resolve_entry_action, resolve_initial_entry_action.
  rewrite has_action_f, pseudo_exit_of_f. cbn [fx x_src x_tgt x_act x_int].
  now rewrite entry_of_f, initial_entry_of_f, exit_of_f.
Qed.
End Resolve.

(** ** One-to-one respelling *)
Hypothesis Hi : one_to_one f.

Lemma f_dec {A} s t (a b : A) : (if sref_eq_dec (f s) (f t) then a else b) = if sref_eq_dec s t then a else b.
Proof. destruct (sref_eq_dec (f s) (f t)), (sref_eq_dec s t); subst; try congruence. exfalso; auto. Qed.
Lemma f_in {A} s l (a b : A) : (if in_dec sref_eq_dec (f s) (map f l) then a else b) = if in_dec sref_eq_dec s l then a else b.
Proof.
  destruct (in_dec sref_eq_dec (f s) (map f l)) as [H|H], (in_dec sref_eq_dec s l) as [H'|H']; try reflexivity; exfalso.
  - apply in_map_iff in H. destruct H as (t & E & Ht). apply Hi in E. now subst.
  - apply H. now apply in_map.
Qed.
Lemma f_in_state {A} c l (a b : A) :
  (if in_dec sref_eq_dec (SState c) (map f l) then a else b) = if in_dec sref_eq_dec (SState c) l then a else b.
Proof. pose proof (f_in (SState c) l a b) as H. now rewrite f_state in H. Qed.

Lemma unique_inj {A} (dec : forall a b : A, {a = b} + {a <> b}) (g : A -> A) : (forall a b, g a = g b -> a = b) ->
  forall l seen, unique_acc dec (map g seen) (map g l) = map g (unique_acc dec seen l).
Proof.
  intros Hg. induction l as [|a l IH]; intros seen; [reflexivity|]. cbn [map unique_acc].
  destruct (in_dec dec (g a) (map g seen)) as [H|H], (in_dec dec a seen) as [H'|H'].
  - apply IH.
  - exfalso. apply in_map_iff in H. destruct H as (b & E & Hb). apply Hg in E. now subst.
  - exfalso. apply H. now apply in_map.
  - cbn [map]. rewrite <- (IH (a :: seen)). reflexivity.
Qed.
Lemma unique_f l : unique sref_eq_dec (map f l) = map f (unique sref_eq_dec l).
Proof. apply (unique_inj sref_eq_dec f Hi l []). Qed.
Lemma fpl_inj a b : fpl f a = fpl f b -> a = b.
Proof. destruct a, b. unfold fpl. cbn. intros E. injection E as -> E. apply Hi in E. now subst. Qed.
Lemma unique_fpl l : unique place_eq_dec (map (fpl f) l) = map (fpl f) (unique place_eq_dec l).
Proof. apply (unique_inj place_eq_dec (fpl f) fpl_inj l []). Qed.
Lemma index_inj {A} (dec : forall a b : A, {a = b} + {a <> b}) (g : A -> A) : (forall a b, g a = g b -> a = b) ->
  forall l x, index_of dec (map g l) (g x) = index_of dec l x.
Proof.
  intros Hg l x. unfold index_of. rewrite map_length. f_equal. generalize (N.of_nat (length l)) as size. generalize 0%N as i.
  induction l as [|a l IH]; intros i size; [reflexivity|]. cbn [map idx_sum]. rewrite IH.
  destruct (dec (g x) (g a)), (dec x a); subst; try congruence. exfalso; auto.
Qed.

Lemma child_states_f env c : child_states (respell f env) c = map f (child_states env c).
Proof. unfold child_states. rewrite rows_of_f, <- unique_f, flat_map_map, map_flat_map. reflexivity. Qed.
Lemma child_typeids_f env c : child_typeids (respell f env) c = map f (child_typeids env c).
Proof.
  unfold child_typeids. rewrite rows_of_f, <- unique_f, flat_map_map, map_flat_map. f_equal.
  apply flat_map_ext. intros r. cbn. now rewrite f_unwrap.
Qed.
Lemma initials_f env c : initials (respell f env) c = map f (initials env c).
Proof.
  unfold initials. rewrite child_states_f, filter_map, !map_map.
  rewrite (filter_ext _ is_initial f_initial). apply map_ext. intros s. now rewrite f_unwrap.
Qed.
Lemma initials_same env c : initials (respell f env) c = initials env c.
Proof.
  rewrite initials_f. rewrite <- (map_id (initials env c)) at 2. apply map_ext_in. intros s H.
  apply initials_state in H. destruct H as [q ->]. apply f_state.
Qed.
Lemma resolve_dst_e x : resolve_dst env' (fx f x) = option_map f (resolve_dst env x).
Proof. apply resolve_dst_f. apply initials_same. Qed.
Lemma resolve_action_e x : resolve_action env' (fx f x) = resolve_action env x.
Proof. apply resolve_action_f. apply initials_same. Qed.
Lemma child_rec_f : child_states_rec m' = map f (child_states_rec m).
Proof.
  unfold child_states_rec. cbn [mc_flat fm]. rewrite <- unique_f, flat_map_map, map_flat_map. f_equal.
  apply flat_map_ext. intros r. cbn. now rewrite f_unwrap.
Qed.
Lemma states_f : states m' = map f (states m).
Proof. unfold states. rewrite child_rec_f, map_app. cbn. now rewrite f_state. Qed.
Lemma n_states_f : n_states m' = n_states m.
Proof. unfold n_states. now rewrite states_f, map_length. Qed.
Lemma pairs_f : state_pairs m' = map (fpl f) (state_pairs m).
Proof.
  unfold state_pairs. rewrite <- unique_fpl. f_equal. cbn [mc_flat fm map mc_root].
  change (fpl f (mc_root m, SState (mc_root m))) with (mc_root m, f (SState (mc_root m))). rewrite f_state. f_equal.
  rewrite flat_map_map, map_flat_map. apply flat_map_ext. intros x. cbn. now rewrite f_unwrap.
Qed.
Lemma internal_of_pair_f pr : internal_of_pair env' (fpl f pr) = map (fx f) (internal_of_pair env pr).
Proof.
  destruct pr as [p s]. unfold internal_of_pair, fpl. cbn [fst snd]. destruct s;
   [|match goal with |- context [f ?s] => pose proof (Hf s) as H; destruct (f s); cbn in H; try discriminate; reflexivity end..].
  rewrite f_state, lookup_f. cbn [respell_def cd_internal]. destruct (cd_internal (lookup env c)) as [is|]; [|reflexivity].
  rewrite map_flat_map. apply flat_map_ext. intros i.
  rewrite <- (f_state c) at 1. rewrite has_table_f. destruct (has_table env (SState c)).
  - rewrite child_states_f, !map_map. reflexivity.
  - unfold fx. cbn. now rewrite f_state.
Qed.
Definition fkey (k : xkey) : xkey :=
  let '(p, s, e, g, a, t) := k in (p, f s, e, g, a, f t).
Lemma fkey_inj a b : fkey a = fkey b -> a = b.
Proof.
  destruct a as [[[[[p s] e] g] a] t], b as [[[[[p2 s2] e2] g2] a2] t2]. cbn. intros E. injection E as -> E1 -> -> -> E2.
  apply Hi in E1. apply Hi in E2. now subst.
Qed.
Lemma key_f x : xrow_key (fx f x) = fkey (xrow_key x).
Proof. reflexivity. Qed.
Lemma unique_by_f l : forall seen, unique_by_acc xkey_eq_dec xrow_key (map fkey seen) (map (fx f) l) =
  map (fx f) (unique_by_acc xkey_eq_dec xrow_key seen l).
Proof.
  induction l as [|a l IH]; intros seen; [reflexivity|]. cbn [map unique_by_acc]. rewrite key_f.
  destruct (in_dec xkey_eq_dec (fkey (xrow_key a)) (map fkey seen)) as [H|H], (in_dec xkey_eq_dec (xrow_key a) seen) as [H'|H'].
  - apply IH.
  - exfalso. apply in_map_iff in H. destruct H as (b & E & Hb). apply fkey_inj in E. now subst.
  - exfalso. apply H. now apply in_map.
  - cbn [map]. rewrite <- (IH (xrow_key a :: seen)). reflexivity.
Qed.
Lemma internal_flat_f : internal_flat m' = map (fx f) (internal_flat m).
Proof.
  unfold internal_flat, unique_by. rewrite pairs_f. cbn [fm mc_env]. rewrite <- (unique_by_f _ []). cbn [map]. f_equal.
  rewrite flat_map_map, map_flat_map. apply flat_map_ext. apply internal_of_pair_f.
Qed.
Lemma events_f : events m' = events m.
Proof. unfold events. cbn [fm mc_flat]. now rewrite internal_flat_f, <- map_app, events_of_f. Qed.
Lemma max_initials_f : max_initials m' = max_initials m.
Proof. unfold max_initials. rewrite parents_f. f_equal. apply map_ext. intros p. cbn [fm mc_env]. now rewrite initials_same. Qed.
Lemma parallel_f : parallel m' = parallel m.
Proof. unfold parallel. now rewrite max_initials_f. Qed.
Lemma list_prod_f (l : list cls) k : list_prod l (map f k) = map (fpl f) (list_prod l k).
Proof. induction l as [|a l IH]; [reflexivity|]. cbn. rewrite map_app, IH, !map_map. reflexivity. Qed.
Lemma combined_f p s : combined_idx m' p (f s) = combined_idx m p s.
Proof.
  unfold combined_idx. rewrite parents_f, states_f, list_prod_f.
  apply (index_inj place_eq_dec (fpl f) fpl_inj _ (p, s)).
Qed.
Lemma combined_state p c : combined_idx m' p (SState c) = combined_idx m p (SState c).
Proof. rewrite <- (f_state c) at 1. apply combined_f. Qed.
Lemma state_idx_f s : state_idx m' (f s) = state_idx m s.
Proof. unfold state_idx. rewrite states_f. apply (index_inj sref_eq_dec f Hi). Qed.

Lemma row_accepted_f x : row_accepted m' (fx f x) = row_accepted m x.
Proof.
  unfold row_accepted. cbn [fm mc_env]. rewrite resolve_dst_e. destruct (resolve_dst env x) as [d|]; [|reflexivity]. cbn [option_map].
  fold (fm f m). rewrite states_f, f_in, resolve_src_f, f_in, defctor_f. cbn [fx x_tgt x_act]. do 2 f_equal.
  both (x_tgt x); try reflexivity. now rewrite has_table_state.
Qed.
Lemma accepted_f : accepted m' = accepted m.
Proof.
  unfold accepted. rewrite internal_flat_f, max_initials_f, events_f, deferring_f, child_rec_f, n_parents_f, n_states_f.
  cbn [fm mc_env mc_root mc_flat]. fold (fm f m). rewrite initials_f, table_f, map_length, <- map_app, !forallb_map.
  rewrite (forallb_ext' (fun a => negb (has_table env' (f a))) (fun s => negb (has_table env s))) by (intros; now rewrite has_table_f).
  rewrite (forallb_ext' (fun a => negb (has_internal env' (f a))) (fun s => negb (has_internal env s))) by (intros; now rewrite has_internal_f).
  rewrite (forallb_ext' (fun a => row_accepted m' (fx f a)) (row_accepted m)) by apply row_accepted_f.
  rewrite (forallb_ext' (fun a => forallb (fun e => if in_dec ev_eq_dec e (events m) then true else false) (deferred_events m' (fx f a)))
    (fun x => forallb (fun e => if in_dec ev_eq_dec e (events m) then true else false) (deferred_events m x))) by (intros; now rewrite deferred_events_f).
  rewrite f_in_state.
  now destruct (cd_table (lookup env (mc_root m))).
Qed.

Lemma entry_of_row_f d x src dst : entry_of_row m' d (fx f x) (f src) (f dst) = fen f (entry_of_row m d x src dst).
Proof.
  unfold entry_of_row. rewrite combined_f. cbn [fm mc_env].
  rewrite resolve_dst_parent_f, resolve_history_f, resolve_action_e, defctor_f. reflexivity.
Qed.
Lemma entry_of_row_state d x c dst : entry_of_row m' d (fx f x) (SState c) (f dst) = fen f (entry_of_row m d x (SState c) dst).
Proof. rewrite <- entry_of_row_f. now rewrite f_state. Qed.
Lemma add_entry_f d x t : add_entry m' d (fx f x) (ftabs f t) = option_map (ftabs f) (add_entry m d x t).
Proof.
  unfold add_entry. cbn [fm mc_env]. rewrite resolve_dst_e. destruct (resolve_dst env x) as [dst|]; [|reflexivity]. cbn [option_map].
  fold (fm f m). rewrite resolve_src_f, resolve_src_parent_f, combined_f, entry_of_row_f. apply push_front_f.
Qed.
Lemma add_exits_f d x t : add_exits m' d (fx f x) (ftabs f t) = option_map (ftabs f) (add_exits m d x t).
Proof.
  unfold add_exits. cbn [fm mc_env]. rewrite resolve_dst_e. cbn [fx x_int x_src x_ev]. destruct (x_int x); [reflexivity|].
  fold (fm f m) (fx f x). both (x_src x); try (now destruct (resolve_dst env x)).
  destruct (resolve_dst env x) as [dst|]; [|reflexivity]. cbn [option_map].
  rewrite has_table_state. match goal with |- context [has_table env ?c] => destruct (has_table env c); [|reflexivity] end.
  rewrite child_typeids_f. apply foldM_map. intros ch t'. rewrite combined_f, <- push_front_f.
  f_equal. apply entry_of_row_state.
Qed.
Lemma add_row_f d x t : add_row m' d (fx f x) (ftabs f t) = option_map (ftabs f) (add_row m d x t).
Proof. unfold add_row. rewrite add_entry_f. destruct (add_entry m d x t); [apply add_exits_f|reflexivity]. Qed.
Lemma fill_transitions_f d l t :
  fill_transitions m' d (map (fx f) l) (ftabs f t) = option_map (ftabs f) (fill_transitions m d l t).
Proof.
  unfold fill_transitions. rewrite events_of_f. apply foldM_same. intros e s. rewrite filter_ev_f. apply foldM_map.
  intros x t'. apply add_row_f.
Qed.
Lemma fill_deferred_f t : fill_deferred m' (ftabs f t) = option_map (ftabs f) (fill_deferred m t).
Proof.
  unfold fill_deferred. rewrite deferring_f. apply foldM_map. intros x s. rewrite deferred_events_f. apply foldM_same.
  intros e t'. rewrite resolve_src_f, resolve_src_parent_f, combined_f, <- push_front_f. reflexivity.
Qed.
Lemma fill_dispatch_f d t : fill_dispatch m' d (ftabs f t) = option_map (ftabs f) (fill_dispatch m d t).
Proof.
  unfold fill_dispatch. rewrite internal_flat_f, fill_transitions_f. destruct (fill_transitions m d (internal_flat m) t) as [t1|]; [|reflexivity].
  cbn [option_map]. change (mc_flat m') with (map (fx f) (mc_flat m)). rewrite fill_transitions_f.
  destruct (fill_transitions m d (mc_flat m) t1) as [t2|]; [|reflexivity]. apply fill_deferred_f.
Qed.
Lemma map_repeat {A B} (g : A -> B) a n : map g (repeat a n) = repeat (g a) n.
Proof. induction n; cbn; congruence. Qed.
Lemma empty_tables_f : empty_tables m' = ftabs f (empty_tables m).
Proof.
  unfold empty_tables, ftabs. rewrite events_f, n_states_f, n_parents_f, map_map. apply map_ext. intros e. cbn [fst snd].
  now rewrite map_repeat.
Qed.
Lemma fill_handlers_f d : fill_handlers m' d = option_map (fhtabs f) (fill_handlers m d).
Proof.
  unfold fill_handlers, handler_places. rewrite events_f, n_states_f, n_parents_f, parents_f, states_f, list_prod_f.
  refine (foldM_same (fhtabs f) _ _ _ (events m) []). intros e t.
  match goal with |- context [repeat None ?n] => replace (repeat (@None (sref * dep)) n) with (map (fhand f) (repeat None n)) at 1 by (now rewrite map_repeat) end.
  rewrite (foldM_map (fpl f) (map (fhand f)) (fun (pr : place) arr => upd_at (combined_idx m (fst pr) (snd pr)) (fun _ => Some (snd pr, d)) arr)).
  - destruct (foldM _ _ _); [|reflexivity]. cbn [option_map]. unfold fhtabs. now rewrite map_app.
  - intros pr arr. cbn [fpl fst snd]. rewrite combined_f. now apply upd_at_map.
Qed.
Lemma initial_table_f : initial_table m' = initial_table m.
Proof.
  unfold initial_table. rewrite parents_f. apply map_ext. intros p. cbn [fm mc_env]. fold (fm f m).
  rewrite initials_f, map_map. apply map_ext. intros s. apply combined_f.
Qed.
End Respell.

(** * Compilation *)
Lemma compile_f f (Hf : spelling f) (Hi : one_to_one f) env root :
  compile (respell f env) root = option_map (fm f) (compile env root).
Proof.
  unfold compile. rewrite (flatten_f f Hf). unfold respell at 1. rewrite map_length.
  destruct (flatten (S (length env)) env root) as [fl|]; [|reflexivity]. cbn [option_map].
  change (mkMachine (respell f env) root (map (fx f) fl)) with (fm f (mkMachine env root fl)).
  rewrite (accepted_f f Hf _ Hi). now destruct (accepted _).
Qed.

(** * Running *)
Section Run.
Variable f : sref -> sref.
Hypothesis Hf : spelling f.
Hypothesis Hi : one_to_one f.
Context {V W : Type}.
Variable cb cb' : cbfun V W.
Hypothesis Hcb : same_user f cb cb'.
Variable m : machine.
Notation m' := (fm f m).
Variable vnone : V.

Lemma bind_f {A A' B B'} (g : A -> A') (h : B -> B') (r : res V W A) (r' : res V W A') k k' :
  r' = fres f g r -> (forall a s, k' (g a) (frt f s) = fres f h (k a s)) -> bind r' k' = fres f h (bind r k).
Proof. intros -> H. destruct r; cbn; auto. Qed.
Definition same {A} (a : A) : A := a.
Lemma invoke_f c a v s : invoke cb' c (respell_args f a) v (frt f s) = fres f same (invoke cb c a v s).
Proof.
  unfold invoke. cbn [frt rt_world rt_trace]. rewrite Hcb. destruct (cb c a v (rt_world s)); cbn;
  unfold frt, with_user; cbn; now rewrite map_app.
Qed.
Lemma alive_f (s : rt V W) o : alive (frt f s) (f o) = alive s o.
Proof. unfold alive. cbn [frt rt_live]. now apply f_in. Qed.
Lemma execute_guard_f t e v s : execute_guard cb' (ftr f t) e v (frt f s) = fres f same (execute_guard cb t e v s).
Proof.
  unfold execute_guard. cbn [ftr t_guard t_int t_src t_tgt t_dep]. destruct (t_guard t) as [|ty val]; [reflexivity|].
  destruct (t_int t); rewrite !alive_f; (destruct (_ && _); [|reflexivity]); rewrite <- invoke_f; reflexivity.
Qed.
Lemma action_args_f t e : action_args (ftr f t) e = respell_args f (action_args t e).
Proof. unfold action_args, respell_args. cbn. now destruct (t_ptr t), (t_int t). Qed.
Lemma set_live_f (s : rt V W) o b : set_live (frt f s) (f o) b = frt f (set_live s o b).
Proof.
  unfold set_live, with_live, frt. cbn. f_equal. destruct b.
  - rewrite (f_in f Hi). now destruct (in_dec sref_eq_dec o (rt_live s)).
  - rewrite filter_map. f_equal. apply filter_ext. intros x. now apply f_dec.
Qed.
Lemma keep_f r r' : r' = fres f same r -> keep_payload (V:=V) (W:=W) r' = fres f same (keep_payload r).
Proof. intros ->. now destruct r. Qed.
Fixpoint exec_body_f b t e v s {struct b} : exec_body cb' b (ftr f t) e v (frt f s) = fres f same (exec_body cb b t e v s).
Proof.
  destruct b as [g|g|g|l]; cbn [exec_body].
  - rewrite action_args_f. apply keep_f. apply invoke_f.
  - eapply bind_f; [apply (invoke_f (CFactory g) (mkArgs e (t_src t) TNone (t_dep t)))|]. intros a s'. cbn. now rewrite set_live_f.
  - cbn [ftr t_tgt t_src t_dep]. rewrite alive_f. destruct (alive s (t_tgt t)); [|reflexivity]. unfold drop_payload.
    eapply bind_f; [apply (invoke_f (CReuse g) (mkArgs e (t_src t) (TObj (t_tgt t)) (t_dep t)))|]. reflexivity.
  - revert v s. induction l as [|b l IH]; intros v s; [reflexivity|].
    eapply bind_f; [apply exec_body_f|]. intros a s'. apply IH.
Qed.
Lemma exec_step_f st t e v s : exec_step cb' st (ftr f t) e v (frt f s) = fres f same (exec_step cb st t e v s).
Proof.
  destruct st; cbn [exec_step]; rewrite ?action_args_f; try (apply keep_f; apply invoke_f). apply exec_body_f.
Qed.
Lemma exec_steps_f l t e : forall v s, exec_steps cb' l (ftr f t) e v (frt f s) = fres f same (exec_steps cb l t e v s).
Proof.
  induction l as [|st l IH]; intros v s; [reflexivity|]. cbn [exec_steps]. eapply bind_f; [apply exec_step_f|]. intros a s'. apply IH.
Qed.
Lemma execute_action_f t e v s : execute_action cb' (ftr f t) e v (frt f s) = fres f same (execute_action cb t e v s).
Proof.
  unfold execute_action. cbn [ftr t_act t_src t_tgt t_int t_ptr]. destruct (t_act t) as [l|]; [|reflexivity].
  rewrite !alive_f. destruct (_ && _); [apply exec_steps_f|reflexivity].
Qed.
Lemma read_cur_f (s : rt V W) r : read_cur (frt f s) r = fres f same (read_cur s r).
Proof. unfold read_cur. cbn [frt rt_cur]. destruct (nth_error (rt_cur s) r) as [[c|]|]; reflexivity. Qed.
Lemma at_cur_f (s : rt V W) r : at_cur (frt f s) r = fres f same (at_cur s r).
Proof. unfold at_cur. cbn [frt rt_cur]. destruct (nth_error (rt_cur s) r) as [[c|]|]; reflexivity. Qed.
Lemma write_cur_f (s : rt V W) r c : write_cur (frt f s) r c = fres f same (write_cur s r c).
Proof. unfold write_cur. cbn [frt rt_cur]. now destruct (upd_nth _ _ (rt_cur s)). Qed.
Lemma current_parent_f (s : rt V W) : current_parent m' (frt f s) = fres f same (current_parent m s).
Proof. unfold current_parent. rewrite n_states_f by assumption. eapply bind_f; [apply read_cur_f|reflexivity]. Qed.
Lemma current_state_f (s : rt V W) r : current_state m' (frt f s) r = fres f same (current_state m s r).
Proof. unfold current_state. rewrite n_states_f by assumption. eapply bind_f; [apply at_cur_f|reflexivity]. Qed.
Lemma update_current_regions_f (s : rt V W) : update_current_regions m' (frt f s) = fres f same (update_current_regions m s).
Proof.
  unfold update_current_regions. rewrite parallel_f, initial_table_f by assumption. destruct (parallel m); [|reflexivity].
  eapply bind_f; [apply current_parent_f|]. intros p s'. unfold same. now destruct (nth_at p (initial_table m)).
Qed.
Lemma current_regions_f (s : rt V W) : current_regions m' (frt f s) = current_regions m s.
Proof. unfold current_regions. now rewrite parallel_f by assumption. Qed.
Lemma write_hist_f (s : rt V W) p r c : write_hist (frt f s) p r c = fres f same (write_hist s p r c).
Proof.
  unfold write_hist. cbn [frt rt_hist]. destruct (nth_at p (rt_hist s)) as [l|]; [|reflexivity].
  destruct (upd_nth _ _ l) as [l'|]; [|reflexivity]. now destruct (upd_at _ _ (rt_hist s)).
Qed.
Lemma read_hist_f (s : rt V W) p r : read_hist (frt f s) p r = fres f same (read_hist s p r).
Proof.
  unfold read_hist. cbn [frt rt_hist]. destruct (nth_at p (rt_hist s)) as [l|]; [|reflexivity]. now destruct (nth_error l r).
Qed.
Lemma update_current_state_f r en (s : rt V W) :
  update_current_state m' r (fen f en) (frt f s) = fres f same (update_current_state m r en s).
Proof.
  unfold update_current_state. rewrite has_history_f, n_states_f by assumption. cbn [fen en_int en_hist en_to].
  destruct (en_int en); [reflexivity|]. eapply bind_f; [|intros; apply update_current_regions_f].
  destruct (has_history m); [|apply write_cur_f].
  eapply bind_f; [apply current_parent_f|]. intros p s1. eapply bind_f; [apply read_cur_f|]. intros c s2.
  eapply bind_f; [apply write_hist_f|]. intros _ s3. destruct (en_hist en); [|apply write_cur_f].
  eapply bind_f; [apply read_hist_f|]. intros c' s4. apply write_cur_f.
Qed.
Lemma get_entries_f e r (s : rt V W) : get_entries e r (frt f s) = fres f (map (fen f)) (get_entries e r s).
Proof.
  unfold get_entries. cbn [frt rt_tabs]. rewrite get_table_f. destruct (get_table (rt_tabs s) e) as [arr|]; [|reflexivity].
  cbn [option_map]. eapply bind_f; [apply read_cur_f|]. intros c s'. unfold same. rewrite nth_at_map.
  now destruct (nth_at c arr).
Qed.
Lemma try_entries_f r e : forall ens v s,
  try_entries cb' m' (map (fen f) ens) r e v (frt f s) = fres f same (try_entries cb m ens r e v s).
Proof.
  induction ens as [|en ens IH]; intros v s; [reflexivity|]. cbn [map try_entries].
  destruct (en_defer en) eqn:Ed; cbn [fen en_defer en_tr]; rewrite Ed; [reflexivity|].
  destruct (en_tr en) as [t|]; [|reflexivity]. cbn [option_map].
  eapply bind_f; [apply execute_guard_f|]. intros bv s1. unfold same at 1 2. destruct (fst bv); [|apply IH].
  eapply bind_f; [apply (update_current_state_f r en)|]. intros u s2.
  eapply bind_f; [apply execute_action_f|]. reflexivity.
Qed.
Lemma try_region_f r e v s : try_region cb' m' r e v (frt f s) = fres f same (try_region cb m r e v s).
Proof.
  unfold try_region. eapply bind_f; [apply get_entries_f|]. intros [|en ens] s1; [reflexivity|]. cbn [map].
  change (fen f en :: map (fen f) ens) with (map (fen f) (en :: ens)).
  eapply bind_f; [apply try_entries_f|]. reflexivity.
Qed.
Lemma region_loop_f e limit : forall fuel r agf ati v s,
  region_loop cb' m' fuel limit r agf ati e v (frt f s) = fres f same (region_loop cb m fuel limit r agf ati e v s).
Proof.
  induction fuel as [|fuel IH]; intros r agf ati v s; [reflexivity|]. cbn [region_loop]. destruct (Nat.ltb r limit); [|reflexivity].
  eapply bind_f; [apply try_region_f|]. intros [[[]|] v'] s1; cbn [same fst snd]; try apply IH. reflexivity.
Qed.
Lemma try_anonymous_f r : forall ens v s,
  try_anonymous cb' m' (map (fen f) ens) r v (frt f s) = fres f same (try_anonymous cb m ens r v s).
Proof.
  induction ens as [|en ens IH]; intros v s; [reflexivity|]. cbn [map try_anonymous].
  cbn [fen en_tr]. destruct (en_tr en) as [t|]; [|reflexivity]. cbn [option_map].
  eapply bind_f; [apply execute_guard_f|]. intros bv s1. unfold same at 1 2. destruct (fst bv); [|apply IH].
  eapply bind_f; [apply (update_current_state_f r en)|]. intros u s2.
  eapply bind_f; [apply execute_action_f|]. reflexivity.
Qed.
Lemma anonymous_region_f r v s : anonymous_region cb' m' r v (frt f s) = fres f same (anonymous_region cb m r v s).
Proof.
  unfold anonymous_region. eapply bind_f; [apply get_entries_f|]. intros [|en ens] s1; [reflexivity|]. cbn [map].
  change (fen f en :: map (fen f) ens) with (map (fen f) (en :: ens)).
  eapply bind_f; [apply try_anonymous_f|]. reflexivity.
Qed.
Lemma anonymous_pass_f limit : forall fuel r agf v s,
  anonymous_pass cb' m' fuel limit r agf v (frt f s) = fres f same (anonymous_pass cb m fuel limit r agf v s).
Proof.
  induction fuel as [|fuel IH]; intros r agf v s; [reflexivity|]. cbn [anonymous_pass]. destruct (Nat.ltb r limit); [|reflexivity].
  eapply bind_f; [apply anonymous_region_f|]. intros [[b|] v'] s1; cbn [same fst snd]; [apply IH|reflexivity].
Qed.
Lemma anonymous_loop_f rfuel : forall fuel v s,
  anonymous_loop cb' m' rfuel fuel v (frt f s) = fres f same (anonymous_loop cb m rfuel fuel v s).
Proof.
  induction fuel as [|fuel IH]; intros v s; [reflexivity|]. cbn [anonymous_loop]. rewrite current_regions_f.
  eapply bind_f; [apply anonymous_pass_f|]. intros [[[]|] v'] s1; cbn [same fst snd]; try reflexivity. apply IH.
Qed.
Lemma process_anonymous_f fuel s : process_anonymous cb' m' vnone fuel (frt f s) = fres f same (process_anonymous cb m vnone fuel s).
Proof. unfold process_anonymous. rewrite has_anonymous_f by assumption. destruct (has_anonymous m); [apply anonymous_loop_f|reflexivity]. Qed.
Lemma process_internal_f fuel e v s :
  process_event_internal cb' m' vnone fuel e v (frt f s) = fres f same (process_event_internal cb m vnone fuel e v s).
Proof.
  unfold process_event_internal. rewrite current_regions_f. eapply bind_f; [apply region_loop_f|].
  intros [[] v'] s1; cbn [same fst snd]; try reflexivity. eapply bind_f; [apply process_anonymous_f|]. reflexivity.
Qed.
Lemma process_deferred_f fuel s : process_deferred cb' m' vnone fuel (frt f s) = fres f same (process_deferred cb m vnone fuel s).
Proof.
  unfold process_deferred. rewrite has_deferred_f by assumption. destruct (has_deferred m); [|reflexivity]. cbn [frt rt_queue].
  destruct (rt_queue s) as [|[e v] q]; [reflexivity|]. eapply bind_f; [apply (process_internal_f fuel e v (with_queue s q))|]. reflexivity.
Qed.
Lemma unexpected_f c : cd_unexpected (lookup (respell f (mc_env m)) c) = cd_unexpected (lookup (mc_env m) c).
Proof. now rewrite lookup_f. Qed.
Lemma call_handler_f e v s : call_handler cb' m' e v (frt f s) = fres f same (call_handler cb m e v s).
Proof.
  unfold call_handler. cbn [fm mc_env mc_root]. rewrite unexpected_f. destruct (cd_unexpected _); [|reflexivity].
  eapply bind_f; [apply at_cur_f|]. intros c s1. unfold same at 1. cbn [frt rt_htabs]. rewrite get_htable_f.
  destruct (get_table (rt_htabs s1) e) as [arr|]; [|reflexivity]. cbn [option_map]. rewrite nth_at_map.
  destruct (nth_at c arr) as [[[o d]|]|]; cbn [option_map fhand fst snd]; try reflexivity.
  fold (frt f s1). rewrite alive_f. destruct (alive s1 o); [|reflexivity]. apply keep_f. apply (invoke_f CHandler (mkArgs e o TNone d)).
Qed.
Lemma process_event_f fuel e v s : process_event cb' m' vnone fuel e v (frt f s) = fres f same (process_event cb m vnone fuel e v s).
Proof.
  unfold process_event. rewrite events_f by assumption. destruct (in_dec ev_eq_dec e (events m)); [|reflexivity].
  eapply bind_f; [apply process_internal_f|]. intros [[] v'] s1; cbn [same fst snd]; try reflexivity.
  - eapply bind_f; [apply call_handler_f|]. reflexivity.
  - eapply bind_f; [apply process_deferred_f|]. reflexivity.
Qed.
Lemma q_is_f r p st (s : rt V W) : q_is m' r p (f st) (frt f s) = fres f same (q_is m r p st s).
Proof.
  unfold q_is. rewrite parent_idx_f, state_idx_f by assumption. eapply bind_f; [apply current_parent_f|]. intros cp s1. unfold same at 1.
  destruct (N.eqb cp (parent_idx m p)); [|reflexivity]. eapply bind_f; [apply current_state_f|]. reflexivity.
Qed.
Lemma q_is0_f st (s : rt V W) : q_is0 m' (f st) (frt f s) = fres f same (q_is0 m st s).
Proof. unfold q_is0. rewrite state_idx_f by assumption. eapply bind_f; [apply current_state_f|]. reflexivity. Qed.
Lemma q_parent_is_f p (s : rt V W) : q_parent_is m' p (frt f s) = fres f same (q_parent_is m p s).
Proof. unfold q_parent_is. rewrite parent_idx_f by assumption. eapply bind_f; [apply current_parent_f|]. reflexivity. Qed.
Lemma set_state_f r p st (s : rt V W) : set_state m' r p (f st) (frt f s) = fres f same (set_state m r p st s).
Proof.
  unfold set_state. rewrite states_f, parents_f, combined_f, (f_in f Hi) by assumption. cbn [frt rt_cur].
  destruct (in_dec sref_eq_dec st (states m)); [|reflexivity]. destruct (in_dec Nat.eq_dec p (parents m)); [|reflexivity].
  now destruct (upd_nth _ _ (rt_cur s)).
Qed.
Lemma status_loop_f limit : forall fuel r (s : rt V W), status_loop m' fuel limit r (frt f s) = fres f same (status_loop m fuel limit r s).
Proof.
  induction fuel as [|fuel IH]; intros r s; [reflexivity|]. cbn [status_loop]. destruct (Nat.ltb r limit); [|reflexivity].
  eapply bind_f; [apply read_cur_f|]. intros c s1. eapply bind_f; [apply current_parent_f|]. intros p s2.
  eapply bind_f; [apply current_state_f|]. intros st s3. eapply bind_f; [apply IH|]. reflexivity.
Qed.
Lemma status_f fuel (s : rt V W) : status m' fuel (frt f s) = fres f same (status m fuel s).
Proof. unfold status. rewrite current_regions_f. apply status_loop_f. Qed.
Lemma set_dependency_f d (s : rt V W) : set_dependency m' d (frt f s) = fres f same (set_dependency m d s).
Proof. unfold set_dependency. cbn [frt rt_tabs]. rewrite (fill_dispatch_f f Hf _ Hi). now destruct (fill_dispatch m d (rt_tabs s)). Qed.
Lemma init_loop_f l : forall fuel r (s : rt V W), init_loop fuel l r (frt f s) = fres f same (init_loop fuel l r s).
Proof.
  induction fuel as [|fuel IH]; intros r s; [reflexivity|]. cbn [init_loop]. destruct (Nat.ltb r (length l)); [|reflexivity].
  destruct (nth_error l r); [|reflexivity]. eapply bind_f; [apply write_cur_f|]. intros a s1. apply IH.
Qed.
Lemma construct_f fuel d (w : W) : construct m' fuel d w = fres (V:=V) (W:=W) f same (construct m fuel d w).
Proof.
  unfold construct. cbn [fm mc_env mc_root]. fold (fm f m). rewrite unexpected_f, (fill_handlers_f f Hf _ Hi), (empty_tables_f f Hf _ Hi).
  rewrite (fill_dispatch_f f Hf _ Hi), (max_initials_f f Hf _ Hi), (initial_table_f f Hf _ Hi), (states_f f Hf _ Hi), filter_map.
  assert (E : forall h, match (if cd_unexpected (lookup (mc_env m) (mc_root m)) then option_map (fhtabs f) h else Some []) with
     | Some h' => Some h' | None => None end = option_map (fhtabs f) (if cd_unexpected (lookup (mc_env m) (mc_root m)) then h else Some [])).
  { intros [h|]; now destruct (cd_unexpected _). }
  destruct (cd_unexpected (lookup (mc_env m) (mc_root m))).
  - destruct (fill_handlers m d) as [h|]; [|reflexivity]. cbn [option_map]. destruct (fill_dispatch m d (empty_tables m)) as [t|]; [|reflexivity].
    cbn [option_map]. eapply bind_f; [|intros; apply update_current_regions_f].
    unfold init_current_state. cbn [fm mc_root]. fold (fm f m). rewrite (parent_idx_f f m), (initial_table_f f Hf _ Hi).
    destruct (nth_at _ _) as [l|]; [|reflexivity]. rewrite <- init_loop_f. f_equal. unfold frt. cbn. f_equal. f_equal.
    apply filter_ext. intros o. now apply defctor_f.
  - destruct (fill_dispatch m d (empty_tables m)) as [t|]; [|reflexivity].
    cbn [option_map]. eapply bind_f; [|intros; apply update_current_regions_f].
    unfold init_current_state. cbn [fm mc_root]. fold (fm f m). rewrite (parent_idx_f f m), (initial_table_f f Hf _ Hi).
    destruct (nth_at _ _) as [l|]; [|reflexivity]. rewrite <- init_loop_f. f_equal. unfold frt. cbn. f_equal. f_equal.
    apply filter_ext. intros o. now apply defctor_f.
Qed.
Lemma do_call_f fuel k s : do_call cb' m' vnone fuel (respell_call f k) (frt f s) = fres f same (do_call cb m vnone fuel k s).
Proof.
  destruct k; cbn [respell_call do_call].
  - eapply bind_f; [apply process_event_f|]. reflexivity.
  - eapply bind_f; [apply q_is_f|]. reflexivity.
  - eapply bind_f; [apply q_parent_is_f|]. reflexivity.
  - eapply bind_f; [apply set_state_f|]. reflexivity.
  - eapply bind_f; [apply set_dependency_f|]. reflexivity.
  - eapply bind_f; [apply status_f|]. reflexivity.
Qed.
Lemma do_call_catch_f fuel k s :
  do_call_catch cb' m' vnone fuel (respell_call f k) (frt f s) = fres f same (do_call_catch cb m vnone fuel k s).
Proof. unfold do_call_catch. rewrite do_call_f. now destruct (do_call cb m vnone fuel k s). Qed.
Lemma run_f fuel : forall ks s,
  run cb' m' vnone fuel (map (respell_call f) ks) (frt f s) = fres f same (run cb m vnone fuel ks s).
Proof.
  induction ks as [|k ks IH]; intros s; [reflexivity|]. cbn [map run]. eapply bind_f; [apply do_call_catch_f|]. intros o s1.
  eapply bind_f; [apply IH|]. reflexivity.
Qed.
Lemma session_f fuel d w ks :
  session cb' m' vnone fuel d w (map (respell_call f) ks) = fres f same (session cb m vnone fuel d w ks).
Proof. unfold session. eapply bind_f; [apply construct_f|]. intros u s. apply run_f. Qed.
End Run.
