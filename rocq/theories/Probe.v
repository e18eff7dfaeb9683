(** Logging (details/log.h 8-12, test/integration/transition_logging.cpp 25-53): a
    program to which calls have been added that only look. Actions are chained with
    further functions (chain_actions.h), on_entry, on_exit and on_unexpected_event
    are added to classes that have none (what calls them: has_action.h 26-38,
    resolve_state.h 91-125, sm.h 72-78, 327-336). *)

From Coq Require Import List Arith Bool.
From Verif Require Import Types Runtime Spec Semantics Interp.
Import ListNotations.

Section Probe.
(** The functions that only look. *)
Variable watch : callee -> bool.
(** The type of a row's action in the new program, by its old type. *)
Variable ty : option nat -> option nat.

Definition unwatched (l : list callee) : list callee := filter (fun c => negb (watch c)) l.
Definition calls_of (a : action) : list callee := match a with NoAction => [] | Action _ b => callees b end.

(** Without the lookers the new action [a'] calls what [a] calls. *)
Definition watched_action (a a' : action) : Prop :=
  unwatched (calls_of a') = calls_of a /\ action_type a' = ty (action_type a).
Definition watched_row (r r' : row) : Prop :=
  r_src r' = r_src r /\ r_ev r' = r_ev r /\ r_guard r' = r_guard r /\ r_tgt r' = r_tgt r /\
  watched_action (r_act r) (r_act r').
Definition watched_irow (i i' : irow) : Prop :=
  i_ev i' = i_ev i /\ i_guard i' = i_guard i /\ watched_action (i_act i) (i_act i').
(** A member function that is there stays; one that is added only looks. *)
Definition watched_member (was now : bool) (c : callee) : Prop :=
  if was then now = true /\ watch c = false else now = true -> watch c = true.
Definition in_both {A} (R : A -> A -> Prop) (a b : option (list A)) : Prop :=
  match a, b with Some l, Some l' => Forall2 R l l' | None, None => True | _, _ => False end.

Record watched_class (c : cls) (d d' : cdef) : Prop := mkWatchedClass {
  wc_table : in_both watched_row (cd_table d) (cd_table d');
  wc_internal : in_both watched_irow (cd_internal d) (cd_internal d');
  wc_entry : watched_member (cd_entry d) (cd_entry d') (CEntry c);
  wc_exit : watched_member (cd_exit d) (cd_exit d') (CExit c);
  wc_defer : cd_defer d' = cd_defer d;
  wc_defctor : cd_defctor d' = cd_defctor d }.

(** [env'] is [env] with lookers. Guards, factories and reuse_state are no
    lookers; different action types stay different (of internal rows of one C++
    type the library keeps the first); an action stays an action. *)
Record watched (env env' : cenv) (root : cls) : Prop := mkWatched {
  wa_class : forall c, watched_class c (lookup env c) (lookup env' c);
  wa_root : watched_member (cd_unexpected (lookup env root)) (cd_unexpected (lookup env' root)) CHandler;
  wa_types : forall a b, ty a = ty b -> a = b;
  wa_action : forall t, ty (Some t) <> None;
  wa_kinds : forall c, watch c = true ->
    match c with CAction _ | CEntry _ | CExit _ | CHandler => True | _ => False end }.

(** User code: lookers change neither the event object nor what [view] shows of
    the user's data, and do not throw; the others do what they did before. *)
Record looks_only {V W W'} (view : W' -> W) (cb : cbfun V W) (cb' : cbfun V W') : Prop := mkLooks {
  lo_watch : forall c a v w, watch c = true ->
    exists b w', cb' c a v w = Ret b v w' /\ view w' = view w;
  lo_other : forall c a v w, watch c = false ->
    match cb' c a v w, cb c a v (view w) with
    | Ret b1 v1 w1, Ret b2 v2 w2 => b1 = b2 /\ v1 = v2 /\ view w1 = w2
    | Raise n1 v1 w1, Raise n2 v2 w2 => n1 = n2 /\ v1 = v2 /\ view w1 = w2
    | _, _ => False
    end }.

(** The calls that are not lookers. *)
Definition proper {V} (tr : list (called V)) : list (called V) :=
  filter (fun k => negb (watch (k_callee k))) tr.

(** [s'] is [s] but for the lookers. *)
Record same_but_watched {V W W'} (view : W' -> W) (s : rt V W) (s' : rt V W') : Prop := mkSameBut {
  sb_cur : rt_cur s' = rt_cur s;
  sb_hist : rt_hist s' = rt_hist s;
  sb_queue : rt_queue s' = rt_queue s;
  sb_regions : rt_regions s' = rt_regions s;
  sb_live : rt_live s' = rt_live s;
  sb_world : view (rt_world s') = rt_world s;
  sb_trace : proper (rt_trace s') = rt_trace s }.
End Probe.

(** * Logging everything
    Action [f] after the action of every row, on_entry and on_exit in every class
    of the program's text, on_unexpected_event in the root (and elsewhere, where
    it is not looked for). *)
Definition log_type (t : option nat) : option nat := match t with None => Some 0 | Some t => Some (S t) end.
Definition log_action (f : nat) (a : action) : action :=
  match a with
  | NoAction => Action 0 (ACall f)
  | Action t b => Action (S t) (AChain [b; ACall f])
  end.
Definition log_row (f : nat) (r : row) : row := mkRow (r_src r) (r_ev r) (r_guard r) (log_action f (r_act r)) (r_tgt r).
Definition log_irow (f : nat) (i : irow) : irow := mkIrow (i_ev i) (i_guard i) (log_action f (i_act i)).
Definition log_class (f : nat) (d : cdef) : cdef :=
  mkCdef (option_map (map (log_row f)) (cd_table d)) (option_map (map (log_irow f)) (cd_internal d))
         true true true (cd_defer d) (cd_defctor d).
Definition logged (f : nat) (env : cenv) : cenv := map (fun cd => (fst cd, log_class f (snd cd))) env.

(** What is added. *)
Definition log_watch (f : nat) (env : cenv) (root : cls) (c : callee) : bool :=
  match c with
  | CAction g => Nat.eqb g f
  | CEntry c => negb (cd_entry (lookup env c))
  | CExit c => negb (cd_exit (lookup env c))
  | CHandler => negb (cd_unexpected (lookup env root))
  | _ => false
  end.
(** The program does not call [f]. *)
Definition calls_not (f : nat) (env : cenv) : Prop :=
  forall c, (forall r, In r (table env c) -> ~ In (CAction f) (calls_of (r_act r))) /\
            (forall i, In i (internals env c) -> ~ In (CAction f) (calls_of (i_act i))).

(** User code that keeps a log beside its data. *)
Definition recording {V W} (watch : callee -> bool) (cb : cbfun V W) : cbfun V (W * list (callee * args)) :=
  fun c a v w =>
    if watch c then Ret true v (fst w, snd w ++ [(c, a)])
    else match cb c a v (fst w) with
         | Ret b v' w' => Ret b v' (w', snd w)
         | Raise n v' w' => Raise n v' (w', snd w)
         end.
