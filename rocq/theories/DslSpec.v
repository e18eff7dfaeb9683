(** What it means for two programs to differ in notation only, and for two runs to
    look the same. *)

From Coq Require Import List Arith NArith Bool.
From Verif Require Import Types Static Dispatch Runtime ListFacts IndexFacts Spec DispatchFacts Semantics.
Import ListNotations.

(** * Rows *)

(** The state or pseudo state a reference stands for, whichever class template
    wraps it. *)
Inductive reference :=
| RState (c : cls)
| RInitial (c : cls)
| RDirect (p c : cls)
| REntry (p c : cls)
| RExit (p c : cls)
| RHistory (p : cls).
Definition denotes (s : sref) : reference :=
  match s with
  | SState c => RState c
  | SInitial _ c => RInitial c
  | SDirect _ p c => RDirect p c
  | SEntry _ p c => REntry p c
  | SExit _ p c => RExit p c
  | SHistory _ p => RHistory p
  end.

(** The two rows say the same. *)
Record same_transition (r r' : row) : Prop := mkSameTransition {
  sr_source : denotes (r_src r') = denotes (r_src r);
  sr_event : r_ev r' = r_ev r;
  sr_guard : r_guard r' = r_guard r;
  sr_action : r_act r' = r_act r;
  sr_target : denotes (r_tgt r') = denotes (r_tgt r) }.

(** * Programs *)
Record same_class (d d' : cdef) : Prop := mkSameClass {
  sc_table : match cd_table d, cd_table d' with
             | Some l, Some l' => Forall2 same_transition l l'
             | None, None => True
             | _, _ => False
             end;
  sc_internal : cd_internal d' = cd_internal d;
  sc_entry : cd_entry d' = cd_entry d;
  sc_exit : cd_exit d' = cd_exit d;
  sc_unexpected : cd_unexpected d' = cd_unexpected d;
  sc_defer : cd_defer d' = cd_defer d;
  sc_defctor : cd_defctor d' = cd_defctor d }.
Definition differ_in_notation (env env' : cenv) : Prop :=
  Forall2 (fun cd cd' => fst cd' = fst cd /\ same_class (snd cd) (snd cd')) env env'.

(** In no table is an initial state written in two ways, and in no table of a class
    with internal rows is any state written in two ways. *)
Definition one_spelling (env : cenv) : Prop :=
  forall c s t, written_in env c s -> written_in env c t -> denotes s = denotes t ->
  marked s = true \/ cd_internal (lookup env c) <> None -> s = t.

(** * User code *)
Definition same_targ (t t' : targ) : Prop :=
  match t, t' with
  | TObj s, TObj s' | TPtr s, TPtr s' => denotes s' = denotes s
  | TNone, TNone => True
  | _, _ => False
  end.
Record same_args (a a' : args) : Prop := mkSameArgs {
  sa_event : a_ev a' = a_ev a;
  sa_source : denotes (a_src a') = denotes (a_src a);
  sa_target : same_targ (a_tgt a) (a_tgt a');
  sa_dep : a_dep a' = a_dep a }.
(** User code does not ask which template wraps the object it is given. *)
Definition blind {V W} (cb : cbfun V W) : Prop :=
  forall c a a' v w, same_args a a' -> cb c a' v w = cb c a v w.
Record same_called {V} (k k' : called V) : Prop := mkSameCalled {
  sk_callee : k_callee k' = k_callee k;
  sk_args : same_args (k_args k) (k_args k');
  sk_payload : k_payload k' = k_payload k }.

(** * Places, candidates, effects *)
Definition same_place (pl pl' : place) : Prop :=
  fst pl' = fst pl /\ denotes (snd pl') = denotes (snd pl).
(** A region can stand in a place with a plain state, or with an exit pseudo state
    written in the table of the parent. *)
Definition standing (env : cenv) (pl : place) : Prop :=
  (exists c, snd pl = SState c) \/
  ((exists w p s, snd pl = SExit w p s) /\ child env (fst pl) (snd pl)).
Record same_xrow (x x' : xrow) : Prop := mkSameXrow {
  sx_parent : x_parent x' = x_parent x;
  sx_source : denotes (x_src x') = denotes (x_src x);
  sx_event : x_ev x' = x_ev x;
  sx_guard : x_guard x' = x_guard x;
  sx_action : x_act x' = x_act x;
  sx_target : denotes (x_tgt x') = denotes (x_tgt x);
  sx_internal : x_int x' = x_int x }.
Definition same_cand (c c' : cand) : Prop :=
  match c, c' with
  | CDefer, CDefer => True
  | CRow x o, CRow x' o' => same_xrow x x' /\ denotes o' = denotes o
  | _, _ => False
  end.
Definition same_opt {A} (R : A -> A -> Prop) (o o' : option A) : Prop :=
  match o, o' with Some a, Some a' => R a a' | None, None => True | _, _ => False end.
Record same_prim (p p' : prim) : Prop := mkSamePrim {
  sp_callee : p_callee p' = p_callee p;
  sp_targ : same_targ (p_targ p) (p_targ p');
  sp_keep : p_keep p' = p_keep p;
  sp_makes : same_opt (fun s s' => denotes s' = denotes s) (p_makes p) (p_makes p') }.

(** * Runs *)
(** Lines of status: region and parent are the same numbers; the other two numbers
    are those of one and the same place in the numbering of either machine, or
    exceed every place of either machine. *)
Definition same_line (m m' : machine) (l l' : nat * N * N * N) : Prop :=
  match l, l' with
  | (r, c, p, st), (r', c', p', st') =>
      r' = r /\ p' = p /\
      ((exists q s s', is_place (mc_env m) (mc_root m) (q, s) /\ is_place (mc_env m') (mc_root m') (q, s') /\
          denotes s' = denotes s /\ c = combined_idx m q s /\ c' = combined_idx m' q s' /\
          st = state_idx m s /\ st' = state_idx m' s') \/
       (c = N.of_nat (n_parents m) * n_states m /\ c' = N.of_nat (n_parents m') * n_states m' /\ st = 0 /\ st' = 0)%N)
  end.
Definition same_output (m m' : machine) (o o' : out) : Prop :=
  match o, o' with
  | OStatus l, OStatus l' => Forall2 (same_line m m') l l'
  | _, _ => o' = o
  end.
(** The same outputs, the same calls of user code, the same world, the same events
    left in the queue; or the same undefined behaviour; or both out of fuel. *)
Inductive same_run {V W} (m m' : machine) : res V W (list out) -> res V W (list out) -> Prop :=
| same_done os os' s s' :
    Forall2 (same_output m m') os os' -> Forall2 same_called (rt_trace s) (rt_trace s') ->
    rt_world s' = rt_world s -> rt_queue s' = rt_queue s -> same_run m m' (Done os s) (Done os' s')
| same_threw x s s' :
    Forall2 same_called (rt_trace s) (rt_trace s') ->
    rt_world s' = rt_world s -> rt_queue s' = rt_queue s -> same_run m m' (Threw x s) (Threw x s')
| same_undef u : same_run m m' (Undef u) (Undef u)
| same_timeout : same_run m m' Timeout Timeout.
(** A client that names plain states only. *)
Definition plain_client {V} (ks : list (call V)) : Prop :=
  forall k, In k ks -> match k with KIs _ _ q | KSet _ _ q => exists c, q = SState c | _ => True end.
