(** Reachable states: construction followed by any sequence of calls by a client
    that survives exceptions.  The lists record the dependencies given so far,
    newest first, and the ones given to the constructor. *)

From Coq Require Import List Arith NArith Bool.
From Verif Require Import Types Static Dispatch Runtime Spec Semantics.
Import ListNotations.

Definition deps_after {V} (k : call V) (ds : list dep) : list dep :=
  match k with KSetDep d => d :: ds | _ => ds end.

Section Reach.
Context {V W : Type}.
Variable cb : cbfun V W.
Variable m : machine.
Variable vnone : V.

Inductive reachable : list dep -> dep -> rt V W -> Prop :=
| reach_new fuel d w s :
    construct m fuel d w = Done tt s -> reachable [d] d s
| reach_call fuel ds d0 s k o s' :
    reachable ds d0 s -> do_call_catch cb m vnone fuel k s = Done o s' ->
    reachable (deps_after k ds) d0 s'.

(** States the machine can be in while it handles an event: before it, and after
    each region's turn and each removal from the queue. *)
Inductive during : list dep -> dep -> rt V W -> Prop :=
| du_start ds d0 s : reachable ds d0 s -> during ds d0 s
| du_region ds d0 s r e v tv s' :
    during ds d0 s -> try_region cb m r e v s = Done tv s' -> during ds d0 s'
| du_anonymous ds d0 s r v bv s' :
    during ds d0 s -> anonymous_region cb m r v s = Done bv s' -> during ds d0 s'
| du_recall ds d0 s e v q :
    during ds d0 s -> rt_queue s = (e, v) :: q -> during ds d0 (with_queue s q).

(** Regions [r], [S r], ... before [r'] have had their turn with event [e], and
    none of them deferred it. *)
Inductive turns (e : ev) : nat -> V -> rt V W -> nat -> V -> rt V W -> Prop :=
| tu_end r v s : turns e r v s r v s
| tu_turn r v s o v1 s1 r' v' s' :
    try_region cb m r e v s = Done (o, v1) s1 -> o <> Some Deferred ->
    turns e (S r) v1 s1 r' v' s' -> turns e r v s r' v' s'.
End Reach.

(** Who may call user code, and with which arguments: the guard of a candidate, an
    effect of a candidate, the handler of unexpected events. *)
Inductive justified {V} (env : cenv) (root : cls) (m : machine) (ds : list dep) (d0 : dep)
    (k : called V) : Prop :=
| ju_guard e pl d x o ty val :
    In d ds -> candidate env root e pl (CRow x o) -> x_guard x = Guard ty val ->
    signature k = (CGuard ty val, guard_args m e d x o) -> justified env root m ds d0 k
| ju_effect e pl d x o :
    In d ds -> candidate env root e pl (CRow x o) ->
    In (signature k) (row_signature env e d x o) -> justified env root m ds d0 k
| ju_handler e q :
    cd_unexpected (lookup env root) = true -> event_of env root e -> is_state env root q ->
    signature k = (CHandler, mkArgs e q TNone d0) -> justified env root m ds d0 k.

(** What a call takes from the front of the queue and what it puts at its end. *)
Definition put_back {V} (oe : offer_end) (e : ev) (v : V) : list (ev * V) :=
  match oe with OfDeferred => [(e, v)] | _ => [] end.

Section Queue.
Context {V W : Type}.
Variable cb : cbfun V W.
Variable m : machine.
Variable vnone : V.

Inductive queue_use (ds : list dep) (s : rt V W)
  : call V -> list (ev * V) -> list (ev * V) -> Prop :=
| qu_offered e v vds avds oe v1 s1 :    (* nothing to recall *)
    offer cb m ds vnone e v s vds avds oe v1 s1 ->
    oe <> OfHandled \/ rt_queue s1 = [] ->
    queue_use ds s (KProcess e v) [] (put_back oe e v1)
| qu_recalled e v vds avds v1 s1 e2 v2 q vds2 avds2 oe2 v3 s3 :
    offer cb m ds vnone e v s vds avds OfHandled v1 s1 ->
    rt_queue s1 = (e2, v2) :: q ->
    offer cb m ds vnone e2 v2 (with_queue s1 q) vds2 avds2 oe2 v3 s3 ->
    queue_use ds s (KProcess e v) [(e2, v2)] (put_back oe2 e2 v3)
| qu_other k : (forall e v, k <> KProcess e v) -> queue_use ds s k [] [].

(** All events recalled and all events deferred so far, oldest first. *)
Inductive queue_log : list dep -> dep -> rt V W -> list (ev * V) -> list (ev * V) -> Prop :=
| ql_new fuel d w s : construct m fuel d w = Done tt s -> queue_log [d] d s [] []
| ql_call fuel ds d0 s k o s' recalled deferred rs ps :
    queue_log ds d0 s recalled deferred ->
    do_call_catch cb m vnone fuel k s = Done o s' -> queue_use ds s k rs ps ->
    queue_log (deps_after k ds) d0 s' (recalled ++ rs) (deferred ++ ps).
End Queue.

(** A machine of an accepted program with at most 255 regions, between two calls
    and during a call. *)
Definition running {V W} (cb : cbfun V W) env root m vnone ds d0 s : Prop :=
  compile env root = Some m /\ few_regions env root /\ reachable cb m vnone ds d0 s.
Definition handling {V W} (cb : cbfun V W) env root m vnone ds d0 s : Prop :=
  compile env root = Some m /\ few_regions env root /\ during cb m vnone ds d0 s.
