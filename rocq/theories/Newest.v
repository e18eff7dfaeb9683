(** When only the newest dependency counts. *)

From Coq Require Import List Arith NArith Bool.
From Verif Require Import Types Static Dispatch Runtime.
Import ListNotations.

(** Guards that do not look at the dependency. *)
Definition ignores_dependency {V W} (cb : cbfun V W) : Prop := forall ty val e o t d d' v w,
  cb (CGuard ty val) (mkArgs e o t d) v w = cb (CGuard ty val) (mkArgs e o t d') v w.
(** Guards that change nothing when they refuse. *)
Definition refuses_silently {V W} (cb : cbfun V W) : Prop := forall ty val a v w v' w',
  cb (CGuard ty val) a v w = Ret false v' w' -> v' = v /\ w' = w.

(** The calls of user code other than guards. *)
Definition effect_call {V} (k : called V) : bool := match k_callee k with CGuard _ _ => false | _ => true end.

(** Two states of a machine that are equal but for the dispatch tables and the calls of
    guards made so far. *)
Record same_but_guards {V W} (s s' : rt V W) : Prop := mkSame {
  sb_cur : rt_cur s' = rt_cur s;
  sb_hist : rt_hist s' = rt_hist s;
  sb_queue : rt_queue s' = rt_queue s;
  sb_regions : rt_regions s' = rt_regions s;
  sb_live : rt_live s' = rt_live s;
  sb_htabs : rt_htabs s' = rt_htabs s;
  sb_world : rt_world s' = rt_world s;
  sb_trace : filter effect_call (rt_trace s') = filter effect_call (rt_trace s) }.

(** Two runs with the same answers, calls of actions, entries, exits and handlers, and end. *)
Definition same_run {V W A} (r r' : res V W A) : Prop :=
  match r, r' with
  | Done a s, Done a' s' => a = a' /\ same_but_guards s s'
  | Threw x s, Threw x' s' => x = x' /\ same_but_guards s s'
  | Undef u, Undef u' => u = u'
  | Timeout, Timeout => True
  | _, _ => False
  end.

(** A run without the answers of its first [n] calls. *)
Definition without {V W} (n : nat) (r : res V W (list out)) : res V W (list out) :=
  match r with Done os s => Done (skipn n os) s | _ => r end.
