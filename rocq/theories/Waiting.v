(** How long a deferred event waits: counting what the client sees. *)

From Coq Require Import List Arith NArith Bool.
From Verif Require Import Types Static Dispatch Runtime Semantics Reach.
Import ListNotations.

(** What process_event told the client (sm.h:88-109): true, false, or an exception. *)
Inductive told := TTrue | TFalse | TExn.
Definition told_eqb (a b : told) : bool :=
  match a, b with TTrue, TTrue | TFalse, TFalse | TExn, TExn => true | _, _ => false end.
Definition answer {V} (k : call V) (o : out) : option told :=
  match k, o with
  | KProcess _ _, OBool b => Some (if b then TTrue else TFalse)
  | KProcess _ _, OExn _ => Some TExn
  | _, _ => None
  end.

(** How often it told [t] during calls [ks] that ended with [os]. *)
Fixpoint count_told {V} (t : told) (ks : list (call V)) (os : list out) : nat :=
  match ks, os with
  | k :: ks', o :: os' =>
      (match answer k o with Some t' => if told_eqb t t' then 1 else 0 | None => 0 end) + count_told t ks' os'
  | _, _ => 0
  end.

(** Event [e] with payload [v] is taken from the queue and offered to the regions by some
    call of [ks], made in state [s1]; [ks1] are the calls before it, [os1] their results,
    [k1] the call itself and [o1] its result, [ks2] the calls after it. *)
Definition served {V W} (cb : cbfun V W) (m : machine) (vnone : V) (fuel : nat) (ks : list (call V)) (s : rt V W)
    (e : ev) (v : V) (ks1 : list (call V)) (os1 : list out) (k1 : call V) (o1 : out) (s1 : rt V W) : Prop :=
  (exists ks2, ks = ks1 ++ k1 :: ks2) /\ run cb m vnone fuel ks1 s = Done os1 s1 /\
  exists ds ps s2, do_call_catch cb m vnone fuel k1 s1 = Done o1 s2 /\ queue_use cb m vnone ds s1 k1 [(e, v)] ps.
