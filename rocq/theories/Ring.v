(** The machine of the complex benchmark, for any number of states. *)

From Coq Require Import List Arith NArith Bool.
From Verif Require Import Types Static Dispatch Runtime Dsl Examples Spec Semantics.
Import ListNotations.

(** benchmark/complex/ComplexStateMachine.h 108-109, 214-270: the states idle = 0, s1 = 1 ...,
    the events e1 = EUser 1 ..., one guard and one action.  [n] = 51 there; sml.cpp and the
    other programs it is compared with have 50 states. *)
Definition ring_row (n i : nat) : row :=
  mkRow (match i with 0 => SInitial WState 0 | _ => SState i end) (EUser (S i)) (Guard 1 0) (Action 2 (ACall 0))
        (SState (if Nat.eq_dec (S i) n then 0 else S i)).
Definition ring_table (n : nat) : list row := map (ring_row n) (seq 0 n).
Definition ring (n : nat) : cenv := [ (n, tbl (ring_table n)) ].

Definition is_action (c : callee) : bool := match c with CAction _ => true | _ => false end.
(** How often the action ran. *)
Definition actions {V} (ks : list (called V)) : nat := length (filter (fun k => is_action (k_callee k)) ks).

(** The guard of the benchmark returns true. *)
Definition agrees_always {V W} (cb : cbfun V W) : Prop :=
  forall c a v w, exists b v' w', cb c a v w = Ret b v' w' /\ (forall ty val, c = CGuard ty val -> b = true).

(** One pass of the loop in main sends some of the events e1 ... e50 in this order
    (benchmark/complex/hsm.cpp 14-116: if (rand() % 2)). *)
Definition all_events {V} (v : V) (n : nat) : list (ev * V) := map (fun k => (EUser k, v)) (seq 1 n).
Fixpoint rounds {A} (k : nat) (l : list A) : list A := match k with 0 => [] | S k' => l ++ rounds k' l end.
