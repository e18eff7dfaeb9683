(** Two tables that are the same up to the names of the states. *)

From Coq Require Import List Arith NArith Bool.
From Verif Require Import Types Static Dispatch Runtime Spec Semantics Flat Merge Trim.
Import ListNotations.

(** [R] relates the states: the initial states, and the rows of related states are the same,
    one by one: for the same event the same guards in the same order, with the same calls,
    and they lead to related states. Where there are no rows the same handler is called. *)
Definition handler_of (lab : naming) (env : cenv) (root : cls) : option callee := if cd_unexpected (lookup env root) then Some (lab CHandler) else None.
Definition same_rows (lab : naming) (env : cenv) (root : cls) (lab2 : naming) (env2 : cenv) (root2 : cls) (R : sref -> sref -> Prop) : Prop :=
  (exists i i2, first_initial env root = Some i /\ first_initial env2 root2 = Some i2 /\ R i i2) /\
  (forall a b e, R a b -> Forall2 (fun x y => fst x = fst y /\ R (snd x) (snd y)) (moves lab env root a e) (moves lab2 env2 root2 b e)) /\
  (forall a b e, R a b -> In e (all_events env root) -> moves lab env root a e = [] -> handler_of lab env root = handler_of lab2 env2 root2).
Definition one_to_one (l1 l2 : list sref) (R : sref -> sref -> Prop) : Prop :=
  (forall a b, R a b -> In a l1 /\ In b l2) /\
  (forall a, In a l1 -> exists b, R a b) /\ (forall b, In b l2 -> exists a, R a b) /\
  (forall a a' b, R a b -> R a' b -> a = a') /\ (forall a b b', R a b -> R a b' -> b = b').
Definition same_table (lab : naming) (env : cenv) (root : cls) (lab2 : naming) (env2 : cenv) (root2 : cls) : Prop :=
  exists R, same_rows lab env root lab2 env2 root2 R /\ one_to_one (children env root) (children env2 root2) R.
(** Nothing is left to be removed or merged. *)
Definition settled (lab : naming) (env : cenv) (root : cls) : Prop :=
  (forall a, In a (children env root) -> gets_to env root a) /\
  (forall a b, In a (children env root) -> In b (children env root) -> In (a, b) (equals lab env root) -> a = b).
(** Being entered tells no states apart. *)
Definition entered_alike (lab : naming) (env : cenv) (root : cls) : Prop :=
  forall a b, gets_to env root a -> gets_to env root b -> entries lab env a = entries lab env b.
Definition same_event_types (env : cenv) (root : cls) (env2 : cenv) (root2 : cls) : Prop :=
  forall e, event_of env root e <-> event_of env2 root2 e.
