(** How often the rows of a nested table stand in the tables of the machine. *)

From Coq Require Import List Arith Bool.
From Verif Require Import Types Static Dispatch Runtime Dsl Examples Spec DispatchFacts Semantics Reach.
Import ListNotations.

(** A path from the table of [c] to the table of [p]: the positions of the rows that lead into
    the next composite. *)
Fixpoint path (env : cenv) (c : cls) (l : list nat) (p : cls) : Prop :=
  match l with
  | [] => c = p
  | i :: l' => exists r c', nth_error (table env c) i = Some r /\ leads_into (r_tgt r) c' /\ composite env c' /\ path env c' l' p
  end.
Definition written (env : cenv) (p : cls) : list xrow := map (row_in p) (table env p).

Definition guard_is (ty val : nat) (g : guard) : bool :=
  match g with NoGuard => false | Guard ty' val' => Nat.eqb ty ty' && Nat.eqb val val' end.

(** The guard stands only in rows of the table of [p] that are about event [e] in state [a],
    and [a] has no table. *)
Record guards_only (env : cenv) (root : cls) (ty val : nat) (p a : cls) (e : ev) : Prop := mkGuards {
  go_rows : forall x, declared env root x -> x_guard x = Guard ty val ->
    x_parent x = p /\ unmarked (x_src x) = SState a /\ x_ev x = e;
  go_internal : forall x, declared_internal env root x -> x_guard x <> Guard ty val;
  go_leaf : ~ composite env a }.
Definition rows_with (env : cenv) (ty val : nat) (p : cls) : nat :=
  length (filter (fun r => guard_is ty val (r_guard r)) (table env p)).
(** The number of active regions in place [pl]. *)
Definition regions_in {V W} (m : machine) (s : rt V W) (pl : place) : nat :=
  length (filter (fun r => match at_place m s r with Some q => if place_eq_dec q pl then true else false | None => false end)
                 (seq 0 (active m s))).

(** A tower of [n] composites around the class 1.  The table of class [S k]:
      *state<0> + event<e1> = state<k>, state<0> + event<e2> = state<k>
    and of class 1:
      *state<0> + event<e3> [guard] = state<0>  *)
Definition level (k : nat) : cdef :=
  tbl (match k with
       | 0 => [ mkRow (SInitial WState 0) (EUser 3) (Guard 1 0) NoAction (SState 0) ]
       | _ => [ mkRow (SInitial WState 0) (EUser 1) NoGuard NoAction (SState k);
                mkRow (SState 0) (EUser 2) NoGuard NoAction (SState k) ]
       end).
Definition tower (n : nat) : cenv := map (fun k => (S k, level k)) (seq 0 (S n)).
Fixpoint bits (n : nat) : list (list nat) :=
  match n with 0 => [[]] | S n' => map (cons 0) (bits n') ++ map (cons 1) (bits n') end.
