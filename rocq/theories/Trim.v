(** The states of a one-table program that no row can lead to, left out. *)

From Coq Require Import List Arith NArith Bool.
From Verif Require Import Types Static Dispatch Runtime Spec Semantics Flat Merge.
Import ListNotations.

(** Rows are tried up to the first one without a guard. *)
Fixpoint tried (l : list row) : list row :=
  match l with
  | [] => []
  | r :: l' => match r_guard r with NoGuard => [r] | Guard _ _ => r :: tried l' end
  end.
Inductive gets_to (env : cenv) (root : cls) : sref -> Prop :=
| gt_start i : first_initial env root = Some i -> gets_to env root i
| gt_row q e r : gets_to env root q -> In r (tried (rows_for env root q e)) -> gets_to env root (r_tgt r).

Section Trim.
Variables (env : cenv) (root : cls).
Definition goals (q : sref) : list sref :=
  flat_map (fun e => map r_tgt (tried (rows_for env root q e))) (nodup ev_eq_dec (all_events env root)).
Definition round (l : list sref) : list sref := nodup sref_eq_dec (l ++ flat_map goals l).
Fixpoint grow (n : nat) (l : list sref) : list sref :=
  match n with
  | 0 => l
  | S n' => let l' := round l in if Nat.eqb (length l') (length l) then l else grow n' l'
  end.
Definition got : list sref :=
  match first_initial env root with Some i => grow (length (all_states env root)) [i] | None => [] end.

(** Rows from other states are left out. A row to another state is never tried; it is led
    back to its source. *)
Definition trimmed_row (l : list sref) (r : row) : row :=
  mkRow (r_src r) (r_ev r) (r_guard r) (r_act r) (if in_dec sref_eq_dec (r_tgt r) l then r_tgt r else unmarked (r_src r)).
Definition starts_in (l : list sref) (r : row) : bool := if in_dec sref_eq_dec (unmarked (r_src r)) l then true else false.
Definition trimmed_table : list row := let l := got in map (trimmed_row l) (filter (starts_in l) (table env root)).
Definition trimmed : cenv :=
  let c := lookup env root in
  (root, mkCdef (Some trimmed_table) (cd_internal c) (cd_entry c) (cd_exit c) (cd_unexpected c) (cd_defer c) (cd_defctor c)) :: env.
End Trim.
(** Every event has a row in a state the program can get to. *)
Definition all_events_used (env : cenv) (root : cls) : Prop :=
  forall e, event_of env root e -> exists q r, gets_to env root q /\ In r (rows_for env root q e).
