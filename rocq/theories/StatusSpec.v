(** Vocabulary for PropsStatus.v: what status writes about a region. *)

From Coq Require Import List Arith NArith.
From Verif Require Import Types Static Dispatch Runtime ListFacts IndexFacts Spec Semantics.

(** The number of a parent and of a state: their positions in the lists of the
    machine's parents and states. *)
Definition parent_number (m : machine) (p : cls) : N := N.of_nat (pos Nat.eq_dec p (parents m)).
Definition state_number (m : machine) (q : sref) : N := N.of_nat (pos sref_eq_dec q (states m)).

(** The line of status about region [r]: [p0] is the parent of region 0. *)
Definition line (m : machine) (p0 : cls) (r : nat) (pl : place) : nat * N * N * N :=
  (r, code m pl, parent_number m p0, state_number m (snd pl)).
