(** Deciding whether two one-table programs answer alike. *)

From Coq Require Import List Arith NArith Bool.
From Verif Require Import Types Static Dispatch Runtime Spec Semantics Flat EquivUse Merge.
Import ListNotations.

Section Decide.
Variables (lab : naming) (env : cenv) (root : cls) (lab2 : naming) (env2 : cenv) (root2 : cls).
Definition handler_dec : forall a b : option callee, {a = b} + {a <> b}.
Proof. decide equality. apply callee_eq_dec. Defined.
Definition handlers_alike : bool :=
  if handler_dec (if cd_unexpected (lookup env root) then Some (lab CHandler) else None)
                 (if cd_unexpected (lookup env2 root2) then Some (lab2 CHandler) else None) then true else false.
(** The rows of both states lead to pairs of [P]. *)
Definition fits_at (P : list (sref * sref)) (p : sref * sref) (e : ev) : bool :=
  agree P (moves lab env root (fst p) e) (moves lab2 env2 root2 (snd p) e) &&
  match moves lab env root (fst p) e with [] => handlers_alike | _ => true end.
Definition fits (P : list (sref * sref)) (p : sref * sref) : bool := forallb (fits_at P p) (all_events env root).
(** Pairs that do not fit are removed until all do. *)
Fixpoint narrow (n : nat) (P : list (sref * sref)) : list (sref * sref) :=
  match n with
  | 0 => P
  | S n' =>
      let P' := filter (fits P) P in
      if Nat.eqb (length P') (length P) then P else narrow n' P'
  end.
Definition all_pairs : list (sref * sref) := list_prod (all_states env root) (all_states env2 root2).
Definition fitting : list (sref * sref) := narrow (length all_pairs) all_pairs.
Definition answers_alike : bool :=
  match first_initial env root, first_initial env2 root2 with
  | Some i, Some i2 => if in_dec pair_dec (i, i2) fitting then true else false
  | _, _ => false
  end.
End Decide.
Definition events_alike (env : cenv) (root : cls) (env2 : cenv) (root2 : cls) : bool :=
  forallb (fun e => if in_dec ev_eq_dec e (all_events env2 root2) then true else false) (all_events env root) &&
  forallb (fun e => if in_dec ev_eq_dec e (all_events env root) then true else false) (all_events env2 root2).
