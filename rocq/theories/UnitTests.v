(** The remaining unit tests of the repository, replayed on the model, and the test of the
    amalgamated header. These are tests of the model (by computation), not proofs of
    properties. *)

From Coq Require Import List Arith NArith Bool.
From Verif Require Import Types Static Dispatch Runtime Dsl Examples UnitExamples VariantQueue Helpers.
Import ListNotations.

(** ** unit/collect_actions_tests.cpp *)
Module CollectActions.
Definition e1 := Action 1 (ACall 1).
Definition e2 := Action 2 (ACall 2).
Definition tr s a t := tuple_transition s (EUser 0) NoGuard a t.
Definition two : cenv := [ (50, tbl [tr (st 1) e1 (st 1); tr (st 1) e2 (st 1)]) ].
Example typeids : collect_action_typeids (mach two 50) = [Some 1; Some 2].
Proof. vm_compute. reflexivity. Qed.
Example typeids_recursive :
  collect_action_typeids (mach [ (11, tbl [tr (st 1) e2 (st 1)]); (50, tbl [tr (st 1) e1 (st 11)]) ] 50) = [Some 1; Some 2].
Proof. vm_compute. reflexivity. Qed.
Example actions_recursive : collect_actions (mach two 50) = [e1; e2].
Proof. vm_compute. reflexivity. Qed.
Example not_twice : collect_actions (mach [ (50, tbl [tr (st 1) e1 (st 1); tr (st 1) e1 (st 1)]) ] 50) = [e1].
Proof. vm_compute. reflexivity. Qed.
End CollectActions.

(** ** unit/chain_actions_tests.cpp: the action of a chain of one is called, with the
    arguments of the chain. *)
Module ChainActions.
Definition env : cenv := [ (50, tbl [ sea_to (st_ea (star_state 1) (event_action (EUser 1) (Action 5 (AChain [ACall 4])))) (state 2) ]) ].
Example forwards : match compile env 50 with
  | Some m => match session (ex_cb : cbfun nat nat) m 0 50 0 0 [pe 1] with
    | Done outs s => outs = [T] /\ map k_callee (rt_trace s) = [CAction 4] /\ map (fun k => a_ev (k_args k)) (rt_trace s) = [EUser 1]
    | _ => False end
  | None => False end.
Proof. vm_compute. repeat split. Qed.
End ChainActions.

(** ** unit/remove_duplicates_tests.cpp: 'c' and 42 are types 0 and 1. *)
Module RemoveDuplicates.
Example duplicates : unique Nat.eq_dec [0; 1; 1; 0; 1; 0; 0] = [0; 1].
Proof. vm_compute. reflexivity. Qed.
Example duplicate_types : map fst (unique_by Nat.eq_dec fst [(0, 10); (1, 42); (1, 42); (0, 10); (1, 42); (0, 10); (0, 10)]) = [0; 1].
Proof. vm_compute. reflexivity. Qed.
End RemoveDuplicates.


(** ** unit/transition_tests.cpp *)
Module Transition.
Example external : x_int (extend 50 (tr (st 1) 0 (st 2))) = false.
Proof. reflexivity. Qed.
Example internal : map x_int (internal_of_pair [ (1, mkCdef None (Some [plus_event (EUser 1)]) false false false None true) ] (50, st 1)) = [true].
Proof. vm_compute. reflexivity. Qed.
End Transition.

(** ** unit/variant_queue_tests.cpp: events of classes 1 and 2. *)
Module Queue.
Definition nothing : nat -> @client nat := fun _ => UEnd.
Example constructed : vq_size (A:=nat) [] = 0.
Proof. reflexivity. Qed.
Example throws_on_empty : vq_run (UVisit nothing false UEnd) [] = (true, [], [BError]).
Proof. reflexivity. Qed.
Example pushes : vq_run (UPush 1 (USize (fun _ => UEnd))) [] = (false, [1], [BPush 1; BSize 1]).
Proof. reflexivity. Qed.
Example removes : vq_run (UPush 1 (USize (fun _ => UVisit nothing false (USize (fun _ => UEnd))))) [] =
  (false, [], [BPush 1; BSize 1; BCall 1; BSize 0]).
Proof. reflexivity. Qed.
Example order : vq_run (UPush 1 (UPush 2 (USize (fun _ => UVisit nothing false (UVisit nothing false UEnd))))) [] =
  (false, [], [BPush 1; BPush 2; BSize 2; BCall 1; BCall 2]).
Proof. reflexivity. Qed.
End Queue.

(** ** integration/amalgamation_header.cpp *)
Module Amalgamation.
Definition env : cenv := [ (50, tbl [ se_to (st_event (star_state 1) (EUser 1)) (state 1) ]) ].
Example starts : session_of env 50 [is_ 50 1] = Some [T].
Proof. vm_compute. reflexivity. Qed.
End Amalgamation.
