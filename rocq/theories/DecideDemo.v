(** Programs to be compared. *)

From Coq Require Import List Arith NArith Bool.
From Verif Require Import Types Static Dispatch Runtime IndexFacts Spec Semantics Dsl Examples Demo SafeDemo
  Flat FlatFacts FlatDemo Unnest UnnestProgram UnnestDemo Merge MergeFacts MergeRun MergeLeast MergeDemo UnnestMerge UnnestMergeDemo Trim TrimFacts TrimNested.
Import ListNotations.

(** [isles] with a guard left out. *)
Definition unguarded : cenv :=
 [ (60, tbl [ user (state 9) 2 NoGuard (act 20) (state 8);
              user (star_state 8) 1 NoGuard (act 11) (state 9);
              user (state 8) 1 NoGuard (act 12) (state 9) ]) ].
(** [garage] with one state for the states 5 and 6. *)
Definition yard : cenv :=
 [ (4, mkCdef None None true true false None true);
   (11, mkCdef (Some [ user (star_state 4) 3 NoGuard (act 30) (state 5);
                       user (state 5) 3 (Guard 1 1) (act 31) (state 5) ])
               (Some [mkIrow (EUser 8) NoGuard (act 80)]) true true false None true);
   (50, mkCdef (Some [ user (star_state 1) 1 NoGuard (act 10) (state 11);
                       user (state 11) 4 NoGuard (act 40) (state 1);
                       user (exit 11 5) 2 NoGuard (act 20) (state 1) ]) None false false true None true) ].
(** [garage] with another action in one row of the composite. *)
Definition wrong : cenv :=
 [ (4, mkCdef None None true true false None true);
   (11, mkCdef (Some [ user (star_state 4) 3 NoGuard (act 30) (state 5);
                       user (state 5) 3 (Guard 1 1) (act 31) (state 6);
                       user (state 6) 3 (Guard 1 1) (act 32) (state 5) ])
               (Some [mkIrow (EUser 8) NoGuard (act 80)]) true true false None true);
   (50, mkCdef (Some [ user (star_state 1) 1 NoGuard (act 10) (state 11);
                       user (state 11) 4 NoGuard (act 40) (state 1);
                       user (exit 11 5) 2 NoGuard (act 20) (state 1);
                       user (exit 11 6) 2 NoGuard (act 20) (state 1) ]) None false false true None true) ].
