(** Machines for C87. *)

From Coq Require Import List Arith NArith Bool Lia.
From Verif Require Import Types Static Dispatch Runtime Dsl Examples Spec Semantics Reach StaticFacts TableFacts Demo
  UnitExamples StateData.
Import ListNotations.

(** The user code of the tests of integration/state_data_members.cpp: the world is the data
    members of all objects. *)
Lemma data_members env root q : members Data.cb env root q (fun w => Data.data w q).
Proof.
  intros [c a v] w H. unfold world_after. cbn [k_callee k_args k_payload].
  assert (G : ~ given a q) by (intros G; apply H; now left).
  assert (E : Data.data (Data.wr a v w) q = Data.data w q).
  { unfold Data.wr. cbn [Data.data]. unfold given in G. destruct (sref_eq_dec q (Data.tgt a)) as [E|_].
    - exfalso. apply G. unfold Data.tgt in E. destruct (a_tgt a); subst; auto.
    - destruct (sref_eq_dec q (a_src a)) as [E|_]; [exfalso; apply G; auto|reflexivity]. }
  destruct c as [[|[|ty]] val|[|[|f]]|f|f|c|c|]; cbn; auto; exact E.
Qed.

(** A session, the data of state [q] at its end. *)
Definition data_at (env : cenv) (q : sref) (evs : list (ev * Data.V)) : option nat :=
  match compile env 50 with
  | Some m => match session Data.cb m (0, 0) 300 0 [] (map (fun p => KProcess (fst p) (snd p)) evs) with
              | Done _ s => Some (Data.data (rt_world s) q) | _ => None end
  | None => None
  end.

(** State 3 in two composites. *)
Module Shared.
Definition env : cenv :=
 [ (11, tbl [ sea_to (st_ea (star_state 3) (event_action Data.Wr Data.wra)) (state 3) ]);
   (12, tbl [ sea_to (st_ea (star_state 3) (event_action Data.R Data.rda)) (state 3) ]);
   (50, tbl [ se_to (st_event (star_state 1) Data.Enter) (state 11); se_to (st_event (state 11) Data.Leave) (state 12) ]) ].
End Shared.

(** A composite that is only left from its inner states: nobody gets its object. *)
Module Hidden.
Definition env : cenv :=
 [ (11, mkCdef (Some [ sea_to (st_ea (star_state 3) (event_action Data.Wr Data.wra)) (state 4) ]) None true true false None true);
   (50, tbl [ se_to (st_event (star_state 1) Data.Enter) (state 11); se_to (st_event (exit 11 4) Data.Leave) (state 1) ]) ].
End Hidden.

(** The composite is entered by its history: the action writes, state 3 is the initial
    state, state 4 the one restored. *)
Module Restored.
Definition env : cenv :=
 [ (11, tbl [ se_to (st_event (star_state 3) Data.R) (state 4) ]);
   (50, tbl [ se_to (st_event (star_state 1) Data.Enter) (state 11); se_to (st_event (state 11) Data.Leave) (state 1);
              sea_to (st_ea (state 1) (event_action Data.Wr Data.wra)) (history 11) ]) ].
End Restored.
