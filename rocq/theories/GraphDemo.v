(** Machines for PropsGraph.v. *)

From Coq Require Import List Arith NArith Bool Lia.
From Verif Require Import Types Static Dispatch Runtime ListFacts IndexFacts Spec
  DispatchFacts FlattenFacts Semantics RefineFacts StaticFacts TermFacts Reach ReachFacts TableFacts
  QueryFacts ProcessFacts Dsl Examples Demo Safe SafeFacts SafeObjects SafeDemo Exact Graph GraphExact.
Import ListNotations.

Lemma single_intro env root m : compile env root = Some m -> max_initials m <= 1 -> single env root.
Proof.
  intros Hm H p Hp. compiled Hm. apply (parents_iff m Hc) in Hp. pose proof (initials_le_max m p Hp) as L.
  rewrite initials_spec in L. lia.
Qed.
Lemma no_history_intro env root m : compile env root = Some m -> has_history m = false -> no_history env root.
Proof. intros Hm H Hx. apply (history_iff env root m Hm) in Hx. congruence. Qed.

(** User code that always agrees. *)
Definition agrees : cbfun nat nat := fun _ _ v w => Ret true v w.
Lemma agrees_steady : never_throws agrees.
Proof. discriminate. Qed.

(** The first row is never taken: the second is tried before it and has no guard.
    State 3 is left at once; state 4 only if the guard agrees. *)
Module Maze.
Definition row s e t := se_to (st_event (state s) (EUser e)) (state t).
Definition env : cenv :=
 [ (11, tbl [ se_to (st_event (star_state 7) (EUser 1)) (state 8) ]);
   (50, tbl [ se_to (st_event (star_state 1) (EUser 1)) (state 2); row 1 1 3; st_to (state 3) (state 4);
              sg_to (Dsl.st_guard (state 4) Examples.ok) (state 5); row 4 2 1; row 5 2 11; row 2 3 6; row 2 1 1 ]) ].
Definition resting : list place := map (fun s => (50, SState s)) [1; 4; 5] ++ map (fun s => (11, SState s)) [7; 8].
Definition arriving : list place := map (fun s => (50, SState s)) [1; 3; 4; 5] ++ map (fun s => (11, SState s)) [7; 8].
End Maze.

(** Two regions, and a history. *)
Module Halls.
Definition row s e t := se_to (st_event s (EUser e)) t.
Definition env : cenv :=
 [ (11, tbl [ row (star_state 1) 1 (state 2); row (star_state 3) 1 (state 4); row (state 5) 1 (state 6) ]);
   (50, tbl [ row (star_state 1) 2 (state 11); row (star_state 7) 3 (history 11); row (state 11) 4 (state 8) ]) ].
(** Region 1 gets into class 11 by the history only; class 11 remembers for it the
    second initial state. *)
Definition second : list place := (50, SState 7) :: map (fun s => (11, SState s)) [3; 4] ++ [(50, SState 8)].
End Halls.

Lemma graph_demo {P : machine -> Prop} env root :
  match compile env root with Some m => P m | None => False end -> exists m, compile env root = Some m /\ P m.
Proof. destruct (compile env root) as [m|]; [eauto|contradiction]. Qed.

Lemma maze : exists m, compile Maze.env 50 = Some m /\ max_initials m <= 1 /\ has_history m = false /\
  rest_check m Maze.arriving Maze.resting = true /\
  exists outs s, session agrees m 0 300 0 0 [pe 1] = Done outs s /\ at_place m s 0 = Some (50, SState 5).
Proof.
  apply graph_demo. vm_compute. split; [repeat constructor|]. split; [reflexivity|]. split; [reflexivity|].
  eexists. eexists. split; reflexivity.
Qed.
Lemma maze_stays : single Maze.env 50 /\ no_history Maze.env 50 /\ well_formed Maze.env 50 /\
  stays Maze.env 50 (50, SState 5) /\ ~ stays Maze.env 50 (50, SState 3).
Proof.
  destruct maze as (m & Hm & H1 & H2 & H3 & outs & s & E & Hat).
  pose proof (single_intro _ _ _ Hm H1) as Hs. pose proof (no_history_intro _ _ _ Hm H2) as Hn.
  assert (Hw : well_formed Maze.env 50) by (apply well_formed_intro; vm_compute; reflexivity).
  split; [exact Hs|]. split; [exact Hn|]. split; [exact Hw|]. split.
  - eapply (session_stays _ _ _ Hm _ _ agrees); eauto using agrees_steady. intros r p q [H|[]]. discriminate.
  - intros H. apply (stays_exactly _ _ _ Hm _ Hs Hn Hw) in H.
    destruct H as (V & W & cb & vnone & fuel & d & w & ks & os & s' & Hcb & Hks & Es & Ha).
    pose proof (session_rest_check _ _ _ Hm _ _ _ _ _ _ _ _ _ _ _ _ _ Hs Hn H3 Hcb Hks Es Ha) as Hi.
    cbn in Hi. intuition discriminate.
Qed.
