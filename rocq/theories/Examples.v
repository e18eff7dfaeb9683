(** The repository's integration tests replayed on the model.  These are tests
    of the model (by computation), not proofs of properties. *)

From Coq Require Import List Arith NArith Bool.
From Verif Require Import Types Static Dispatch Runtime Dsl.
Import ListNotations.
Local Notation "s + e '-->' t" := (se_to (st_event s e) t) (at level 50, e at level 49).

(** User code used by the examples: guard type 0 refuses, other guards accept;
    actions count their calls; the handler sets the payload to 99. *)
Definition ex_cb : cbfun nat nat := fun c a v w =>
  match c with
  | CGuard ty _ => Ret (negb (Nat.eqb ty 0)) v w
  | CHandler => Ret true 99 w
  | _ => Ret true v (S w)
  end.
Definition fail := Guard 0 0.
Definition ok := Guard 1 0.
Definition act := Action 0 (ACall 0).

Definition tbl l : cdef := mkCdef (Some l) None false false false None true.

(** What a client sees: the outputs, or none if the run did not end normally. *)
Definition outs (r : res nat nat (list out)) : option (list out) :=
  match r with Done o _ => Some o | _ => None end.
Definition session_of (env : cenv) (root : cls) (ks : list (call nat)) : option (list out) :=
  match compile env root with
  | None => None
  | Some m => outs (session ex_cb m 0 300 0 0 ks)
  end.
Definition pe e := KProcess (V:=nat) (EUser e) 0.
Definition is_ p s := KIs (V:=nat) 0 p (SState s).
Definition T := OBool true.
Definition F := OBool false.
Definition proc e s := seg_to (st_eg s (event_guard e ok)).

(** ** basic_transitions.cpp *)
Module Basic.
Definition S1 := 1. Definition S2 := 2. Definition S3 := 3.
Definition SubSub := 10. Definition Sub := 11. Definition Main := 12.
Definition e1 := EUser 1. Definition e2 := EUser 2. Definition e3 := EUser 3.
Definition e4 := EUser 4. Definition e5 := EUser 5. Definition e6 := EUser 6.
Definition l s e t := sea_to (st_ea s (event_action e act)) (state t).
Definition env : cenv :=
 [ (SubSub, tbl [ l (star_state S1) e1 S2 ]);
   (Sub, tbl [ l (star_state S1) e1 S2; l (state S1) e5 S3;
               l (state S2) e1 SubSub; l (state SubSub) e2 S1 ]);
   (Main, mkCdef (Some
             [ l (star_state S1) e1 S2; l (state S1) e2 S3; l (state S1) e4 Sub;
               l (state S1) e5 S3; l (state S1) e6 S1; l (state S2) e1 S1;
               l (state S2) e2 S1; l (state S2) e3 S3; l (state Sub) e2 S1;
               l (state Sub) e4 Sub ]) None false false true None true) ].
Definition t := session_of env Main.
Example start : t [is_ Main S1; KParentIs Main] = Some [T; T].
Proof. vm_compute. reflexivity. Qed.
Example process : t [pe 1; is_ Main S2] = Some [T; T].
Proof. vm_compute. reflexivity. Qed.
Example into_sub : t [pe 4; is_ Sub S1] = Some [T; T].
Proof. vm_compute. reflexivity. Qed.
Example into_subsub : t [pe 4; pe 1; pe 1; is_ SubSub S1; pe 2; is_ Sub S1]
  = Some [T; T; T; T; T; T].
Proof. vm_compute. reflexivity. Qed.
Example unique_event : t [pe 4; is_ Sub S1; pe 5; is_ Sub S1; is_ Sub S3] = Some [T; T; T; F; T].
Proof. vm_compute. reflexivity. Qed.
Example exit_sub : t [pe 4; pe 2; is_ Main S1] = Some [T; T; T].
Proof. vm_compute. reflexivity. Qed.
Example reentry : t [pe 4; pe 1; is_ Sub S2; pe 4; is_ Sub S1] = Some [T; T; T; T; T].
Proof. vm_compute. reflexivity. Qed.
Example self : t [pe 6; is_ Main S1; pe 6; is_ Main S1] = Some [T; T; T; T].
Proof. vm_compute. reflexivity. Qed.
Example invalid_region : t [KIs 15 Main (SState S1)] = Some [OExn XOutOfRange].
Proof. vm_compute. reflexivity. Qed.
End Basic.

(** ** anonymous_transition.cpp *)
Module Anonymous.
Definition env : cenv :=
 [ (50, tbl [ se_to (st_event (star_state 1) (EUser 1)) (state 2);
              se_to (st_event (state 1) (EUser 2)) (state 4);
              se_to (st_event (state 1) (EUser 3)) (state 6);
              se_to (st_event (state 1) (EUser 4)) (state 8);
              st_to (state 2) (state 3);
              sa_to (st_action (state 4) act) (state 5);
              sg_to (st_guard (state 6) ok) (state 7);
              sga_to (sg_action (st_guard (state 8) ok) act) (state 9);
              se_to (st_event (star_state 21) (EUser 5)) (state 22) ]) ].
Definition t := session_of env 50.
Example a1 : t [pe 1; is_ 50 3] = Some [T; T]. Proof. vm_compute. reflexivity. Qed.
Example a2 : t [pe 2; is_ 50 5] = Some [T; T]. Proof. vm_compute. reflexivity. Qed.
Example a3 : t [pe 3; is_ 50 7] = Some [T; T]. Proof. vm_compute. reflexivity. Qed.
Example a4 : t [pe 4; is_ 50 9] = Some [T; T]. Proof. vm_compute. reflexivity. Qed.
End Anonymous.

(** ** custom_targets.cpp: S2 is not default constructible *)
Module Custom.
Definition env : cenv :=
 [ (2, mkCdef None None false false false None false);
   (50, mkCdef (Some
     [ sea_to (st_ea (star_state 1) (event_action (EUser 1) (Action 1 (ACreate 1)))) (state 2);
       sea_to (st_ea (state 1) (event_action (EUser 4) (Action 2 (ACreate 2)))) (state 2);
       se_to (st_event (state 1) (EUser 3)) (state 2);
       sea_to (st_ea (state 1) (event_action (EUser 2) (Action 3 (AReuse 3)))) (state 2);
       sea_to (st_ea (state 2) (event_action (EUser 2) act)) (state 1) ])
     None false false true None true) ].
Definition t := session_of env 50.
Example c1 : t [is_ 50 1; pe 1; is_ 50 2] = Some [T; T; T].
Proof. vm_compute. reflexivity. Qed.
Example c2 : t [pe 4; is_ 50 2] = Some [T; T]. Proof. vm_compute. reflexivity. Qed.
Example c3 : t [pe 1; pe 2; pe 2; is_ 50 2; pe 2; is_ 50 1; pe 3; is_ 50 2]
  = Some [T; T; T; T; T; T; T; T].
Proof. vm_compute. reflexivity. Qed.
End Custom.

(** ** defer_events.cpp (defered1 = 2, defered2 = 3) *)
Module Defer.
Definition env : cenv :=
 [ (1, mkCdef None None false false false (Some [EUser 2; EUser 3]) true);
   (50, mkCdef (Some
     [ sea_to (st_ea (star_state 1) (event_action (EUser 1) act)) (state 2);
       sea_to (st_ea (state 1) (event_action (EUser 3) act)) (state 2);
       sea_to (st_ea (state 2) (event_action (EUser 2) act)) (state 1);
       sea_to (st_ea (star_state 21) (event_action (EUser 4) act)) (state 22) ])
     None false false true None true) ].
Definition t := session_of env 50.
Example d1 : t [is_ 50 1; pe 2; is_ 50 1; pe 1; is_ 50 1] = Some [T; F; T; T; T].
Proof. vm_compute. reflexivity. Qed.
Example d2 : t [pe 3; is_ 50 1] = Some [F; T]. Proof. vm_compute. reflexivity. Qed.
End Defer.

(** ** direct_transition.cpp *)
Module Direct.
Definition Sub := 11. Definition Sub2 := 12. Definition Main := 50.
Definition e s n t := se_to (st_event s (EUser n)) t.
Definition env : cenv :=
 [ (Sub, tbl [ e (star_state 1) 1 (state 1); e (state 1) 3 (state 2);
               e (state 1) 4 (state 3); e (state 1) 5 (state 4) ]);
   (Sub2, tbl [ e (star_state 1) 1 (state 1) ]);
   (Main, tbl [ e (star_state 1) 1 (state Sub); e (state 1) 2 (state Sub2);
                e (state 1) 3 (direct Sub 1); e (direct Sub 1) 2 (direct Sub2 1);
                st_to (direct Sub 2) (direct Sub2 2);
                seg_to (st_eg (direct Sub 3) (event_guard (EUser 2) fail)) (direct Sub2 3);
                sea_to (st_ea (direct Sub 4) (event_action (EUser 2) act)) (direct Sub2 4);
                sega_to (st_ega (direct Sub 4) (eg_action (event_guard (EUser 2) fail) act))
                        (direct Sub2 4) ]) ].
Definition t := session_of env Main.
Example d1 : t [pe 3; is_ Sub 1] = Some [T; T]. Proof. vm_compute. reflexivity. Qed.
Example d2 : t [pe 1; is_ Sub 1; pe 2; is_ Sub2 1] = Some [T; T; T; T].
Proof. vm_compute. reflexivity. Qed.
Example d3 : t [pe 1; is_ Sub 1; pe 3; is_ Sub2 2] = Some [T; T; T; T].
Proof. vm_compute. reflexivity. Qed.
Example d4 : t [pe 1; pe 4; is_ Sub 3; pe 2; is_ Sub 3] = Some [T; T; T; F; T].
Proof. vm_compute. reflexivity. Qed.
Example d5 : t [pe 1; pe 5; is_ Sub 4; pe 2; is_ Sub2 4] = Some [T; T; T; T; T].
Proof. vm_compute. reflexivity. Qed.
End Direct.

(** ** entry_exit_actions.cpp, checked through the trace of callbacks *)
Module EntryExit.
Definition Sub := 11. Definition Sub2 := 12. Definition Sub3 := 13. Definition Main := 50.
Definition Ex := 9.
Definition ee d : cdef := mkCdef d None true true false None true.
Definition e s n t := se_to (st_event s (EUser n)) t.
Definition env : cenv :=
 [ (2, ee None);
   (Sub, ee (Some [ e (star_state 1) 1 (state 1) ]));
   (Sub2, tbl [ e (star_state 2) 1 (state 2) ]);
   (Sub3, mkCdef (Some [ sea_to (st_ea (star_state 1) (event_action (EUser 4) act)) (state Ex) ])
                 None false true false None true);
   (Main, tbl [ e (star_state 1) 1 (state 2); e (state 2) 1 (state 1);
                e (state 1) 2 (state Sub); e (state 1) 3 (state Sub2);
                sea_to (st_ea (state 1) (event_action (EUser 4) act)) (state Sub3);
                e (state Sub) 2 (state 1);
                sa_to (st_action (exit Sub3 Ex) act) (state 1) ]) ].
Definition t := session_of env Main.
Definition callees (ks : list (call nat)) : option (list callee) :=
  match compile env Main with
  | None => None
  | Some m => match session ex_cb m 0 300 0 0 ks with
              | Done _ s => Some (map k_callee (rt_trace s))
              | _ => None
              end
  end.
Example x1 : callees [pe 1; pe 1] = Some [CEntry 2; CExit 2].
Proof. vm_compute. reflexivity. Qed.
Example x2 : callees [pe 2; pe 2] = Some [CEntry Sub; CExit Sub].
Proof. vm_compute. reflexivity. Qed.
Example x3 : callees [pe 3] = Some [CEntry 2]. Proof. vm_compute. reflexivity. Qed.
Example x3' : t [pe 3; is_ Sub2 2] = Some [T; T]. Proof. vm_compute. reflexivity. Qed.
Example x4 : t [pe 4; is_ Sub3 1; pe 4; is_ Main 1] = Some [T; T; T; T].
Proof. vm_compute. reflexivity. Qed.
Example x4' : callees [pe 4; pe 4] = Some [CAction 0; CAction 0; CExit Sub3; CAction 0].
Proof. vm_compute. reflexivity. Qed.
End EntryExit.

(** ** entry_exit_pseudo_states.cpp *)
Module Pseudo.
Definition Sub := 11. Definition Main := 50.
Definition e s n t := se_to (st_event s (EUser n)) t.
Definition env : cenv :=
 [ (Sub, tbl [ e (star_state 1) 1 (state 2); e (state 1) 2 (state 3);
               e (state 1) 4 (state 4); e (state 1) 5 (state 5) ]);
   (Main, tbl [ e (star_state 1) 1 (entry Sub 3); e (state 1) 2 (state Sub);
                seg_to (st_eg (state 1) (event_guard (EUser 3) fail)) (entry Sub 3);
                sega_to (st_ega (state 1) (eg_action (event_guard (EUser 4) fail) act)) (entry Sub 3);
                sea_to (st_ea (state 1) (event_action (EUser 5) act)) (entry Sub 3);
                e (state 1) 6 (state 2);
                st_to (state 2) (entry Sub 3);
                e (exit Sub 4) 1 (state 1);
                seg_to (st_eg (exit Sub 4) (event_guard (EUser 2) ok)) (state 1);
                sega_to (st_ega (exit Sub 4) (eg_action (event_guard (EUser 3) ok) act)) (state 1);
                sea_to (st_ea (exit Sub 4) (event_action (EUser 4) act)) (state 1);
                st_to (exit Sub 5) (state 1) ]) ].
Definition t := session_of env Main.
Example p1 : t [pe 1; is_ Sub 3] = Some [T; T]. Proof. vm_compute. reflexivity. Qed.
Example p2 : t [pe 6; is_ Sub 3] = Some [T; T]. Proof. vm_compute. reflexivity. Qed.
Example p3 : t [pe 3; is_ Main 1] = Some [F; T]. Proof. vm_compute. reflexivity. Qed.
Example p4 : t [pe 4; is_ Main 1] = Some [F; T]. Proof. vm_compute. reflexivity. Qed.
Example p5 : t [pe 5; is_ Sub 3] = Some [T; T]. Proof. vm_compute. reflexivity. Qed.
Example p6 : t [pe 2; is_ Sub 1; pe 4; pe 1; is_ Main 1] = Some [T; T; T; T; T].
Proof. vm_compute. reflexivity. Qed.
Example p7 : t [pe 2; pe 4; pe 4; is_ Main 1] = Some [T; T; T; T].
Proof. vm_compute. reflexivity. Qed.
Example p8 : t [pe 2; pe 4; pe 2; is_ Main 1] = Some [T; T; T; T].
Proof. vm_compute. reflexivity. Qed.
Example p9 : t [pe 2; pe 4; pe 3; is_ Main 1] = Some [T; T; T; T].
Proof. vm_compute. reflexivity. Qed.
Example p10 : t [pe 2; is_ Sub 1; pe 5; is_ Main 1] = Some [T; T; T; T].
Proof. vm_compute. reflexivity. Qed.
End Pseudo.

(** ** exit_pseudo_states_with_history.cpp (should compile) and
    history_pseudo_state.cpp *)
Module History.
Definition Sub := 11. Definition Main := 50.
Definition env0 : cenv :=
 [ (Sub, tbl [ st_to (star_state 1) (state 6); se_to (st_event (state 2) (EUser 3)) (state 7) ]);
   (Main, tbl [ se_to (st_event (star_state 3) (EUser 1)) (state 4);
                se_to (st_event (state 4) (EUser 2)) (state Sub);
                se_to (st_event (state Sub) (EUser 2)) (history Sub);
                st_to (state 5) (state 4);
                st_to (exit Sub 6) (state 5);
                st_to (exit Sub 7) (state 4) ]) ].
Example h0 : session_of env0 Main [is_ Main 3] = Some [T].
Proof. vm_compute. reflexivity. Qed.
Definition l s e t := sea_to (st_ea s (event_action (EUser e) act)) t.
Definition env : cenv :=
 [ (Sub, tbl [ l (star_state 1) 1 (state 2) ]);
   (Main, tbl [ l (star_state 1) 1 (state Sub); l (state 1) 2 (history Sub);
                l (state Sub) 3 (state 2); l (state Sub) 2 (history Sub) ]) ].
Definition t := session_of env Main.
Example h1 : t [is_ Main 1; pe 1; is_ Sub 1; pe 1; is_ Sub 2; pe 2; is_ Sub 2]
  = Some [T; T; T; T; T; T; T].
Proof. vm_compute. reflexivity. Qed.
Example h2 : t [is_ Main 1; pe 2; is_ Main 1; is_ Sub 1] = Some [T; T; F; T].
Proof. vm_compute. reflexivity. Qed.
End History.

(** ** guards_actions.cpp (selection) *)
Module Guards.
Definition g s n gd t := seg_to (st_eg s (event_guard (EUser n) gd)) t.
Definition env : cenv :=
 [ (11, tbl [ sea_to (st_ea (star_state 1) (event_action (EUser 1) act)) (state 1) ]);
   (50, tbl [ sea_to (st_ea (star_state 1) (event_action (EUser 1) act)) (state 1);
              se_to (st_event (state 1) (EUser 2)) (state 11);
              g (state 1) 3 fail (state 2); g (state 1) 4 ok (state 2);
              g (state 1) 9 fail (state 2); g (state 1) 9 ok (state 2);
              se_to (st_event (state 1) (EUser 10)) (state 3);
              sg_to (st_guard (state 3) fail) (state 1) ]) ].
Definition t := session_of env 50.
Example g1 : t [pe 3; is_ 50 1] = Some [F; T]. Proof. vm_compute. reflexivity. Qed.
Example g2 : t [pe 4; is_ 50 2] = Some [T; T]. Proof. vm_compute. reflexivity. Qed.
Example g3 : t [pe 9; is_ 50 2] = Some [T; T]. Proof. vm_compute. reflexivity. Qed.
Example g4 : t [pe 10; is_ 50 3] = Some [T; T]. Proof. vm_compute. reflexivity. Qed.
End Guards.

(** ** internal_transition.cpp *)
Module Internal.
Definition Sub := 11. Definition IOnly := 12. Definition Main := 50.
Definition e s n t := se_to (st_event s (EUser n)) t.
Definition log := Action 7 (ACall 7).
Definition err := Action 8 (AChain [ACall 7; ACall 666]).
Definition env : cenv :=
 [ (2, mkCdef None None true true false None true);
   (Sub, mkCdef (Some [ e (star_state 1) 1 (state 2); e (state 1) 5 (state 3) ])
                (Some [ plus_event (EUser 1); plus_ea (event_action (EUser 8) log) ])
                false false false None true);
   (IOnly, mkCdef None (Some [ plus_event (EUser 11) ]) false false false None true);
   (Main, mkCdef (Some [ e (star_state 1) 1 (state 2); e (state 1) 7 (state 2);
                         e (state 1) 3 (state Sub); e (state 2) 6 (state 1);
                         e (state 1) 10 (state IOnly) ])
                 (Some [ plus_event (EUser 1);
                         plus_ea (event_action (EUser 2) act);
                         plus_ega (eg_action (event_guard (EUser 5) fail) log);
                         plus_ega (eg_action (event_guard (EUser 4) fail) act);
                         plus_ea (event_action (EUser 8) err);
                         plus_event (EUser 9) ])
                 false false false None true) ].
Definition t := session_of env Main.
Definition world (ks : list (call nat)) : option (list callee) :=
  match compile env Main with
  | None => None
  | Some m => match session ex_cb m 0 300 0 0 ks with
              | Done _ s => Some (map k_callee (rt_trace s)) | _ => None end
  end.
Example i1 : t [pe 1; is_ Main 2] = Some [T; T]. Proof. vm_compute. reflexivity. Qed.
Example i2 : t [pe 3; is_ Sub 1; pe 1; is_ Sub 2] = Some [T; T; T; T].
Proof. vm_compute. reflexivity. Qed.
Example i3 : t [pe 2; is_ Main 1] = Some [T; T]. Proof. vm_compute. reflexivity. Qed.
Example i3' : world [pe 2] = Some [CAction 0]. Proof. vm_compute. reflexivity. Qed.
Example i4 : t [pe 5; is_ Main 1] = Some [F; T]. Proof. vm_compute. reflexivity. Qed.
Example i5 : world [pe 4] = Some [CGuard 0 0; CGuard 0 0].
Proof. vm_compute. reflexivity. Qed.
Example i6 : t [pe 3; is_ Sub 1; pe 5; is_ Sub 3] = Some [T; T; T; T].
Proof. vm_compute. reflexivity. Qed.
Example i7 : t [pe 3; pe 1; is_ Sub 2; pe 8; is_ Sub 2] = Some [T; T; T; T; T].
Proof. vm_compute. reflexivity. Qed.
Example i7' : world [pe 3; pe 1; pe 8] = Some [CEntry 2; CAction 7].
Proof. vm_compute. reflexivity. Qed.
Example i8 : t [pe 3; pe 1; pe 9; is_ Sub 2] = Some [T; T; F; T].
Proof. vm_compute. reflexivity. Qed.
Example i9 : t [pe 7; is_ Main 2; pe 1; is_ Main 2] = Some [T; T; T; T].
Proof. vm_compute. reflexivity. Qed.
Example i10 : t [pe 10; is_ Main IOnly; pe 11; is_ Main IOnly] = Some [T; T; T; T].
Proof. vm_compute. reflexivity. Qed.
End Internal.

(** ** orthogonal_regions.cpp *)
Module Regions.
Definition Sub := 11. Definition Main := 50.
Definition g s n gd t := seg_to (st_eg s (event_guard (EUser n) gd)) t.
Definition env : cenv :=
 [ (Sub, tbl [ g (star_state 1) 1 ok (state 2) ]);
   (Main, tbl [ g (star_state 1) 1 ok (state 2); g (state 1) 2 ok (state 4);
                g (state 1) 3 fail (state 2); g (state 1) 4 ok (state 2);
                g (state 1) 5 fail (state 2); g (state 1) 6 ok (state 6);
                sg_to (st_guard (state 6) fail) (state 1);
                g (state 2) 1 ok (state Sub); sg_to (st_guard (state 4) ok) (state 1);
                g (star_state 3) 1 ok (state 4); g (state 3) 2 ok (state 5);
                g (state 3) 3 fail (state 2); g (state 3) 4 fail (state 2);
                g (state 3) 5 ok (state 2); g (state 3) 6 ok (state 7);
                sg_to (st_guard (state 7) ok) (state 1);
                sg_to (st_guard (state 5) ok) (state 1) ]) ].
Definition t := session_of env Main.
Definition is2 a b : list (call nat) := [KIs 0 Main (SState a); KIs 1 Main (SState b)].
Example r0 : t (is2 1 3) = Some [T; T]. Proof. vm_compute. reflexivity. Qed.
Example r1 : t (pe 1 :: is2 2 4) = Some [T; T; T]. Proof. vm_compute. reflexivity. Qed.
Example r2 : t (pe 2 :: is2 1 1) = Some [T; T; T]. Proof. vm_compute. reflexivity. Qed.
Example r3 : t (pe 3 :: is2 1 3) = Some [F; T; T]. Proof. vm_compute. reflexivity. Qed.
Example r4 : t (pe 4 :: is2 2 3) = Some [T; T; T]. Proof. vm_compute. reflexivity. Qed.
Example r5 : t (pe 5 :: is2 1 2) = Some [T; T; T]. Proof. vm_compute. reflexivity. Qed.
Example r6 : t (pe 6 :: is2 6 1) = Some [T; T; T]. Proof. vm_compute. reflexivity. Qed.
End Regions.

(** ** process_event_return_bool.cpp *)
Module ReturnBool.
Definition l s e t := sea_to (st_ea s (event_action (EUser e) act)) t.
Definition env : cenv :=
 [ (2, mkCdef None None false false false (Some [EUser 4]) true);
   (50, tbl [ l (star_state 1) 1 (state 2); l (state 2) 2 (state 1); l (state 2) 4 (state 1);
              sega_to (st_ega (state 1) (eg_action (event_guard (EUser 3) fail) act)) (state 2) ]) ].
Definition t := session_of env 50.
Example b1 : t [pe 1] = Some [T]. Proof. vm_compute. reflexivity. Qed.
Example b2 : t [pe 2] = Some [F]. Proof. vm_compute. reflexivity. Qed.
Example b3 : t [pe 3] = Some [F]. Proof. vm_compute. reflexivity. Qed.
Example b4 : t [pe 1; pe 4] = Some [T; F]. Proof. vm_compute. reflexivity. Qed.
End ReturnBool.

(** ** set_state.cpp *)
Module SetState.
Definition e s n t := se_to (st_event s (EUser n)) t.
Definition env : cenv :=
 [ (11, tbl [ e (star_state 1) 1 (state 2) ]);
   (50, tbl [ e (star_state 1) 1 (state 2); e (state 1) 1 (state 11) ]) ].
Definition t := session_of env 50.
Example s1 : t [is_ 50 1; KSet 0 50 (SState 2); is_ 50 2] = Some [T; OUnit; T].
Proof. vm_compute. reflexivity. Qed.
Example s2 : t [KSet 0 11 (SState 2); is_ 11 2] = Some [OUnit; T].
Proof. vm_compute. reflexivity. Qed.
Example s3 : t [KSet 1 11 (SState 1)] = Some [OExn XOutOfRange].
Proof. vm_compute. reflexivity. Qed.
Example s4 : t [KSet 0 50 (SState 3)] = None. Proof. vm_compute. reflexivity. Qed.
End SetState.

(** ** reproducer/should_execute_anonymous_transition_once.cpp *)
Module Once.
Definition l s e t := sea_to (st_ea s (event_action (EUser e) act)) t.
Definition env : cenv :=
 [ (11, tbl [ sa_to (st_action (star_state 1) act) (state 2) ]);
   (12, tbl [ sa_to (st_action (star_state 1) (Action 5 (AChain [ACall 0; ACall 42]))) (state 2);
              l (state 2) 4 (state 3) ]);
   (50, mkCdef (Some [ l (star_state 1) 1 (state 11); l (state 1) 2 (state 12);
                       l (state 11) 3 (state 12) ]) None false false true None true) ].
Definition calls42 (ks : list (call nat)) : option nat :=
  match compile env 50 with
  | None => None
  | Some m => match session ex_cb m 0 300 0 0 ks with
              | Done _ s => Some (length (filter (fun k => match k_callee k with
                                    CAction 42 => true | _ => false end) (rt_trace s)))
              | _ => None end
  end.
Example o1 : session_of env 50 [is_ 50 1; pe 2; is_ 12 2; pe 4; is_ 12 3] = Some [T; T; T; T; T].
Proof. vm_compute. reflexivity. Qed.
Example o2 : calls42 [pe 2; pe 4] = Some 1. Proof. vm_compute. reflexivity. Qed.
End Once.

(** ** unexpected_event_handler.cpp: the handler sees and changes the event *)
Module Unexpected.
Definition e s n t := se_to (st_event s (EUser n)) t.
Definition env : cenv :=
 [ (50, mkCdef (Some [ e (star_state 1) 1 (state 2); e (state 1) 3 (state 3);
                       e (state 2) 2 (state 1);
                       seg_to (st_eg (state 3) (event_guard (EUser 2) fail)) (state 1) ])
               None false false true None true) ].
Definition ev_after (ks : list (call nat)) : option (bool * nat) :=
  match compile env 50 with
  | None => None
  | Some m =>
      match session ex_cb m 0 300 0 0 ks with
      | Done _ s => match process_event ex_cb m 0 300 (EUser 2) 0 s with
                    | Done bv _ => Some bv | _ => None end
      | _ => None end
  end.
Example u1 : ev_after [] = Some (false, 99). Proof. vm_compute. reflexivity. Qed.
Example u2 : ev_after [pe 3] = Some (false, 0). Proof. vm_compute. reflexivity. Qed.
End Unexpected.

(** ** reproducer/should_enter_substate_with_multiple_regions.cpp: the test of the
    repository only enters the sub state; the next event is undefined behaviour. *)
Module MultiRegionSub.
Definition e s n t := se_to (st_event s (EUser n)) t.
Definition env : cenv :=
 [ (11, tbl [ e (star_state 1) 2 (state 1); e (star_state 2) 2 (state 2) ]);
   (50, tbl [ e (star_state 1) 1 (state 11) ]) ].
Definition r ks := match compile env 50 with
                   | None => Timeout | Some m => session ex_cb m 0 300 0 0 ks end.
Example m1 : outs (r [pe 1]) = Some [T]. Proof. vm_compute. reflexivity. Qed.
Example m2 : r [pe 1; pe 2] = Undef UBUninit. Proof. vm_compute. reflexivity. Qed.
End MultiRegionSub.
