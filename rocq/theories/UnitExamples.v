(** The repository's unit tests of the compile-time functions, and the integration
    tests that [Examples.v] leaves out, replayed on the model.  These are tests of
    the model (by computation), not proofs of properties. *)

From Coq Require Import List Arith NArith Bool.
From Verif Require Import Types Static Dispatch Runtime Dsl Examples.
Import ListNotations.

(** [sm<Root>]'s compile-time functions without the static assertions of sm. *)
Definition flat_of (env : cenv) (c : cls) : list xrow :=
  match flatten 9 env c with Some l => l | None => [] end.
Definition mach (env : cenv) (c : cls) : machine := mkMachine env c (flat_of env c).
Definition g := Guard 3 0.
Definition a1 := Action 4 (ACall 4).
Definition tr s n t := tuple_transition s (EUser n) g a1 t.
Definition st := SState.

(** ** unit/stateidx_tests.cpp *)
Module StateIdx.
Definition env : cenv := [ (11, tbl [tr (st 2) 0 (st 2)]); (50, tbl [tr (st 1) 0 (st 11)]) ].
Definition m := mach env 50.
Example state_indices : map (state_idx m) [st 50; st 1; st 11; st 2] = [3; 0; 1; 2]%N.
Proof. vm_compute. reflexivity. Qed.
Example parent_indices : map (parent_idx m) [50; 11] = [0; 1]%N.
Proof. vm_compute. reflexivity. Qed.
Example combined_indices : combined_idx m 50 (st 1) = 0%N /\ combined_idx m 11 (st 2) = 6%N.
Proof. vm_compute. split; reflexivity. Qed.
Example sizes : n_states m = 4%N /\ n_parents m = 2.
Proof. vm_compute. split; reflexivity. Qed.
Example calculated :
  calc_combined_idx (n_states m) (parent_idx m 50) (state_idx m (st 1)) = combined_idx m 50 (st 1) /\
  calc_combined_idx (n_states m) (parent_idx m 11) (state_idx m (st 2)) = combined_idx m 11 (st 2).
Proof. vm_compute. split; reflexivity. Qed.
Example parent_calculated :
  calc_parent_idx (n_states m) (combined_idx m 50 (st 1)) = 0%N /\
  calc_parent_idx (n_states m) (combined_idx m 11 (st 2)) = 1%N.
Proof. vm_compute. split; reflexivity. Qed.
Example state_calculated :
  calc_state_idx (n_states m) (combined_idx m 50 (st 1)) = 0%N /\
  calc_state_idx (n_states m) (combined_idx m 11 (st 2)) = 2%N.
Proof. vm_compute. split; reflexivity. Qed.
End StateIdx.

(** ** unit/collect_states_tests.cpp *)
Module CollectStates.
Definition env1 : cenv := [ (50, tbl [tr (st 1) 0 (st 1); tr (st 2) 0 (st 2)]) ].
Example child_typeids1 : child_typeids env1 50 = [st 1; st 2].
Proof. vm_compute. reflexivity. Qed.
Example child_typeids_initial :
  child_typeids [ (50, tbl [tr (star_state 1) 0 (st 1)]) ] 50 = [st 1].
Proof. vm_compute. reflexivity. Qed.
Example child_states1 : child_states env1 50 = [st 1; st 2].
Proof. vm_compute. reflexivity. Qed.
Example empty : flatten 9 [ (50, tbl []) ] 50 = Some [] /\ child_states_rec (mach [ (50, tbl []) ] 50) = [].
Proof. vm_compute. split; reflexivity. Qed.
Example top_level : child_states_rec (mach env1 50) = [st 1; st 2].
Proof. vm_compute. reflexivity. Qed.
Example recursive : child_states_rec StateIdx.m = [st 1; st 11; st 2].
Proof. vm_compute. reflexivity. Qed.
Example at_least_parent : states (mach [ (50, tbl []) ] 50) = [st 50].
Proof. vm_compute. reflexivity. Qed.
Example states_recursive : states StateIdx.m = [st 1; st 11; st 2; st 50].
Proof. vm_compute. reflexivity. Qed.
Definition Sub := 11. Definition HSub := 12. Definition Main := 50.
Definition env : cenv :=
  [ (Sub, tbl [tr (initial 1) 1 (st 2)]); (HSub, tbl [tr (initial 1) 1 (st 2)]);
    (Main, tbl [tr (initial 1) 1 (st 2); tr (st 2) 1 (st Sub); tr (st 2) 1 (history HSub);
                tr (initial 3) 1 (st 4)]) ].
Example parents1 : parents (mach env Main) = [Main; Sub; HSub].
Proof. vm_compute. reflexivity. Qed.
Example pairs : state_pairs (mach env Main) =
  [ (Main, st Main); (Main, st 1); (Main, st 2); (Main, st Sub); (Sub, st 1); (Sub, st 2);
    (Main, history HSub); (HSub, st 1); (HSub, st 2); (Main, st 3); (Main, st 4) ].
Proof. vm_compute. reflexivity. Qed.
End CollectStates.

(** ** unit/collect_initial_states_tests.cpp *)
Module CollectInitial.
Definition I1 := 1. Definition S1 := 2. Definition S2 := 3. Definition S3 := 4.
Definition Sub1 := 11. Definition Root1 := 50. Definition I2 := 12. Definition I3 := 13. Definition Root2 := 51.
Definition env : cenv :=
  [ (Sub1, tbl [st_to (star_state S3) (state I1)]);
    (Root1, tbl [st_to (star_state I1) (state I1); st_to (state I1) (history Sub1);
                 st_to (star_state S2) (state S2)]);
    (I2, mkCdef (Some [st_to (star_state S3) (state I1)]) (Some [plus_event (EUser 1)])
                false false false None true);
    (Root2, tbl [st_to (star_state I2) (state S1); st_to (state I3) (state S2)]) ].
Definition m := mach env Root1.
Example initial_states : initials env Root1 = [st I1; st S2].
Proof. vm_compute. reflexivity. Qed.
Example max : max_initials m = 2.
Proof. vm_compute. reflexivity. Qed.
Example parent_ids : parents m = [Root1; Sub1] /\ map (parent_idx m) [Root1; Sub1] = [0; 1]%N.
Proof. vm_compute. split; reflexivity. Qed.
Example table : initial_table m =
  [ [combined_idx m Root1 (st I1); combined_idx m Root1 (st S2)]; [combined_idx m Sub1 (st S3)] ].
Proof. vm_compute. reflexivity. Qed.
Example has_tables : has_table env (st I1) = false /\ has_table env (st S3) = false /\
  existsb (has_table env) (initials env Root1) = false /\ existsb (has_internal env) (initials env Root1) = false /\
  has_table env (st I2) = true /\ has_table env (st I3) = false /\
  existsb (has_table env) (initials env Root2) = true /\ existsb (has_internal env) (initials env Root2) = true.
Proof. vm_compute. repeat split; reflexivity. Qed.
(** sm<Root2> violates the static assertions of sm. *)
Example root2 : compile env Root2 = None.
Proof. vm_compute. reflexivity. Qed.
End CollectInitial.

(** ** unit/collect_events_tests.cpp *)
Module CollectEvents.
Definition ir n := tuple_internal_transition (EUser n) g a1.
Definition env : cenv :=
  [ (11, mkCdef (Some [tr (st 1) 2 (st 1)]) (Some [ir 4]) false false false None true);
    (50, mkCdef (Some [tr (st 1) 1 (st 11)]) (Some [ir 3]) false false false None true) ].
Example events1 : events (mach env 50) = map EUser [1; 2; 3; 4].
Proof. vm_compute. reflexivity. Qed.
End CollectEvents.

(** ** unit/flatten_transition_table_tests.cpp *)
Module Flatten.
Definition env : cenv :=
  [ (12, tbl [tr (st 1) 1 (st 1)]); (11, tbl [tr (st 1) 1 (st 1)]);
    (50, tbl [tr (st 1) 1 (st 11); tr (st 1) 2 (history 12)]) ].
Example four : map x_parent (flat_of env 50) = [50; 11; 50; 12].
Proof. vm_compute. reflexivity. Qed.
End Flatten.

(** ** unit/flatten_internal_transition_table_tests.cpp *)
Module FlattenInternal.
Definition ir := tuple_internal_transition (EUser 1) g a1.
Definition P0 := 1. Definition IOnly := 2. Definition X := 11. Definition Y := 12. Definition Z := 13. Definition P := 14.
Definition both l := mkCdef (Some l) (Some [ir]) false false false None true.
Definition env : cenv :=
  [ (IOnly, mkCdef None (Some [ir]) false false false None true);
    (X, tbl [tr (st IOnly) 1 (st IOnly)]); (Y, both [tr (st P0) 1 (st P0)]);
    (Z, both [tr (st IOnly) 1 (st IOnly)]); (P, both [tr (st IOnly) 1 (st Z)]) ].
Definition shape c := map (fun x => (x_parent x, x_src x, x_tgt x)) (internal_flat (mach env c)).
Example root : shape Y = [(Y, st P0, st P0)].
Proof. vm_compute. reflexivity. Qed.
Example substate : shape X = [(X, st IOnly, st IOnly)].
Proof. vm_compute. reflexivity. Qed.
Example root_and_substate : shape Z = [(Z, st IOnly, st IOnly)].
Proof. vm_compute. reflexivity. Qed.
Example three : length (shape P) = 3.
Proof. vm_compute. reflexivity. Qed.
End FlattenInternal.

(** ** unit/make_dispatch_tables_tests.cpp, unit/fill_dispatch_table_tests.cpp and
    unit/unexpected_event_handler_tables_tests.cpp *)
Module Tables.
Definition env : cenv :=
  [ (50, tbl [tuple_transition (initial 1) (EUser 1) NoGuard NoAction (state 2);
              tuple_transition (initial 2) ENone NoGuard NoAction (state 2)]) ].
Definition m := mach env 50.
Example two_tables : map (fun p => (fst p, length (snd p))) (empty_tables m) = [(EUser 1, 3); (ENone, 3)].
Proof. vm_compute. reflexivity. Qed.
Example filled : exists t, fill_transitions m 0 (mc_flat m) (empty_tables m) = Some t.
Proof. vm_compute. eexists. reflexivity. Qed.
Example handlers : option_map (map (fun p => (fst p, length (snd p)))) (fill_handlers m 7)
  = Some [(EUser 1, 3); (ENone, 3)].
Proof. vm_compute. reflexivity. Qed.
(** The handler at index 0 is called with the given dependency. *)
Example handler0 : match fill_handlers m 7 with
                   | Some t => option_map (@hd_error _) (get_table t (EUser 1))
                   | None => None end = Some (Some (Some (st 1, 7))).
Proof. vm_compute. reflexivity. Qed.
End Tables.

(** ** unit/make_states_map_tests.cpp: one object per state *)
Module StatesMap.
Definition env : cenv :=
  [ (11, tbl [tr (star_state 1) 1 (st 2)]);
    (50, tbl [tr (star_state 1) 1 (st 2); tr (st 2) 1 (st 11); tr (star_state 3) 1 (st 4)]) ].
Example six : states (mach env 50) = [st 1; st 2; st 11; st 3; st 4; st 50].
Proof. vm_compute. reflexivity. Qed.
End StatesMap.

(** ** unit/transition_table_traits_tests.cpp *)
Module TableTraits.
Definition env : cenv :=
  [ (50, tbl [se_to (st_event (star_state 1) (EUser 1)) (state 2); st_to (state 2) (state 3);
              se_to (st_event (star_state 4) (EUser 1)) (state 5)]);
    (51, tbl [se_to (st_event (star_state 1) (EUser 1)) (state 2)]) ].
Example anonymous : has_anonymous (mach env 50) = true /\ has_anonymous (mach env 51) = false.
Proof. vm_compute. split; reflexivity. Qed.
End TableTraits.

(** ** unit/dispatch_table_tests.cpp (resolve functions) and unit/has_action_tests.cpp,
    unit/traits_tests.cpp *)
Module Resolve.
Definition env : cenv :=
  [ (1, mkCdef None None true true false (Some [EUser 1]) true);
    (11, tbl [se_to (st_event (star_state 1) (EUser 1)) (state 2)]) ].
Definition x s t := extend 2 (tr s 1 t).
Example history1 : resolve_history (x (st 1) (history 1)) = true /\ resolve_history (x (st 1) (st 1)) = false.
Proof. vm_compute. split; reflexivity. Qed.
Example destination : resolve_dst env (x (st 2) (st 1)) = Some (st 1).
Proof. vm_compute. reflexivity. Qed.
Example submachine : resolve_dst env (x (st 2) (st 11)) = Some (st 1).
Proof. vm_compute. reflexivity. Qed.
Example parent : resolve_dst_parent env (x (st 2) (st 1)) = 2 /\ resolve_dst_parent env (x (st 2) (st 11)) = 11.
Proof. vm_compute. split; reflexivity. Qed.
Example source : resolve_src (x (st 1) (st 3)) = st 1 /\ resolve_src_parent (x (st 1) (st 3)) = 2.
Proof. vm_compute. split; reflexivity. Qed.
Example action : has_action [] (x (st 1) (st 3)) = true.
Proof. vm_compute. reflexivity. Qed.
Example initial_entry : initial_entry_of env (st 11) = Some 1 /\ entry_of env (st 1) = Some 1 /\
  exit_of env (st 1) = Some 1 /\ defer_of env (st 1) = Some [EUser 1].
Proof. vm_compute. repeat split; reflexivity. Qed.
End Resolve.

(** ** integration/initial_state.cpp, no_action.cpp, transition_logging.cpp *)
Module Small.
Definition env1 : cenv := [ (50, tbl [se_to (st_event (star_state 1) (EUser 1)) (state 1)]) ].
Example initial_state : session_of env1 50 [is_ 50 1; pe 1; is_ 50 1] = Some [T; T; T].
Proof. vm_compute. reflexivity. Qed.
Example initial_with_table :
  compile ((1, tbl [se_to (st_event (star_state 2) (EUser 2)) (state 2)]) :: env1) 50 = None.
Proof. vm_compute. reflexivity. Qed.
Example initial_with_internal_table :
  compile ((1, mkCdef None (Some [plus_event (EUser 1)]) false false false None true) :: env1) 50 = None.
Proof. vm_compute. reflexivity. Qed.
Example no_action : session_of
  [ (50, tbl [tuple_transition (star_state 1) (EUser 1) NoGuard NoAction (state 1)]) ] 50 [pe 1] = Some [T].
Proof. vm_compute. reflexivity. Qed.
Definition log := Action 9 (ACall 9).
Definition env2 : cenv :=
  [ (50, mkCdef (Some [ sea_to (st_ea (star_state 1) (event_action (EUser 1) log)) (state 2);
                        sea_to (st_ea (state 2) (event_action (EUser 2) log)) (state 1) ])
                None false false true None true) ].
Example logging : session_of env2 50 [is_ 50 1; pe 1; is_ 50 2] = Some [T; T; T].
Proof. vm_compute. reflexivity. Qed.
Example logging_unexpected : session_of env2 50 [is_ 50 1; pe 2; is_ 50 1] = Some [T; F; T].
Proof. vm_compute. reflexivity. Qed.
End Small.

(** What user code was called with in a session. *)
Definition calls_of (env : cenv) (d : dep) (ks : list (call nat)) : option (list (callee * dep)) :=
  match compile env 50 with
  | None => None
  | Some m => match session ex_cb m 0 300 d 0 ks with
              | Done _ s => Some (map (fun k => (k_callee k, a_dep (k_args k))) (rt_trace s))
              | _ => None end
  end.

(** ** integration/chain_actions.cpp *)
Module Chain.
Definition ch := Action 5 (AChain [ACall 1; ACall 2]).
Definition env : cenv :=
  [ (50, tbl [ sea_to (st_ea (star_state 1) (event_action (EUser 1) ch)) (state 2);
               sea_to (st_ea (state 2) (event_action (EUser 1) ch)) (state 1) ]) ].
Example chained : calls_of env 0 [pe 1] = Some [(CAction 1, 0); (CAction 2, 0)].
Proof. vm_compute. reflexivity. Qed.
End Chain.

(** ** integration/dependency_injection.cpp; the commented-out assertions of the
    second test hold in the model: the old dependency is no longer used. *)
Module Dependency.
Definition env : cenv :=
  [ (50, tbl [ sega_to (st_ega (star_state 1) (eg_action (event_guard (EUser 1) ok) act)) (state 1) ]) ].
Example inject : calls_of env 7 [pe 1] = Some [(CGuard 1 0, 7); (CAction 0, 7)].
Proof. vm_compute. reflexivity. Qed.
Example set : calls_of env 7 [pe 1; KSetDep 8; pe 1]
  = Some [(CGuard 1 0, 7); (CAction 0, 7); (CGuard 1 0, 8); (CAction 0, 8)].
Proof. vm_compute. reflexivity. Qed.
End Dependency.

(** ** integration/transition_postfix_dsl.cpp and transition_prefix_dsl.cpp *)
Module DslTests.
Definition post : cenv :=
  [ (50, tbl [ se_to (st_event (star_state 1) (EUser 1)) (state 2);
               se_to (st_event (state 1) (EUser 4)) (state 3);
               seg_to (st_eg (state 1) (event_guard (EUser 2) ok)) (state 2);
               sega_to (st_ega (state 1) (eg_action (event_guard (EUser 3) ok) act)) (state 2);
               sea_to (st_ea (state 1) (event_action (EUser 3) act)) (state 2);
               st_to (state 3) (state 1) ]) ].
Definition pre : cenv :=
  [ (50, tbl [ from_se (state 2) (st_event (star_state 1) (EUser 1));
               from_se (state 3) (st_event (state 1) (EUser 4));
               from_seg (state 2) (st_eg (state 1) (event_guard (EUser 2) ok));
               from_sega (state 2) (st_ega (state 1) (eg_action (event_guard (EUser 3) ok) act));
               from_sea (state 2) (st_ea (state 1) (event_action (EUser 3) act));
               from_st (state 1) (state 3) ]) ].
Example all : map (fun e => (session_of post 50 [is_ 50 1; pe e; is_ 50 2; is_ 50 1],
                             session_of pre 50 [is_ 50 1; pe e; is_ 50 2; is_ 50 1])) [1; 4; 2; 3]
  = [ (Some [T; T; T; F], Some [T; T; T; F]); (Some [T; T; F; T], Some [T; T; F; T]);
      (Some [T; T; T; F], Some [T; T; T; F]); (Some [T; T; T; F], Some [T; T; T; F]) ].
Proof. vm_compute. reflexivity. Qed.
End DslTests.

(** ** integration/state_data_members.cpp: the data members of the states are the
    world; the event carries source and target data.  Guard and action 1 read, guard
    and action 2 write, on_entry writes, on_exit reads. *)
Module Data.
Definition V := (nat * nat)%type.
Definition W := list (sref * nat).
Fixpoint data (w : W) (s : sref) : nat :=
  match w with
  | [] => match s with SState c => c | _ => 0 end
  | (s', n) :: w' => if sref_eq_dec s s' then n else data w' s
  end.
Definition tgt a := match a_tgt a with TObj s | TPtr s => s | TNone => a_src a end.
Definition rd (a : args) (w : W) : V := (data w (a_src a), data w (tgt a)).
Definition wr (a : args) (v : V) (w : W) : W := (tgt a, snd v) :: (a_src a, fst v) :: w.
Definition cb : cbfun V W := fun c a v w =>
  match c with
  | CGuard 1 _ | CAction 1 | CExit _ => Ret true (rd a w) w
  | CGuard _ _ | CAction _ | CEntry _ => Ret true v (wr a v w)
  | _ => Ret true v w
  end.
Definition R := EUser 1. Definition Wr := EUser 2. Definition Reset := EUser 3.
Definition Enter := EUser 4. Definition Leave := EUser 5.
Definition rda := Action 1 (ACall 1). Definition wra := Action 2 (ACall 2).
(** The event after the last of the given events. *)
Definition last_event (env : cenv) (evs : list (ev * V)) (e : ev) : option (bool * V) :=
  match compile env 50 with
  | None => None
  | Some m =>
      match session cb m (0, 0) 300 0 [] (map (fun p => KProcess (fst p) (snd p)) evs) with
      | Done _ s => match process_event cb m (0, 0) 300 e (0, 0) s with
                    | Done r _ => Some r | _ => None end
      | _ => None end
  end.
Definition actions : cenv :=
  [ (50, tbl [ sea_to (st_ea (star_state 1) (event_action Wr wra)) (state 2);
               sea_to (st_ea (state 1) (event_action R rda)) (state 2);
               sea_to (st_ea (state 2) (event_action R rda)) (state 1) ]) ].
Example read_action : last_event actions [] R = Some (true, (1, 2)).
Proof. vm_compute. reflexivity. Qed.
Example write_action : last_event actions [(Wr, (42, 43))] R = Some (true, (43, 42)).
Proof. vm_compute. reflexivity. Qed.
Definition guards : cenv :=
  [ (50, tbl [ seg_to (st_eg (star_state 1) (event_guard R (Guard 1 0))) (state 2);
               seg_to (st_eg (state 1) (event_guard Wr (Guard 2 0))) (state 2);
               se_to (st_event (state 2) Reset) (state 1) ]) ].
Example read_guard : last_event guards [] R = Some (true, (1, 2)).
Proof. vm_compute. reflexivity. Qed.
Example write_guard : last_event guards [(Wr, (42, 43)); (Reset, (0, 0))] R = Some (true, (42, 43)).
Proof. vm_compute. reflexivity. Qed.
Definition s3 : cdef := mkCdef None None true true false None true.
Definition entries : cenv :=
  [ (3, s3);
    (50, tbl [ se_to (st_event (star_state 1) Wr) (state 3); se_to (st_event (state 3) R) (state 1) ]) ].
Example write_entry : last_event entries [(Wr, (42, 42))] R = Some (true, (42, 42)).
Proof. vm_compute. reflexivity. Qed.
Definition subs : cenv :=
  [ (3, s3);
    (11, mkCdef (Some [ sea_to (st_ea (star_state 3) (event_action R rda)) (state 3) ])
                None true false false None true);
    (50, tbl [ se_to (st_event (star_state 1) Enter) (state 11);
               sea_to (st_ea (state 1) (event_action R rda)) (state 11);
               se_to (st_event (state 11) Leave) (state 1) ]) ].
Example write_substate : last_event subs [(Enter, (42, 42)); (Leave, (0, 0))] R = Some (true, (42, 42)).
Proof. vm_compute. reflexivity. Qed.
End Data.
