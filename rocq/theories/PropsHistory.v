(** C16: history. *)

From Coq Require Import List Arith NArith Bool.
From Verif Require Import Types Static Dispatch Runtime Dsl Examples Spec DispatchFacts Semantics Reach
  ProcessFacts RegionFacts Journey HistFacts Demo.
Import ListNotations.

(** C16. A history row, taken in a machine with one region, leads to the place the
    machine last left while the class was the parent (the place left just now
    counts), to the first initial state of the class if there is no such place.
    [L] lists all places left since construction, newest first. *)
Theorem C16_single_region : forall V W (cb : cbfun V W) env root m,
  compile env root = Some m -> few_regions env root ->
  forall ds d0 s L e v d x o v1 s1 n v' s' w p, ~ region_exists env root 1 -> journey cb m ds d0 s L ->
  takes cb m ds 0 e v s d x o v1 s1 -> executes cb m 0 e d x o v1 s1 n v' s' ->
  x_int x = false -> x_tgt x = SHistory w p ->
  exists pl, at_place m s 0 = Some pl /\ at_place m s' 0 =
    match find (fun pl : place => Nat.eqb (fst pl) p) (pl :: map dp_place L) with
    | Some pl' => Some pl'
    | None => option_map (pair p) (first_initial env p)
    end.
Proof. exact @program_single_target. Qed.
Print Assumptions C16_single_region.
(** With several regions: history is kept per class and region.  A departure is
    booked under the parent of region 0. *)
Theorem C16_regions : forall V W (cb : cbfun V W) env root m,
  compile env root = Some m -> few_regions env root ->
  forall ds d0 s L r e v d x o v1 s1 n v' s' w p, journey cb m ds d0 s L ->
  takes cb m ds r e v s d x o v1 s1 -> executes cb m r e d x o v1 s1 n v' s' ->
  x_int x = false -> x_tgt x = SHistory w p ->
  at_place m s' r = last_left env p r (departs m s r (RFired x) ++ L) /\ at_place m s' r <> None.
Proof. exact @program_history_target. Qed.
Print Assumptions C16_regions.
(** The history table of the implementation, at any time. *)
Theorem C16_table : forall V W (cb : cbfun V W) env root m,
  compile env root = Some m -> few_regions env root ->
  forall ds d0 s L p r, journey cb m ds d0 s L ->
  (exists x w q, declared env root x /\ x_tgt x = SHistory w q) -> is_parent env root p ->
  history_of m s p r = option_map (code m) (last_left env p r L).
Proof. exact @program_history. Qed.
Print Assumptions C16_table.
(** Every machine has such a list, empty in the beginning; calls extend it. *)
Theorem C16_starts : forall V W (cb : cbfun V W) m fuel d w s,
  construct m fuel d w = Done tt s -> journey cb m [d] d s [].
Proof. exact @jo_new. Qed.
Print Assumptions C16_starts.
Theorem C16_calls : forall V W (cb : cbfun V W) env root m vnone,
  compile env root = Some m -> few_regions env root ->
  forall ds d0 s L fuel k o s', reachable cb m vnone ds d0 s -> journey cb m ds d0 s L ->
  do_call_catch cb m vnone fuel k s = Done o s' -> exists L', journey cb m (deps_after k ds) d0 s' (L' ++ L).
Proof. exact @program_journey_call. Qed.
Print Assumptions C16_calls.
Theorem C16_during : forall V W (cb : cbfun V W) env root m vnone,
  compile env root = Some m -> few_regions env root ->
  forall ds d0 s, during cb m vnone ds d0 s -> exists L, journey cb m ds d0 s L.
Proof. exact @program_journey. Qed.
Print Assumptions C16_during.

Definition back_env : cenv :=
 [ (11, tbl [ mkRow (SInitial WState 1) (EUser 1) NoGuard NoAction (SState 2) ]);
   (50, tbl [ mkRow (SInitial WState 1) (EUser 1) NoGuard NoAction (SState 11);
              mkRow (SState 1) (EUser 2) NoGuard NoAction (SHistory WState 11);
              mkRow (SState 11) (EUser 3) NoGuard NoAction (SState 1) ]) ].
(** 11 was left in its state 2; history leads back there. *)
Example C16_applies : demo_state ex_cb back_env 50 [pe 1; pe 1; pe 3] (fun m s =>
  at_place m s 0 = Some (50, SState 1) /\ max_initials m = 1 /\
  exists s' v', try_region ex_cb m 0 (EUser 2) 5 s = Done (Some Fired, v') s' /\
    at_place m s' 0 = Some (11, SState 2)).
Proof. apply demo_intro. vm_compute. repeat (split; [reflexivity|]). do 2 eexists. split; reflexivity. Qed.
(** 11 was never active. *)
Example C16_applies_fresh : demo_state ex_cb back_env 50 [] (fun m s =>
  at_place m s 0 = Some (50, SState 1) /\
  exists s' v', try_region ex_cb m 0 (EUser 2) 5 s = Done (Some Fired, v') s' /\
    at_place m s' 0 = Some (11, SState 1)).
Proof. apply demo_intro. vm_compute. repeat (split; [reflexivity|]). do 2 eexists. split; reflexivity. Qed.
(** A journey with a concrete list of departures. *)
Definition back_log :=
  [mkDeparture 11 0 (11, SState 2); mkDeparture 11 0 (11, SState 1); mkDeparture 50 0 (50, SState 1)].
Example C16_journey : exists m s L, handling ex_cb back_env 50 m 0 [0] 0 s /\ journey ex_cb m [0] 0 s L /\
  at_place m s 0 = Some (50, SState 1) /\ L = back_log /\ last_left back_env 11 0 L = Some (11, SState 2).
Proof. apply (demo_trip ex_cb back_env 50 [EUser 1; EUser 1; EUser 3]). vm_compute. repeat split. Qed.
