(** C69: history of machines with several regions. *)

From Coq Require Import List Arith NArith Bool.
From Verif Require Import Types Static Dispatch Runtime Dsl Examples Spec DispatchFacts Semantics Reach
  ProcessFacts RegionFacts Journey HistFacts HistRegions Demo.
Import ListNotations.

(** C69. If region [r] takes a row to the history of the composite region 0 is in, it
    stays where it is, inside or outside of the composite. *)
Theorem C69_stays : forall V W (cb : cbfun V W) env root m vnone,
  compile env root = Some m -> few_regions env root ->
  forall ds d0 s r e v d x o v1 s1 n v' s' w p q, during cb m vnone ds d0 s ->
  at_place m s 0 = Some (p, q) ->
  takes cb m ds r e v s d x o v1 s1 -> executes cb m r e d x o v1 s1 n v' s' ->
  x_int x = false -> x_tgt x = SHistory w p -> at_place m s' r = at_place m s r.
Proof. exact @history_stays. Qed.
Print Assumptions C69_stays.

(** If region [r] leaves a place of [p] while region 0 is in another composite, this is not
    remembered: history of [p] leads to where it led before. *)
Theorem C69_lost : forall V W (cb : cbfun V W) env root m,
  compile env root = Some m -> few_regions env root ->
  forall ds d0 s L r e v d x o v1 s1 n v' s' p0 q0 p q, journey cb m ds d0 s L ->
  at_place m s 0 = Some (p0, q0) -> at_place m s r = Some (p, q) -> p0 <> p ->
  takes cb m ds r e v s d x o v1 s1 -> executes cb m r e d x o v1 s1 n v' s' -> x_int x = false ->
  journey cb m ds d0 s' (mkDeparture p0 r (p, q) :: L) /\
  forall ds2 s2 L2 e2 v2 d2 x2 o2 v3 s3 n2 v4 s4 w p1 q1,
    journey cb m ds2 d0 s2 (L2 ++ mkDeparture p0 r (p, q) :: L) ->
    (forall a, In a L2 -> ~ (dp_owner a = p /\ dp_region a = r)) ->
    at_place m s2 0 = Some (p1, q1) -> p1 <> p ->
    takes cb m ds2 r e2 v2 s2 d2 x2 o2 v3 s3 -> executes cb m r e2 d2 x2 o2 v3 s3 n2 v4 s4 ->
    x_int x2 = false -> x_tgt x2 = SHistory w p ->
    at_place m s4 r = last_left env p r L.
Proof. exact @history_lost. Qed.
Print Assumptions C69_lost.

(** History leads to the place of [p] region [r] left last if region 0 was in [p] then and no
    departure of region [r] from elsewhere has been booked under [p] since; to the initial
    state if there was none of both. *)
Theorem C69_kept : forall V W (cb : cbfun V W) env root m,
  compile env root = Some m -> few_regions env root ->
  forall ds d0 s L r e v d x o v1 s1 n v' s' w p p0 q0 pl, journey cb m ds d0 s L ->
  takes cb m ds r e v s d x o v1 s1 -> executes cb m r e d x o v1 s1 n v' s' ->
  x_int x = false -> x_tgt x = SHistory w p ->
  at_place m s 0 = Some (p0, q0) -> at_place m s r = Some pl ->
  match find (fun a => Nat.eqb (dp_region a) r && (Nat.eqb (dp_owner a) p || Nat.eqb (fst (dp_place a)) p))
          (mkDeparture p0 r pl :: L) with
  | Some a => dp_owner a = fst (dp_place a) -> at_place m s' r = Some (dp_place a)
  | None => at_place m s' r = option_map (pair p) (nth_error (initial_states env p) r)
  end.
Proof. exact @history_kept. Qed.
Print Assumptions C69_kept.

(** Region 0 has just returned to 11; region 1 takes the same row and stays. *)
Example C69_stays_applies : demo_state ex_cb twin_env 50 [pe 1; pe 2; pe 3] (fun m s =>
  exists s1 v1 s2 v2, try_region ex_cb m 0 (EUser 4) 0 s = Done (Some Fired, v1) s1 /\
    at_place m s1 0 = Some (11, SState 2) /\ at_place m s1 1 = Some (50, SState 5) /\
    try_region ex_cb m 1 (EUser 4) 0 s1 = Done (Some Fired, v2) s2 /\ at_place m s2 1 = Some (50, SState 5)).
Proof. apply demo_intro. vm_compute. split; [reflexivity|]. do 4 eexists. repeat (split; [reflexivity|]). reflexivity. Qed.
(** Region 1 leaves 11 in state 4 while region 0 is in 12. *)
Example C69_lost_applies : exists m s L, handling ex_cb alien_env 50 m 0 [0] 0 s /\ journey ex_cb m [0] 0 s L /\
  at_place m s 0 = Some (12, SState 1) /\ at_place m s 1 = Some (11, SState 4) /\
  last_left alien_env 11 1 L = Some (11, SState 3) /\
  exists s' v', try_region ex_cb m 1 (EUser 5) 0 s = Done (Some Fired, v') s'.
Proof.
  apply (demo_tour ex_cb alien_env 50 [(1, EUser 1); (1, EUser 2); (0, EUser 5)]). vm_compute.
  repeat (split; [reflexivity|]). do 2 eexists. reflexivity.
Qed.
(** Region 1 leaves 11 before region 0 does, and returns to where it was. *)
Definition early_log :=
  [mkDeparture 11 0 (11, SState 2); mkDeparture 11 1 (11, SState 4); mkDeparture 11 1 (11, SState 3);
   mkDeparture 11 0 (11, SState 1); mkDeparture 11 1 (50, SState 6); mkDeparture 50 0 (50, SState 5)].
Example C69_kept_applies : exists m s L, handling ex_cb early_env 50 m 0 [0] 0 s /\ journey ex_cb m [0] 0 s L /\
  L = early_log /\ at_place m s 0 = Some (50, SState 5) /\ at_place m s 1 = Some (50, SState 6) /\
  find (fun a => Nat.eqb (dp_region a) 1 && (Nat.eqb (dp_owner a) 11 || Nat.eqb (fst (dp_place a)) 11))
    (mkDeparture 50 1 (50, SState 6) :: L) = Some (mkDeparture 11 1 (11, SState 4)) /\
  exists s' v', try_region ex_cb m 1 (EUser 5) 0 s = Done (Some Fired, v') s' /\ at_place m s' 1 = Some (11, SState 4).
Proof.
  apply (demo_tour ex_cb early_env 50 [(0, EUser 1); (1, EUser 1); (0, EUser 2); (1, EUser 2); (1, EUser 3); (0, EUser 4)]).
  vm_compute. repeat (split; [reflexivity|]). do 2 eexists. split; reflexivity.
Qed.

(** So leaving a composite and returning by history does not restore all regions: both leave
    11 and, by the only row there is, return to its history. *)
Theorem C69_return_refuted : exists env m s1 s2 s3 x o,
  compile env 50 = Some m /\ few_regions env 50 /\ reachable ex_cb m 0 [0] 0 s1 /\
  at_place m s1 0 = Some (11, SState 2) /\ at_place m s1 1 = Some (11, SState 4) /\
  process_event ex_cb m 0 300 (EUser 3) 0 s1 = Done (true, 0) s2 /\
  at_place m s2 0 = Some (50, SState 5) /\ at_place m s2 1 = Some (50, SState 5) /\
  candidate_list env 50 (EUser 4) (50, SState 5) [CRow x o] /\ x_tgt x = SHistory WState 11 /\
  process_event ex_cb m 0 300 (EUser 4) 0 s2 = Done (true, 0) s3 /\
  at_place m s3 0 = Some (11, SState 2) /\ at_place m s3 1 = Some (50, SState 5).
Proof. exact return_refuted. Qed.
Print Assumptions C69_return_refuted.
(** History of 12 leads region 1 to a place of 11, although it never was in 12. *)
Theorem C69_alien_refuted : exists env m s1 s2,
  compile env 50 = Some m /\ few_regions env 50 /\ reachable ex_cb m 0 [0] 0 s1 /\
  at_place m s1 0 = Some (50, SState 5) /\ at_place m s1 1 = Some (50, SState 7) /\
  (exists x o, candidate_list env 50 (EUser 7) (50, SState 7) [CRow x o] /\ x_tgt x = SHistory WState 12) /\
  process_event ex_cb m 0 300 (EUser 7) 0 s1 = Done (true, 0) s2 /\
  at_place m s2 1 = Some (11, SState 4).
Proof. exact alien_refuted. Qed.
Print Assumptions C69_alien_refuted.
