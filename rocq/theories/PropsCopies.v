(** Copies: C92. *)

From Coq Require Import List Arith NArith Bool Permutation.
From Verif Require Import Types Static Dispatch Runtime Dsl Examples Spec DispatchFacts Semantics Reach Graph Balance Copies CopiesFacts TowerFacts Demo CopiesDemo.
Import ListNotations.

(** C92. The machine has the rows of a table once for every path from the root to it: for
    every list of all paths, its rows are those of the tables the paths lead to. *)
Theorem C92_flat : forall env root m, compile env root = Some m ->
  forall P, NoDup P -> (forall l p, In (l, p) P <-> path env root l p) ->
  Permutation (mc_flat m) (flat_map (fun lp => written env (snd lp)) P).
Proof. exact flat_copies. Qed.
Print Assumptions C92_flat.
Theorem C92_paths : forall env root m, compile env root = Some m ->
  exists P, NoDup P /\ (forall l p, In (l, p) P <-> path env root l p).
Proof. exact finite_paths. Qed.
Print Assumptions C92_paths.

(** An event that every candidate refuses: a guard that stands in rows of one table only is
    called for every region there, every dependency, every path to the table, and every
    such row. *)
Theorem C92_asked : forall V W (cb : cbfun V W) env root m vnone ds d0 s,
  running cb env root m vnone ds d0 s ->
  forall ty val p a e ls fuel v (lists : nat -> list cand),
  guards_only env root ty val p a e -> NoDup ls -> (forall l, In l ls <-> path env root l p) ->
  event_of env root e -> active m s < fuel ->
  (forall r, r < active m s -> exists pl, at_place m s r = Some pl /\ candidate_list env root e pl (lists r)) ->
  (exists r, r < active m s /\ lists r <> []) ->
  (forall r c, r < active m s -> In c (lists r) -> refuses cb m ds s e c) ->
  exists v' w' ks, process_event cb m vnone fuel e v s = Done (false, v') (after s w' ks) /\
    times (CGuard ty val) ks = regions_in m s (p, SState a) * (length ds * (length ls * rows_with env ty val p)).
Proof. exact @refused_asks. Qed.
Print Assumptions C92_asked.

(** The towers: 2 n + 1 rows are written, 3 * 2^n - 2 are registered; one refused event in
    the innermost state, which can be reached, asks the only guard 2^n times. *)
Theorem C92_tower : forall n, (N.of_nat (S n) * N.of_nat (S (S n)) < two64)%N ->
  exists m, compile (tower n) (S n) = Some m /\
    length (flat_map (fun k => table (tower n) (S k)) (seq 0 (S n))) = 2 * n + 1 /\
    length (mc_flat m) + 2 = 3 * 2 ^ n /\
    (exists V W (cb : cbfun V W) vnone fuel d w ks outs s, never_throws cb /\ never_sets ks /\
       session cb m vnone fuel d w ks = Done outs s /\ at_place m s 0 = Some (1, SState 0)) /\
    forall V W (cb : cbfun V W) vnone ds d0 s fuel v, running cb (tower n) (S n) m vnone ds d0 s -> 1 < fuel ->
    (forall a v w, exists v' w', cb (CGuard 1 0) a v w = Ret false v' w') ->
    at_place m s 0 = Some (1, SState 0) ->
    exists v' w' ks, process_event cb m vnone fuel (EUser 3) v s = Done (false, v') (after s w' ks) /\
      times (CGuard 1 0) ks = length ds * 2 ^ n.
Proof. exact tower_copies. Qed.
Print Assumptions C92_tower.

Example C92_applies_flat : exists m, compile (tower 2) 3 = Some m /\ length (mc_flat m) = 10 /\
  NoDup tower_paths /\ (forall l p, In (l, p) tower_paths <-> path (tower 2) 3 l p) /\ length tower_paths = 7.
Proof. exact tower_two. Qed.
(** Four composites around the state: four events lead into it, the fifth asks its guard
    sixteen times. *)
Example C92_applies_asked : demo_state no_cb (tower 4) 5 (repeat (KProcess (EUser 1) 0) 4) (fun m s =>
  at_place m s 0 = Some (1, SState 0) /\ active m s = 1 /\ regions_in m s (1, SState 0) = 1 /\
  rows_with (tower 4) 1 0 1 = 1 /\ times (CGuard 1 0) (rt_trace s) = 0 /\
  exists s', process_event no_cb m 0 300 (EUser 3) 0 s = Done (false, 0) s' /\ times (CGuard 1 0) (rt_trace s') = 16).
Proof. exact tower_four. Qed.
Example C92_applies_paths : guards_only (tower 4) 5 1 0 1 0 (EUser 3) /\ NoDup (bits 4) /\
  (forall l, In l (bits 4) <-> path (tower 4) 5 l 1) /\ length (bits 4) = 16.
Proof. exact tower_hyps. Qed.
