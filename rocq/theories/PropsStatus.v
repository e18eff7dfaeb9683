(** Properties of status (C47) and of region arguments (C48).  Vocabulary:
    StatusSpec.v, Semantics.v, Spec.v. *)

From Coq Require Import List Arith NArith Bool.
From Verif Require Import Types Static Dispatch Runtime Dsl Examples Spec DispatchFacts Semantics Reach
  StaticFacts TableFacts QueryFacts StatusSpec StatusFacts Demo.
Import ListNotations.

(** C47. One line for every active region, in order; nothing is changed. *)
Theorem C47_status : forall V W env root m, compile env root = Some m ->
  forall (cb : cbfun V W) vnone ds d0 fuel s (pl : nat -> place),
  running cb env root m vnone ds d0 s ->
  (forall r, r < active m s -> at_place m s r = Some (pl r)) -> active m s < fuel ->
  status m fuel s = Done (map (fun r => line m (fst (pl 0)) r (pl r)) (seq 0 (active m s))) s.
Proof. exact @status_lines. Qed.
Print Assumptions C47_status.

(** Two states with the same report are at the same places. *)
Theorem C47_status_determines : forall V W env root m, compile env root = Some m ->
  forall (cb : cbfun V W) vnone ds d0 fuel s s' (pl pl' : nat -> place) ds' d0' l,
  running cb env root m vnone ds d0 s -> running cb env root m vnone ds' d0' s' ->
  (forall r, r < active m s -> at_place m s r = Some (pl r)) ->
  (forall r, r < active m s' -> at_place m s' r = Some (pl' r)) ->
  active m s < fuel -> active m s' < fuel ->
  status m fuel s = Done l s -> status m fuel s' = Done l s' ->
  active m s' = active m s /\ (forall r, r < active m s -> pl' r = pl r).
Proof. exact @status_determines. Qed.
Print Assumptions C47_status_determines.

(** A region that was never written is read. *)
Theorem C47_status_uninitialised : forall V W env root m
  (cb : cbfun V W) vnone ds d0 fuel s r, running cb env root m vnone ds d0 s ->
  r < active m s -> uninitialised s r -> active m s < fuel -> exists u, status m fuel s = Undef u.
Proof. exact @status_unset. Qed.
Print Assumptions C47_status_uninitialised.

Example C47_applies : demo_state ex_cb Regions.env Regions.Main [pe 1] (fun m s =>
  active m s = 2 /\ at_place m s 0 = Some (Regions.Main, SState 2) /\
  at_place m s 1 = Some (Regions.Main, SState 4) /\
  parent_number m Regions.Main <> state_number m (SState 2) /\
  status m 3 s = Done [line m Regions.Main 0 (Regions.Main, SState 2);
                       line m Regions.Main 1 (Regions.Main, SState 4)] s).
Proof. apply demo_intro. vm_compute. repeat (split; [reflexivity|]). split; [discriminate|reflexivity]. Qed.

(** C48. *)
Theorem C48_is_wraps : forall V W (m : machine) r k p q (s : rt V W),
  q_is m (r + 256 * k) p q s = q_is m r p q s.
Proof. exact @is_wraps. Qed.
Print Assumptions C48_is_wraps.

Theorem C48_set_wraps : forall V W (m : machine) r k p q (s : rt V W),
  set_state m (r + 256 * k) p q s = set_state m r p q s.
Proof. exact @set_wraps. Qed.
Print Assumptions C48_set_wraps.

Theorem C48_is : forall V W env root m, compile env root = Some m ->
  forall (s : rt V W) r p q p0 q0 pr qr, r < 256 ->
  at_place m s 0 = Some (p0, q0) -> at_place m s r = Some (pr, qr) ->
  exists b, q_is m r p q s = Done b s /\ (b = true <-> p0 = p /\ qr = q).
Proof. exact @is_small. Qed.
Print Assumptions C48_is.

Theorem C48_set : forall V W env root m, compile env root = Some m ->
  forall (cb : cbfun V W) vnone ds d0 s r p q, r < 256 ->
  running cb env root m vnone ds d0 s ->
  is_parent env root p -> is_state env root q -> region_exists env root r ->
  exists s', set_state m r p q s = Done tt s' /\ at_place m s' r = Some (p, q) /\
    (forall k, k <> r -> nth_error (rt_cur s') k = nth_error (rt_cur s) k).
Proof. exact @set_small. Qed.
Print Assumptions C48_set.

Example C48_applies : demo_state ex_cb Regions.env Regions.Main [pe 1] (fun m s =>
  q_is m 1 Regions.Main (SState 4) s = Done true s /\
  q_is m 257 Regions.Main (SState 4) s = Done true s /\
  q_is m 256 Regions.Main (SState 4) s = Done false s /\
  match set_state m 257 Regions.Main (SState 3) s with
  | Done _ s' => at_place m s' 1 = Some (Regions.Main, SState 3) /\
                 at_place m s' 0 = Some (Regions.Main, SState 2)
  | _ => False
  end).
Proof. apply demo_intro. vm_compute. repeat (split; [reflexivity|]). reflexivity. Qed.
