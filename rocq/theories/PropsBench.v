(** C66: the benchmark programs. *)

From Coq Require Import List Arith NArith Bool Lia.
From Verif Require Import Types Static Dispatch Runtime Dsl Examples Spec Semantics
  Graph GraphDemo Flat FlatFacts FlatAccept FlatDemo Ring RingFacts.
Import ListNotations.

(** A ring of any number of states is accepted. *)
Theorem C66_ring : forall n, 0 < n -> (N.of_nat (S n) < two64)%N -> exists m, compile (ring n) n = Some m.
Proof. exact ring_compiles. Qed.
Print Assumptions C66_ring.

(** The number of the state is the number of times the action ran, modulo [n]; without
    [n] if the event that closes the ring is never sent -- so at most [n - 1] times in the
    whole run, whatever the guard and the action do. *)
Theorem C66_counts : forall n, 0 < n -> forall m, compile (ring n) n = Some m ->
  exists bound, forall V W (cb : cbfun V W) vnone fuel d w (l : list (ev * V)), bound <= fuel ->
    Forall (fun ev => exists k, fst ev = EUser k /\ 0 < k <= n) l ->
    exists outs s p, session cb m vnone fuel d w (map (fun ev => KProcess (fst ev) (snd ev)) l) = Done outs s /\
      at_place m s 0 = Some (n, SState p) /\ p < n /\ actions (rt_trace s) mod n = p /\
      ((forall v, ~ In (EUser n, v) l) -> actions (rt_trace s) = p).
Proof. exact ring_counts. Qed.
Print Assumptions C66_counts.

(** In the last state every other event is answered with false, without any call. *)
Theorem C66_stuck : forall n, 0 < n -> forall m, compile (ring n) n = Some m ->
  exists bound, forall V W (cb : cbfun V W) vnone fuel d w (l l' : list (ev * V)) outs s, bound <= fuel ->
    Forall (fun ev => exists k, fst ev = EUser k /\ 0 < k <= n) l ->
    Forall (fun ev => exists k, fst ev = EUser k /\ 0 < k < n) l' ->
    session cb m vnone fuel d w (map (fun ev => KProcess (fst ev) (snd ev)) l) = Done outs s ->
    at_place m s 0 = Some (n, SState (n - 1)) ->
    exists s', session cb m vnone fuel d w (map (fun ev => KProcess (fst ev) (snd ev)) (l ++ l')) =
        Done (outs ++ map (fun _ => OBool false) l') s' /\
      at_place m s' 0 = Some (n, SState (n - 1)) /\ rt_trace s' = rt_trace s /\ rt_world s' = rt_world s.
Proof. exact ring_stuck. Qed.
Print Assumptions C66_stuck.

(** [k] passes with all events: [k * n] transitions; without the closing event [n - 1]. *)
Theorem C66_goes_round : forall n, 0 < n -> forall m, compile (ring n) n = Some m ->
  exists bound, forall V W (cb : cbfun V W) vnone fuel d w v k, bound <= fuel -> agrees_always cb ->
    exists s, session cb m vnone fuel d w (map (fun ev => KProcess (fst ev) (snd ev)) (rounds k (all_events v n))) =
        Done (repeat (OBool true) (k * n)) s /\
      at_place m s 0 = Some (n, SState 0) /\ actions (rt_trace s) = k * n.
Proof. exact ring_goes_round. Qed.
Print Assumptions C66_goes_round.
Theorem C66_one_pass : forall n, 0 < n -> forall m, compile (ring n) n = Some m ->
  exists bound, forall V W (cb : cbfun V W) vnone fuel d w v k, bound <= fuel -> agrees_always cb -> 0 < k ->
    exists s, session cb m vnone fuel d w (map (fun ev => KProcess (fst ev) (snd ev)) (rounds k (all_events v (n - 1)))) =
        Done (repeat (OBool true) (n - 1) ++ repeat (OBool false) ((k - 1) * (n - 1))) s /\
      at_place m s 0 = Some (n, SState (n - 1)) /\ actions (rt_trace s) = n - 1.
Proof. exact ring_one_pass. Qed.
Print Assumptions C66_one_pass.

(** benchmark/simple/hsm.cpp: every pass of the loop ends in Empty, whatever the actions
    do; if they throw nothing every event is handled and the calls are these. *)
Theorem C66_player : forall m, compile Player.env 50 = Some m ->
  exists bound, forall V W (cb : cbfun V W) vnone fuel d w v k, bound <= fuel ->
    (exists outs s, session cb m vnone fuel d w (map (fun e => KProcess e v) (rounds k Player.loop)) = Done outs s /\
       at_place m s 0 = Some (Player.player, Player.Empty)) /\
    (never_throws cb ->
     exists s, session cb m vnone fuel d w (map (fun e => KProcess e v) (rounds k Player.loop)) =
         Done (repeat (OBool true) (k * 11)) s /\
       map (@k_callee V) (rt_trace s) = rounds k Player.loop_calls).
Proof. exact player_runs. Qed.
Print Assumptions C66_player.

(** benchmark/complex: 51 states, main sends e1 ... e50 only. *)
Example C66_applies : (exists m, compile (ring 51) 51 = Some m) /\ agrees_always agrees /\
  last (ring_table 51) (mkRow (SState 0) ENone NoGuard NoAction (SState 0)) =
    mkRow (SState 50) (EUser 51) (Guard 1 0) (Action 2 (ACall 0)) (SState 0) /\
  Forall (fun ev => exists k, fst ev = EUser k /\ 0 < k <= 51) (all_events 7 50) /\ (forall v, ~ In (EUser 51, v) (all_events 7 50)).
Proof.
  split; [apply C66_ring; [lia|reflexivity]|]. split; [|split; [reflexivity|]].
  - intros c a v w. eexists. eexists. eexists. split; [reflexivity|]. reflexivity.
  - split.
    + apply Forall_forall. intros x Hx. apply in_map_iff in Hx. destruct Hx as (k & <- & Hk). apply in_seq in Hk.
      exists k. cbn [fst]. split; [reflexivity|lia].
    + intros v Hv. apply in_map_iff in Hv. destruct Hv as (k & E & Hk). apply in_seq in Hk. inversion E. lia.
Qed.
Example C66_applies_stuck : exists m s, compile (ring 3) 3 = Some m /\
  session agrees m 0 300 0 0 (map (fun ev => KProcess (fst ev) (snd ev)) [(EUser 1, 7); (EUser 2, 7)]) =
    Done [OBool true; OBool true] s /\ at_place m s 0 = Some (3, SState 2).
Proof. eexists. eexists. split; [vm_compute; reflexivity|]. split; vm_compute; reflexivity. Qed.
Example C66_applies_player : exists m, compile Player.env 50 = Some m.
Proof. exact player_compiles. Qed.
