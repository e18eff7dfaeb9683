(** C96. Bringing a machine to a goal whatever user code answers. *)

From Coq Require Import List Arith NArith Bool Lia.
From Verif Require Import Types Static Dispatch Runtime Dsl Examples Semantics Data DataUse Script Explore ExploreUse Steer SteerFacts SteerUse.
Import ListNotations.

(** C96. If the test says yes there is advice that uses only the calls of the list, and a
    client that follows it brings a new machine to the goal with no more calls than there
    are configurations, whatever user code answers or throws. *)
Theorem C96_forced : forall m fuel depth rounds d calls goal, forceable m fuel depth rounds d calls goal = Some true ->
  exists l adv, explore m fuel depth rounds d calls = Some l /\
  (forall c k, adv c = Some k -> In k calls /\ goal c = false) /\
  forall V W (cb : cbfun V W) vnone fuel' w client, fuel <= fuel' ->
    (forall c h k, adv c = Some k -> with_payload (fun _ => tt) (client (c :: h)) = k) ->
    leads_new cb m vnone fuel' client (fun c => goal c = true) d w (length l).
Proof. exact forced_lemma. Qed.
Print Assumptions C96_forced.

(** If it says no, no client that makes these calls can do that: for every client and
    every number of calls there are answers with which the goal is not reached. *)
Theorem C96_prevented : forall m fuel depth rounds d calls goal, forceable m fuel depth rounds d calls goal = Some false ->
  forall client, (forall h, In (client h) calls) -> forall n,
  exists script, ~ leads_new scripted m tt fuel client (fun c => goal c = true) d script n.
Proof. exact prevented_lemma. Qed.
Print Assumptions C96_prevented.

(** The same after any calls of the list: whatever happened before, the goal can be
    forced. *)
Theorem C96_recovered : forall m fuel depth rounds d calls goal, recoverable m fuel depth rounds d calls goal = Some true ->
  exists l adv, explore m fuel depth rounds d calls = Some l /\
  (forall c k, adv c = Some k -> In k calls /\ goal c = false) /\
  forall V W (cb : cbfun V W) vnone fuel' w ks client, fuel <= fuel' -> client_of calls ks ->
    (forall c h k, adv c = Some k -> with_payload (fun _ => tt) (client (c :: h)) = k) ->
    exists outs s, session cb m vnone fuel' d w ks = Done outs s /\
      forall h, leads cb m vnone fuel' client (fun c => goal c = true) (length l) h s.
Proof. exact recovered_lemma. Qed.
Print Assumptions C96_recovered.

(** If not, there are calls and answers that end in undefined behaviour, or behind which no
    client can force the goal. *)
Theorem C96_lost : forall m fuel depth rounds d calls goal, recoverable m fuel depth rounds d calls goal = Some false ->
  exists ks script, (forall k, In k ks -> In k calls) /\
    ((exists u, session scripted m tt fuel d script ks = Undef u) \/
     exists outs (s : rt unit (list reply)), (forall rest, session scripted m tt fuel d (script ++ rest) ks = Done outs (bare s rest)) /\
       forall client, (forall h, In (client h) calls) -> forall n h,
       exists rest, ~ leads scripted m tt fuel client (fun c => goal c = true) n h (bare s rest)).
Proof. exact lost_lemma. Qed.
Print Assumptions C96_lost.

(** One of the two answers is given whenever the exploration ends. *)
Theorem C96_decided : forall m fuel depth rounds d calls goal l, explore m fuel depth rounds d calls = Some l ->
  (exists b, forceable m fuel depth rounds d calls goal = Some b) /\ (exists b, recoverable m fuel depth rounds d calls goal = Some b).
Proof. exact decided_lemma. Qed.
Print Assumptions C96_decided.

(** A device: standby is within reach for ever, running depends on a guard. *)
Example C96_applies : can_recover Device.env 50 50 10 100 all_events (goal_at (SState 1)) = Some true /\
  can_force Device.env 50 50 10 100 all_events (goal_at (SState 2)) = Some false.
Proof. vm_compute. split; reflexivity. Qed.
Example C96_standby : exists m n adv, compile Device.env 50 = Some m /\ (forall c k, adv c = Some k -> In k (all_events m)) /\
  forall V W (cb : cbfun V W) vnone fuel' w ks client, 50 <= fuel' -> client_of (all_events m) ks ->
    (forall c h k, adv c = Some k -> with_payload (fun _ => tt) (client (c :: h)) = k) ->
    exists outs s, session cb m vnone fuel' 0 w ks = Done outs s /\
      forall h, leads cb m vnone fuel' client (fun c => goal_at (SState 1) m c = true) n h s.
Proof. apply (can_recover_true _ _ _ 10 100). vm_compute. reflexivity. Qed.
(** An action on the way does not change that, even if it throws; a guard on the way does:
    standby can still be forced in the beginning, where it is, but not from the fault. *)
Example C96_action : can_recover Device.env_act 50 50 10 100 all_events (goal_at (SState 1)) = Some true.
Proof. vm_compute. reflexivity. Qed.
Example C96_guard : can_force Device.env_guard 50 50 10 100 all_events (goal_at (SState 1)) = Some true /\
  can_recover Device.env_guard 50 50 10 100 all_events (goal_at (SState 1)) = Some false.
Proof. vm_compute. split; reflexivity. Qed.
(** With calls that are too few the goal is out of reach. *)
Example C96_calls : can_recover Device.env 50 50 10 100 (fun _ => [KProcess (EUser 1) tt; KProcess (EUser 2) tt]) (goal_at (SState 1)) = Some false.
Proof. vm_compute. reflexivity. Qed.
(** Undefined behaviour is never part of the way: a factory that returns no object. *)
Example C96_undefined : can_force Custom.env 50 50 10 100 all_events (goal_at (SState 2)) = Some true /\
  can_recover Custom.env 50 50 10 100 all_events (goal_at (SState 2)) = Some false.
Proof. vm_compute. split; reflexivity. Qed.
