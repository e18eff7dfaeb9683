(** Steering as a test, and concrete machines. *)

From Coq Require Import List Arith NArith Bool Lia.
From Verif Require Import Types Static Dispatch Runtime Dsl Examples IndexFacts Semantics Data DataUse Script Explore ExploreUse Steer SteerFacts.
Import ListNotations.

Definition can_force (env : cenv) (root : cls) (fuel depth rounds : nat) (calls : machine -> list (call unit)) (goal : machine -> config -> bool) : option bool :=
  match compile env root with Some m => forceable m fuel depth rounds 0 (calls m) (goal m) | None => None end.
Definition can_recover (env : cenv) (root : cls) (fuel depth rounds : nat) (calls : machine -> list (call unit)) (goal : machine -> config -> bool) : option bool :=
  match compile env root with Some m => recoverable m fuel depth rounds 0 (calls m) (goal m) | None => None end.
(** Region 0 is in a given state. *)
Definition goal_at (q : sref) (m : machine) (c : config) : bool :=
  match shows m c 0 with Some (_, q') => if sref_eq_dec q' q then true else false | None => false end.

(** A device. State 1: standby, 2: running, 3: fault, 4: service. Starting it asks a guard;
    if the guard refuses there is a fault (the row with the guard is tried first, being the
    later one). *)
Module Device.
Definition rows :=
  [ se_to (st_event (star_state 1) (EUser 1)) (state 3);
    seg_to (st_eg (state 1) (event_guard (EUser 1) ok)) (state 2);
    se_to (st_event (state 2) (EUser 2)) (state 1);
    se_to (st_event (state 3) (EUser 3)) (state 1) ].
Definition env : cenv := [ (50, tbl rows) ].
(** The same, but the fault is left to service with an action, and service for standby. *)
Definition env_act : cenv :=
  [ (50, tbl (firstn 3 rows ++ [ sea_to (st_ea (state 3) (event_action (EUser 3) act)) (state 4);
                                 se_to (st_event (state 4) (EUser 2)) (state 1) ])) ].
(** The same, but there is a guard at the fault. *)
Definition env_guard : cenv :=
  [ (50, tbl (firstn 3 rows ++ [ seg_to (st_eg (state 3) (event_guard (EUser 3) ok)) (state 1) ])) ].
End Device.

Lemma can_force_true env root fuel depth rounds calls goal : can_force env root fuel depth rounds calls goal = Some true ->
  exists m n adv, compile env root = Some m /\ (forall c k, adv c = Some k -> In k (calls m)) /\
  forall V W (cb : cbfun V W) vnone fuel' w client, fuel <= fuel' ->
    (forall c h k, adv c = Some k -> with_payload (fun _ => tt) (client (c :: h)) = k) ->
    leads_new cb m vnone fuel' client (fun c => goal m c = true) 0 w n.
Proof.
  unfold can_force. destruct (compile env root) as [m|]; [|discriminate]. intros H.
  destruct (forced_lemma m fuel depth rounds 0 (calls m) (goal m) H) as (l & adv & _ & Ha & F). exists m, (length l), adv. split; [reflexivity|].
  split; [intros c k E; apply (Ha c k E)|exact F].
Qed.
Lemma can_recover_true env root fuel depth rounds calls goal : can_recover env root fuel depth rounds calls goal = Some true ->
  exists m n adv, compile env root = Some m /\ (forall c k, adv c = Some k -> In k (calls m)) /\
  forall V W (cb : cbfun V W) vnone fuel' w ks client, fuel <= fuel' -> client_of (calls m) ks ->
    (forall c h k, adv c = Some k -> with_payload (fun _ => tt) (client (c :: h)) = k) ->
    exists outs s, session cb m vnone fuel' 0 w ks = Done outs s /\ forall h, leads cb m vnone fuel' client (fun c => goal m c = true) n h s.
Proof.
  unfold can_recover. destruct (compile env root) as [m|]; [|discriminate]. intros H.
  destruct (recovered_lemma m fuel depth rounds 0 (calls m) (goal m) H) as (l & adv & _ & Ha & F). exists m, (length l), adv. split; [reflexivity|].
  split; [intros c k E; apply (Ha c k E)|exact F].
Qed.
