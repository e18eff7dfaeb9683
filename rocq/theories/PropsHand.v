(** C91: state machines written by hand. *)

From Coq Require Import List Arith NArith Bool Lia.
From Verif Require Import Types Static Dispatch Runtime Dsl Examples Spec Semantics Graph Flat FlatDemo Ring Hand HandFacts.
Import ListNotations.

(** A program with one table and one region does what the switch written by hand for the table
    does, with the variable assigned before the actions: the same calls with the same arguments,
    the same exceptions, the same state, the same user data, for all user code. *)
Theorem C91_before : forall env root m, compile env root = Some m -> flat env root ->
  exists bound, forall V W (cb : cbfun V W) vnone fuel d w l i ns ks q w', bound <= fuel ->
    Forall (fun ev => event_of env root (fst ev)) l -> first_initial env root = Some i ->
    handles cb d (by_hand env root Before) i l w = (ns, ks, q, w') ->
    exists outs s, session cb m vnone fuel d w (map (fun ev => KProcess (fst ev) (snd ev)) l) = Done outs s /\
      map thrown outs = ns /\ at_place m s 0 = Some (root, q) /\ rt_trace s = ks /\ rt_world s = w'.
Proof. exact hand_session_before. Qed.
Print Assumptions C91_before.

(** And, unless on_exit, an action or on_entry throws, with the variable assigned after them. *)
Theorem C91_after : forall env root m, compile env root = Some m -> flat env root ->
  exists bound, forall V W (cb : cbfun V W) vnone fuel d w l i ns ks q w', bound <= fuel -> deeds_return cb ->
    Forall (fun ev => event_of env root (fst ev)) l -> first_initial env root = Some i ->
    handles cb d (by_hand env root After) i l w = (ns, ks, q, w') ->
    exists outs s, session cb m vnone fuel d w (map (fun ev => KProcess (fst ev) (snd ev)) l) = Done outs s /\
      map thrown outs = ns /\ at_place m s 0 = Some (root, q) /\ rt_trace s = ks /\ rt_world s = w'.
Proof. exact hand_session_after. Qed.
Print Assumptions C91_after.

(** With an exception from an action the two are in different states. *)
Theorem C91_after_refuted : exists m ns ks outs s, compile (ring 2) 2 = Some m /\ flat (ring 2) 2 /\
  handles (fun c _ v w => match c with CAction _ => Raise 9 v w | _ => Ret true v w end) 0
    (by_hand (ring 2) 2 After) (SState 0) [(EUser 1, 0)] 0 = (ns, ks, SState 0, 0) /\
  session (fun c _ v w => match c with CAction _ => Raise 9 v w | _ => Ret true v w end) m 0 100 0 0
    [KProcess (EUser 1) 0] = Done outs s /\ map thrown outs = ns /\ at_place m s 0 = Some (2, SState 1).
Proof. exact after_differs. Qed.
Print Assumptions C91_after_refuted.

(** benchmark/complex/switch.cpp: the functions written there are the library's machine with
    that many states ... *)
Theorem C91_benchmark : forall n, 0 < n -> forall m, compile (ring n) n = Some m ->
  exists bound, forall V W (cb : cbfun V W) vnone fuel d w (l : list (ev * V)) ns ks q w', bound <= fuel -> deeds_return cb ->
    Forall (fun ev => exists k, fst ev = EUser k /\ 0 < k <= n) l ->
    handles cb d (bench_switch n) (SState 0) l w = (ns, ks, q, w') ->
    exists outs s, session cb m vnone fuel d w (map (fun ev => KProcess (fst ev) (snd ev)) l) = Done outs s /\
      map thrown outs = ns /\ at_place m s 0 = Some (n, q) /\ rt_trace s = ks /\ rt_world s = w'.
Proof. exact bench_session. Qed.
Print Assumptions C91_benchmark.

(** ... but the library is measured with one state more and without the event that leads on
    from it: in [k] passes over all events the library makes [n] transitions, the switch
    [k * n]. *)
Theorem C91_work : forall n, 0 < n -> forall m, compile (ring (S n)) (S n) = Some m ->
  exists bound, forall V W (cb : cbfun V W) vnone fuel d w v k, bound <= fuel -> agrees_always cb -> 0 < k ->
    (exists ns ks w', handles cb d (bench_switch n) (SState 0) (rounds k (all_events v n)) w = (ns, ks, SState 0, w') /\
       actions ks = k * n) /\
    exists outs s, session cb m vnone fuel d w (map (fun ev => KProcess (fst ev) (snd ev)) (rounds k (all_events v n))) = Done outs s /\
      actions (rt_trace s) = n.
Proof. exact bench_compared. Qed.
Print Assumptions C91_work.

(** benchmark/complex/variant.cpp moves also if the guard refuses.  It is the same program
    only as long as the guard agrees. *)
Theorem C91_variant : forall n V W (cb : cbfun V W) d l q w, agrees_always cb ->
  handles cb d (bench_variant n) q l w = handles cb d (bench_switch n) q l w.
Proof. exact variant_same. Qed.
Print Assumptions C91_variant.
Theorem C91_variant_refuted : exists m ns ks outs s, compile (ring 2) 2 = Some m /\
  handles (fun c _ v w => Ret false v w) 0 (bench_variant 2) (SState 0) [(EUser 1, 0)] 0 = (ns, ks, SState 1, 0) /\
  session (fun c _ v w => Ret false v w) m 0 100 0 0 [KProcess (EUser 1) 0] = Done outs s /\
  map thrown outs = ns /\ rt_trace s = ks /\ at_place m s 0 = Some (2, SState 0).
Proof. exact variant_differs. Qed.
Print Assumptions C91_variant_refuted.

(** Two rows about one event, a guard that refuses, an exception, an event nobody waits for;
    and user code as C91_after wants it. *)
Definition C91_env : cenv :=
 [ (2, mkCdef None None true true false None true);
   (50, mkCdef (Some [ mkRow (SInitial WState 1) (EUser 1) (Guard 1 1) (Action 3 (ACall 3)) (SState 2);
                       mkRow (SState 1) (EUser 1) (Guard 2 2) (Action 4 (ACall 4)) (SState 3);
                       mkRow (SState 2) (EUser 2) NoGuard (Action 5 (AChain [ACall 5; ACall 6])) (SState 1);
                       mkRow (SState 1) (EUser 2) NoGuard (Action 7 (ACall 7)) (SState 2) ]) None false false true None true) ].
Definition C91_cb : cbfun nat nat := fun c _ v w =>
  match c with
  | CGuard 2 _ => Ret false v (S w)
  | CAction 7 => Raise 9 v (S w)
  | _ => Ret true v (S w)
  end.
Definition C91_calm : cbfun nat nat := fun c _ v w => match c with CGuard 2 _ => Raise 4 v w | _ => Ret true v (S w) end.
Example C91_applies : (exists m, compile C91_env 50 = Some m) /\ flat C91_env 50 /\ first_initial C91_env 50 = Some (SState 1) /\
  cases C91_env 50 (EUser 1) = [SState 1] /\ cases C91_env 50 (EUser 2) = [SState 2; SState 1] /\
  (exists ks, handles C91_cb 8 (by_hand C91_env 50 Before) (SState 1) [(EUser 1, 5); (EUser 1, 5); (EUser 2, 6); (EUser 2, 7)] 0 =
     ([None; None; None; Some 9], ks, SState 2, 9) /\
     map (@k_callee nat) ks = [CGuard 2 2; CGuard 1 1; CAction 3; CEntry 2; CHandler; CExit 2; CAction 5; CAction 6; CAction 7]) /\
  deeds_return C91_calm /\
  (exists ks, handles C91_calm 8 (by_hand C91_env 50 After) (SState 1) [(EUser 2, 5); (EUser 1, 5); (EUser 2, 6); (EUser 1, 7)] 0 =
     ([None; None; None; Some 4], ks, SState 1, 6)).
Proof.
  split; [eexists; vm_compute; reflexivity|]. split; [apply flat_intro; vm_compute; reflexivity|].
  split; [vm_compute; reflexivity|]. split; [vm_compute; reflexivity|]. split; [vm_compute; reflexivity|].
  split; [eexists; split; vm_compute; reflexivity|]. split; [|eexists; vm_compute; reflexivity].
  intros c a v w. destruct c; try exact I; do 3 eexists; reflexivity.
Qed.
(** 51 states and 50 events, as in the repository. *)
Example C91_applies_work : (exists m, compile (ring (S 50)) (S 50) = Some m) /\ agrees_always (fun (_ : callee) _ (v w : nat) => Ret true v w).
Proof.
  split; [apply RingFacts.ring_compiles; [lia|reflexivity]|]. intros c a v w. exists true, v, w. auto.
Qed.
