(** C65: one table, one region. *)

From Coq Require Import List Arith NArith Bool.
From Verif Require Import Types Static Dispatch Runtime Dsl Examples Spec Semantics Reach Demo
  Graph Flat FlatFacts FlatAccept FlatDemo.
Import ListNotations.

(** From one bound on, for all sequences of events and all user code: the program does
    what the machine of the table (Flat.v) does -- results, calls, state, user data. *)
Theorem C65_flat : forall env root m, compile env root = Some m -> flat env root ->
  exists bound, forall V W (cb : cbfun V W) vnone fuel d w l i outs ks q w', bound <= fuel ->
    Forall (fun ev => event_of env root (fst ev)) l -> first_initial env root = Some i ->
    reacts cb env root d i l w = (outs, ks, q, w') ->
    exists s, session cb m vnone fuel d w (map (fun ev => KProcess (fst ev) (snd ev)) l) = Done outs s /\
      at_place m s 0 = Some (root, q) /\ rt_trace s = ks /\ rt_world s = w'.
Proof. exact flat_session. Qed.
Print Assumptions C65_flat.

(** Without guards the state is that of the automaton of the table, whatever the user
    code does (also if it throws). *)
Theorem C65_automaton : forall env root m, compile env root = Some m -> flat env root ->
  (forall r, In r (table env root) -> r_guard r = NoGuard) ->
  exists bound, forall V W (cb : cbfun V W) vnone fuel d w (l : list (ev * V)) i, bound <= fuel ->
    Forall (fun ev => event_of env root (fst ev)) l -> first_initial env root = Some i ->
    exists outs s, session cb m vnone fuel d w (map (fun ev => KProcess (fst ev) (snd ev)) l) = Done outs s /\
      at_place m s 0 = Some (root, fold_left (next env root) (map fst l) i).
Proof. exact flat_states. Qed.
Print Assumptions C65_automaton.

(** And its results and calls, if the user code throws nothing and no handler for
    unexpected events is declared. *)
Theorem C65_calls : forall env root m, compile env root = Some m -> flat env root ->
  (forall r, In r (table env root) -> r_guard r = NoGuard) -> cd_unexpected (lookup env root) = false ->
  exists bound, forall V W (cb : cbfun V W) vnone fuel d w (l : list (ev * V)) i bs cs q, bound <= fuel -> never_throws cb ->
    Forall (fun ev => event_of env root (fst ev)) l -> first_initial env root = Some i ->
    automaton env root i (map fst l) = (bs, cs, q) ->
    exists s, session cb m vnone fuel d w (map (fun ev => KProcess (fst ev) (snd ev)) l) = Done (map OBool bs) s /\
      at_place m s 0 = Some (root, q) /\ map (@k_callee V) (rt_trace s) = cs.
Proof. exact flat_automaton. Qed.
Print Assumptions C65_calls.

(** Which of these programs compile. *)
Theorem C65_accepted : forall env root, flat env root ->
  (exists m, compile env root = Some m) <->
  (forall r ty b, In r (table env root) -> r_act r = Action ty b -> ~ needs_pointer b) /\
  (forall i, first_initial env root = Some (SState i) -> cd_internal (lookup env i) = None) /\
  (N.of_nat (S (length (children env root))) < two64)%N.
Proof. exact flat_accepted. Qed.
Print Assumptions C65_accepted.

(** The guard of the last row is asked first; an exception from the action comes after
    the move: the machine is in the target, on_entry did not run. *)
Definition C65_env : cenv :=
 [ (2, mkCdef None None true true false None true);
   (50, tbl [ mkRow (SInitial WState 1) (EUser 1) (Guard 1 1) (Action 3 (ACall 3)) (SState 2);
              mkRow (SState 1) (EUser 1) (Guard 2 2) (Action 4 (ACall 4)) (SState 3);
              mkRow (SState 2) (EUser 2) NoGuard (Action 5 (AChain [ACall 5; ACall 6])) (SState 1);
              mkRow (SState 1) (EUser 2) NoGuard (Action 7 (ACall 7)) (SState 2) ]) ].
Definition C65_cb : cbfun nat nat := fun c _ v w =>
  match c with
  | CGuard 2 _ => Ret false v (S w)
  | CAction 7 => Raise 9 v (S w)
  | _ => Ret true v (S w)
  end.
Example C65_applies : (exists m, compile C65_env 50 = Some m) /\ flat C65_env 50 /\
  first_initial C65_env 50 = Some (SState 1) /\
  exists ks, reacts C65_cb C65_env 50 8 (SState 1) [(EUser 1, 5); (EUser 1, 5); (EUser 2, 6); (EUser 2, 7)] 0 =
    ([OBool true; OBool false; OBool true; OExn (XUser 9)], ks, SState 2, 8) /\
    map (@k_callee nat) ks = [CGuard 2 2; CGuard 1 1; CAction 3; CEntry 2; CExit 2; CAction 5; CAction 6; CAction 7].
Proof.
  split; [eexists; vm_compute; reflexivity|]. split; [apply flat_intro; vm_compute; reflexivity|].
  split; [vm_compute; reflexivity|]. eexists. split; vm_compute; reflexivity.
Qed.
Example C65_applies_automaton : (exists m, compile Player.env 50 = Some m) /\ flat Player.env 50 /\
  (forall r, In r (table Player.env 50) -> r_guard r = NoGuard) /\
  fold_left (next Player.env 50) [Player.cd_detected; Player.play; Player.play; Player.pause2] Player.Empty = Player.Pause.
Proof.
  split; [eexists; vm_compute; reflexivity|]. split; [apply flat_intro; vm_compute; reflexivity|].
  split; [|vm_compute; reflexivity]. intros r. cbn. intuition (subst; reflexivity).
Qed.
