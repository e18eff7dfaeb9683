(** C73: one table, several regions. *)

From Coq Require Import List Arith NArith Bool.
From Verif Require Import Types Static Dispatch Runtime Dsl Examples Spec Semantics Reach Demo
  Graph Flat FlatFacts FlatAccept FlatDemo Joint JointFacts JointApart JointDemo.
Import ListNotations.

(** From one bound on, for all sequences of events and all user code: the program does
    what the machine of the table (Joint.v) does -- results, calls, the state of every
    region, user data. *)
Theorem C73_joint : forall env root m, compile env root = Some m -> one_table env root ->
  exists bound, forall V W (cb : cbfun V W) vnone fuel d w l outs ks qs w', bound <= fuel ->
    Forall (fun ev => event_of env root (fst ev)) l ->
    joints cb env root d (initial_states env root) l w = (outs, ks, qs, w') ->
    exists s, session cb m vnone fuel d w (map (fun ev => KProcess (fst ev) (snd ev)) l) = Done outs s /\
      (forall r q, nth_error qs r = Some q -> at_place m s r = Some (root, q)) /\ length (rt_cur s) = length qs /\
      rt_trace s = ks /\ rt_world s = w'.
Proof. exact joint_session. Qed.
Print Assumptions C73_joint.

(** If the guards look at their arguments only and nothing throws: every region goes its
    own way, an event is answered with true if one region takes it, the calls are those
    of the regions in turn. *)
Theorem C73_product : forall env root m, compile env root = Some m -> one_table env root ->
  exists bound, forall V W (cb : cbfun V W) vnone fuel d w (l : list (ev * V)) G, bound <= fuel ->
    guards_say cb G -> never_throws cb -> Forall (fun ev => event_of env root (fst ev)) l ->
    exists s, session cb m vnone fuel d w (map (fun ev => KProcess (fst ev) (snd ev)) l) =
        Done (map OBool (fst (product env root d G (initial_states env root) (map fst l)))) s /\
      (forall r i, nth_error (initial_states env root) r = Some i ->
         at_place m s r = Some (root, fold_left (go env root d G) (map fst l) i)) /\
      map (@k_callee V) (rt_trace s) = snd (product env root d G (initial_states env root) (map fst l)).
Proof. exact joint_product. Qed.
Print Assumptions C73_product.

(** Then the program is its regions side by side: run each as a program of its own, with
    the same rows and one initial state; after the same events region r is in the same
    state as the r-th program, and an answer is true if that of one of the programs is. *)
Theorem C73_parts : forall env root m parts, compile env root = Some m -> one_table env root -> parts_of env root parts ->
  exists bound, forall V W (cb : cbfun V W) vnone fuel d w (l : list (ev * V)) G, bound <= fuel ->
    guards_say cb G -> never_throws cb -> Forall (fun ev => event_of env root (fst ev)) l ->
    let ks := map (fun ev => KProcess (fst ev) (snd ev)) l in
    exists outs s oss, session cb m vnone fuel d w ks = Done outs s /\
      length outs = length l /\ length oss = length parts /\
      (forall r env' root' m', nth_error parts r = Some (env', root', m') ->
         exists os s' q, nth_error oss r = Some os /\ session cb m' vnone fuel d w ks = Done os s' /\ length os = length l /\
           at_place m' s' 0 = Some (root', q) /\ at_place m s r = Some (root, q)) /\
      forall k, says outs k = existsb (fun os => says os k) oss.
Proof. exact joint_parts. Qed.
Print Assumptions C73_parts.

(** Which of these programs compile. *)
Theorem C73_accepted : forall env root, one_table env root ->
  (exists m, compile env root = Some m) <->
  (forall r ty b, In r (table env root) -> r_act r = Action ty b -> ~ needs_pointer b) /\
  (forall i, In (SState i) (initial_states env root) -> cd_internal (lookup env i) = None) /\
  (N.of_nat (S (length (children env root))) < two64)%N.
Proof. exact table_accepted. Qed.
Print Assumptions C73_accepted.

(** Both conditions are needed. An action that throws in region 0 keeps the event from
    region 1. *)
Theorem C73_throwing_refuted : exists env root m parts, compile env root = Some m /\ one_table env root /\ parts_of env root parts /\
  exists cb : cbfun nat nat, guards_say cb (fun _ _ _ => true) /\
  exists e env' root' m' outs s os s', nth_error parts 1 = Some (env', root', m') /\ event_of env root e /\
    session cb m 0 300 8 0 [KProcess e 0] = Done outs s /\ session cb m' 0 300 8 0 [KProcess e 0] = Done os s' /\
    at_place m s 1 = Some (root, SState 3) /\ at_place m' s' 0 = Some (root', SState 4).
Proof. exact throwing_lags. Qed.
Print Assumptions C73_throwing_refuted.

(** A guard of region 1 that looks at user data sees what region 0 did. *)
Theorem C73_looking_refuted : exists env root m parts, compile env root = Some m /\ one_table env root /\ parts_of env root parts /\
  exists cb : cbfun nat nat, never_throws cb /\
  exists e env' root' m' outs s os s', nth_error parts 1 = Some (env', root', m') /\ event_of env root e /\
    session cb m 0 300 8 0 [KProcess e 0] = Done outs s /\ session cb m' 0 300 8 0 [KProcess e 0] = Done os s' /\
    at_place m s 1 = Some (root, SState 4) /\ at_place m' s' 0 = Some (root', SState 3).
Proof. exact looking_differs. Qed.
Print Assumptions C73_looking_refuted.

(** Two regions; region 1 leaves for a state of region 0; the event of the third call has
    a row in region 0 only; nobody has a row for the fourth. *)
Example C73_applies : (exists m, compile Two.env 50 = Some m) /\ one_table Two.env 50 /\ guards_say Two.cb Two.G /\ never_throws Two.cb /\
  (exists m1 m2, parts_of Two.env 50 [(Two.env1, 50, m1); (Two.env2, 50, m2)]) /\
  initial_states Two.env 50 = [SState 1; SState 3] /\
  product Two.env 50 8 Two.G [SState 1; SState 3] [EUser 1; EUser 1; EUser 2; EUser 3] =
    ([true; true; true; false],
     [CGuard 1 1; CAction 3; CEntry 2; CAction 5; CEntry 4; CGuard 2 2; CEntry 2; CExit 2; CExit 2; CHandler]).
Proof.
  split; [eexists; vm_compute; reflexivity|]. split; [apply table_intro; vm_compute; reflexivity|].
  split; [exact Two.cb_says|]. split; [exact Two.cb_steady|]. split.
  - destruct (compile Two.env1 50) as [m1|] eqn:E1; [|vm_compute in E1; discriminate].
    destruct (compile Two.env2 50) as [m2|] eqn:E2; [|vm_compute in E2; discriminate]. exists m1, m2. now apply Two.parts.
  - split; vm_compute; reflexivity.
Qed.
Example C73_applies_joint : exists ks,
  joints Two.throwing Two.env 50 8 [SState 1; SState 3] [(EUser 1, 5); (EUser 1, 6)] 0 =
    ([OExn (XUser 7); OBool true], ks, [SState 1; SState 4], 0) /\
  map (@k_callee nat) ks = [CGuard 1 1; CAction 3; CGuard 2 2; CExit 2; CAction 4; CAction 5; CEntry 4].
Proof. eexists. split; vm_compute; reflexivity. Qed.
