(** C86: entries and exits balance. *)

From Coq Require Import List Arith NArith Bool.
From Verif Require Import Types Static Dispatch Runtime Dsl Examples Spec Semantics Reach StaticFacts TableFacts Demo
  Balance BalanceFacts BalanceDemo.
Import ListNotations.

(** C86. A class that is entered by name: on_exit never runs more often than on_entry and
    the regions that were in the class at the start allow, and whoever is in the class at
    the end has entered it.  [t1] is any moment: between any two calls of user code. *)
Theorem C86_entered : forall V W (cb : cbfun V W) env root m vnone ds d0 s c,
  running cb env root m vnone ds d0 s -> only_guards_throw cb ->
  forall fuel ks os s', (forall r p q, ~ In (KSet r p q) ks) -> run cb m vnone fuel ks s = Done os s' ->
  entered_by_name env root c ->
  exists t, rt_trace s' = rt_trace s ++ t /\
    times (CExit c) t + regions_at m s' c <= times (CEntry c) t + regions_at m s c /\
    forall t1 t2, t = t1 ++ t2 -> times (CExit c) t1 <= times (CEntry c) t1 + regions_at m s c.
Proof. exact @run_in. Qed.
Print Assumptions C86_entered.

(** A class that is left by name: whoever was in it or entered it is in it or left it; at
    any moment no more than all regions are in it. *)
Theorem C86_left : forall V W (cb : cbfun V W) env root m vnone ds d0 s c,
  running cb env root m vnone ds d0 s -> only_guards_throw cb ->
  forall fuel ks os s', (forall r p q, ~ In (KSet r p q) ks) -> run cb m vnone fuel ks s = Done os s' ->
  left_by_name env root c ->
  exists t, rt_trace s' = rt_trace s ++ t /\ length (rt_cur s') = length (rt_cur s) /\
    times (CEntry c) t + regions_at m s c <= times (CExit c) t + regions_at m s' c /\
    forall t1 t2, t = t1 ++ t2 -> times (CEntry c) t1 + regions_at m s c <= times (CExit c) t1 + length (rt_cur s).
Proof. exact @run_out. Qed.
Print Assumptions C86_left.

(** Both: on_entry and on_exit balance. *)
Theorem C86_balance : forall V W (cb : cbfun V W) env root m vnone ds d0 s c,
  running cb env root m vnone ds d0 s -> only_guards_throw cb ->
  forall fuel ks os s', (forall r p q, ~ In (KSet r p q) ks) -> run cb m vnone fuel ks s = Done os s' ->
  entered_by_name env root c -> left_by_name env root c ->
  exists t, rt_trace s' = rt_trace s ++ t /\
    times (CEntry c) t + regions_at m s c = times (CExit c) t + regions_at m s' c.
Proof. exact @run_both. Qed.
Print Assumptions C86_balance.

(** From construction on, counted in the program: the regions that start in the class are
    the initial states of the root that are [c]. *)
Theorem C86_session : forall V W (cb : cbfun V W) env root m vnone c,
  compile env root = Some m -> few_regions env root -> only_guards_throw cb ->
  forall fuel d w ks os s, (forall r p q, ~ In (KSet r p q) ks) -> session cb m vnone fuel d w ks = Done os s ->
  entered_by_name env root c -> left_by_name env root c ->
  times (CEntry c) (rt_trace s) + length (filter (fun i => at_class c (root, i)) (initial_states env root)) =
  times (CExit c) (rt_trace s) + regions_at m s c.
Proof. exact @session_both. Qed.
Print Assumptions C86_session.

(** Both conditions can be checked. *)
Theorem C86_checks : forall env root m c, compile env root = Some m ->
  (entered_ok m c = true <-> entered_by_name env root c) /\ (left_ok m c = true <-> left_by_name env root c).
Proof. exact (fun env root m c H => conj (entered_ok_iff env root m c H) (left_ok_iff env root m c H)). Qed.
Print Assumptions C86_checks.

(** Not entered by name, and on_entry is missing: target *state<2>, entry<11,4>,
    direct<11,4>, history<11>, and a composite inside of 11 that is left; *)
Theorem C86_entered_refuted : exists cb : cbfun nat nat, only_guards_throw cb /\
  exists env1 env2 env3 env4 env5,
  uneven_out cb env1 50 2 [pe 1; pe 2] /\ uneven_out cb env2 50 11 [pe 1; pe 2] /\ uneven_out cb env3 50 11 [pe 1; pe 2] /\
  uneven_out cb env4 50 11 [pe 1; pe 2] /\ uneven_out cb env5 50 11 [pe 1; pe 2].
Proof.
  exists ex_cb. split; [exact ex_cb_quiet|]. exists In.marked, In.entry_, In.direct_, In.history_, In.nested.
  repeat apply conj; apply uneven_out_intro; vm_compute; reflexivity.
Qed.
Print Assumptions C86_entered_refuted.
(** not left by name, and on_exit is missing: source *state<2>, state<11> around it,
    direct<11,2>, exit<11,2>, and a composite inside of 11 that is entered; and an internal
    row that runs on_entry without a move; *)
Theorem C86_left_refuted : exists cb : cbfun nat nat, only_guards_throw cb /\
  exists env1 env2 env3 env4 env5 env6,
  uneven_in cb env1 50 2 [pe 1; pe 1] /\ uneven_in cb env2 50 2 [pe 1; pe 2] /\ uneven_in cb env3 50 2 [pe 1; pe 1; pe 2] /\
  uneven_in cb env4 50 2 [pe 1; pe 1; pe 2] /\ uneven_in cb env5 50 11 [pe 1; pe 1] /\ uneven_in cb env6 50 2 [pe 1; pe 7].
Proof.
  exists ex_cb. split; [exact ex_cb_quiet|]. exists Out.marked, Out.around, Out.direct_, Out.exit_, Out.nested, Out.internal.
  repeat apply conj; apply uneven_in_intro; vm_compute; reflexivity.
Qed.
Print Assumptions C86_left_refuted.
(** an action that throws; *)
Theorem C86_throws_refuted : exists (cb : cbfun nat nat) env m, compile env 50 = Some m /\ entered_ok m 2 = true /\ left_ok m 2 = true /\
  uneven_out cb env 50 2 [pe 1; pe 2].
Proof.
  exists throw_cb, In.plain. eexists. split; [vm_compute; reflexivity|]. split; [vm_compute; reflexivity|]. split; [vm_compute; reflexivity|].
  apply uneven_out_intro. vm_compute. reflexivity.
Qed.
Print Assumptions C86_throws_refuted.
(** and set_current_state, in both directions. *)
Theorem C86_set_refuted : exists (cb : cbfun nat nat) env m, only_guards_throw cb /\ compile env 50 = Some m /\ entered_ok m 2 = true /\ left_ok m 2 = true /\
  uneven_out cb env 50 2 [KSet 0 50 (SState 2)] /\ uneven_in cb env 50 2 [pe 1; KSet 0 50 (SState 1)].
Proof.
  exists ex_cb, Even.env. eexists. split; [exact ex_cb_quiet|]. split; [vm_compute; reflexivity|]. split; [vm_compute; reflexivity|]. split; [vm_compute; reflexivity|].
  split; [apply uneven_out_intro|apply uneven_in_intro]; vm_compute; reflexivity.
Qed.
Print Assumptions C86_set_refuted.

(** Two regions, a leaf and a composite with on_entry and on_exit, a guard that throws. *)
Example C86_applies : only_guards_throw guard_cb /\
  exists m, compile Even.env 50 = Some m /\ few_regions Even.env 50 /\
  entered_by_name Even.env 50 2 /\ left_by_name Even.env 50 2 /\ entered_by_name Even.env 50 11 /\ left_by_name Even.env 50 11 /\
  (exists outs s, session guard_cb m 0 300 0 0 [pe 1; pe 3; pe 4; pe 1; pe 1; pe 2; pe 5; pe 6] = Done outs s /\
    times (CEntry 2) (rt_trace s) = 3 /\ times (CExit 2) (rt_trace s) = 2 /\ regions_at m s 2 = 1 /\
    times (CEntry 11) (rt_trace s) = 2 /\ times (CExit 11) (rt_trace s) = 1 /\ regions_at m s 11 = 1).
Proof.
  split; [exact guard_cb_throws|]. destruct (compile Even.env 50) as [m|] eqn:Hm; [|exfalso; vm_compute in Hm; discriminate].
  exists m. split; [reflexivity|]. split; [apply (max_few _ _ _ Hm); vm_compute in Hm; inversion Hm; subst; apply Nat.leb_le; vm_compute; reflexivity|].
  destruct (C86_checks Even.env 50 m 2 Hm) as [E1 L1]. destruct (C86_checks Even.env 50 m 11 Hm) as [E2 L2].
  vm_compute in Hm. inversion Hm. subst m.
  split; [apply E1; vm_compute; reflexivity|]. split; [apply L1; vm_compute; reflexivity|]. split; [apply E2; vm_compute; reflexivity|]. split; [apply L2; vm_compute; reflexivity|].
  eexists. eexists. split; [vm_compute; reflexivity|]. vm_compute. repeat split.
Qed.
