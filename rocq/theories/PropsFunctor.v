(** C68: guards with data members. *)

From Coq Require Import List Arith NArith Bool.
From Verif Require Import Types Static Dispatch Runtime Dsl Examples Spec Functors FunctorFacts FunctorCount FunctorDemo.
Import ListNotations.

(** C68. Guards whose answers do not depend on data members of their own behave as in
    all other statements here. *)
Theorem C68_stateless : forall V W G (cb : cbfun V W) (gcb : gfun V W G) g0 m vnone,
  memoryless cb gcb -> forall fuel d w ks,
  strip_res (g_session cb gcb g0 m vnone fuel d w ks) = session cb m vnone fuel d w ks.
Proof. exact @session_memoryless. Qed.
Print Assumptions C68_stateless.

(** Otherwise each table entry has a copy of its row's guard: a call finds in it what the
    last call of the same entry left, else what the row has.  ([recorded]: these are all
    calls of guards.) *)
Theorem C68_own_copy : forall V W G (cb : cbfun V W) (gcb : gfun V W G) g0 vnone env root m,
  compile env root = Some m -> forall fuel d w ks s,
  ends_in (g_session cb gcb g0 m vnone fuel d w ks) s ->
  own_memory gcb g0 (gw_calls (rt_world s)) /\ one_functor (gw_calls (rt_world s)) /\ recorded s.
Proof. exact @functor_calls. Qed.
Print Assumptions C68_own_copy.

(** There is a copy for each place in which each row with the guard is tried, and as many
    again for each call of set_dependency. *)
Theorem C68_copies : forall V W G (cb : cbfun V W) (gcb : gfun V W G) g0 vnone env root m,
  compile env root = Some m -> forall fuel d w ks outs s ty val k,
  g_session cb gcb g0 m vnone fuel d w ks = Done outs s -> copies env root ty val k ->
  length (owners ty val (rt_tabs s)) = k * (1 + new_tables ks).
Proof. exact @functor_copies. Qed.
Print Assumptions C68_copies.

(** So a guard that agrees at most [n] times agrees at most [n] times in each entry, *)
Theorem C68_entry : forall V W G (cb : cbfun V W) (gcb : gfun V W G) g0 vnone env root m,
  compile env root = Some m -> forall fuel d w ks s n count i,
  ends_in (g_session cb gcb g0 m vnone fuel d w ks) s ->
  (forall c, In c (gw_calls (rt_world s)) -> gc_id c = i -> at_most gcb g0 n count (gc_ty c) (gc_val c)) ->
  times i (gw_calls (rt_world s)) <= n.
Proof. exact @functor_entry. Qed.
Print Assumptions C68_entry.

(** and at most [n] times the number of copies in all. *)
Theorem C68_total : forall V W G (cb : cbfun V W) (gcb : gfun V W G) g0 vnone env root m,
  compile env root = Some m -> forall fuel d w ks outs s ty val k n count,
  g_session cb gcb g0 m vnone fuel d w ks = Done outs s -> copies env root ty val k ->
  at_most gcb g0 n count ty val ->
  times_of ty val (gw_calls (rt_world s)) <= n * (k * (1 + new_tables ks)).
Proof. exact @functor_total. Qed.
Print Assumptions C68_total.

Example C68_applies : exists m outs s,
  compile within 50 = Some m /\ g_session ex_cb once zero m 0 300 0 0 within_calls = Done outs s /\
  copies within 50 9 0 3 /\ at_most once zero 1 (fun g => g) 9 0 /\
  length (gw_calls (rt_world s)) = 4 /\ times_of 9 0 (gw_calls (rt_world s)) = 2.
Proof.
  assert (H : match compile within 50 with
    | Some m => count_rows 9 0 m (internal_flat m ++ mc_flat m) = 3 /\
        match g_session ex_cb once zero m 0 300 0 0 within_calls with
        | Done _ s => length (gw_calls (rt_world s)) = 4 /\ times_of 9 0 (gw_calls (rt_world s)) = 2
        | _ => False
        end
    | None => False
    end) by (vm_compute; auto).
  destruct (compile within 50) as [m|] eqn:Em; [|contradiction]. destruct H as [Hk H].
  destruct (g_session _ _ _ _ _ _ _ _ _) as [outs s| | |] eqn:Es; try contradiction.
  exists m, outs, s. split; [reflexivity|]. split; [exact Es|].
  split; [pose proof (copies_intro _ _ _ 9 0 Em) as X; rewrite Hk in X; exact X|]. split; [apply once_at_most|exact H].
Qed.

(** It is not so that the guard of one row agrees at most [n] times: a row that starts at
    a composite has a copy for each state in it, *)
Theorem C68_row_refuted : exists env m ks outs s, compile env 50 = Some m /\
  g_session ex_cb once zero m 0 300 0 0 ks = Done outs s /\ new_tables ks = 0 /\
  length (rows_with 9 0 env) = 1 /\ at_most once zero 1 (fun g => g) 9 0 /\
  times_of 9 0 (gw_calls (rt_world s)) = 2.
Proof.
  destruct within_result as (m & s & H1 & H2 & H3 & _).
  eexists within, m, within_calls, _, s. split; [exact H1|]. split; [exact H2|]. split; [reflexivity|].
  split; [reflexivity|]. split; [apply once_at_most|exact H3].
Qed.
Print Assumptions C68_row_refuted.
(** and set_dependency puts new copies before the old ones. *)
Theorem C68_set_dependency_refuted : exists env m ks outs s, compile env 50 = Some m /\
  g_session ex_cb once zero m 0 300 0 0 ks = Done outs s /\
  copies env 50 9 0 1 /\ at_most once zero 1 (fun g => g) 9 0 /\
  times_of 9 0 (gw_calls (rt_world s)) = 2.
Proof.
  destruct again_result as (m & s & H1 & H2 & H3 & _).
  eexists plain_env, m, again_calls, _, s. split; [exact H1|]. split; [exact H2|].
  split; [|split; [apply once_at_most|exact H3]].
  assert (Hk : match compile plain_env 50 with Some m => count_rows 9 0 m (internal_flat m ++ mc_flat m) | None => 0 end = 1)
    by (vm_compute; reflexivity).
  rewrite H1 in Hk. pose proof (copies_intro _ _ _ 9 0 H1) as X. rewrite Hk in X. exact X.
Qed.
Print Assumptions C68_set_dependency_refuted.
