(** C70: how much user code one event runs. *)

From Coq Require Import List Arith NArith Bool.
From Verif Require Import Types Static Dispatch Runtime Dsl Examples Spec Semantics Reach ProcessFacts WorkFacts Demo.
Import ListNotations.

(** C70. Let there be no region [R], at most [g] guards among the candidates of a place, and
    at most [a] callbacks in the effects of a row.  If there are no anonymous rows, one call of
    process_event, ended by return or exception, calls at most this many callbacks; [ds] has
    one more element than set_dependency was called. *)
Theorem C70_bound : forall V W (cb : cbfun V W) env root m vnone,
  compile env root = Some m -> few_regions env root ->
  forall R g a, ~ region_exists env root R ->
  (forall e pl cs, candidate_list env root e pl cs -> length (filter guarded cs) <= g) ->
  (forall e pl cs x o, candidate_list env root e pl cs -> In (CRow x o) cs -> length (row_calls env x) <= a) ->
  forall ds d0 s fuel e v s', reachable cb m vnone ds d0 s ->
  ~ (exists x, declared env root x /\ x_ev x = ENone) ->
  (exists o, process_event cb m vnone fuel e v s = Done o s') \/
  (exists ex, process_event cb m vnone fuel e v s = Threw ex s') ->
  exists ks, rt_trace s' = rt_trace s ++ ks /\ length ks <= Nat.max 1 (2 * (R * (length ds * g + a))).
Proof. exact @event_bound. Qed.
Print Assumptions C70_bound.
(** Half of it if no state defers events. *)
Theorem C70_undeferred : forall V W (cb : cbfun V W) env root m vnone,
  compile env root = Some m -> few_regions env root ->
  forall R g a, ~ region_exists env root R ->
  (forall e pl cs, candidate_list env root e pl cs -> length (filter guarded cs) <= g) ->
  (forall e pl cs x o, candidate_list env root e pl cs -> In (CRow x o) cs -> length (row_calls env x) <= a) ->
  forall ds d0 s fuel e v s', reachable cb m vnone ds d0 s ->
  ~ (exists x, declared env root x /\ x_ev x = ENone) ->
  ~ (exists x c l, declared env root x /\ unmarked (x_src x) = SState c /\ cd_defer (lookup env c) = Some l) ->
  (exists o, process_event cb m vnone fuel e v s = Done o s') \/
  (exists ex, process_event cb m vnone fuel e v s = Threw ex s') ->
  exists ks, rt_trace s' = rt_trace s ++ ks /\ length ks <= Nat.max 1 (R * (length ds * g + a)).
Proof. exact @event_bound_undeferred. Qed.
Print Assumptions C70_undeferred.
(** With anonymous rows: each pass over the regions ([avds] has one element per pass) adds as
    much as the event itself. *)
Theorem C70_passes : forall V W (cb : cbfun V W) env root m vnone,
  compile env root = Some m -> few_regions env root ->
  forall R g a, ~ region_exists env root R ->
  (forall e pl cs, candidate_list env root e pl cs -> length (filter guarded cs) <= g) ->
  (forall e pl cs x o, candidate_list env root e pl cs -> In (CRow x o) cs -> length (row_calls env x) <= a) ->
  forall ds d0 s e v vds avds oe v' s', during cb m vnone ds d0 s ->
  offer cb m ds vnone e v s vds avds oe v' s' ->
  exists ks, rt_trace s' = rt_trace s ++ ks /\ length ks <= (1 + length avds) * (R * (length ds * g + a)).
Proof. exact @offer_work. Qed.
Print Assumptions C70_passes.

(** The bounds are reached.  Event 1: two guards and one action; event 2, deferred in 1,
    recalled in 2: the same again. *)
Definition busy_env : cenv :=
 [ (1, mkCdef None None false false false (Some [EUser 2]) true);
   (50, tbl [ mkRow (SInitial WState 1) (EUser 1) ok act (SState 2);
              mkRow (SState 1) (EUser 1) fail NoAction (SState 3);
              mkRow (SState 2) (EUser 2) ok act (SState 3);
              mkRow (SState 2) (EUser 2) fail NoAction (SState 1) ]) ].
Example C70_bound_reached : demo_state ex_cb busy_env 50 [pe 2] (fun m s =>
  calls_check m 2 1 = true /\ max_initials m = 1 /\ has_anonymous m = false /\
  match process_event ex_cb m 0 300 (EUser 1) 0 s with
  | Done _ s' => length (rt_trace s') = length (rt_trace s) + 2 * (1 * (1 * 2 + 1))
  | _ => False
  end).
Proof. apply demo_intro. vm_compute. repeat split. Qed.
(** The numbers of a program can be checked. *)
Theorem C70_check : forall env root m g a, compile env root = Some m -> calls_check m g a = true ->
  (forall e pl cs, candidate_list env root e pl cs -> length (filter guarded cs) <= g) /\
  (forall e pl cs x o, candidate_list env root e pl cs -> In (CRow x o) cs -> length (row_calls env x) <= a).
Proof. exact calls_check_sound. Qed.
Print Assumptions C70_check.

(** There is no bound that depends on the program only: the guards of a refused event are
    asked once more for each call of set_dependency. *)
Theorem C70_constant_refuted : exists env root, ~ (exists x, declared env root x /\ x_ev x = ENone) /\
  forall n, exists m ds s s' ks, compile env root = Some m /\ few_regions env root /\
    reachable never_cb m 0 ds 0 s /\ (exists v, process_event never_cb m 0 300 (EUser 1) 0 s = Done (false, v) s') /\
    rt_trace s' = rt_trace s ++ ks /\ n < length ks.
Proof. exact no_constant. Qed.
Print Assumptions C70_constant_refuted.
