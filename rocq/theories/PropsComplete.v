(** C49: the semantics by names describes all runs, not only those that end well. *)

From Coq Require Import List Arith NArith Bool.
From Verif Require Import Types Static Dispatch Runtime Dsl Examples Spec DispatchFacts Semantics Reach
  ProcessFacts Demo Safe SafeObjects SafeDemo CompleteFacts.
Import ListNotations.

(** C49. What the rules derive is what process_event computes, given enough steps
    and no undefined behaviour. *)
Theorem C49_complete : forall V W (cb : cbfun V W) env root m vnone ds d0 s,
  running cb env root m vnone ds d0 s -> forall e v vds rp s',
  process cb m ds vnone d0 e v s vds rp s' ->
  (forall fuel u, process_event cb m vnone fuel e v s <> Undef u) ->
  exists n, forall fuel, n <= fuel ->
    process_event cb m vnone fuel e v s =
    match rp with Returned b v' => Done (b, v') s' | Exception k => Threw (XUser k) s' end.
Proof. exact @complete. Qed.
Print Assumptions C49_complete.

(** Well-formed machines: the rules and the program have the same results ... *)
Theorem C49_same_results : forall V W (cb : cbfun V W) env root m vnone ds d0 s,
  running cb env root m vnone ds d0 s -> forall e v rp s',
  well_formed env root -> event_of env root e ->
  (exists vds, process cb m ds vnone d0 e v s vds rp s') <->
  (exists fuel, process_event cb m vnone fuel e v s =
     match rp with Returned b v' => Done (b, v') s' | Exception k => Threw (XUser k) s' end).
Proof. exact @rules_iff. Qed.
Print Assumptions C49_same_results.

(** ... and process_event runs forever exactly where the rules derive nothing. *)
Theorem C49_runs_forever : forall V W (cb : cbfun V W) env root m vnone ds d0 s,
  running cb env root m vnone ds d0 s -> forall e v,
  well_formed env root -> event_of env root e ->
  (forall vds rp s', ~ process cb m ds vnone d0 e v s vds rp s') <->
  (forall fuel, process_event cb m vnone fuel e v s = Timeout).
Proof. exact @rules_diverge. Qed.
Print Assumptions C49_runs_forever.

Example C49_applies : well_formed Defer.env 50 /\ demo_state ex_cb Defer.env 50 [pe 2] (fun m s =>
  rt_queue s <> [] /\ In (EUser 1) (events m) /\
  exists s', process_event ex_cb m 0 300 (EUser 1) 7 s = Done (true, 7) s' /\ rt_queue s' = [] /\
    at_place m s' 0 = Some (50, SState 1)).
Proof.
  split; [apply well_formed_intro; vm_compute; reflexivity|].
  apply demo_intro. vm_compute. split; [reflexivity|]. split; [discriminate|]. split; [auto|]. eexists. repeat split.
Qed.
(** A machine that runs forever: C18_applies_cycle (PropsTerm.v). *)
