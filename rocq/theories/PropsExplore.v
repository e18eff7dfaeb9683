(** C79, C80. Scripts stand for all user code; exploring all runs of a machine. *)

From Coq Require Import List Arith NArith Bool Lia.
From Verif Require Import Types Static Dispatch Runtime Dsl Examples Demo SafeDemo Semantics Data DataUse Script Explore ExploreUse.
Import ListNotations.

(** C79. Whatever the user code, the payloads and the calls: there is a list of answers
    with which a session without any data ends alike, whatever comes behind them, and
    leaves what comes behind them. *)
Theorem C79_script : forall V W (cb : cbfun V W) m vnone fuel d w ks,
  exists l, forall rest, session scripted m tt fuel d (l ++ rest) (map (with_payload (fun _ => tt)) ks) =
    match session cb m vnone fuel d w ks with
    | Done outs s => Done outs (bare s rest)
    | Threw x s => Threw x (bare s rest)
    | Undef u => Undef u
    | Timeout => Timeout
    end.
Proof. exact @session_scripted. Qed.
Print Assumptions C79_script.

(** A machine with four answers, two of them exceptions. *)
Example C79_applies : Answers.by_code = Answers.by_script [Fail 6; Say false; Say true; Fail 7] /\
  Answers.by_code = Answers.by_script [Fail 6; Say false; Say true; Fail 7; Say true; Fail 9] /\
  Answers.by_code = Some ([OExn (XUser 6); T; OExn (XUser 7); F], [Some 3%N], [CGuard 6 0; CGuard 0 0; CGuard 1 0; CAction 666]).
Proof. vm_compute. repeat split. Qed.
(** Other answers, another end. *)
Example C79_others : Answers.by_code <> Answers.by_script [Fail 6; Say true; Say true; Fail 7].
Proof. vm_compute. discriminate. Qed.

(** C80. Nothing is missing: every session of any user code that makes these calls, in any
    order and number, ends, in a configuration of the list or, if [None] is in the list,
    in undefined behaviour. *)
Theorem C80_covers : forall m fuel depth rounds d calls l, explore m fuel depth rounds d calls = Some l ->
  forall V W (cb : cbfun V W) vnone fuel' w ks, fuel <= fuel' -> client_of calls ks ->
  exists n, end_of (session cb m vnone fuel' d w ks) = Some n /\ In n l.
Proof. exact covers_more. Qed.
Print Assumptions C80_covers.

(** Nothing is in the list that is not the end of such a session. *)
Theorem C80_reached : forall m fuel depth rounds d calls l, explore m fuel depth rounds d calls = Some l ->
  forall n, In n l -> exists ks script, (forall k, In k ks -> In k calls) /\
    end_of (session scripted m tt fuel d script ks) = Some n.
Proof. intros m fuel depth rounds d calls l H. exact (explore_reached m fuel depth rounds d calls l H). Qed.
Print Assumptions C80_reached.

(** So a property of configurations holds always, and nothing undefined happens, exactly if
    it holds of the list. *)
Theorem C80_always : forall m fuel depth rounds d calls l (good : config -> Prop), explore m fuel depth rounds d calls = Some l ->
  (~ In None l /\ (forall c, In (Some c) l -> good c) <->
   forall V W (cb : cbfun V W) vnone fuel' w ks, fuel <= fuel' -> client_of calls ks ->
   exists outs s, session cb m vnone fuel' d w ks = Done outs s /\ good (config_of s)).
Proof. exact explore_iff. Qed.
Print Assumptions C80_always.
(** The same as a test that can be computed. *)
Theorem C80_test : forall env root fuel depth rounds calls good, always env root fuel depth rounds calls good = true ->
  exists m, compile env root = Some m /\
  forall V W (cb : cbfun V W) vnone fuel' w ks, fuel <= fuel' -> client_of (calls m) ks ->
  exists outs s, session cb m vnone fuel' 0 w ks = Done outs s /\ good m (config_of s) = true.
Proof. exact always_sound. Qed.
Print Assumptions C80_test.

(** A program of the integration tests with two regions, a sub machine, guards and
    anonymous rows: 54 configurations, nothing undefined. *)
Example C80_applies : found Regions.env Regions.Main 50 10 100 all_events = Some (54, false).
Proof. vm_compute. reflexivity. Qed.
Example C80_safe : exists m, compile Regions.env Regions.Main = Some m /\
  forall V W (cb : cbfun V W) vnone fuel' w ks, 50 <= fuel' -> client_of (all_events m) ks ->
  exists outs s, session cb m vnone fuel' 0 w ks = Done outs s /\ regions_good m (config_of s) = true.
Proof. apply (always_sound _ _ _ 10 100). vm_compute. reflexivity. Qed.
(** Two programs in which undefined behaviour is found: a sub machine with more regions
    than its parent; a factory that returns no object. *)
Example C80_finds : found MultiRegionSub.env 50 50 10 100 all_events = Some (3, true) /\
  found Custom.env 50 50 10 100 all_events = Some (5, true).
Proof. split; vm_compute; reflexivity. Qed.
(** A deferred event can be put off any number of times: no finite list. *)
Example C80_deferral : found Defer.env 50 50 10 20 all_events = None.
Proof. vm_compute. reflexivity. Qed.
