(** C98: logging changes nothing. *)

From Coq Require Import List Arith NArith Bool.
From Verif Require Import Types Static Dispatch Runtime Spec Semantics StaticFacts Interp Probe ProbeFacts ProbeProgram ProbeLog
  Reach Safe SafeObjects Dsl Examples Demo SafeDemo InterpDemo ProbeDemo.
Import ListNotations.

(** For all programs, all ways of adding functions that only look (after, before or
    between the actions of rows, as on_entry, on_exit or on_unexpected_event of classes
    that have none) and all user code: both programs compile or none does. *)
Theorem C98_compiles : forall watch ty env env' root, watched watch ty env env' root ->
  (exists m, compile env root = Some m) <-> (exists m', compile env' root = Some m').
Proof. exact watched_compiles. Qed.
Print Assumptions C98_compiles.

(** If the run of the program with lookers is defined, then the run without them is, with
    the same result of every call, the same places, history, deferred events, number of
    regions and objects, and the same data of the user as far as [view] shows; and without
    the lookers user code is called in the same order with the same arguments. If it never
    ends, neither does the other. If its behaviour is undefined otherwise than by a null
    pointer, so is the other's. *)
Theorem C98_watched : forall watch ty env env' root, watched watch ty env env' root ->
  forall m m', compile env root = Some m -> compile env' root = Some m' ->
  forall V W W' (view : W' -> W) (cb : cbfun V W) (cb' : cbfun V W'), looks_only watch view cb cb' ->
  forall vnone fuel d w ks, few_regions env root -> 255 < fuel ->
  match session cb' m' vnone fuel d w ks with
  | Done outs s' => exists s, session cb m vnone fuel d (view w) ks = Done outs s /\ same_but_watched watch view s s'
  | Threw x s' => exists s, session cb m vnone fuel d (view w) ks = Threw x s /\ same_but_watched watch view s s'
  | Undef UBNull => True
  | Undef u => session cb m vnone fuel d (view w) ks = Undef u
  | Timeout => session cb m vnone fuel d (view w) ks = Timeout
  end.
Proof. exact @session_both. Qed.
Print Assumptions C98_watched.

(** For a program with lookers that is well formed (C24), there is no exception. *)
Theorem C98_well_formed : forall watch ty env env' root, watched watch ty env env' root ->
  forall m m', compile env root = Some m -> compile env' root = Some m' ->
  forall V W W' (view : W' -> W) (cb : cbfun V W) (cb' : cbfun V W'), looks_only watch view cb cb' ->
  forall vnone fuel d w ks, few_regions env root -> 255 < fuel -> well_formed env' root -> Forall (well_typed env' root) ks ->
  match session cb' m' vnone fuel d w ks with
  | Done outs s' => exists s, session cb m vnone fuel d (view w) ks = Done outs s /\ same_but_watched watch view s s'
  | Timeout => session cb m vnone fuel d (view w) ks = Timeout
  | _ => False
  end.
Proof. exact @session_safe. Qed.
Print Assumptions C98_well_formed.

(** Logging everything is such an addition: one action [f] chained to every row, on_entry
    and on_exit in every class, on_unexpected_event in the root; the user's functions with a
    log beside their data. *)
Theorem C98_logged : forall f env root, calls_not f env -> watched (log_watch f env root) log_type env (logged f env) root.
Proof. exact logged_watched. Qed.
Print Assumptions C98_logged.
Theorem C98_recording : forall V W watch (cb : cbfun V W), looks_only watch fst cb (recording watch cb).
Proof. exact @recording_looks. Qed.
Print Assumptions C98_recording.

(** Two regions, a composite, history, deferral, an exception, an unexpected event: with
    and without logging. *)
Example C98_two :
  let ks := [pe 2; pe 3; pe 5; pe 7; pe 1; pe 1; pe 2; pe 6; pe 5; pe 2] in
  calls_not 77 Two.env /\ usable Two.env 50 /\ usable (logged 77 Two.env) 50 /\ well_formed (logged 77 Two.env) 50 /\
  match compile Two.env 50, compile (logged 77 Two.env) 50 with
  | Some m, Some m' =>
      seen (session throw_cb m 0 300 0 0 ks) = Some
       ([T; F; T; OExn (XUser 7); T; F; T; T; T; T], [Some 15%N; Some 7%N],
        [CEntry 5; CAction 0; CAction 666; CAction 0; CHandler; CEntry 5; CAction 0; CExit 11; CEntry 5]) /\
      seen (session (recording (log_watch 77 Two.env 50) throw_cb) m' 0 300 0 (0, []) ks) = Some
       ([T; F; T; OExn (XUser 7); T; F; T; T; T; T], [Some 15%N; Some 7%N],
        [CAction 77; CAction 77; CEntry 5; CExit 5; CAction 77; CAction 0; CAction 77; CAction 666; CAction 0;
         CAction 77; CHandler; CAction 77; CEntry 5; CAction 0; CAction 77; CExit 11; CAction 77; CExit 5; CAction 77;
         CAction 77; CAction 77; CEntry 5])
  | _, _ => False
  end.
Proof.
  cbv zeta. split; [apply calls_not_intro; vm_compute; reflexivity|]. split; [apply usable_intro; vm_compute; reflexivity|].
  split; [apply usable_intro; vm_compute; reflexivity|]. split; [apply well_formed_intro; vm_compute; reflexivity|].
  vm_compute. split; reflexivity.
Qed.
(** A handler is added. *)
Example C98_bare :
  calls_not 77 bare /\ usable bare 50 /\ usable (logged 77 bare) 50 /\
  match compile bare 50, compile (logged 77 bare) 50 with
  | Some m, Some m' =>
      seen (session ex_cb m 0 300 0 0 [pe 1; pe 1]) = Some ([T; F], [Some 1%N], []) /\
      seen (session (recording (log_watch 77 bare 50) ex_cb) m' 0 300 0 (0, []) [pe 1; pe 1]) =
        Some ([T; F], [Some 1%N], [CAction 77; CHandler])
  | _, _ => False
  end.
Proof.
  split; [apply calls_not_intro; vm_compute; reflexivity|]. split; [apply usable_intro; vm_compute; reflexivity|].
  split; [apply usable_intro; vm_compute; reflexivity|]. vm_compute. split; reflexivity.
Qed.

(** Two ways in which a log can do harm. A row without any effects touches no object, a
    row with a logging action does: the object of its source may not exist. *)
Theorem C98_null_refuted : exists f env root m m' ks,
  calls_not f env /\ compile env root = Some m /\ compile (logged f env) root = Some m' /\ few_regions env root /\
  seen (session ex_cb m 0 300 0 0 ks) = Some ([T; T], [Some 0%N], []) /\
  session (recording (log_watch f env root) ex_cb) m' 0 300 0 (0, []) ks = Undef UBNull.
Proof.
  assert (U : usable shy 50) by (apply usable_intro; vm_compute; reflexivity). destruct U as (m & Hm & F).
  destruct (compile (logged 77 shy) 50) as [m'|] eqn:E; [|vm_compute in E; discriminate].
  exists 77, shy, 50, m, m', [pe 1; pe 2]. split; [apply calls_not_intro; vm_compute; reflexivity|].
  split; [exact Hm|]. split; [exact E|]. split; [exact F|]. vm_compute in Hm, E. injection Hm as <-. injection E as <-.
  vm_compute. split; reflexivity.
Qed.
Print Assumptions C98_null_refuted.

(** Wrapping all actions in one type (std::function, say): of two internal rows that
    differ in their actions only, the library now drops the second. *)
Theorem C98_types_refuted : exists watch ty env env' root m m' (cb : cbfun nat nat) ks,
  (forall c, watched_class watch ty c (lookup env c) (lookup env' c)) /\
  watched_member watch (cd_unexpected (lookup env root)) (cd_unexpected (lookup env' root)) CHandler /\
  (forall t, ty (Some t) <> None) /\ (forall c, watch c = false) /\
  looks_only watch (fun w => w) cb cb /\
  compile env root = Some m /\ compile env' root = Some m' /\
  seen (session cb m 0 300 0 0 ks) = Some ([T; T], [Some 1%N], [CAction 2]) /\
  seen (session cb m' 0 300 0 0 ks) = Some ([T; T], [Some 1%N], [CAction 1]).
Proof.
  destruct (compile (two_ways 1 2) 50) as [m|] eqn:E; [|vm_compute in E; discriminate].
  destruct (compile (two_ways 5 5) 50) as [m'|] eqn:E'; [|vm_compute in E'; discriminate].
  exists (fun _ => false), (option_map (fun _ => 5)), (two_ways 1 2), (two_ways 5 5), 50, m, m', ex_cb, [pe 1; pe 2].
  split; [|split; [|split; [|split; [|split; [|split; [exact E|split; [exact E'|]]]]]]].
  - intros c. unfold two_ways. cbn [lookup]. destruct (Nat.eq_dec c 1); [|destruct (Nat.eq_dec c 50)].
    + constructor; cbn; auto; try discriminate. repeat constructor.
    + constructor; cbn; auto; try discriminate. repeat constructor.
    + constructor; cbn; auto; discriminate.
  - cbn. discriminate.
  - intros t. discriminate.
  - reflexivity.
  - constructor; [discriminate|]. intros c a v w _. destruct (ex_cb c a v w); auto.
  - vm_compute in E, E'. injection E as <-. injection E' as <-. vm_compute. split; reflexivity.
Qed.
Print Assumptions C98_types_refuted.
