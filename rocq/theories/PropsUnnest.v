(** C99: composites are a notation. *)

From Coq Require Import List Arith NArith Bool.
From Verif Require Import Types Static Dispatch Runtime IndexFacts Spec Semantics StaticFacts Interp Unnest UnnestFacts UnnestProgram
  Reach Safe SafeObjects Dsl Examples Demo SafeDemo InterpDemo UnnestDemo.
Import ListNotations.

(** [unnested env root] has one table, of rows from states to states, and no on_entry,
    on_exit or internal table. *)
Theorem C99_shape : forall env root c,
  (composite (unnested env root) c -> c = one env root) /\
  has_entry (unnested env root) c = false /\ has_exit (unnested env root) c = false /\
  internals (unnested env root) c = [] /\
  forall r, In r (table (unnested env root) c) ->
    (exists a, unmarked (r_src r) = SState a) /\ exists b, r_tgt r = SState b.
Proof. exact unnested_shape. Qed.
Print Assumptions C99_shape.

(** If a well formed program (C24) has composites, but no class with two regions, no
    history and no functions that create or reuse states, then this program compiles too. *)
Theorem C99_compiles : forall env root m, compile env root = Some m -> one_region env root -> well_formed env root ->
  (N.of_nat (S (length (spots env root))) < two64)%N ->
  exists m', compile (unnested env root) (one env root) = Some m'.
Proof. exact unnested_accepted. Qed.
Print Assumptions C99_compiles.

(** The two do the same, for all user code, all sequences of events and new dependencies:
    every run of the first that is defined is a run of the second, with the same results,
    the same deferred events, the same data of the user, the same calls of user code in the
    same order with the same arguments (the functions of the second program know which
    function of the first they stand for and what it was told), in the place that bears
    the name of the place of the first. If the first does not end, the second does not. *)
Theorem C99_unnested : forall V W (cb : cbfun V W) env root, one_region env root ->
  forall m m', compile env root = Some m -> compile (unnested env root) (one env root) = Some m' ->
  forall vnone fuel d w ks, 255 < fuel -> forallb plain_call ks = true ->
  match session cb m vnone fuel d w ks with
  | Done outs s => exists s', session (translated env root cb) m' vnone fuel d w ks = Done outs s' /\ same_run env root m m' s s'
  | Threw x s => exists s', session (translated env root cb) m' vnone fuel d w ks = Threw x s' /\ same_run env root m m' s s'
  | Undef _ => True
  | Timeout => session (translated env root cb) m' vnone fuel d w ks = Timeout
  end.
Proof. exact @session_one. Qed.
Print Assumptions C99_unnested.

(** A well formed program has no other runs. *)
Theorem C99_well_formed : forall V W (cb : cbfun V W) env root, one_region env root ->
  forall m m', compile env root = Some m -> compile (unnested env root) (one env root) = Some m' ->
  forall vnone fuel d w ks, 255 < fuel -> forallb plain_call ks = true ->
  well_formed env root -> Forall (well_typed env root) ks ->
  match session cb m vnone fuel d w ks with
  | Done outs s => exists s', session (translated env root cb) m' vnone fuel d w ks = Done outs s' /\ same_run env root m m' s s'
  | Timeout => session (translated env root cb) m' vnone fuel d w ks = Timeout
  | _ => False
  end.
Proof. exact @session_one_safe. Qed.
Print Assumptions C99_well_formed.

(** Different places have different names. *)
Theorem C99_names : forall env root m, compile env root = Some m ->
  forall pl pl', is_place env root pl -> alias env root pl = alias env root pl' -> pl = pl'.
Proof. exact alias_places. Qed.
Print Assumptions C99_names.

(** Two composites, one in the other, with everything that is allowed. *)
Example C99_nested :
  let ks := [pe 1; pe 7; pe 5; pe 8; pe 3; pe 4; pe 3; pe 5; pe 4; pe 6; pe 6; pe 2; pe 3] in
  one_region nested 50 /\ well_formed nested 50 /\ (N.of_nat (S (length (spots nested (50%nat)))) < two64)%N /\
  forallb plain_call ks = true /\
  match compile nested 50, compile (unnested nested 50) (one nested 50) with
  | Some m, Some m' =>
      said (session throw_cb m 0 300 0 0 ks) = Some
        ([T; T; F; T; T; T; T; T; T; T; T; T; F],
         [CGuard 1 1; CAction 10; CEntry 11; CEntry 4; CAction 70; CAction 80; CAction 30; CEntry 12; CAction 50; CEntry 7;
          CAction 51; CGuard 0 0; CGuard 1 0; CExit 12; CAction 40; CEntry 4; CAction 30; CEntry 12; CAction 50; CEntry 7;
          CAction 51; CGuard 0 0; CGuard 1 0; CExit 12; CAction 40; CEntry 4; CExit 11; CAction 60; CEntry 1; CExit 1;
          CExit 11; CAction 20; CAction 21; CEntry 1; CHandler]) /\
      heard (in_old_words nested 50) (session (translated nested 50 throw_cb) m' 0 300 0 0 ks) =
      heard (fun k => k) (session throw_cb m 0 300 0 0 ks)
  | _, _ => False
  end.
Proof.
  cbv zeta. split; [apply one_region_intro; vm_compute; reflexivity|]. split; [apply well_formed_intro; vm_compute; reflexivity|].
  split; [vm_compute; reflexivity|]. split; [reflexivity|]. vm_compute. split; reflexivity.
Qed.

(** With history it is not so: where history leads is not known when the table is made. *)
Theorem C99_history_refuted : exists env root m m' ks,
  compile env root = Some m /\ compile (unnested env root) (one env root) = Some m' /\
  (forall p, is_parent env root p -> length (initial_states env p) <= 1) /\ well_formed env root /\ forallb plain_call ks = true /\
  said (session ex_cb m 0 300 0 0 ks) = Some ([T; T; T; T; T], [CAction 40]) /\
  said (session (translated env root ex_cb) m' 0 300 0 0 ks) = Some ([T; T; T; T; F], []).
Proof.
  destruct (compile remembers 50) as [m|] eqn:E; [|vm_compute in E; discriminate].
  destruct (compile (unnested remembers 50) (one remembers 50)) as [m'|] eqn:E'; [|vm_compute in E'; discriminate].
  exists remembers, 50, m, m', [pe 1; pe 3; pe 2; pe 1; pe 4]. split; [exact E|]. split; [exact E'|].
  split; [|split; [apply well_formed_intro; vm_compute; reflexivity|]].
  - apply width_intro. vm_compute. reflexivity.
  - vm_compute in E, E'. injection E as <-. injection E' as <-. vm_compute. split; [reflexivity|]. split; reflexivity.
Qed.
Print Assumptions C99_history_refuted.
