(** C75: what types are called. *)

From Coq Require Import List Arith NArith Bool.
From Verif Require Import Types Static Dispatch Runtime Dsl Examples Demo Rename InterpDemo RenameDemo.
Import ListNotations.

(** Give classes, events and the types of guards and actions other names, different
    ones for different things, and functor values, callables and dependencies any: the
    machine compiles as before and, with the same user code, every session ends alike, with the
    same results, the same numbers in every data member, and the same calls of user code
    up to names. *)
Theorem C75_names : forall n, distinct n -> forall env root m, compile env root = Some m ->
  exists m', compile (renamed n env) (n_cls n root) = Some m' /\
  forall V W (cb cb' : cbfun V W) vnone fuel d w ks, user_alike n cb cb' ->
  match session cb m vnone fuel d w ks, session cb' m' vnone fuel (n_dep n d) w (map (re_call n) ks) with
  | Done outs s, Done outs' s' => outs' = outs /\ seen_as n s s'
  | Threw x s, Threw x' s' => x' = x /\ seen_as n s s'
  | Undef u, Undef u' => u' = u
  | Timeout, Timeout => True
  | _, _ => False
  end.
Proof. exact rename_session. Qed.
Print Assumptions C75_names.

Theorem C75_rejected : forall n, distinct n -> forall env root,
  compile (renamed n env) (n_cls n root) = None <-> compile env root = None.
Proof. exact rename_compiles. Qed.
Print Assumptions C75_rejected.

(** If the names can be taken back, all user code has such a counterpart. *)
Theorem C75_user : forall n k, undone_by n k -> distinct n /\
  forall V W (cb : cbfun V W), user_alike n cb (fun c a v w => cb (re_callee k c) (re_args k a) v w).
Proof. exact rename_user. Qed.
Print Assumptions C75_user.

(** Two classes, two events, two guard types or two action types that become one:
    each can be noticed, although the other kinds stay apart. *)
Theorem C75_merged_refuted : exists n1 n2 n3 n4,
  (injective (n_event n1) /\ injective (n_gty n1) /\ injective (n_aty n1) /\ tells_apart n1) /\
  (injective (n_cls n2) /\ injective (n_gty n2) /\ injective (n_aty n2) /\ tells_apart n2) /\
  (injective (n_cls n3) /\ injective (n_event n3) /\ injective (n_aty n3) /\ tells_apart n3) /\
  (injective (n_cls n4) /\ injective (n_event n4) /\ injective (n_gty n4) /\ tells_apart n4).
Proof. exact needed. Qed.
Print Assumptions C75_merged_refuted.

(** The program of C74 with all names shifted. *)
Example C75_applies : undone_by shift back /\
  let ks := [pe 2; pe 3; pe 5; pe 7; pe 1; pe 1; pe 2; pe 6; KStatus; pe 5; pe 2] in
  match demo throw_cb Two.env 50 ks, demo (shifted throw_cb) (renamed shift Two.env) 57 (map (re_call shift) ks) with
  | Some (_, outs, s), Some (_, outs', s') => outs' = outs /\
      map (@k_callee nat) (rt_trace s) = [CEntry 5; CAction 0; CAction 666; CAction 0; CHandler; CEntry 5; CAction 0; CExit 11; CEntry 5] /\
      map (@k_callee nat) (rt_trace s') = [CEntry 12; CAction 4; CAction 670; CAction 4; CHandler; CEntry 12; CAction 4; CExit 18; CEntry 12]
  | _, _ => False
  end.
Proof. split; [exact shift_back|]. vm_compute. repeat split. Qed.
