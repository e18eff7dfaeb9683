(** C50: states made by create_state. *)

From Coq Require Import List Arith NArith Bool.
From Verif Require Import Types Static Dispatch Runtime Dsl Examples Spec DispatchFacts Semantics Reach
  Demo Safe SafeObjects SafeDemo Creation CreationFacts CreationDemo.
Import ListNotations.

(** C50. *)
Theorem C50_promises : forall V W (cb : cbfun V W) env root m, compile env root = Some m ->
  forall promise steady vnone fuel d w ks,
  well_placed env root -> no_anonymous_deferral env root -> keeps_promises env root promise steady ->
  reliable steady cb -> Forall (well_typed env root) ks -> Forall (modest env promise) ks ->
  match session cb m vnone fuel d w ks with
  | Done _ s => forall r pl q, at_place m s r = Some pl -> is_state env root q ->
      present env promise pl q -> In q (rt_live s)
  | Timeout => True
  | _ => False
  end.
Proof. exact @session_promises. Qed.
Print Assumptions C50_promises.
Theorem C50_check : forall env root m, compile env root = Some m -> forall promise steady, well_placed env root ->
  (creation_check m promise steady = true <->
   keeps_promises env root (fun pl q => In q (promise pl)) (fun c => steady c = true)).
Proof. exact @creation_check_decides. Qed.
Print Assumptions C50_check.

Example C50_applies : well_placed Made.env 50 /\ no_anonymous_deferral Made.env 50 /\
  keeps_promises Made.env 50 (fun pl q => In q (Made.promise pl)) (fun c => Made.steady c = true) /\
  reliable (fun c => Made.steady c = true) Made.cb /\ ~ well_formed Made.env 50.
Proof.
  split; [apply well_placed_intro; vm_compute; reflexivity|].
  split; [apply no_anonymous_intro; vm_compute; reflexivity|].
  split; [apply keeps_promises_intro; vm_compute; reflexivity|].
  split; [exact Made.reliable|]. apply ill_formed_intro. vm_compute. reflexivity.
Qed.
(** Entering S2 throws; the next events find its object nevertheless. *)
Example C50_run : match compile Made.env 50 with
  | Some m => match session Made.cb m 0 300 0 0 [pe 1; pe 4; pe 5; pe 2; pe 1] with
              | Done os _ => os = [OExn (XUser 8); OBool true; OBool false; OBool true; OBool true]
              | _ => False
              end
  | None => False
  end.
Proof. vm_compute. reflexivity. Qed.

(** Without the promises there is undefined behaviour: the machine of the test
    custom_targets.cpp with its events in another order. *)
Theorem C50_needed_refuted : exists env root, well_placed env root /\ no_anonymous_deferral env root /\
  (forall steady, reliable steady ex_cb) /\
  goes_wrong ex_cb env root [pe 2] UBNull /\ goes_wrong ex_cb env root [pe 3; pe 2] UBNull.
Proof.
  exists Custom.env, 50. split; [apply well_placed_intro; vm_compute; reflexivity|].
  split; [apply no_anonymous_intro; vm_compute; reflexivity|]. split; [exact ex_cb_reliable|].
  split; apply goes_wrong_intro; vm_compute; split; reflexivity.
Qed.
Print Assumptions C50_needed_refuted.
