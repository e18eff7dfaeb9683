(** C54: exactly which machines can run into undefined behaviour. *)

From Coq Require Import List Arith NArith Bool.
From Verif Require Import Types Static Dispatch Runtime Dsl Examples Spec DispatchFacts Semantics Reach
  Demo Safe SafeDemo Exact ExactIff ExactDemo.
Import ListNotations.

Theorem C54_exact : forall env root m, compile env root = Some m -> few_regions env root ->
  no_anonymous_deferral env root -> (exactly_safe env root <-> never_undefined env root m).
Proof. exact exact_iff. Qed.
Print Assumptions C54_exact.
(** The conditions are needed even without the one on anonymous rows. *)
Theorem C54_needed : forall env root m, compile env root = Some m -> few_regions env root ->
  never_undefined env root m -> exactly_safe env root.
Proof. exact exact_needed. Qed.
Print Assumptions C54_needed.
Theorem C54_check : forall env root m, compile env root = Some m -> few_regions env root ->
  (exact_check m = true <-> exactly_safe env root).
Proof. exact exact_check_decides. Qed.
Print Assumptions C54_check.
Theorem C54_weaker : forall env root m, compile env root = Some m -> well_formed env root -> exactly_safe env root.
Proof. exact well_formed_exact. Qed.
Print Assumptions C54_weaker.

Example C54_applies : exists m, compile Harmless.dead_end 50 = Some m /\ few_regions Harmless.dead_end 50 /\
  no_anonymous_deferral Harmless.dead_end 50 /\ never_undefined Harmless.dead_end 50 m.
Proof. apply harmless_intro. vm_compute. reflexivity. Qed.

(** Machines that cannot go wrong although they are not well formed. *)
Example C54_shadowed : exactly_safe Harmless.shadowed 50 /\ ~ well_formed Harmless.shadowed 50.
Proof. split; [apply exactly_intro|apply ill_formed_intro]; vm_compute; reflexivity. Qed.
Example C54_expects : exactly_safe Harmless.expects 50 /\ ~ well_formed Harmless.expects 50.
Proof. split; [apply exactly_intro|apply ill_formed_intro]; vm_compute; reflexivity. Qed.
Example C54_dead_end : exactly_safe Harmless.dead_end 50 /\ ~ well_formed Harmless.dead_end 50.
Proof. split; [apply exactly_intro|apply ill_formed_intro]; vm_compute; reflexivity. Qed.
(** Machines that can. *)
Example C54_wrong : ~ exactly_safe Wrong.null_guard 50 /\ ~ exactly_safe Wrong.null_action 50 /\
  ~ exactly_safe Wrong.null_reuse 50 /\ ~ exactly_safe Wrong.null_handler 50 /\
  ~ exactly_safe Wrong.source_outside 50 /\ ~ exactly_safe Wrong.target_outside 50 /\
  ~ exactly_safe Wrong.history_regions 50 /\ ~ exactly_safe MultiRegionSub.env 50 /\ ~ exactly_safe Custom.env 50.
Proof. repeat (split; [apply inexactly_intro; vm_compute; reflexivity|]). apply inexactly_intro. vm_compute. reflexivity. Qed.
(** No region is active any more, and the handler is called without an object. *)
Example C54_asleep : exactly_safe (Asleep.env true) 50 /\ ~ exactly_safe (Asleep.env false) 50 /\
  goes_wrong ex_cb (Asleep.env false) 50 [pe 1; pe 2] UBNull.
Proof.
  split; [apply exactly_intro; vm_compute; reflexivity|].
  split; [apply inexactly_intro; vm_compute; reflexivity|].
  apply goes_wrong_intro. vm_compute. split; reflexivity.
Qed.
