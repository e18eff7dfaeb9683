(** C76. Classes a program does not mention, and the order of the classes. *)

From Coq Require Import List Arith NArith Bool Lia Permutation.
From Verif Require Import Types Static Dispatch Runtime Dsl Examples Demo Context RenameDemo.
Import ListNotations.

Theorem C76_context : forall env env' root, same_text env env' root ->
  ((exists m, compile env root = Some m) <-> (exists m', compile env' root = Some m')) /\
  forall m m', compile env root = Some m -> compile env' root = Some m' ->
  forall V W (cb : cbfun V W) vnone fuel d w ks, session cb m' vnone fuel d w ks = session cb m vnone fuel d w ks.
Proof. exact @context_free. Qed.
Print Assumptions C76_context.

(** Another class is added, or left out, or written in another way. *)
Theorem C76_unmentioned : forall env1 env2 root c d,
  ~ mentioned (env1 ++ env2) root c -> same_text (env1 ++ env2) (env1 ++ (c, d) :: env2) root.
Proof. exact @unmentioned_text. Qed.
Print Assumptions C76_unmentioned.

(** The classes are written in another order. *)
Theorem C76_order : forall env env' root,
  NoDup (map fst env) -> Permutation env env' -> same_text env env' root.
Proof. exact @order_text. Qed.
Print Assumptions C76_order.

(** Class 60, a composite with a table of its own, is not mentioned: the machine of 50
    does not have its events. *)
Definition small : cenv := [ (50, tbl [ mkRow (SInitial WState 1) (EUser 1) NoGuard NoAction (SState 2) ]) ].
Definition other : cdef := tbl [ mkRow (SInitial WState 3) (EUser 2) NoGuard NoAction (SState 4) ].
Lemma small_mentions c : mentioned small 50 c -> In c [50; 1; 2].
Proof.
  intros H. induction H as [|p r c Hp IH Hr Hn]; [now left|]. destruct IH as [<-|[<-|[<-|[]]]]; [|destruct Hr|destruct Hr].
  destruct Hr as [<-|[]]. cbn in Hn. destruct Hn as [->| ->]; cbn; auto.
Qed.
Example C76_applies : ~ mentioned small 50 60 /\ same_text small ((60, other) :: small) 50 /\
  (exists m, compile small 50 = Some m) /\ compile ((60, other) :: small) 60 <> None.
Proof.
  assert (N : ~ mentioned small 50 60).
  { intros H. apply small_mentions in H. cbn in H. intuition discriminate. }
  split; [exact N|]. split; [exact (C76_unmentioned [] small 50 60 other N)|]. split; [|vm_compute; discriminate].
  eexists. vm_compute. reflexivity.
Qed.

(** A class that is mentioned counts: here class 2 gets an internal table. *)
Theorem C76_mentioned_refuted : exists env root c d ks o o',
  mentioned env root c /\ ~ In c (map fst env) /\
  last_out ex_cb env root ks = Some o /\ last_out ex_cb ((c, d) :: env) root ks = Some o' /\ o <> o'.
Proof.
  exists small, 50, 2, (mkCdef None (Some [mkIrow (EUser 1) NoGuard NoAction]) false false false None true).
  exists [KProcess (EUser 1) 5; KProcess (EUser 1) 5]. do 2 eexists.
  split; [eapply me_row; [constructor|left; reflexivity|right; reflexivity]|].
  split; [cbn; intuition discriminate|]. split; [vm_compute; reflexivity|]. split; [vm_compute; reflexivity|]. discriminate.
Qed.
Print Assumptions C76_mentioned_refuted.
