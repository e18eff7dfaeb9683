(** C81. When exploration ends. *)

From Coq Require Import List Arith NArith Bool Lia.
From Verif Require Import Types Static Dispatch Runtime Dsl Examples Demo SafeDemo Spec Semantics TermRank TermMeta PropsTerm Data DataUse Script Explore ExploreUse
  ExploreTotal ExploreEnds.
Import ListNotations.

(** C81. There is a finite list of configurations, and exploration finds it, exactly if
    every session ends within the fuel and the queue of deferred events is bounded. *)
Theorem C81_ends : forall env root m fuel d calls, compile env root = Some m -> (forall d', ~ In (KSetDep d') calls) ->
  ((exists depth rounds l, explore m fuel depth rounds d calls = Some l) <->
   exists bound, forall script ks, (forall k, In k ks -> In k calls) ->
     match session scripted m tt fuel d script ks with
     | Done _ s => length (rt_queue s) <= bound
     | Undef _ => True
     | _ => False
     end).
Proof. exact explore_ends_iff. Qed.
Print Assumptions C81_ends.

(** So it ends for all machines that defer nothing and whose anonymous rows go down in
    rank: what such a machine can do is computable, for all user code at once (C80). *)
Theorem C81_always_ends : forall env root m, compile env root = Some m -> few_regions env root -> forall rank, ranked env root rank ->
  (forall e pl, ~ candidate env root e pl CDefer) ->
  exists enough, forall fuel d calls, enough <= fuel -> (forall d', ~ In (KSetDep d') calls) ->
  exists depth rounds l, explore m fuel depth rounds d calls = Some l.
Proof. exact explore_always_ends. Qed.
Print Assumptions C81_always_ends.

(** The chain of anonymous rows of C18. *)
Example C81_applies : exists m, compile chain 50 = Some m /\ few_regions chain 50 /\ ranked chain 50 chain_rank /\
  (forall e pl, ~ candidate chain 50 e pl CDefer) /\ found chain 50 50 10 100 all_events = Some (4, false).
Proof.
  destruct C18_applies_rank as (m & Hm & Hr & Hw). exists m. split; [exact Hm|]. split; [|split; [exact Hr|split]].
  - apply Hw.
  - intros e pl H. inversion H as [| | |x c Hd Hu Hi]; subst. unfold defers, lookup in Hi. cbn in Hi.
    destruct (Nat.eq_dec c 50); cbn in Hi; destruct Hi.
  - vm_compute. reflexivity.
Qed.
(** A deferring machine: with the event that is deferred there is no bound, without it
    exploration ends. *)
Example C81_unbounded : exists m, compile Defer.env 50 = Some m /\
  ~ exists depth rounds l, explore m 50 depth rounds 0 [KProcess (EUser 2) tt] = Some l.
Proof.
  assert (G : match compile Defer.env 50 with
    | Some m => match construct (V:=unit) m 50 0 (@nil reply) with
      | Done _ s => forall q, do_call_catch scripted m tt 50 (KProcess (EUser 2) tt) (with_queue s q) = Done (OBool false) (with_queue s (q ++ [(EUser 2, tt)]))
      | _ => False end
    | None => False end) by (vm_compute; reflexivity).
  destruct (compile Defer.env 50) as [m|] eqn:Hm; [|destruct G]. exists m. split; [reflexivity|].
  intros H. apply (C81_ends _ _ _ _ _ _ Hm) in H; [|intros d' [E|[]]; discriminate]. destruct H as (b & H).
  specialize (H [] (repeat (KProcess (EUser 2) tt) (S b))). destruct (construct m 50 0 []) as [[] s| | |] eqn:E; try contradiction.
  assert (R : forall n q, exists outs, run scripted m tt 50 (repeat (KProcess (EUser 2) tt) n) (with_queue s q) = Done outs (with_queue s (q ++ repeat (EUser 2, tt) n))).
  { induction n as [|n IH]; intros q; cbn [repeat run]; [exists []; now rewrite app_nil_r|]. rewrite G. cbn [bind].
    destruct (IH (q ++ [(EUser 2, tt)])) as [outs ->]. exists (OBool false :: outs). cbn [bind]. now rewrite <- app_assoc. }
  destruct (R (S b) (rt_queue s)) as [outs Ho]. assert (Es : with_queue s (rt_queue s) = s) by now destruct s. rewrite Es in Ho.
  unfold session in H. rewrite E in H. cbn [bind] in H. rewrite Ho in H. cbn [rt_queue with_queue] in H. rewrite app_length, repeat_length in H.
  assert (X : length (rt_queue s) + S b <= b) by (apply H; intros k Hk; apply repeat_spec in Hk; now left). lia.
Qed.
Example C81_bounded : found Defer.env 50 50 10 100 (fun _ => [KProcess (EUser 1) tt; KProcess (EUser 4) tt]) = Some (4, false).
Proof. vm_compute. reflexivity. Qed.
