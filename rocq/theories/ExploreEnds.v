(** Machines whose exploration ends. *)

From Coq Require Import List Arith NArith Bool Lia.
From Verif Require Import Types Static Dispatch Runtime ListFacts IndexFacts Spec DispatchFacts FlattenFacts Semantics
  RefineFacts StaticFacts TermFacts Reach ReachFacts TableFacts ProcessFacts RegionFacts LoopFacts OutcomeFacts QueueFacts
  TermRank TermMeta Data DataUse Script Explore ExploreUse ExploreTotal.
Import ListNotations.

(** Without deferral the queue is empty. *)
Section Empty.
Context {V W : Type}.
Variable cb : cbfun V W.
Variables (env : cenv) (root : cls) (m : machine) (vnone : V).
Hypothesis Hm : compile env root = Some m.
Hypothesis Hfew : few_regions env root.
Hypothesis Hnone : forall e pl, ~ candidate env root e pl CDefer.

Lemma never_deferred ds e v s vds avds v' s' : ~ offer cb m ds vnone e v s vds avds OfDeferred v' s'.
Proof.
  intros O. apply offer_run in O. destruct O as (s2 & R & E & _).
  assert (X : exists r v s v' s', region_step cb m ds r e v s RDeferred v' s').
  { clear - R E. induction R as [ra va sa L|ra va sa vd vb sb L R St|ra va sa vd vb sb vds vc sc L R St H IH]; [discriminate| |].
    - cbn in E. rewrite orb_false_r in E. destruct vd; try discriminate. eauto 6.
    - cbn in E. destruct vd; cbn in E, St; try discriminate; auto. }
  destruct X as (r & va & sa & vb & sb & X). inversion X; subst.
  match goal with A : scan _ _ _ _ _ _ _ _ _ _ |- _ => apply scan_deferral in A; destruct A as (pre & d & rest & E1 & _) end.
  assert (Hin : In (d, CDefer) (bound m ds e pl)) by (rewrite E1; apply in_or_app; right; now left).
  apply in_bound in Hin as [_ Hin]. exact (Hnone e pl (proj2 (deferral_cands _ _ _ Hm e pl) Hin)).
Qed.
Lemma queue_empty ds d0 s : reachable cb m vnone ds d0 s -> rt_queue s = [].
Proof.
  intros H. destruct (queue_balance cb m vnone env root Hm Hfew ds d0 s H) as (_ & rs & ps & L).
  pose proof (queue_log_balance cb m vnone env root ds d0 s rs ps Hm Hfew L) as B.
  assert (E : ps = []).
  { clear B H. induction L as [|fuel ds d0 s k o s' rs ps rs' ps' L IH E U]; [reflexivity|]. rewrite IH. cbn [app].
    destruct U as [e v vds avds oe v1 s1 O _|e v vds avds v1 s1 e2 v2 q vds2 avds2 oe2 v3 s3 O1 Q O2|k Hk]; [destruct oe|destruct oe2|]; try reflexivity; exfalso; eapply never_deferred; eauto. }
  rewrite E in B. now apply app_eq_nil in B as [_ B].
Qed.
End Empty.

Lemma no_dep_calls (calls : list (call unit)) : (forall d, ~ In (KSetDep d) calls) -> existsb is_set_dep calls = false.
Proof.
  intros H. destruct (existsb is_set_dep calls) eqn:E; [|reflexivity]. exfalso. apply existsb_exists in E as (k & Hk & E). destruct k; try discriminate. exact (H _ Hk).
Qed.
Lemma explore_ends_iff env root m fuel d calls : compile env root = Some m -> (forall d', ~ In (KSetDep d') calls) ->
  ((exists depth rounds l, explore m fuel depth rounds d calls = Some l) <->
   exists bound, forall script ks, (forall k, In k ks -> In k calls) ->
     match session scripted m tt fuel d script ks with
     | Done _ s => length (rt_queue s) <= bound
     | Undef _ => True
     | _ => False
     end).
Proof. intros Hm Hs. destruct (compile_comp _ _ _ Hm) as (Hc & _). apply explore_ends; [now apply no_dep_calls|exact Hc]. Qed.
(** Machines with a rank of their anonymous rows and without deferral. *)
Lemma explore_always_ends env root m : compile env root = Some m -> few_regions env root -> forall rank, ranked env root rank ->
  (forall e pl, ~ candidate env root e pl CDefer) ->
  exists enough, forall fuel d calls, enough <= fuel -> (forall d', ~ In (KSetDep d') calls) ->
  exists depth rounds l, explore m fuel depth rounds d calls = Some l.
Proof.
  intros Hm Hf rank Hr Hn. destruct (rank_bounds_sessions env root m Hm Hf rank Hr) as (b & Hb). exists b. intros fuel d calls Hfu Hs.
  apply (explore_ends_iff env root m fuel d calls Hm Hs). exists 0. intros script ks Hks.
  destruct (session scripted m tt fuel d script ks) as [outs s|x s|u|] eqn:E; auto.
  - rewrite (queue_empty scripted env root m tt Hm Hf Hn _ d s (session_reachable _ _ _ _ _ _ _ _ _ E)). apply le_n.
  - now apply session_no_throw in E.
  - now apply Hb in E.
Qed.
