(** What every region's turn preserves, every call preserves. *)

From Coq Require Import List Arith NArith Bool Lia.
From Verif Require Import Types Static Dispatch Runtime ListFacts IndexFacts Spec
  DispatchFacts FlattenFacts Semantics RefineFacts StaticFacts TermFacts Reach ReachFacts.
Import ListNotations.

Section Steps.
Context {V W : Type}.
Variable cb : cbfun V W.
Variable m : machine.
Hypothesis Hc : comp m.
Variable vnone : V.
Notation st := (rt V W).

Lemma at_place_lt (s : st) r pl : at_place m s r = Some pl -> r < length (rt_cur s).
Proof. unfold at_place. intros H. apply nth_error_Some. destruct (nth_error (rt_cur s) r); discriminate. Qed.
Lemma region_step_place ds r e v s vd v' s' : region_step cb m ds r e v s vd v' s' -> r < length (rt_cur s).
Proof. intros H. destruct H; eauto using at_place_lt. Qed.

Section Calls.
Variables (ds : list dep) (d0 : dep).
Variable I : st -> Prop.
Hypothesis I_step : forall r e v s vd v' s', r < max_initials m -> tinv m ds d0 s -> rinv m s -> I s ->
  region_step cb m ds r e v s vd v' s' -> I s'.
Hypothesis I_queue : forall s q, I s -> I (with_queue s q).
Hypothesis I_after : forall s w ks, I s -> I (after s w ks).

Let J (s : st) : Prop := tinv m ds d0 s /\ rinv m s /\ I s.

Lemma step_J r e v s vd v' s' : r < max_initials m -> J s -> region_step cb m ds r e v s vd v' s' -> J s'.
Proof.
  intros Hr (T & R & H) St. split; [|split].
  - eapply frame_tinv; [eapply region_step_frame; eauto|exact T].
  - eapply region_step_rinv; eauto.
  - eapply I_step; eauto.
Qed.
Lemma active_le_max (s : st) : rinv m s -> active m s <= max_initials m.
Proof. unfold rinv, active. pose proof (cp_max m Hc). destruct (parallel m); lia. Qed.
Lemma regions_run_J e limit r v s vds v' s' : regions_run cb m ds e limit r v s vds v' s' ->
  limit <= max_initials m -> J s -> J s'.
Proof. intros H. induction H; intros L HJ; auto; try (eapply step_J; eauto; lia). apply IHregions_run; [exact L|]. eapply step_J; eauto; lia. Qed.
Lemma anon_pass_J limit r v s vds pe v' s' : anon_pass cb m ds limit r v s vds pe v' s' ->
  limit <= max_initials m -> J s -> J s'.
Proof. intros H. induction H; intros L HJ; auto; try (eapply step_J; eauto; lia). apply IHanon_pass; [exact L|]. eapply step_J; eauto; lia. Qed.
Lemma J_active s : J s -> active m s <= max_initials m.
Proof. intros (_ & R & _). now apply active_le_max. Qed.
Lemma anonymous_J v s vdss n s' : anonymous cb m ds v s vdss n s' -> J s -> J s'.
Proof.
  intros H. induction H; intros HJ; try (eapply anon_pass_J; eauto using J_active; fail).
  apply IHanonymous. eapply anon_pass_J; eauto using J_active.
Qed.
Lemma offer_J e v s vds avds oe v' s' : offer cb m ds vnone e v s vds avds oe v' s' -> J s -> J s'.
Proof.
  intros H HJ. destruct H; try (eapply regions_run_J; eauto using J_active; fail).
  - assert (J s1) by (eapply regions_run_J; eauto using J_active).
    destruct (has_anonymous m); [eapply anonymous_J; eauto|]. destruct H2 as [_ ->]. assumption.
  - assert (J s1) by (eapply regions_run_J; eauto using J_active). eapply anonymous_J; eauto.
Qed.
Lemma J_queue s q : J s -> J (with_queue s q).
Proof.
  intros (T & R & H). split; [|split; [exact R|now apply I_queue]].
  apply (tinv_frame m ds d0 s); auto.
Qed.
Lemma J_after s w ks : J s -> J (after s w ks).
Proof.
  intros (T & R & H). split; [|split; [exact R|now apply I_after]].
  apply (tinv_frame m ds d0 s); auto.
Qed.
Lemma recall_J s n s' : recall cb m ds vnone s n s' -> J s -> J s'.
Proof. intros H HJ. destruct H; auto. eapply offer_J; eauto using J_queue. Qed.
Lemma process_J e v s vds rp s' : process cb m ds vnone d0 e v s vds rp s' -> J s -> J s'.
Proof.
  intros H HJ. destruct H; try (eapply offer_J; eauto; fail).
  - assert (J s1) by (eapply offer_J; eauto). destruct H0; auto using J_after.
  - assert (J s1) by (eapply offer_J; eauto).
    destruct (has_deferred m); [eapply recall_J; eauto|]. destruct H0 as [_ ->]. assumption.
Qed.
Lemma process_keeps e v s vds rp s' : process cb m ds vnone d0 e v s vds rp s' ->
  tinv m ds d0 s -> rinv m s -> I s -> I s'.
Proof. intros H T R Hi. apply (process_J _ _ _ _ _ _ H). exact (conj T (conj R Hi)). Qed.
Lemma anon_pass_keeps limit r v s vds pe v' s' : anon_pass cb m ds limit r v s vds pe v' s' ->
  limit <= max_initials m -> tinv m ds d0 s -> rinv m s -> I s -> tinv m ds d0 s' /\ rinv m s' /\ I s'.
Proof. intros H L T R Hi. apply (anon_pass_J _ _ _ _ _ _ _ _ H L). exact (conj T (conj R Hi)). Qed.
Lemma regions_run_keeps e limit r v s vds v' s' : regions_run cb m ds e limit r v s vds v' s' ->
  limit <= max_initials m -> tinv m ds d0 s -> rinv m s -> I s -> tinv m ds d0 s' /\ rinv m s' /\ I s'.
Proof. intros H L T R Hi. apply (regions_run_J _ _ _ _ _ _ _ _ H L). exact (conj T (conj R Hi)). Qed.
Lemma offer_keeps e v s vds avds oe v' s' : offer cb m ds vnone e v s vds avds oe v' s' ->
  tinv m ds d0 s -> rinv m s -> I s -> tinv m ds d0 s' /\ rinv m s' /\ I s'.
Proof. intros H T R Hi. apply (offer_J _ _ _ _ _ _ _ _ H). exact (conj T (conj R Hi)). Qed.
End Calls.

(** * Reachable states *)
Hypothesis Hmax : max_initials m <= 255.
Variable I : list dep -> dep -> st -> Prop.
Hypothesis I_step : forall ds d0 r e v s vd v' s', r < max_initials m -> tinv m ds d0 s -> rinv m s -> I ds d0 s ->
  region_step cb m ds r e v s vd v' s' -> I ds d0 s'.
Hypothesis I_queue : forall ds d0 s q, I ds d0 s -> I ds d0 (with_queue s q).
Hypothesis I_after : forall ds d0 s w ks, I ds d0 s -> I ds d0 (after s w ks).
Hypothesis I_new : forall fuel d w s, construct m fuel d w = Done tt s -> fresh m d w s -> I [d] d s.
Hypothesis I_set : forall ds d0 s r p q, I ds d0 s -> tinv m ds d0 s -> In p (parents m) -> In q (states m) ->
  r < length (rt_cur s) -> I ds d0 (with_cur s (set_nth r (Some (code m (p, q))) (rt_cur s))).
Hypothesis I_dep : forall ds d0 s d t, I ds d0 s -> fill_dispatch m d (rt_tabs s) = Some t -> I (d :: ds) d0 (with_tabs s t).

Lemma call_keeps ds d0 k o s s' : rinvs m ds d0 s -> I ds d0 s -> call_effect cb m vnone d0 ds k o s s' ->
  I (deps_after k ds) d0 s'.
Proof.
  intros R Hi. destruct k as [e v|r p q|p|r p q|d|]; cbn [call_effect deps_after]; try (intros ->; exact Hi).
  - intros (vds & rp & P & _). destruct R as [T R _].
    eapply (process_keeps ds d0 (I ds d0)); eauto.
  - intros [(_ & Hq & Hp & Hr & ->)|(_ & ->)]; [|exact Hi]. apply I_set; auto. apply R.
  - intros (_ & t & Ht & ->). now apply I_dep.
Qed.

Lemma reachable_keeps ds d0 s : reachable cb m vnone ds d0 s -> I ds d0 s.
Proof.
  intros H. induction H as [fuel d w s H|fuel ds d0 s k o s' H IH H1].
  - destruct (construct_sound m Hc _ _ _ _ (root_initials_le m Hc Hmax) H) as [F _]. eapply I_new; eauto.
  - pose proof (reachable_rinvs cb m Hc vnone Hmax ds d0 s H) as R.
    eapply call_keeps; eauto. eapply call_sound; eauto.
Qed.

Lemma during_keeps ds d0 s : during cb m vnone ds d0 s -> tinv m ds d0 s /\ rinv m s /\ I ds d0 s.
Proof.
  intros H. induction H as [ds d0 s R|ds d0 s r e v tv s' H IH E|ds d0 s r v bv s' H IH E|ds d0 s e v q H IH E].
  - pose proof (reachable_rinvs cb m Hc vnone Hmax ds d0 s R) as [T R' _]. split; [exact T|]. split; [exact R'|].
    now apply reachable_keeps.
  - destruct IH as (T & R & Hi).
    assert (P : exists vd v', region_step cb m ds r e v s vd v' s').
    { pose proof (try_region_sound cb m Hc ds d0 r e v s T) as P. rewrite E in P.
      destruct tv as [[[| |]|] v']; try (destruct P as [x P]); eauto. }
    destruct P as (vd & v' & P). pose proof (region_step_place ds r e v s vd v' s' P) as Hr.
    rewrite (ti_cur _ _ _ _ T) in Hr. eapply (step_J ds d0 (I ds d0)); eauto.
  - destruct IH as (T & R & Hi).
    assert (P : exists vd v', region_step cb m ds r ENone v s vd v' s').
    { pose proof (anonymous_region_sound cb m Hc ds d0 r v s T) as P. rewrite E in P.
      destruct bv as [[[|]|] v']; try (destruct P as [x P]); eauto. }
    destruct P as (vd & v' & P). pose proof (region_step_place ds r ENone v s vd v' s' P) as Hr.
    rewrite (ti_cur _ _ _ _ T) in Hr. eapply (step_J ds d0 (I ds d0)); eauto.
  - destruct IH as (T & R & Hi). split; [apply (tinv_frame m ds d0 s); auto|]. split; [exact R|now apply I_queue].
Qed.
End Steps.
