(** Every run described by Semantics.v is a run of the program: a derivation gives
    a budget within which the loops end. *)

From Coq Require Import List Arith NArith Bool Lia.
From Verif Require Import Types Static Dispatch Runtime ListFacts IndexFacts Spec DispatchFacts
  FlattenFacts Semantics RefineFacts StaticFacts TermFacts Reach ReachFacts TableFacts QueryFacts ProcessFacts
  LoopFacts CallFacts Safe SafeFacts SafeObjects StepFacts Journey TermRank.
Import ListNotations.

Section Complete.
Context {V W : Type}.
Variable cb : cbfun V W.
Variable m : machine.
Hypothesis Hc : comp m.
Hypothesis Hmax : max_initials m <= 255.
Variable vnone : V.
Variables (ds : list dep) (d0 : dep).
Notation st := (rt V W).

Lemma loop_finite v s vdss n s' : anonymous cb m ds v s vdss n s' -> rinvs m ds d0 s ->
  forall rfuel fuel, 255 < rfuel -> length vdss <= fuel -> anonymous_loop cb m rfuel fuel v s <> Timeout.
Proof.
  intros H. induction H as [v s vds v' s' P|v s vds n v' s' P|v s vds v' s' P Ef|v s vds v1 s1 rest n s' P Ef H IH];
    intros R rfuel fuel Hr Hf; cbn [length] in Hf; (destruct fuel as [|fuel]; [lia|]); cbn [anonymous_loop];
    change (current_regions m s) with (active m s); pose proof (active_le m Hmax s (ri_rinv _ _ _ _ R)) as HA;
    change (current_regions m s) with (active m s) in HA;
    pose proof (anonymous_pass_sound cb m Hc ds d0 rfuel (active m s) 0 true v s HA (ri_tinv _ _ _ _ R)) as Q;
    (apply bind_timeout; [apply anonymous_pass_timeout; lia|]); intros [o w1] t1 E; rewrite E in Q; cbn [fst snd];
    destruct o as [[|]|]; try discriminate; destruct Q as (vds' & Q & Eb);
    destruct (anon_pass_det _ _ _ _ _ _ _ _ _ _ _ P _ _ _ _ Q) as (E1 & E2 & E3 & E4); subst; try discriminate.
  - unfold pass_flag in Eb. cbn in Eb. rewrite Ef in Eb. discriminate.
  - apply IH; try lia. destruct R as [T R S]. split.
    + eapply frame_tinv; [eapply anon_pass_frame; eauto|exact T].
    + eapply anon_pass_rinv; eauto.
    + eapply anon_pass_settled; eauto.
Qed.

(** A number of steps that is enough for an offer. *)
Definition steps (avds : list (list rverdict)) : nat := 256 + length avds.

Lemma internal_finite e v s vds avds oe v' s' : offer cb m ds vnone e v s vds avds oe v' s' -> rinvs m ds d0 s ->
  forall fuel, steps avds <= fuel -> process_event_internal cb m vnone fuel e v s <> Timeout.
Proof.
  intros O R fuel Hf. unfold steps in Hf. unfold process_event_internal. change (current_regions m s) with (active m s).
  pose proof (active_le m Hmax s (ri_rinv _ _ _ _ R)) as HA. change (current_regions m s) with (active m s) in HA.
  pose proof (region_loop_sound cb m Hc ds d0 e fuel (active m s) 0 true true v s HA (ri_tinv _ _ _ _ R)) as P.
  apply bind_timeout; [apply region_loop_timeout; lia|]. intros [o v1] s1 E. rewrite E in P. cbn [fst snd].
  destruct o; try discriminate. apply bind_timeout; [|discriminate].
  unfold process_anonymous. destruct (has_anonymous m) eqn:EA; [|discriminate].
  destruct P as (vds1 & P & Ht & Er).
  assert (HS : rinvs m ds d0 s1).
  { destruct R as [T R S]. split.
    - eapply frame_tinv; [eapply regions_run_frame; eauto|exact T].
    - eapply regions_run_rinv; eauto.
    - eapply regions_run_settled; eauto. }
  unfold loop_result in Er. cbn [andb] in Er.
  destruct (existsb deferred vds1) eqn:Ed; [discriminate|].
  destruct (unhandled vds1) eqn:Eu; [discriminate|].
  destruct (existsb fired vds1) eqn:Ef; [|discriminate].
  pose proof (no_stop vds1 Ed Ht) as Es.
  inversion O; subst;
    match goal with Q : regions_run _ _ _ _ _ _ _ _ _ _ _ |- _ =>
      destruct (regions_run_det _ _ _ _ _ _ _ _ _ _ _ P _ _ _ Q) as (F1 & F2 & F3); subst end; try congruence.
  - exfalso. specialize (Ht vd). rewrite Ht in H0; [discriminate|]. apply in_or_app. cbn. auto.
  - rewrite EA in H2. eapply loop_finite; eauto; lia.
  - eapply loop_finite; eauto; lia.
Qed.

Lemma process_finite e v s vds rp s' : process cb m ds vnone d0 e v s vds rp s' -> rinvs m ds d0 s ->
  exists n, forall fuel, n <= fuel -> process_event cb m vnone fuel e v s <> Timeout.
Proof.
  intros P R.
  assert (O : exists avds oe v1 s1 k, offer cb m ds vnone e v s vds avds oe v1 s1 /\
    (oe = OfHandled -> forall q e2 v2, has_deferred m = true -> rt_queue s1 = (e2, v2) :: q ->
       exists vds2 avds2 oe2 v3 s3, offer cb m ds vnone e2 v2 (with_queue s1 q) vds2 avds2 oe2 v3 s3 /\ steps avds2 <= k)).
  { inversion P; subst.
    - do 4 eexists. exists 0. split; [eassumption|]. discriminate.
    - do 4 eexists. exists 0. split; [eassumption|]. intros ->. destruct H0; discriminate.
    - do 4 eexists. exists 0. split; [eassumption|]. discriminate.
    - destruct (has_deferred m) eqn:ED.
      + inversion H0; subst.
        * do 4 eexists. exists 0. split; [eassumption|]. intros _ q e2 v2 _ HQ. congruence.
        * do 4 eexists. exists (steps avds0). split; [eassumption|]. intros _ q2 e2 v2 _ HQ.
          rewrite HQ in H1. inversion H1; subst. do 5 eexists. split; [eassumption|lia].
      + do 4 eexists. exists 0. split; [eassumption|]. intros _ q e2 v2 HD. congruence. }
  destruct O as (avds & oe & v1 & s1 & k & O & HQ). exists (steps avds + k). intros fuel Hf.
  unfold process_event. destruct (in_dec ev_eq_dec e (events m)) as [He|]; [|discriminate].
  pose proof (process_event_internal_sound cb m Hc ds d0 vnone Hmax fuel e v s (ri_tinv _ _ _ _ R) (ri_rinv _ _ _ _ R)) as Q.
  apply bind_timeout; [eapply internal_finite; eauto; lia|]. intros [p w1] t1 E. rewrite E in Q. cbn [fst snd].
  destruct Q as (vds' & avds' & oe' & O' & Ep & _).
  destruct (offer_det _ _ _ _ _ _ _ _ _ _ _ _ O _ _ _ _ _ O') as (F1 & F2 & F3 & F4 & F5). subst.
  destruct oe; cbn [offer_pres]; try discriminate.
  - apply bind_timeout; [|discriminate]. unfold call_handler. destruct (cd_unexpected _); [|discriminate].
    apply bind_timeout; [apply at_cur_timeout|]. intros c s2 _.
    destruct (get_table (rt_htabs s2) e) as [l|]; [|discriminate].
    destruct (nth_at c l) as [[[o d]|]|]; try discriminate.
    destruct (alive s2 o); [|discriminate]. apply keep_timeout, invoke_timeout.
  - apply bind_timeout; [|discriminate]. unfold process_deferred. destruct (has_deferred m) eqn:ED; [|discriminate].
    destruct (rt_queue s1) as [|[e2 v2] q] eqn:Eq; [discriminate|].
    apply bind_timeout; [|discriminate].
    destruct (HQ eq_refl q e2 v2 eq_refl eq_refl) as (vds2 & avds2 & oe2 & v3 & s3 & O2 & Hk).
    eapply internal_finite; [exact O2| |lia].
    destruct R as [T R S]. split.
    + apply (frame_tinv m ds d0 s1); [split; reflexivity|]. eapply frame_tinv; [eapply offer_frame; eauto|exact T].
    + change (rinv m s1). eapply offer_rinv; eauto.
    + change (settled m s1). eapply offer_settled; eauto.
Qed.
End Complete.

Section Programs.
Context {V W : Type}.
Variable cb : cbfun V W.
Variables (env : cenv) (root : cls) (m : machine).
Variable vnone : V.
Variables (ds : list dep) (d0 : dep) (s : rt V W).
Hypothesis Hs : running cb env root m vnone ds d0 s.
Notation st := (rt V W).

Definition outcome (rp : reply (V:=V)) (s' : st) : res V W (bool * V) :=
  match rp with Returned b v' => Done (b, v') s' | Exception n => Threw (XUser n) s' end.

(** Without undefined behaviour the rules give exactly the results of the program. *)
Lemma complete e v vds rp s' : process cb m ds vnone d0 e v s vds rp s' ->
  (forall fuel u, process_event cb m vnone fuel e v s <> Undef u) ->
  exists n, forall fuel, n <= fuel -> process_event cb m vnone fuel e v s = outcome rp s'.
Proof.
  intros P NU. pose proof (running_rinvs _ _ _ _ _ _ _ _ Hs) as R.
  assert (A := fun fuel => process_agrees cb env root m vnone ds d0 s fuel e v Hs).
  destruct Hs as (Hm & Hfew & _).
  pose proof (few_max_compiled _ _ _ Hm Hfew) as Hmax.
  destruct (compile_comp _ _ _ Hm) as (Hc & _).
  destruct (process_finite cb m Hc Hmax vnone ds d0 e v s vds rp s' P R) as (n & F).
  exists n. intros fuel Hf. specialize (F fuel Hf). specialize (A fuel). specialize (NU fuel).
  destruct (process_event cb m vnone fuel e v s) as [[b v'] s1|ex s1|u|].
  - destruct A as (_ & A). destruct (A _ _ _ P) as (-> & ->). reflexivity.
  - destruct A as (k & -> & _ & A). destruct (A _ _ _ P) as (-> & ->). reflexivity.
  - exfalso. eapply NU. reflexivity.
  - congruence.
Qed.

Lemma well_formed_no_ub fuel e v u : well_formed env root -> event_of env root e ->
  process_event cb m vnone fuel e v s <> Undef u.
Proof.
  intros Hw He E. destruct Hs as (Hm & _ & R).
  destruct (call_well_formed cb env root m Hm vnone fuel ds d0 s (KProcess e v) Hw R He) as (H & _).
  apply (H u). unfold do_call_catch, do_call. rewrite E. reflexivity.
Qed.

Lemma rules_iff e v rp s' : well_formed env root -> event_of env root e ->
  (exists vds, process cb m ds vnone d0 e v s vds rp s') <->
  (exists fuel, process_event cb m vnone fuel e v s = outcome rp s').
Proof.
  intros Hw He. split.
  - intros (vds & P). destruct (complete e v vds rp s' P) as (n & H).
    + intros fuel u. now apply well_formed_no_ub.
    + exists n. now apply H.
  - intros (fuel & E). pose proof (process_agrees cb env root m vnone ds d0 s fuel e v Hs) as A.
    rewrite E in A. destruct rp as [b v'|n]; cbn [outcome] in A.
    + destruct A as (A & _). exact A.
    + destruct A as (k & Ek & A & _). injection Ek as <-. exact A.
Qed.

Lemma rules_diverge e v : well_formed env root -> event_of env root e ->
  (forall vds rp s', ~ process cb m ds vnone d0 e v s vds rp s') <->
  (forall fuel, process_event cb m vnone fuel e v s = Timeout).
Proof.
  intros Hw He. split.
  - intros N fuel. pose proof (process_agrees cb env root m vnone ds d0 s fuel e v Hs) as A.
    destruct (process_event cb m vnone fuel e v s) as [[b v'] s1|ex s1|u|] eqn:E.
    + destruct A as ((vds & A) & _). exfalso. eapply N; eauto.
    + destruct A as (k & _ & (vds & A) & _). exfalso. eapply N; eauto.
    + exfalso. eapply well_formed_no_ub; eauto.
    + reflexivity.
  - intros T vds rp s' P. assert (Ex : exists vds, process cb m ds vnone d0 e v s vds rp s') by eauto.
    destruct (proj1 (rules_iff e v rp s' Hw He) Ex) as (fuel & E).
    rewrite T in E. destruct rp; discriminate.
Qed.
End Programs.
