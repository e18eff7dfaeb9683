(** The deferred queue and the record of calls along a run. *)

From Coq Require Import List Arith NArith Bool Lia.
From Verif Require Import Types Static Dispatch Runtime ListFacts IndexFacts Spec
  DispatchFacts FlattenFacts Semantics RefineFacts StaticFacts TermFacts Reach ReachFacts TableFacts
  QueryFacts ProcessFacts RegionFacts LoopFacts OutcomeFacts.
Import ListNotations.

Section Queue.
Context {V W : Type}.
Variable cb : cbfun V W.
Variables (m : machine) (vnone : V).
Notation st := (rt V W).

Lemma executes_queue r e d x o v s n v' s' : executes cb m r e d x o v s n v' s' -> rt_queue s' = rt_queue s.
Proof.
  intros H. apply executes_moves in H. destruct H as (s2 & ks & l & w & Hmv & ->).
  destruct (moves_frame2 _ _ _ _ _ Hmv) as (E & _). exact E.
Qed.

Lemma region_step_queue ds r e v s vd v' s' : region_step cb m ds r e v s vd v' s' ->
  rt_queue s' = rt_queue s ++ (if deferred vd then [(e, v')] else []).
Proof.
  intros H. destruct H; cbn; rewrite ?app_nil_r; auto;
  match goal with A : executes _ _ _ _ _ _ _ _ _ _ _ _ |- _ => apply executes_queue in A; exact A end.
Qed.

Lemma regions_run_queue ds e limit r v s vds v' s' : regions_run cb m ds e limit r v s vds v' s' ->
  rt_queue s' = rt_queue s ++ (if existsb deferred vds then [(e, v')] else []).
Proof.
  intros H. induction H as [r v s L|r v s vd v' s' L R St|r v s vd v1 s1 vds v' s' L R St H IH].
  - cbn. now rewrite app_nil_r.
  - cbn. rewrite orb_false_r. eapply region_step_queue; eauto.
  - rewrite IH. apply region_step_queue in R. rewrite R. cbn.
    assert (E : deferred vd = false) by (destruct vd; cbn in *; congruence). rewrite E. cbn. now rewrite app_nil_r.
Qed.

Lemma anon_pass_queue ds limit r v s vds pe v' s' : anon_pass cb m ds limit r v s vds pe v' s' -> rt_queue s' = rt_queue s.
Proof.
  intros H. induction H as [r v s L|r v s L R|r v s vd n v' s' L R St|r v s vd v1 s1 vds pe v' s' L R St Hn H IH]; auto.
  - apply region_step_queue in R. rewrite R. destruct vd; cbn in *; try discriminate; now rewrite app_nil_r.
  - rewrite IH. apply region_step_queue in R. rewrite R. destruct vd; cbn in *; try discriminate; now rewrite app_nil_r.
Qed.
Lemma anonymous_queue ds v s vdss n s' : anonymous cb m ds v s vdss n s' -> rt_queue s' = rt_queue s.
Proof.
  intros H. induction H; try (eapply anon_pass_queue; eassumption).
  rewrite IHanonymous. eapply anon_pass_queue; eauto.
Qed.

Lemma offer_queue ds e v s vds avds oe v' s' : offer cb m ds vnone e v s vds avds oe v' s' ->
  rt_queue s' = rt_queue s ++ put_back oe e v'.
Proof.
  intros O. apply offer_run in O. destruct O as (s1 & R & O). pose proof (regions_run_queue _ _ _ _ _ _ _ _ _ R) as Q.
  assert (D : existsb stops vds = false -> existsb deferred vds = false).
  { intros H. destruct (existsb deferred vds) eqn:E; [apply deferred_stops in E; congruence|reflexivity]. }
  destruct oe as [| | | |n]; cbn [put_back].
  - destruct O as (Hu & _ & ->). destruct (unhandled_nothing _ Hu) as (_ & _ & E). now rewrite E in Q.
  - destruct O as (E & _ & _ & _ & ->). now rewrite (D E) in Q.
  - destruct O as (E & _ & O). rewrite (D E) in Q. destruct (has_anonymous m).
    + apply anonymous_queue in O. congruence.
    + destruct O as [_ ->]. exact Q.
  - destruct O as (E & _ & ->). now rewrite E in Q.
  - destruct O as [(pre & vd & -> & Ht & _ & ->)|(E & _ & _ & O)].
    + destruct (run_stop_last _ _ _ _ _ _ _ _ _ _ _ R (stops_app _ _ _ Ht)) as (pre' & vd' & E & Hst & Hpre).
      apply app_inj_tail in E. destruct E as [-> ->].
      assert (E : existsb deferred (pre' ++ [vd']) = false).
      { rewrite existsb_app. destruct (existsb deferred pre') eqn:Ed; [apply deferred_stops in Ed; congruence|].
        cbn. destruct vd'; cbn in *; congruence. }
      now rewrite E in Q.
    + rewrite (D E) in Q. apply anonymous_queue in O. congruence.
Qed.


Lemma unexpected_queue d0 e v s n v' s' : unexpected cb m d0 e v s n v' s' -> rt_queue s' = rt_queue s.
Proof. intros H; destruct H; reflexivity. Qed.

(** The queue after a call, in terms of what was offered. *)
Lemma process_queue ds d0 s e v vds rp s' : process cb m ds vnone d0 e v s vds rp s' ->
  (has_deferred m = false -> rt_queue s = []) ->
  exists rs ps, queue_use cb m vnone ds s (KProcess e v) rs ps /\ rs ++ rt_queue s' = rt_queue s ++ ps.
Proof.
  intros P H0. apply process_parts in P. destruct P as (avds & oe & v1 & s1 & O & P).
  pose proof (offer_queue _ _ _ _ _ _ _ _ _ O) as Q.
  assert (D : oe = OfHandled \/ oe <> OfHandled) by (destruct oe; auto; right; discriminate).
  destruct D as [->|Hn].
  - destruct P as (n & P & _). cbn [put_back] in Q. rewrite app_nil_r in Q.
    destruct (rt_queue s1) as [|[e2 v2] q] eqn:Eq1.
    + exists [], []. split; [eapply (qu_offered _ _ _ _ _ _ _ _ _ OfHandled); eauto|].
      rewrite app_nil_r, <- Q. destruct (has_deferred m); [|destruct P as (_ & ->); exact Eq1].
      inversion P; subst; [exact Eq1|congruence].
    + destruct (has_deferred m) eqn:Ed; [|rewrite H0 in Q by reflexivity; congruence].
      inversion P; subst; [congruence|].
      match goal with A : rt_queue s1 = _ :: _ |- _ => rewrite Eq1 in A; inversion A; subst end.
      eexists [_], _. split; [eapply qu_recalled; eauto|].
      match goal with A : offer _ _ _ _ _ _ _ _ _ _ _ s' |- _ => apply offer_queue in A; cbn in A; rewrite A end.
      cbn. now rewrite <- Q.
  - exists [], (put_back oe e v1). split; [eapply qu_offered; eauto|]. cbn [app].
    destruct oe; try congruence; cbn [put_back] in *;
      [destruct P as (n & v2 & U & _); rewrite (unexpected_queue _ _ _ _ _ _ _ U); exact Q|..];
      destruct P as (_ & ->); exact Q.
Qed.

Lemma offer_deferral env root ds e v s vds avds v' s' : compile env root = Some m ->
  offer cb m ds vnone e v s vds avds OfDeferred v' s' -> has_deferred m = true.
Proof.
  intros Hm O. destruct (has_deferred m) eqn:Hd; [reflexivity|exfalso].
  apply offer_run in O. destruct O as (s2 & R & E & _).
  assert (X : exists r v s v' s', region_step cb m ds r e v s RDeferred v' s').
  { clear - R E. induction R as [ra va sa L|ra va sa vd vb sb L R St|ra va sa vd vb sb vds vc sc L R St H IH]; [discriminate| |].
    - cbn in E. rewrite orb_false_r in E. destruct vd; try discriminate. eauto 6.
    - cbn in E. destruct vd; cbn in E, St; try discriminate; auto. }
  destruct X as (r & va & sa & vb & sb & X). inversion X; subst.
  match goal with A : scan _ _ _ _ _ _ _ _ _ _ |- _ => apply scan_deferral in A; destruct A as (pre & d & rest & E1 & _) end.
  assert (Hin : In (d, CDefer) (bound m ds e pl)) by (rewrite E1; apply in_or_app; right; now left).
  unfold bound in Hin. apply in_flat_map in Hin. destruct Hin as (d' & _ & Hin).
  apply in_map_iff in Hin. destruct Hin as (c & E2 & Hin). inversion E2; subst.
  exact (no_deferral _ _ _ Hm e pl Hd Hin).
Qed.

Lemma use_deferral env root ds s k rs ps : compile env root = Some m ->
  queue_use cb m vnone ds s k rs ps -> has_deferred m = false -> ps = [].
Proof.
  intros Hm U Hd. destruct U as [e v vds avds oe v1 s1 O _|e v vds avds v1 s1 e2 v2 q vds2 avds2 oe2 v3 s3 O1 Q O2|k Hk];
    [destruct oe| destruct oe2|]; try reflexivity; exfalso; eapply offer_deferral in Hm; eauto; congruence.
Qed.

Lemma queue_log_reachable ds d0 s rs ps : queue_log cb m vnone ds d0 s rs ps -> reachable cb m vnone ds d0 s.
Proof. intros H. induction H; [eapply reach_new|eapply reach_call]; eauto. Qed.

(** Any decomposition of a call's effect on the queue balances. *)
Lemma use_balance ds d0 s e v vds rp s' rs ps : process cb m ds vnone d0 e v s vds rp s' ->
  (has_deferred m = false -> rt_queue s = []) ->
  queue_use cb m vnone ds s (KProcess e v) rs ps -> rs ++ rt_queue s' = rt_queue s ++ ps.
Proof.
  intros P H0 U. destruct (process_queue _ _ _ _ _ _ _ _ P H0) as (rs2 & ps2 & U2 & E).
  assert (X : rs2 = rs /\ ps2 = ps); [|destruct X; subst; exact E].
  inversion U; subst; inversion U2; subst;
    try match goal with A : forall e v, KProcess _ _ <> KProcess e v |- _ => exfalso; now eapply A end;
    repeat match goal with
    | A : offer _ _ _ _ ?e ?v ?s _ _ _ _ _, B : offer _ _ _ _ ?e ?v ?s _ _ _ _ _ |- _ =>
        destruct (offer_det _ _ _ _ _ _ _ _ _ _ _ _ A _ _ _ _ _ B) as (? & ? & ? & ? & ?); subst; clear B
    | A : rt_queue ?s = _ :: _, B : rt_queue ?s = _ :: _ |- _ => rewrite A in B; inversion B; subst; clear B
    | A : _ <> _ \/ _ |- _ => destruct A
    end; auto; congruence.
Qed.

Lemma queue_balance env root : compile env root = Some m -> few_regions env root ->
  forall ds d0 s, reachable cb m vnone ds d0 s ->
  (has_deferred m = false -> rt_queue s = []) /\ exists rs ps, queue_log cb m vnone ds d0 s rs ps.
Proof.
  intros Hm Hfew ds d0 s H. pose proof (few_max_compiled _ _ _ Hm Hfew) as Hmax.
  pose proof Hm as Hm2. compiled Hm.
  induction H as [fuel d w s H|fuel ds d0 s k o s' H IH E].
  - split; [|exists [], []; econstructor; eauto].
    apply (construct_sound m Hc) in H; [|apply (root_initials_le m Hc Hmax)]. now destruct H as ((_ & _ & _ & Q & _) & _).
  - destruct IH as (I0 & rs & ps & IH).
    pose proof (reachable_rinvs cb m Hc vnone Hmax _ _ _ H) as R.
    pose proof (reachable_call cb m Hc vnone Hmax ds d0 s fuel k o s' ltac:(first [exact H|exact Hr]) E) as P.
    assert (X : exists rs' ps', queue_use cb m vnone ds s k rs' ps' /\ rs' ++ rt_queue s' = rt_queue s ++ ps').
    { destruct k as [e v| | | | |]; cbn in P.
      - destruct P as (vds & rp & P & _). eapply process_queue; eauto.
      - subst s'. exists [], []. split; [constructor; discriminate|now rewrite app_nil_r].
      - subst s'. exists [], []. split; [constructor; discriminate|now rewrite app_nil_r].
      - exists [], []. split; [constructor; discriminate|].
        destruct P as [(_ & _ & _ & _ & ->)|(_ & ->)]; now rewrite app_nil_r.
      - destruct P as (_ & t & _ & ->). exists [], []. split; [constructor; discriminate|now rewrite app_nil_r].
      - subst s'. exists [], []. split; [constructor; discriminate|now rewrite app_nil_r]. }
    destruct X as (rs' & ps' & U & B). split.
    + intros Hd. rewrite (I0 Hd), (use_deferral _ _ _ _ _ _ _ Hm2 U Hd) in B. apply app_eq_nil in B. apply B.
    + exists (rs ++ rs'), (ps ++ ps'). eapply ql_call; eauto.
Qed.

Lemma queue_log_balance env root ds d0 s rs ps : compile env root = Some m -> few_regions env root ->
  queue_log cb m vnone ds d0 s rs ps -> rs ++ rt_queue s = ps.
Proof.
  intros Hm Hfew H. pose proof (few_max_compiled _ _ _ Hm Hfew) as Hmax. pose proof Hm as Hm2. compiled Hm.
  induction H as [fuel d w s H|fuel ds d0 s k o s' rs ps rs' ps' H IH E U].
  - apply (construct_sound m Hc) in H; [|apply (root_initials_le m Hc Hmax)]. destruct H as ((_ & _ & _ & Q & _) & _).
    now rewrite Q.
  - pose proof (queue_log_reachable _ _ _ _ _ H) as Hr.
    destruct (queue_balance _ _ Hm2 Hfew _ _ _ Hr) as (I0 & _).
    pose proof (reachable_rinvs cb m Hc vnone Hmax _ _ _ Hr) as R.
    pose proof (reachable_call cb m Hc vnone Hmax ds d0 s fuel k o s' ltac:(first [exact H|exact Hr]) E) as P.
    assert (B : rs' ++ rt_queue s' = rt_queue s ++ ps').
    { destruct k as [e v| | | | |]; cbn in P;
        [destruct P as (vds & rp & P & _); eapply use_balance; eauto|..]; inversion U; subst; cbn; rewrite ?app_nil_r; auto.
      - destruct P as [(_ & _ & _ & _ & ->)|(_ & ->)]; reflexivity.
      - destruct P as (_ & t & _ & ->). reflexivity. }
    rewrite <- app_assoc, B, app_assoc. now rewrite IH.
Qed.
End Queue.

(** The queue never holds more, and loses nothing: what was deferred is what was
    recalled so far, in the same order, followed by what is still queued. *)
Lemma queue_fifo {V W} (cb : cbfun V W) env root m vnone ds d0 s :
  running cb env root m vnone ds d0 s ->
  (exists recalled deferred, queue_log cb m vnone ds d0 s recalled deferred) /\
  (forall recalled deferred, queue_log cb m vnone ds d0 s recalled deferred -> recalled ++ rt_queue s = deferred).
Proof.
  intros (Hm & Hfew & H). split; [apply (queue_balance cb m vnone env root Hm Hfew _ _ _ H)|].
  intros rs ps L. eapply queue_log_balance; eauto.
Qed.

Lemma queue_calls {V W} (cb : cbfun V W) env root m vnone ds d0 s fuel k o s' :
  running cb env root m vnone ds d0 s -> do_call_catch cb m vnone fuel k s = Done o s' ->
  exists rs ps, queue_use cb m vnone ds s k rs ps /\ rs ++ rt_queue s' = rt_queue s ++ ps /\
    length rs <= 1 /\ length ps <= 1 /\ ((forall e v, k <> KProcess e v) -> rt_queue s' = rt_queue s).
Proof.
  intros (Hm & Hfew & H) E. destruct (queue_balance cb m vnone env root Hm Hfew _ _ _ H) as (I0 & rs & ps & L).
  assert (Hr : reachable cb m vnone (deps_after k ds) d0 s') by (eapply reach_call; eauto).
  pose proof (few_max_compiled _ _ _ Hm Hfew) as Hmax. pose proof Hm as Hm2.
  assert (X : exists rs' ps', queue_use cb m vnone ds s k rs' ps' /\ rs' ++ rt_queue s' = rt_queue s ++ ps').
  { compiled Hm. pose proof (reachable_rinvs cb m Hc vnone Hmax _ _ _ H) as R.
    pose proof (reachable_call cb m Hc vnone Hmax ds d0 s fuel k o s' ltac:(first [exact H|exact Hr]) E) as P.
    destruct k as [e v| | | | |]; cbn in P; [destruct P as (vds & rp & P & _); eapply process_queue; eauto|..];
      exists [], []; (split; [constructor; discriminate|rewrite app_nil_r]); auto; cbn; try congruence.
    - destruct P as [(_ & _ & _ & _ & ->)|(_ & ->)]; reflexivity.
    - destruct P as (_ & t & _ & ->). reflexivity. }
  destruct X as (rs' & ps' & U & B). exists rs', ps'. repeat split; auto.
  - destruct U; cbn; auto.
  - destruct U; cbn; auto; match goal with |- length (put_back ?x _ _) <= 1 => destruct x; cbn; auto end.
  - intros Hk. destruct U; [exfalso; now eapply Hk|exfalso; now eapply Hk|]. cbn in B. now rewrite app_nil_r in B.
Qed.

(** ** User code is only called for a reason *)
Section Trace.
Context {V W : Type}.
Variable cb : cbfun V W.
Variables (env : cenv) (root : cls) (m : machine) (vnone : V).
Hypothesis Hm : compile env root = Some m.

(** Calls of guards and effects of rows. *)
Definition row_call (ds : list dep) (k : called V) : Prop :=
  (exists e pl d x o ty val, In d ds /\ candidate env root e pl (CRow x o) /\ x_guard x = Guard ty val /\
     signature k = (CGuard ty val, guard_args m e d x o)) \/
  (exists e pl d x o, In d ds /\ candidate env root e pl (CRow x o) /\ In (signature k) (row_signature env e d x o)).
Definition adds (P : called V -> Prop) (s s' : rt V W) : Prop :=
  exists ks, rt_trace s' = rt_trace s ++ ks /\ Forall P ks.

Lemma adds_refl P s s' : rt_trace s' = rt_trace s -> adds P s s'.
Proof. intros H. exists []. rewrite app_nil_r. auto. Qed.
Lemma adds_trans P s1 s2 s3 : adds P s1 s2 -> adds P s2 s3 -> adds P s1 s3.
Proof.
  intros (k1 & E1 & F1) (k2 & E2 & F2). exists (k1 ++ k2). rewrite E2, E1, app_assoc. split; [reflexivity|].
  apply Forall_app; auto.
Qed.

Lemma in_bound ds e pl d c : In (d, c) (bound m ds e pl) -> In d ds /\ In c (cands m e pl).
Proof.
  unfold bound. intros Hin. apply in_flat_map in Hin. destruct Hin as (d' & Hd & Hin).
  apply in_map_iff in Hin. destruct Hin as (c' & E & Hin). inversion E; subst. auto.
Qed.
Lemma bound_candidate ds e pl d x o : In (d, CRow x o) (bound m ds e pl) -> In d ds /\ candidate env root e pl (CRow x o).
Proof.
  intros H. apply in_bound in H. destruct H as [H1 H2]. split; [exact H1|]. pose proof Hm as Hm2. compiled Hm2.
  now apply (cands_sound m Hc).
Qed.

Lemma scan_adds ds e pl v w ks vd v' w' s : scan cb m e (bound m ds e pl) v w ks vd v' w' ->
  adds (row_call ds) s (after s w' ks).
Proof.
  intros H. exists ks. split; [reflexivity|]. apply Forall_forall. intros k Hk.
  destruct (scan_guards _ _ _ _ _ _ _ _ _ _ H k Hk) as (d & x & o & ty & val & Hin & Hg & E).
  apply bound_candidate in Hin. destruct Hin as [Hd Hin]. left. exists e, pl, d, x, o, ty, val. auto.
Qed.

Lemma executes_adds ds r e d x o v s n v' s' pl : In d ds -> candidate env root e pl (CRow x o) ->
  executes cb m r e d x o v s n v' s' -> adds (row_call ds) s s'.
Proof.
  intros Hd Hx H. destruct (executes_calls _ _ _ _ _ _ _ _ _ _ _ _ H) as (ks & E1 & E2 & _).
  exists ks. split; [exact E1|]. apply Forall_forall. intros k Hk. right. exists e, pl, d, x, o.
  split; [exact Hd|split; [exact Hx|]]. pose proof Hm as Hm2. compiled Hm2.
  assert (I : In (signature k) (map signature ks)) by (now apply in_map). rewrite E2 in I.
  rewrite <- (firstn_skipn (length ks)). apply in_or_app. now left.
Qed.

Lemma region_step_adds ds r e v s vd v' s' : region_step cb m ds r e v s vd v' s' -> adds (row_call ds) s s'.
Proof.
  intros H. destruct H; try (apply adds_refl; reflexivity); try (eapply scan_adds; eassumption).
  all: try match goal with A : scan _ _ _ _ _ _ _ (VPick _ _ _) _ _ |- _ =>
    pose proof (scan_pick _ _ _ _ _ _ _ _ _ _ _ _ A) as (pre & rest & k1 & k2 & va & wa & Eb & _);
    assert (Hin : In (d, CRow x o) (bound m ds e pl)) by (rewrite Eb; apply in_or_app; right; now left);
    apply bound_candidate in Hin; destruct Hin as [Hd Hin];
    eapply adds_trans; [eapply scan_adds; exact A|eapply executes_adds; eauto] end.
Qed.

Lemma regions_run_adds ds e limit r v s vds v' s' : regions_run cb m ds e limit r v s vds v' s' -> adds (row_call ds) s s'.
Proof.
  intros H. induction H; [apply adds_refl; reflexivity|eapply region_step_adds; eauto|].
  eapply adds_trans; [eapply region_step_adds; eauto|exact IHregions_run].
Qed.
Lemma anon_pass_adds ds limit r v s vds pe v' s' : anon_pass cb m ds limit r v s vds pe v' s' -> adds (row_call ds) s s'.
Proof.
  intros H. induction H; try (apply adds_refl; reflexivity); [eapply region_step_adds; eauto|].
  eapply adds_trans; [eapply region_step_adds; eauto|exact IHanon_pass].
Qed.
Lemma anonymous_adds ds v s vdss n s' : anonymous cb m ds v s vdss n s' -> adds (row_call ds) s s'.
Proof.
  intros H. induction H; try (eapply anon_pass_adds; eassumption).
  eapply adds_trans; [eapply anon_pass_adds; eauto|exact IHanonymous].
Qed.
Lemma offer_adds ds e v s vds avds oe v' s' : offer cb m ds vnone e v s vds avds oe v' s' -> adds (row_call ds) s s'.
Proof.
  intros H. destruct H; try (eapply regions_run_adds; eassumption).
  - destruct (has_anonymous m).
    + eapply adds_trans; [eapply regions_run_adds; eauto|eapply anonymous_adds; eauto].
    + match goal with A : _ /\ _ |- _ => destruct A as [_ ->] end. eapply regions_run_adds; eauto.
  - eapply adds_trans; [eapply regions_run_adds; eauto|eapply anonymous_adds; eauto].
Qed.
Lemma recall_adds ds s n s' : recall cb m ds vnone s n s' -> adds (row_call ds) s s'.
Proof.
  intros H. destruct H; [apply adds_refl; reflexivity|].
  match goal with A : offer _ _ _ _ _ _ _ _ _ _ _ _ |- _ => apply offer_adds in A; exact A end.
Qed.

Lemma row_call_justified ds d0 k : row_call ds k -> justified env root m ds d0 k.
Proof.
  intros [(e & pl & d & x & o & ty & val & H1 & H2 & H3 & H4)|(e & pl & d & x & o & H1 & H2 & H3)];
    [eapply ju_guard|eapply ju_effect]; eauto.
Qed.
Lemma justified_more d ds d0 (k : called V) : justified env root m ds d0 k -> justified env root m (d :: ds) d0 k.
Proof. intros [e pl d' x o ty val H|e pl d' x o H|e q H]; [eapply ju_guard|eapply ju_effect|eapply ju_handler]; eauto; now right. Qed.

Lemma at_place_state (s : rt V W) r pl : at_place m s r = Some pl -> is_parent env root (fst pl) /\ is_state env root (snd pl).
Proof.
  intros H. pose proof Hm as Hm2. compiled Hm2. unfold at_place in H.
  destruct (nth_error (rt_cur s) r) as [[c|]|]; try discriminate.
  destruct pl as [p q]. destruct (places_at_inv m Hc _ _ _ H) as (Hp & Hq & _).
  split; [now apply (parent_iff m (cp_fl m Hc))|now apply (state_iff m (cp_fl m Hc))].
Qed.

Lemma process_adds ds d0 s e v vds rp s' : process cb m ds vnone d0 e v s vds rp s' -> event_of env root e ->
  adds (justified env root m ds d0) s s'.
Proof.
  assert (L : forall s s', adds (row_call ds) s s' -> adds (justified env root m ds d0) s s').
  { intros a b (ks & E & F). exists ks. split; [exact E|]. eapply Forall_impl; [|exact F]. intros k. apply row_call_justified. }
  intros P He. apply process_parts in P. destruct P as (avds & oe & v1 & s1 & O & P).
  pose proof (L _ _ (offer_adds _ _ _ _ _ _ _ _ _ O)) as A.
  destruct oe as [| | | |n]; try (destruct P as (_ & ->); exact A).
  - eapply adds_trans; [exact A|]. destruct P as (n & v2 & U & _).
    pose proof Hm as Hm2.
    assert (Er : mc_root m = root /\ mc_env m = env) by (clear - Hm2; compiled Hm2; auto). destruct Er as [Er Ee].
    destruct U as [v0 s0 Hu|v0 s0 pl b v3 w3 Hu Hp Hcb|v0 s0 pl n v3 w3 Hu Hp Hcb]; [apply adds_refl; reflexivity|..];
      eexists; (split; [reflexivity|]); constructor; auto; rewrite Er, Ee in Hu;
      (eapply (ju_handler env root m ds d0 _ e (snd pl)); eauto); now apply at_place_state in Hp.
  - eapply adds_trans; [exact A|]. destruct P as (n & P & _).
    destruct (has_deferred m); [|destruct P as (_ & ->); now apply adds_refl]. apply L. eapply recall_adds; eauto.
Qed.

Lemma reachable_justified ds d0 s : few_regions env root -> reachable cb m vnone ds d0 s ->
  Forall (justified env root m ds d0) (rt_trace s).
Proof.
  intros Hfew H. pose proof (few_max_compiled _ _ _ Hm Hfew) as Hmax. pose proof Hm as Hm2.
  assert (Hc : comp m) by (clear - Hm2; compiled Hm2; exact Hc).
  assert (Er : mc_root m = root /\ mc_env m = env) by (clear - Hm2; compiled Hm2; auto). destruct Er as [Er Ee].
  induction H as [fuel d w s H|fuel ds d0 s k o s' H IH E].
  - apply (construct_sound m Hc) in H; [|apply (root_initials_le m Hc Hmax)].
    destruct H as ((_ & _ & _ & _ & _ & _ & _ & _ & _ & T) & _). rewrite T. constructor.
  - pose proof (reachable_rinvs cb m Hc vnone Hmax _ _ _ H) as R.
    pose proof (reachable_call cb m Hc vnone Hmax ds d0 s fuel k o s' ltac:(first [exact H|exact Hr]) E) as P.
    destruct k as [e v| | | |d|]; cbn in P; cbn [deps_after]; try (subst s'; exact IH).
    + assert (He : event_of env root e).
      { unfold do_call_catch, do_call, process_event in E. destruct (in_dec ev_eq_dec e (events m)) as [Hin|]; [|discriminate].
        now apply (events_iff env root m Hm2). }
      destruct P as (vds & rp & P & _). destruct (process_adds _ _ _ _ _ _ _ _ P He) as (ks & -> & F).
      apply Forall_app; auto.
    + destruct P as [(_ & _ & _ & _ & ->)|(_ & ->)]; exact IH.
    + destruct P as (_ & t & _ & ->). cbn. eapply Forall_impl; [|exact IH]. intros k. apply justified_more.
Qed.
End Trace.
