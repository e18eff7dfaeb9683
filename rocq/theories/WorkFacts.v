(** How much user code one event runs. *)

From Coq Require Import List Arith NArith Bool Lia.
From Verif Require Import Types Static Dispatch Runtime Dsl Examples ListFacts IndexFacts Spec
  DispatchFacts FlattenFacts Semantics RefineFacts StaticFacts TermFacts Reach ReachFacts TableFacts
  QueryFacts ProcessFacts RegionFacts QueueFacts StepFacts OutcomeFacts SafeObjects Demo.
Import ListNotations.

(** The candidate has a guard. *)
Definition guarded (c : cand) : bool :=
  match c with
  | CRow x _ => match x_guard x with NoGuard => false | Guard _ _ => true end
  | CDefer => false
  end.

Lemma scan_count {V W} (cb : cbfun V W) m e bs v w ks vd v' w' : scan cb m e bs v w ks vd v' w' ->
  length ks <= length (filter (fun b : bcand => guarded (snd b)) bs).
Proof.
  intros H. induction H; cbn [filter snd guarded]; try (apply Nat.le_0_l);
    rewrite H; cbn [length]; try lia.
Qed.
Lemma perform_count {V W} (cb : cbfun V W) e d o ps v l w ks n v' l' w' :
  perform cb e d o ps v l w ks n v' l' w' -> length ks <= length ps.
Proof. intros H. induction H; cbn [length]; lia. Qed.
Lemma effects_count env x o : length (effects env x o) = length (row_calls env x).
Proof.
  pose proof (effects_signature env x o ENone 0) as S. apply (f_equal (@length _)) in S.
  unfold row_signature in S. now rewrite !map_length in S.
Qed.
Lemma bound_count m ds e pl : length (filter (fun b : bcand => guarded (snd b)) (bound m ds e pl)) =
  length ds * length (filter guarded (cands m e pl)).
Proof.
  unfold bound, bcand. induction ds as [|d ds IH]; [reflexivity|]. cbn [flat_map length Nat.mul].
  rewrite filter_app, app_length, IH. f_equal. clear IH.
  induction (cands m e pl) as [|c cs IH]; [reflexivity|]. cbn [map filter snd].
  destruct (guarded c); cbn [length]; now rewrite IH.
Qed.

(** [added n s s']: at most [n] callbacks were called. *)
Definition added {V W} (n : nat) (s s' : rt V W) : Prop :=
  exists ks, rt_trace s' = rt_trace s ++ ks /\ length ks <= n.
Lemma added_refl {V W} n (s : rt V W) : added n s s.
Proof. exists []. rewrite app_nil_r. split; [reflexivity|apply Nat.le_0_l]. Qed.
Lemma added_trans {V W} a b n (s s1 s' : rt V W) : added a s s1 -> added b s1 s' -> a + b <= n -> added n s s'.
Proof.
  intros (k1 & E1 & L1) (k2 & E2 & L2) H. exists (k1 ++ k2). rewrite E2, E1, <- app_assoc, app_length.
  split; [reflexivity|lia].
Qed.
Lemma added_more {V W} a n (s s' : rt V W) : added a s s' -> a <= n -> added n s s'.
Proof. intros (k1 & E1 & L1) H. exists k1. split; [exact E1|lia]. Qed.

Section Work.
Context {V W : Type}.
Variable cb : cbfun V W.
Variable m : machine.
Hypothesis Hc : comp m.
Variable vnone : V.
Variable d0 : dep.
Variable ds : list dep.
Notation env := (mc_env m).
Notation root := (mc_root m).
Notation st := (rt V W).
Variables g a : nat.
Hypothesis Hg : forall e pl, length (filter guarded (cands m e pl)) <= g.
Hypothesis Ha : forall e pl x o, In (CRow x o) (cands m e pl) -> length (row_calls env x) <= a.

Lemma moves_trace r x (s s' : st) : moves m r x s s' -> rt_trace s' = rt_trace s.
Proof.
  intros [s0 _|s0 pl _ _ _ _|s0 pl _ _ _ _ _|s0 w p c _ _ _ _ _]; [reflexivity|..];
    unfold relocate, remember;
    repeat match goal with |- context [match ?t with _ => _ end] => destruct t end; reflexivity.
Qed.
Lemma executes_added r e d x o v (s : st) n v' s' pl : In (CRow x o) (cands m e pl) ->
  executes cb m r e d x o v s n v' s' -> added a s s'.
Proof.
  intros Hin [v0 s0 s1 ks n0 v1 l1 w1 Hmv Hp]. exists ks. split.
  - cbn. now rewrite (moves_trace _ _ _ _ Hmv).
  - apply perform_count in Hp. rewrite effects_count in Hp. specialize (Ha _ _ _ _ Hin). lia.
Qed.

Let unit_ := length ds * g + a.
Lemma scan_added e pl v w ks vd v' w' : scan cb m e (bound m ds e pl) v w ks vd v' w' -> length ks <= length ds * g.
Proof.
  intros H. apply scan_count in H. rewrite bound_count in H. specialize (Hg e pl).
  assert (length ds * length (filter guarded (cands m e pl)) <= length ds * g) by now apply Nat.mul_le_mono_l. lia.
Qed.
Lemma step_added r e v (s : st) vd v' s' : region_step cb m ds r e v s vd v' s' -> added unit_ s s'.
Proof.
  assert (After : forall (s0 : st) w ks, length ks <= length ds * g -> added (length ds * g) s0 (after s0 w ks)).
  { intros s0 w ks L. exists ks. split; [reflexivity|exact L]. }
  assert (Pick : forall pl ks d x o v1 w1 n v2 s2, scan cb m e (bound m ds e pl) v (rt_world s) ks (VPick d x o) v1 w1 ->
    executes cb m r e d x o v1 (after s w1 ks) n v2 s2 -> added unit_ s s2).
  { intros pl ks d x o v1 w1 n v2 s2 Sc Ex. pose proof (scan_added _ _ _ _ _ _ _ _ Sc) as L.
    apply (added_trans (length ds * g) a unit_ s (after s w1 ks)); [now apply After| |unfold unit_; lia].
    apply (executes_added r e d x o v1 (after s w1 ks) n v2 s2 pl); [|exact Ex].
    apply scan_pick in Sc. destruct Sc as (pre & rest & k1 & k2 & va & wa & Eb & _).
    assert (Hin : In (d, CRow x o) (bound m ds e pl)) by (rewrite Eb; apply in_or_app; right; now left).
    apply in_bound in Hin. apply Hin. }
  intros H. destruct H.
  - apply added_refl.
  - eapply added_more; [apply After; eapply scan_added; eauto|unfold unit_; lia].
  - eapply Pick; eauto.
  - assert (A : added (length ds * g) s (after s w' ks)) by (apply After; eapply scan_added; eauto).
    eapply added_more with (n := unit_) in A; [|unfold unit_; lia]. exact A.
  - eapply added_more; [apply After; eapply scan_added; eauto|unfold unit_; lia].
  - eapply Pick; eauto.
Qed.
Lemma run_added e limit r v (s : st) vds v' s' : regions_run cb m ds e limit r v s vds v' s' ->
  length vds <= limit - r /\ added (length vds * unit_) s s'.
Proof.
  intros H. induction H; cbn [length Nat.mul].
  - split; [lia|apply added_refl].
  - split; [lia|]. eapply added_more; [eapply step_added; eauto|lia].
  - destruct IHregions_run as [L A]. split; [lia|]. eapply added_trans; [eapply step_added; eauto|exact A|lia].
Qed.
Lemma pass_added limit r v (s : st) vds pe v' s' : anon_pass cb m ds limit r v s vds pe v' s' ->
  length vds <= limit - r /\ added (length vds * unit_) s s'.
Proof.
  intros H. induction H; cbn [length Nat.mul].
  - split; [lia|apply added_refl].
  - split; [lia|apply added_refl].
  - split; [lia|]. eapply added_more; [eapply step_added; eauto|lia].
  - destruct IHanon_pass as [L A]. split; [lia|]. eapply added_trans; [eapply step_added; eauto|exact A|lia].
Qed.

Variable R : nat.
Hypothesis HR : max_initials m <= R.
Lemma run_all e v (s : st) vds v' s' : rinv m s -> regions_run cb m ds e (active m s) 0 v s vds v' s' ->
  added (R * unit_) s s'.
Proof.
  intros I H. apply run_added in H. destruct H as [L A]. eapply added_more; [exact A|].
  apply Nat.mul_le_mono_r. pose proof (active_le_max m Hc s I). lia.
Qed.
Lemma anonymous_added v (s : st) vdss n s' : anonymous cb m ds v s vdss n s' -> rinv m s ->
  added (length vdss * (R * unit_)) s s'.
Proof.
  assert (P : forall v (s : st) vds pe v' s', rinv m s -> anon_pass cb m ds (active m s) 0 v s vds pe v' s' -> added (R * unit_) s s').
  { intros v0 s0 vds pe v' s0' I H. apply pass_added in H. destruct H as [L A]. eapply added_more; [exact A|].
    apply Nat.mul_le_mono_r. pose proof (active_le_max m Hc s0 I). lia. }
  intros H. induction H; intros I; cbn [length Nat.mul]; try (rewrite Nat.add_0_r; eapply P; eauto; fail).
  eapply added_trans; [eapply P; eauto| |reflexivity].
  apply IHanonymous. eapply (anon_pass_rinv cb m Hc); eauto.
Qed.
Lemma offer_added e v (s : st) vds avds oe v' s' : offer cb m ds vnone e v s vds avds oe v' s' -> rinv m s ->
  added ((1 + length avds) * (R * unit_)) s s'.
Proof.
  intros H I. cbn [Nat.add Nat.mul]. destruct H; try (cbn [length Nat.mul]; rewrite Nat.add_0_r; eapply run_all; eauto; fail).
  - eapply added_trans; [eapply run_all; eauto| |reflexivity].
    destruct (has_anonymous m); [|destruct H2 as [-> ->]; apply added_refl].
    eapply anonymous_added; eauto. eapply regions_run_rinv; eauto.
  - eapply added_trans; [eapply run_all; eauto| |reflexivity].
    eapply anonymous_added; eauto. eapply regions_run_rinv; eauto.
Qed.
Lemma offer_passes e v (s : st) vds avds oe v' s' : has_anonymous m = false ->
  offer cb m ds vnone e v s vds avds oe v' s' -> avds = [].
Proof. intros F H. destruct H; auto; [|congruence]. rewrite F in *. apply H2. Qed.

(** An unhandled event calls nothing but the handler. *)
Lemma unhandled_added e limit r v (s : st) vds v' s' : regions_run cb m ds e limit r v s vds v' s' ->
  unhandled vds = true -> s' = s.
Proof.
  intros H. induction H; cbn [unhandled forallb]; intros E; auto.
  - destruct vd; try discriminate.
  - apply andb_true_iff in E. destruct E as [E1 E2]. destruct vd; try discriminate.
    inversion H0; subst. now apply IHregions_run.
Qed.

Lemma process_added e v (s : st) vds rp s' : has_anonymous m = false ->
  process cb m ds vnone d0 e v s vds rp s' -> rinv m s ->
  added (Nat.max 1 ((if has_deferred m then 2 else 1) * (R * unit_))) s s'.
Proof.
  intros F H I. destruct H.
  - assert (E : s1 = s).
    { inversion H; subst. eapply unhandled_added; eauto. }
    subst s1. destruct H0; [apply added_refl|..]; eexists; (split; [reflexivity|]); cbn [length]; lia.
  - apply offer_added in H; [|exact I]. eapply added_more; [exact H|]. cbn [length]. destruct (has_deferred m); lia.
  - pose proof (offer_passes _ _ _ _ _ _ _ _ F H) as E. apply offer_added in H; [|exact I]. rewrite E in H.
    eapply added_more; [exact H|]. cbn [length]. destruct (has_deferred m); lia.
  - pose proof (offer_passes _ _ _ _ _ _ _ _ F H) as E. pose proof (offer_rinv cb m Hc ds vnone _ _ _ _ _ _ _ _ H I) as I1.
    apply offer_added in H; [|exact I]. rewrite E in H. cbn [length] in H.
    destruct (has_deferred m); [|destruct H0 as [_ ->]; eapply added_more; [exact H|lia]].
    destruct H0 as [s1 Hq|s1 e2 v2 q vds2 avds2 oe v3 s3 Hq H0]; [eapply added_more; [exact H|lia]|].
    pose proof (offer_passes _ _ _ _ _ _ _ _ F H0) as E2. apply offer_added in H0; [|exact I1]. rewrite E2 in H0. cbn [length] in H0.
    eapply added_trans; [exact H|exact H0|lia].
Qed.
End Work.

(** * For programs *)
Section Program.
Context {V W : Type}.
Variable cb : cbfun V W.
Variables (env : cenv) (root : cls) (m : machine) (vnone : V).
Hypothesis Hm : compile env root = Some m.
Hypothesis Hf : few_regions env root.
Variables R g a : nat.
Hypothesis HR : ~ region_exists env root R.
Hypothesis Hg : forall e pl cs, candidate_list env root e pl cs -> length (filter guarded cs) <= g.
Hypothesis Ha : forall e pl cs x o, candidate_list env root e pl cs -> In (CRow x o) cs ->
  length (row_calls env x) <= a.
Notation st := (rt V W).

Lemma hyps : comp m /\ max_initials m <= 255 /\ max_initials m <= R /\
  (forall e pl, length (filter guarded (cands m e pl)) <= g) /\
  (forall e pl x o, In (CRow x o) (cands m e pl) -> length (row_calls (mc_env m) x) <= a).
Proof.
  pose proof (few_max_compiled _ _ _ Hm Hf) as HM. pose proof HR as HR'. rewrite (region_exists_max env root m Hm) in HR'.
  compiled Hm. split; [exact Hc|]. split; [exact HM|]. split; [lia|]. split.
  - intros e pl. apply (Hg e pl). now apply (candidate_list_cands m Hc).
  - intros e pl x o. apply (Ha e pl). now apply (candidate_list_cands m Hc).
Qed.

Lemma event_work ds d0 (s : st) fuel e v s' : reachable cb m vnone ds d0 s ->
  ~ (exists x, declared env root x /\ x_ev x = ENone) ->
  (exists o, process_event cb m vnone fuel e v s = Done o s') \/
  (exists ex, process_event cb m vnone fuel e v s = Threw ex s') ->
  exists ks, rt_trace s' = rt_trace s ++ ks /\
    length ks <= Nat.max 1 ((if has_deferred m then 2 else 1) * (R * (length ds * g + a))).
Proof.
  intros Rs Hn E. destruct hyps as (Hc & HM & HR' & Hg' & Ha').
  assert (F : has_anonymous m = false).
  { destruct (has_anonymous m) eqn:F; [|reflexivity]. exfalso. apply Hn. now apply (anonymous_iff env root m Hm). }
  pose proof (reachable_rinvs cb m Hc vnone HM _ _ _ Rs) as I.
  pose proof (process_event_result m Hc cb ds vnone d0 HM fuel e v s I) as P.
  destruct I as [_ I _].
  destruct E as [(o & E)|(ex & E)]; rewrite E in P.
  - destruct o as [b v']. destruct P as [vds P].
    eapply (process_added cb m Hc vnone d0 ds g a Hg' Ha' R HR' _ _ _ _ _ _ F); eauto.
  - destruct P as (n & vds & _ & P).
    eapply (process_added cb m Hc vnone d0 ds g a Hg' Ha' R HR' _ _ _ _ _ _ F); eauto.
Qed.
Lemma event_bound ds d0 (s : st) fuel e v s' : reachable cb m vnone ds d0 s ->
  ~ (exists x, declared env root x /\ x_ev x = ENone) ->
  (exists o, process_event cb m vnone fuel e v s = Done o s') \/
  (exists ex, process_event cb m vnone fuel e v s = Threw ex s') ->
  exists ks, rt_trace s' = rt_trace s ++ ks /\ length ks <= Nat.max 1 (2 * (R * (length ds * g + a))).
Proof.
  intros Rs Hn E. destruct (event_work _ _ _ _ _ _ _ Rs Hn E) as (ks & Ek & L). exists ks. split; [exact Ek|].
  destruct (has_deferred m); lia.
Qed.
Lemma event_bound_undeferred ds d0 (s : st) fuel e v s' : reachable cb m vnone ds d0 s ->
  ~ (exists x, declared env root x /\ x_ev x = ENone) ->
  ~ (exists x c l, declared env root x /\ unmarked (x_src x) = SState c /\ cd_defer (lookup env c) = Some l) ->
  (exists o, process_event cb m vnone fuel e v s = Done o s') \/
  (exists ex, process_event cb m vnone fuel e v s = Threw ex s') ->
  exists ks, rt_trace s' = rt_trace s ++ ks /\ length ks <= Nat.max 1 (R * (length ds * g + a)).
Proof.
  intros Rs Hn Hd E. destruct (event_work _ _ _ _ _ _ _ Rs Hn E) as (ks & Ek & L). exists ks. split; [exact Ek|].
  destruct (has_deferred m) eqn:F; [|lia]. exfalso. apply Hd. now apply (deferred_iff env root m Hm).
Qed.
Lemma offer_work ds d0 (s : st) e v vds avds oe v' s' : during cb m vnone ds d0 s ->
  offer cb m ds vnone e v s vds avds oe v' s' ->
  exists ks, rt_trace s' = rt_trace s ++ ks /\
    length ks <= (1 + length avds) * (R * (length ds * g + a)).
Proof.
  intros D O. destruct hyps as (Hc & HM & HR' & Hg' & Ha').
  pose proof (during_rinvs cb env root m vnone ds d0 s Hm Hf D) as [_ I _].
  eapply (offer_added cb m Hc vnone ds g a Hg' Ha' R HR'); eauto.
Qed.
End Program.

(** * No constant bound *)
Definition never_cb : cbfun nat nat := fun _ _ v w => Ret false v w.
Definition ask_env : cenv := [ (50, tbl [ mkRow (SInitial WState 1) (EUser 1) fail NoAction (SState 2) ]) ].

Lemma ask_grows : exists m x o, compile ask_env 50 = Some m /\ few_regions ask_env 50 /\
  candidate_list ask_env 50 (EUser 1) (50, SState 1) [CRow x o] /\ x_guard x = fail /\
  forall n, exists ds s, reachable never_cb m 0 ds 0 s /\ length ds = S n /\ active m s = 1 /\
    at_place m s 0 = Some (50, SState 1) /\ refuses never_cb m ds s (EUser 1) (CRow x o).
Proof.
  assert (D : match demo never_cb ask_env 50 [] with
    | Some (m, _, s) => Nat.leb (max_initials m) 255 = true /\ active m s = 1 /\
        at_place m s 0 = Some (50, SState 1) /\
        match cands m (EUser 1) (50, SState 1) with
        | [CRow x o] => x_guard x = fail /\ x_int x = false /\
           existsb (fun q => if sref_eq_dec q o then true else false) (rt_live s) = true /\
           existsb (fun q => if sref_eq_dec q (target_state (mc_env m) x) then true else false) (rt_live s) = true
        | _ => False
        end
    | None => False
    end) by (vm_compute; repeat split; reflexivity).
  destruct (demo never_cb ask_env 50 []) as [[[m os] s]|] eqn:E; [|destruct D].
  destruct D as (F & A & P & D). destruct (cands m (EUser 1) (50, SState 1)) as [|[|x o] [|]] eqn:Ec; try (destruct D; fail).
  destruct D as (G & I & L1 & L2). destruct (demo_reach _ _ _ _ _ _ _ E F) as (Hm & Hf & Rs).
  assert (Hin : forall q, existsb (fun q' => if sref_eq_dec q' q then true else false) (rt_live s) = true -> In q (rt_live s)).
  { intros q H. apply existsb_exists in H. destruct H as (q' & Hq & H). destruct (sref_eq_dec q' q); [now subst|discriminate]. }
  exists m, x, o. repeat (split; [assumption|]). split; [eapply demo_candidates; eauto|]. split; [exact G|].
  assert (All : forall n, exists ds s', reachable never_cb m 0 ds 0 s' /\ length ds = S n /\ exists t, s' = with_tabs s t).
  { induction n as [|n (ds & s' & R & L & t & ->)].
    - exists [0], s. split; [exact Rs|]. split; [reflexivity|]. exists (rt_tabs s). now destruct s.
    - destruct (reachable_set_dependency ask_env 50 m Hm never_cb 0 Hf ds 0 _ 0 R) as (s2 & _ & E2 & R2 & _).
      exists (0 :: ds), s2. split; [exact R2|]. split; [cbn [length]; now rewrite L|]. exists (rt_tabs s2). exact E2. }
  intros n. destruct (All n) as (ds & s' & R & L & t & ->). exists ds, (with_tabs s t).
  repeat (split; [assumption|]). exists x, o, 0, 0. repeat (split; [first [reflexivity|assumption]|]).
  split; [now apply Hin|]. rewrite I. split; [now apply Hin|]. intros d v w _. exists v, w. reflexivity.
Qed.

Lemma no_constant : exists env root, ~ (exists x, declared env root x /\ x_ev x = ENone) /\
  forall n, exists m ds s s' ks, compile env root = Some m /\ few_regions env root /\
    reachable never_cb m 0 ds 0 s /\ (exists v, process_event never_cb m 0 300 (EUser 1) 0 s = Done (false, v) s') /\
    rt_trace s' = rt_trace s ++ ks /\ n < length ks.
Proof.
  destruct ask_grows as (m & x & o & Hm & Hf & Hcl & Hg & All). exists ask_env, 50. split.
  { intros H. apply (anonymous_iff ask_env 50 m Hm) in H.
    assert (E : match compile ask_env 50 with Some m => has_anonymous m = false | None => True end) by (vm_compute; reflexivity).
    rewrite Hm in E. congruence. }
  intros n. destruct (All n) as (ds & s & R & L & A & P & Rf).
  assert (He : event_of ask_env 50 (EUser 1)).
  { assert (E : match compile ask_env 50 with Some m => existsb (fun e => if ev_eq_dec e (EUser 1) then true else false) (events m) = true | None => True end)
      by (vm_compute; reflexivity).
    rewrite Hm in E. apply existsb_exists in E. destruct E as (e & Hin & E). destruct (ev_eq_dec e (EUser 1)) as [->|]; [|discriminate].
    now apply (events_iff ask_env 50 m Hm). }
  destruct (process_refused never_cb ask_env 50 m 0 ds 0 s (conj Hm (conj Hf R)) 300 (EUser 1) 0 (fun _ => [CRow x o]))
    as (v' & w' & ks & E & S).
  - exact He.
  - rewrite A. lia.
  - intros r Hr. assert (r = 0) as -> by lia. eauto.
  - exists 0. split; [lia|discriminate].
  - intros r c _ [<-|[]]. exact Rf.
  - exists m, ds, s, (after s w' ks), ks. repeat (split; [assumption|]).
    split; [eauto|]. split; [reflexivity|]. rewrite A in S. cbn [seq flat_map] in S. rewrite app_nil_r in S.
    apply (f_equal (@length _)) in S. rewrite map_length in S. rewrite S. clear - L Hg.
    enough (E : length (flat_map (asks m (EUser 1)) (bind_all ds [CRow x o])) = length ds) by (unfold bcand in *; lia).
    clear L. unfold bind_all. induction ds as [|d ds IH]; [reflexivity|]. cbn [flat_map map app length] in IH |- *.
    rewrite app_length, IH. unfold asks. cbn [snd fst]. rewrite Hg. reflexivity.
Qed.

(** A check of the numbers of [event_bound]. *)
Definition calls_check (m : machine) (g a : nat) : bool :=
  fills m && forallb (fun e => forallb (fun pl =>
    Nat.leb (length (filter guarded (cands m e pl))) g &&
    forallb (fun c => match c with CRow x _ => Nat.leb (length (row_calls (mc_env m) x)) a | CDefer => true end)
      (cands m e pl)) (places m)) (events m).
Lemma calls_check_sound env root m g a : compile env root = Some m -> calls_check m g a = true ->
  (forall e pl cs, candidate_list env root e pl cs -> length (filter guarded cs) <= g) /\
  (forall e pl cs x o, candidate_list env root e pl cs -> In (CRow x o) cs -> length (row_calls env x) <= a).
Proof.
  intros Hm H. apply andb_true_iff in H. destruct H as [Hf H]. apply (fills_anchored _ _ _ Hm) in Hf. compiled Hm.
  apply (regs_anchored m Hc) in Hf. rewrite forallb_forall in H.
  assert (All : forall e pl c, In c (cands m e pl) -> length (filter guarded (cands m e pl)) <= g /\
    match c with CRow x _ => length (row_calls (mc_env m) x) <= a | CDefer => True end).
  { intros e pl c Hin. destruct (cands_support m Hm e pl c Hf Hin) as [He Hp]. specialize (H e He). rewrite forallb_forall in H.
    specialize (H pl Hp). apply andb_true_iff in H. destruct H as [H1 H2]. apply Nat.leb_le in H1. split; [exact H1|].
    rewrite forallb_forall in H2. specialize (H2 c Hin). destruct c; [exact I|]. now apply Nat.leb_le. }
  split.
  - intros e pl cs E. apply (candidate_list_cands m Hc) in E. subst cs.
    destruct (cands m e pl) as [|c l] eqn:Ec; [apply Nat.le_0_l|]. rewrite <- Ec. eapply All. rewrite Ec. now left.
  - intros e pl cs x o E Hin. apply (candidate_list_cands m Hc) in E. subst cs. apply (All e pl _ Hin).
Qed.
