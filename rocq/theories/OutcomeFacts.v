(** What a call of process_event does as a whole. *)

From Coq Require Import List Arith NArith Bool Lia.
From Verif Require Import Types Static Dispatch Runtime ListFacts IndexFacts Spec
  DispatchFacts FlattenFacts Semantics RefineFacts StaticFacts TermFacts Reach ReachFacts TableFacts
  QueryFacts ProcessFacts RegionFacts LoopFacts.
Import ListNotations.

Section Refused.
Context {V W : Type}.
Variable cb : cbfun V W.
Variables (env : cenv) (root : cls) (m : machine) (vnone : V) (ds : list dep) (d0 : dep).
Notation st := (rt V W).
Variable s : st.
Hypothesis Hs : running cb env root m vnone ds d0 s.

Lemma refuse_entries r e : forall bs v w ks,
  (forall d c, In (d, c) bs -> In d ds /\ refuses cb m ds s e c) ->
  (forall d x o, In (d, CRow x o) bs -> row_accepted m x = true) ->
  exists v' w' ks', try_entries cb m (map (bentry m) bs) r e v (after s w ks) =
      Done (Refused, v') (after s w' (ks ++ ks')) /\
    map signature ks' = flat_map (asks m e) bs.
Proof.
  assert (Hm : compile env root = Some m) by apply Hs. compiled Hm.
  induction bs as [|[d c] bs IH]; intros v w ks Hr Ha.
  - exists v, w, []. split; [cbn; now rewrite app_nil_r|reflexivity].
  - destruct (Hr d c (or_introl eq_refl)) as [Hd (x & o & ty & val & -> & Hg & Ho & Ht & Hcb)].
    cbn [map try_entries]. rewrite bentry_tr. cbn [en_defer bentry centry fst snd entry_of_row].
    destruct (dst_of_target m x (row_accepted_dst m x (Ha d x o (or_introl eq_refl)))) as [Et _].
    destruct (Hcb d v w Hd) as (v1 & w1 & Ec).
    assert (G : execute_guard cb (btrans m d x o) e v (after s w ks) =
      Done (false, v1) (after s w1 (ks ++ [mkCall (CGuard ty val) (guard_args m e d x o) v]))).
    { unfold execute_guard. cbn [t_guard btrans t_int t_src t_tgt t_dep]. rewrite Hg, Et.
      assert (A1 : alive (after s w ks) o = true) by (unfold alive; cbn [rt_live after with_user]; destruct (in_dec sref_eq_dec o (rt_live s)); [reflexivity|contradiction]).
      assert (A2 : alive (after s w ks) (if x_int x then o else target_state (mc_env m) x) = true)
        by (unfold alive; cbn [rt_live after with_user]; destruct (in_dec sref_eq_dec (if x_int x then o else target_state (mc_env m) x) (rt_live s)); [reflexivity|contradiction]).
      rewrite A1, A2. cbn [andb]. unfold invoke. cbn [rt_world after with_user].
      change (mkArgs e o (TObj (if x_int x then o else target_state (mc_env m) x)) d) with (guard_args m e d x o).
      rewrite Ec. unfold after, with_user. cbn. now rewrite <- app_assoc. }
    rewrite G. cbn [bind fst snd].
    destruct (IH v1 w1 (ks ++ [mkCall (CGuard ty val) (guard_args m e d x o) v])) as (v' & w' & ks' & E & S).
    + intros d' c' H. apply Hr. now right.
    + intros d' x' o' H. eapply Ha. right. eauto.
    + exists v', w', (mkCall (CGuard ty val) (guard_args m e d x o) v :: ks'). split.
      * rewrite E. now rewrite <- app_assoc.
      * cbn [map flat_map]. rewrite S. unfold asks at 2. cbn [snd fst]. rewrite Hg. reflexivity.
Qed.

Lemma tinv_after w ks : tinv m ds d0 s -> tinv m ds d0 (after s w ks).
Proof. intros T. apply (frame_tinv m ds d0 s); [split; reflexivity|exact T]. Qed.

Lemma refuse_loop e (lists : nat -> list cand) : event_of env root e ->
  forall fuel limit r ati v w ks, limit <= 255 -> limit - r < fuel ->
  (forall k, r <= k < limit -> exists pl, at_place m s k = Some pl /\ candidate_list env root e pl (lists k)) ->
  (forall k c, r <= k < limit -> In c (lists k) -> refuses cb m ds s e c) ->
  exists v' w' ks', region_loop cb m fuel limit r true ati e v (after s w ks) =
      Done (if ati && forallb (fun k => Nat.eqb (length (lists k)) 0) (seq r (limit - r))
            then PInvalid else PGuardsFailed, v') (after s w' (ks ++ ks')) /\
    map signature ks' = flat_map (fun k => flat_map (asks m e) (bind_all ds (lists k))) (seq r (limit - r)).
Proof.
  intros He. pose proof (running_rinvs _ _ _ _ _ _ _ _ Hs) as [T _ _].
  assert (Hm : compile env root = Some m) by apply Hs. pose proof He as He'. apply (events_iff _ _ _ Hm) in He'.
  induction fuel as [|fuel IH]; intros limit r ati v w ks HL Hf Hpl Hr; [lia|].
  cbn [region_loop]. destruct (Nat.ltb_spec r limit) as [Hlt|Hge].
  2:{ replace (limit - r) with 0 by lia. exists v, w, []. cbn. rewrite app_nil_r, andb_true_r. destruct ati; auto. }
  replace (limit - r) with (S (limit - S r)) by lia. cbn [seq forallb flat_map].
  destruct (Hpl r ltac:(lia)) as (pl & Hp & Hcs).
  assert (Ec : lists r = cands m e pl) by (compiled Hm; now apply (candidate_list_cands m Hc)).
  assert (Eb : bind_all ds (lists r) = bound m ds e pl) by (rewrite Ec; reflexivity).
  unfold try_region.
  rewrite (get_entries_total m ltac:(compiled Hm; exact Hc) ds d0 e r (after s w ks) pl (tinv_after w ks T) He' Hp).
  cbn [bind]. rewrite (next_region_S r limit) by lia. rewrite <- Eb.
  assert (N : ds <> []) by (eapply filled_nonempty, (ti_tabs _ _ _ _ T)).
  assert (Nil : lists r = [] <-> bind_all ds (lists r) = []) by (rewrite Eb, Ec; symmetry; now apply bound_nil).
  destruct (refuse_entries r e (bind_all ds (lists r)) v w ks) as (v1 & w1 & k1 & E1 & S1).
  { intros d c Hin. unfold bind_all in Hin. apply in_flat_map in Hin. destruct Hin as (d' & Hd & Hin).
    apply in_map_iff in Hin. destruct Hin as (c' & E & Hin). inversion E; subst. split; [exact Hd|].
    apply (Hr r c); [lia|exact Hin]. }
  { rewrite Eb. intros d x o Hin. compiled Hm. eapply (bound_accepted m Hc); eauto. }
  destruct (bind_all ds (lists r)) as [|b bs] eqn:Ebs.
  - cbn [map fst snd]. destruct Nil as [_ Nil]. rewrite (Nil eq_refl). cbn [length Nat.eqb andb].
    destruct (IH limit (S r) ati v w ks HL ltac:(lia)) as (v' & w' & k' & E & S).
    { intros k Hk. apply Hpl. lia. }
    { intros k c Hk. apply Hr. lia. }
    exists v', w', k'. split; [exact E|exact S].
  - cbn [map] in E1 |- *. rewrite E1. cbn [bind fst snd].
    destruct (IH limit (S r) false v1 w1 (ks ++ k1) HL ltac:(lia)) as (v' & w' & k' & E & S).
    { intros k Hk. apply Hpl. lia. }
    { intros k c Hk. apply Hr. lia. }
    exists v', w', (k1 ++ k'). split.
    + rewrite E. cbn [andb]. rewrite app_assoc.
      assert (En : Nat.eqb (length (lists r)) 0 = false).
      { destruct (lists r); [|reflexivity]. destruct Nil as [Nil _]. specialize (Nil eq_refl). discriminate. }
      rewrite En. cbn [andb]. now rewrite andb_false_r.
    + rewrite map_app, S, S1. reflexivity.
Qed.

Lemma process_refused fuel e v (lists : nat -> list cand) : event_of env root e -> active m s < fuel ->
  (forall r, r < active m s -> exists pl, at_place m s r = Some pl /\ candidate_list env root e pl (lists r)) ->
  (exists r, r < active m s /\ lists r <> []) ->
  (forall r c, r < active m s -> In c (lists r) -> refuses cb m ds s e c) ->
  exists v' w' ks, process_event cb m vnone fuel e v s = Done (false, v') (after s w' ks) /\
    map signature ks =
      flat_map (fun r => flat_map (asks m e) (bind_all ds (lists r))) (seq 0 (active m s)).
Proof.
  intros He Hf Hpl (r0 & Hr0 & Hne) Hr.
  pose proof (active_255 _ _ _ _ _ _ _ s Hs) as HL.
  assert (Hm : compile env root = Some m) by apply Hs. pose proof He as He'. apply (events_iff _ _ _ Hm) in He'.
  destruct (refuse_loop e lists He fuel (active m s) 0 true v (rt_world s) [] HL ltac:(lia)) as (v' & w' & ks & E & S).
  { intros k Hk. apply Hpl. lia. }
  { intros k c Hk. apply Hr. lia. }
  rewrite after_nil in E. rewrite Nat.sub_0_r in *.
  exists v', w', ks. split; [|exact S].
  unfold process_event. destruct (in_dec ev_eq_dec e (events m)) as [_|]; [|contradiction].
  unfold process_event_internal. change (current_regions m s) with (active m s).
  rewrite E. clear E. cbn [andb app].
  destruct (forallb _ (seq 0 (active m s))) eqn:Ef; [|reflexivity].
  exfalso. rewrite forallb_forall in Ef. specialize (Ef r0 ltac:(apply in_seq; lia)).
  apply Nat.eqb_eq in Ef. destruct (lists r0); [congruence|discriminate].
Qed.
End Refused.

(** * Whole calls *)
Section Outcome.
Context {V W : Type}.
Variable cb : cbfun V W.
Variables (env : cenv) (root : cls) (m : machine) (vnone : V).
Notation st := (rt V W).

(** ** Deferral *)
Lemma turn_defers ds d0 s fuel e v i v1 s1 pl : running cb env root m vnone ds d0 s ->
  event_of env root e -> i < active m s -> i < fuel -> turns cb m e 0 v s i v1 s1 ->
  at_place m s i = Some pl -> candidate env root e pl CDefer ->
  process_event cb m vnone fuel e v s = Done (false, v1) (with_queue s1 (rt_queue s1 ++ [(e, v1)])).
Proof.
  intros Hs He Hi Hf T Hp Hd.
  pose proof (turns_handling _ _ _ _ _ _ _ _ _ _ _ _ _ _ (running_handling _ _ _ _ _ _ _ _ Hs) T) as H1.
  assert (Hp1 : at_place m s1 i = Some pl).
  { unfold at_place in *. rewrite (turns_cur _ _ _ _ _ _ _ _ _ _ _ _ _ _ (running_handling _ _ _ _ _ _ _ _ Hs) T i); auto. }
  pose proof (turns_stop _ _ _ _ _ _ _ _ Hs fuel e v i v1 s1 He Hi T Hf) as P.
  now rewrite (region_defers _ _ _ _ _ _ _ _ H1 i e v1 pl He Hp1 Hd) in P.
Qed.

Lemma nothing_turns ds d0 s e v : running cb env root m vnone ds d0 s -> event_of env root e ->
  forall i r, (forall k, r <= k < r + i -> exists pl, at_place m s k = Some pl /\ candidate_list env root e pl []) ->
  turns cb m e r v s (r + i) v s.
Proof.
  intros Hs He. induction i as [|i IH]; intros r H.
  - rewrite Nat.add_0_r. constructor.
  - destruct (H r ltac:(lia)) as (pl & Hp & Hc). eapply tu_turn.
    + apply (region_nothing _ _ _ _ _ _ _ _ (running_handling _ _ _ _ _ _ _ _ Hs) r e v pl He Hp Hc).
    + discriminate.
    + rewrite <- Nat.add_succ_comm. apply IH. intros k Hk. apply H. lia.
Qed.

Lemma first_defers ds d0 s fuel e v i pl : running cb env root m vnone ds d0 s ->
  event_of env root e -> i < active m s -> i < fuel ->
  (forall r, r < i -> exists pl', at_place m s r = Some pl' /\ candidate_list env root e pl' []) ->
  at_place m s i = Some pl -> candidate env root e pl CDefer ->
  process_event cb m vnone fuel e v s = Done (false, v) (with_queue s (rt_queue s ++ [(e, v)])).
Proof.
  intros Hs He Hi Hf Hn Hp Hd. eapply turn_defers; eauto.
  apply (nothing_turns ds d0 s e v Hs He i 0). intros k Hk. apply Hn. lia.
Qed.

(** ** What a call is made of *)
Lemma process_parts ds d0 s e v vds rp s' : process cb m ds vnone d0 e v s vds rp s' ->
  exists avds oe v1 s1, offer cb m ds vnone e v s vds avds oe v1 s1 /\
    match oe with
    | OfUnhandled => exists n v', unexpected cb m d0 e v1 s1 n v' s' /\
        rp = match n with None => Returned false v' | Some k => Exception k end
    | OfRefused | OfDeferred => rp = Returned false v1 /\ s' = s1
    | OfThrew n => rp = Exception n /\ s' = s1
    | OfHandled => exists n, (if has_deferred m then recall cb m ds vnone s1 n s' else n = None /\ s' = s1) /\
        rp = match n with None => Returned true v1 | Some k => Exception k end
    end.
Proof.
  intros H.
  destruct H as [va sa vdsa v1 s1 n v' s2 O U|va sa vdsa oe v' s2 O Ho|va sa vdsa avds n v' s2 O|va sa vdsa avds v' s1 n s2 O U].
  - exists [], OfUnhandled, v1, s1. split; [exact O|]. eauto.
  - exists [], oe, v', s2. split; [exact O|]. destruct Ho; subst; auto.
  - exists avds, (OfThrew n), v', s2. auto.
  - exists avds, OfHandled, v', s1. split; [exact O|]. eauto.
Qed.

Lemma region_step_still ds r e v s vd v' s' : region_step cb m ds r e v s vd v' s' ->
  fired vd = false -> (forall x n, vd <> REffectThrew x n) ->
  rt_cur s' = rt_cur s /\ rt_hist s' = rt_hist s /\ rt_regions s' = rt_regions s.
Proof. intros H Hf Hn. destruct H; auto; try discriminate. exfalso. eapply Hn; eauto. Qed.

Lemma regions_run_still ds e limit r v s vds v' s' : regions_run cb m ds e limit r v s vds v' s' ->
  existsb fired vds = false -> (forall vd, In vd vds -> threw vd = None) ->
  rt_cur s' = rt_cur s /\ rt_hist s' = rt_hist s /\ rt_regions s' = rt_regions s.
Proof.
  intros H. induction H as [r v s L|r v s vd v' s' L R St|r v s vd v1 s1 vds v' s' L R St H IH]; intros Hf Ht; [auto| |].
  - cbn in Hf. rewrite orb_false_r in Hf. eapply region_step_still; eauto.
    intros x n ->. specialize (Ht _ (or_introl eq_refl)). discriminate.
  - cbn in Hf. apply orb_false_iff in Hf. destruct Hf as [Hf1 Hf2].
    destruct (region_step_still _ _ _ _ _ _ _ _ R Hf1) as (E1 & E2 & E3).
    { intros x n ->. discriminate. }
    destruct (IH Hf2) as (F1 & F2 & F3); [intros; apply Ht; now right|]. repeat split; congruence.
Qed.

Lemma no_throw_stops vds : existsb stops vds = false -> forall vd, In vd vds -> threw vd = None.
Proof.
  intros H vd Hin. destruct (threw vd) as [n|] eqn:E; [|reflexivity].
  apply threw_stops in E. assert (existsb stops vds = true) by (apply existsb_exists; eauto). congruence.
Qed.

Lemma run_deferred_last ds e limit r v s vds v' s' : regions_run cb m ds e limit r v s vds v' s' ->
  existsb deferred vds = true -> exists pre, vds = pre ++ [RDeferred] /\ existsb stops pre = false.
Proof.
  intros R H. destruct (run_stop_last _ _ _ _ _ _ _ _ _ _ _ R (deferred_stops _ H)) as (pre & vd & -> & Hst & Hpre).
  exists pre. split; [|exact Hpre]. rewrite existsb_app in H. cbn in H.
  destruct (existsb deferred pre) eqn:Ed; [apply deferred_stops in Ed; congruence|].
  destruct vd; cbn in H; try discriminate. reflexivity.
Qed.

Lemma process_answer ds d0 s fuel e v b v' s' : running cb env root m vnone ds d0 s ->
  process_event cb m vnone fuel e v s = Done (b, v') s' ->
  exists vds v1 s1, regions_run cb m ds e (active m s) 0 v s vds v1 s1 /\
    (b = true <-> existsb fired vds = true /\ existsb deferred vds = false) /\
    (existsb fired vds = false ->
       rt_cur s' = rt_cur s /\ rt_hist s' = rt_hist s /\ rt_regions s' = rt_regions s).
Proof.
  intros Hs H. pose proof (running_rinvs _ _ _ _ _ _ _ _ Hs) as R. destruct Hs as (Hm & Hfew & _).
  pose proof (few_max_compiled _ _ _ Hm Hfew) as Hmax. compiled Hm.
  pose proof (process_event_result m Hc cb ds vnone d0 Hmax fuel e v s R) as P. rewrite H in P.
  destruct P as (vds & P). apply process_parts in P. destruct P as (avds & oe & v1 & s1 & O & P).
  apply offer_run in O. destruct O as (s2 & Rr & O). exists vds, v1, s2. split; [exact Rr|].
  destruct oe as [| | | |n].
  - destruct O as (Hu & -> & ->). destruct P as (n & v'' & U & E).
    destruct (unhandled_nothing _ Hu) as (A1 & A2 & A3). split; [destruct n; inversion E; subst; split; [discriminate|intros [? ?]; congruence]|].
    intros _. destruct (regions_run_still _ _ _ _ _ _ _ _ _ Rr A2 (no_throw_stops _ A1)) as (E1 & E2 & E3).
    destruct U; auto.
  - destruct O as (A1 & A2 & A3 & -> & ->). destruct P as (E & ->). inversion E; subst. split; [split; [discriminate|intros [? ?]; congruence]|].
    intros _. eapply regions_run_still; eauto using no_throw_stops.
  - destruct O as (A1 & A2 & A3). destruct P as (n & _ & E). split; [|intros; congruence].
    destruct n; inversion E; subst. split; [|auto]. intros _. split; [exact A2|].
    destruct (existsb deferred vds) eqn:Ed; [|reflexivity]. apply deferred_stops in Ed. congruence.
  - destruct O as (A1 & -> & ->). destruct P as (E & ->). inversion E; subst. split; [split; [discriminate|intros [? ?]; congruence]|].
    intros Hf. eapply regions_run_still; eauto. destruct (run_deferred_last _ _ _ _ _ _ _ _ _ Rr A1) as (pre & -> & Hst).
    intros vd Hin. apply in_app_or in Hin. destruct Hin as [Hin|[<-|[]]]; [|reflexivity]. eapply no_throw_stops; eauto.
  - destruct P as (E & _). discriminate.
Qed.

(** ** Anonymous transitions of a single region *)
Lemma anonymous_single ds v s vdss s' : active m s = 1 -> parallel m = false ->
  anonymous cb m ds v s vdss None s' ->
  exists v1 s1 vd v2, region_step cb m ds 0 ENone v1 s1 vd v2 s' /\ quiet vd.
Proof.
  intros _ Hp H. remember None as n0 eqn:En. revert En. induction H as [v s vds v' s' P|v s vds n v' s' P|v s vds v' s' P F|v s vds v1 s1 rest n s' P F H IH]; intros En.
  - assert (A : active m s = 1) by (unfold active; now rewrite Hp). rewrite A in P.
    inversion P; subst; try lia; try congruence.
    + do 4 eexists. split; [eassumption|now left].
    + match goal with X : anon_pass _ _ _ 1 1 _ _ _ _ _ _ |- _ => inversion X; subst; try lia end.
  - discriminate.
  - assert (A : active m s = 1) by (unfold active; now rewrite Hp). rewrite A in P.
    inversion P; subst; try lia.
    match goal with X : anon_pass _ _ _ 1 1 _ _ _ _ _ _ |- _ => inversion X; subst; try lia end.
    do 4 eexists. split; [eassumption|]. right.
    cbn in F. rewrite orb_false_r in F. destruct vd; cbn in *; congruence.
  - auto.
Qed.

Lemma offer_quiet ds e v s vds avds v' s' : has_anonymous m = true -> parallel m = false ->
  offer cb m ds vnone e v s vds avds OfHandled v' s' ->
  exists v1 s1 vd v2, region_step cb m ds 0 ENone v1 s1 vd v2 s' /\ quiet vd.
Proof.
  intros Ha Hp O. apply offer_run in O. destruct O as (s1 & R & _ & _ & O). rewrite Ha in O.
  eapply anonymous_single; eauto. unfold active. now rewrite Hp.
Qed.

Lemma offer_still ds e v s vds avds oe v' s' : offer cb m ds vnone e v s vds avds oe v' s' ->
  oe = OfUnhandled \/ oe = OfRefused \/ (oe = OfDeferred /\ parallel m = false) -> rt_cur s' = rt_cur s.
Proof.
  intros O Ho. apply offer_run in O. destruct O as (s1 & R & O).
  destruct Ho as [->|[->|[-> Hp]]].
  - destruct O as (Hu & _ & ->). destruct (unhandled_nothing _ Hu) as (A1 & A2 & A3).
    now destruct (regions_run_still _ _ _ _ _ _ _ _ _ R A2 (no_throw_stops _ A1)).
  - destruct O as (A1 & A2 & A3 & _ & ->).
    now destruct (regions_run_still _ _ _ _ _ _ _ _ _ R A3 (no_throw_stops _ A1)).
  - destruct O as (A1 & _ & ->). destruct (run_deferred_last _ _ _ _ _ _ _ _ _ R A1) as (pre & -> & Hst).
    assert (A : active m s = 1) by (unfold active; now rewrite Hp). rewrite A in R.
    assert (pre = []).
    { destruct pre as [|vd pre]; [reflexivity|]. exfalso. inversion R; subst; [destruct pre; discriminate|].
      match goal with X : regions_run _ _ _ _ 1 1 _ _ ?l _ _ |- _ => inversion X; subst; try lia; destruct pre; discriminate end. }
    subst pre. cbn in R. inversion R; subst; [|match goal with X : stops RDeferred = false |- _ => discriminate X end].
    match goal with X : region_step _ _ _ _ _ _ _ _ _ _ |- _ => inversion X; subst; reflexivity end.
Qed.

Lemma process_quiet ds d0 s fuel e v v' s' : running cb env root m vnone ds d0 s ->
  ~ region_exists env root 1 -> (exists x, declared env root x /\ x_ev x = ENone) ->
  process_event cb m vnone fuel e v s = Done (true, v') s' ->
  exists v1 s1 vd v2 s2, region_step cb m ds 0 ENone v1 s1 vd v2 s2 /\ quiet vd /\ rt_cur s' = rt_cur s2.
Proof.
  intros Hs Hr Ha H. pose proof (running_rinvs _ _ _ _ _ _ _ _ Hs) as R. destruct Hs as (Hm & Hfew & _).
  apply (anonymous_iff _ _ _ Hm) in Ha. rewrite <- (parallel_iff _ _ _ Hm) in Hr. apply not_true_is_false in Hr.
  pose proof (few_max_compiled _ _ _ Hm Hfew) as Hmax. compiled Hm.
  pose proof (process_event_result m Hc cb ds vnone d0 Hmax fuel e v s R) as P. rewrite H in P.
  destruct P as (vds & P). apply process_parts in P. destruct P as (avds & oe & v1 & s1 & O & P).
  destruct oe as [| | | |n].
  - destruct P as (n & v'' & _ & E). destruct n; discriminate.
  - destruct P; discriminate.
  - destruct (offer_quiet _ _ _ _ _ _ _ _ Ha Hr O) as (va & sa & vd & vb & St & Hq).
    assert (B : exists v1 s1 vd v2 s2, region_step cb m ds 0 ENone v1 s1 vd v2 s2 /\ quiet vd /\ rt_cur s1 = rt_cur s1).
    { exists va, sa, vd, vb, s1. auto. }
    destruct P as (n & P & E). destruct n as [n|]; [discriminate|].
    destruct (has_deferred m); [|destruct P as [_ ->]; exists va, sa, vd, vb, s1; auto].
    remember (None : option nat) as n0. destruct P as [s1 Q|s1 e2 v2 q vds2 avds2 oe2 v3 s3 Q O2].
    + exists va, sa, vd, vb, s1. auto.
    + destruct oe2 as [| | | |n].
      * exists va, sa, vd, vb, s1. split; [exact St|]. split; [exact Hq|].
        rewrite (offer_still _ _ _ _ _ _ _ _ _ O2); [reflexivity|auto].
      * exists va, sa, vd, vb, s1. split; [exact St|]. split; [exact Hq|].
        rewrite (offer_still _ _ _ _ _ _ _ _ _ O2); [reflexivity|auto].
      * destruct (offer_quiet _ _ _ _ _ _ _ _ Ha Hr O2) as (vc & sc & vd' & ve & St' & Hq').
        exists vc, sc, vd', ve, s3. auto.
      * exists va, sa, vd, vb, s1. split; [exact St|]. split; [exact Hq|].
        rewrite (offer_still _ _ _ _ _ _ _ _ _ O2); [reflexivity|auto].
      * discriminate.
  - destruct P; discriminate.
  - destruct P; discriminate.
Qed.

(** With guards that only look at their arguments nothing anonymous is enabled in
    the final place. *)
Lemma scan_refused_pure e G bs v w ks v' w' :
  (forall ty val a v w, cb (CGuard ty val) a v w = Ret (G ty val a) v w) ->
  scan cb m e bs v w ks VNone v' w' ->
  forall d x o, In (d, CRow x o) bs -> exists ty val, x_guard x = Guard ty val /\ G ty val (guard_args m e d x o) = false.
Proof.
  intros HG H. remember VNone as vd. revert Heqvd. induction H; intros Heq; try discriminate; intros d' x' o' Hin; [destruct Hin|].
  destruct Hin as [E|Hin]; [|auto]. inversion E; subst. exists ty, val. split; [assumption|].
  match goal with A : cb _ _ _ _ = Ret false _ _ |- _ => rewrite HG in A; now inversion A end.
Qed.

Lemma process_quiet_pure ds d0 s fuel e v v' s' G p q : running cb env root m vnone ds d0 s ->
  (forall ty val a v w, cb (CGuard ty val) a v w = Ret (G ty val a) v w) ->
  ~ region_exists env root 1 -> (exists x, declared env root x /\ x_ev x = ENone) ->
  process_event cb m vnone fuel e v s = Done (true, v') s' -> at_place m s' 0 = Some (p, q) ->
  forall cs d x o, candidate_list env root ENone (p, q) cs -> In d ds -> In (CRow x o) cs ->
  exists ty val, x_guard x = Guard ty val /\ G ty val (guard_args m ENone d x o) = false.
Proof.
  intros Hs HG Hr Ha H Hp cs d x o Hcs Hd Hcand.
  destruct (process_quiet _ _ _ _ _ _ _ _ Hs Hr Ha H) as (v1 & s1 & vd & v2 & s2 & St & Hq & Ec).
  assert (Hm : compile env root = Some m) by apply Hs.
  assert (Hin : In (CRow x o) (cands m ENone (p, q))) by (compiled Hm; apply (candidate_list_cands m Hc) in Hcs; now rewrite <- Hcs).
  assert (Hb : In (d, CRow x o) (bound m ds ENone (p, q))).
  { unfold bound. apply in_flat_map. exists d. split; [exact Hd|]. now apply in_map. }
  assert (Hp2 : at_place m s2 0 = Some (p, q)) by (unfold at_place in *; now rewrite <- Ec).
  destruct Hq as [->| ->]; inversion St; subst.
  - rewrite Hp2 in *. match goal with X : Some _ = Some _ |- _ => inversion X; subst end.
    match goal with X : bound _ _ _ _ = [] |- _ => rewrite X in Hb; destruct Hb end.
  - match goal with X : at_place m s1 0 = Some _ |- _ => change (at_place m (after s1 w' ks) 0) with (at_place m s1 0) in Hp2; rewrite Hp2 in X; inversion X; subst end.
    eapply scan_refused_pure; eauto.
Qed.
End Outcome.
