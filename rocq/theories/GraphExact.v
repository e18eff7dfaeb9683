(** With one region and no history the graph of Graph.v is exact. *)

From Coq Require Import List Arith NArith Bool Lia.
From Verif Require Import Types Static Dispatch Runtime ListFacts IndexFacts Spec
  DispatchFacts FlattenFacts Semantics RefineFacts StaticFacts TermFacts Reach ReachFacts TableFacts
  QueryFacts ProcessFacts Safe SafeFacts SafeObjects StepFacts TermMeta CompleteFacts
  Exact ExactFacts ExactNeed ExactIff Graph GraphFacts.
Import ListNotations.

Scheme arrives_min := Minimality for arrives Sort Prop
  with stays_min := Minimality for stays Sort Prop.

Section Single.
Variable m : machine.
Notation env := (mc_env m).
Notation root := (mc_root m).
Hypothesis Hm : compile env root = Some m.
Let Hc : comp m := proj1 (compile_comp _ _ _ Hm).
Hypothesis Hone : max_initials m = 1.
Hypothesis Hnh : has_history m = false.

Lemma not_parallel : parallel m = false.
Proof. unfold parallel. now rewrite Hone. Qed.
Lemma active_one {V W} (s : rt V W) : active m s = 1.
Proof. unfold active. now rewrite not_parallel. Qed.
Lemma completion_iff : has_anonymous m = true <-> completion env root.
Proof. apply (anonymous_iff env root m Hm). Qed.

Section Sound.
Context {V W : Type}.
Variable cb : cbfun V W.
Variable vnone : V.
Hypothesis Hcb : never_throws cb.
Notation st := (rt V W).

Lemma scan_no_raise e bs v w ks n v' w' : ~ scan cb m e bs v w ks (VRaise n) v' w'.
Proof.
  remember (VRaise n) as vd. intros H. revert Heqvd. induction H; intros E; try discriminate; auto.
  eapply Hcb; eauto.
Qed.
Lemma perform_no_raise e d o ps v live w ks n v' live' w' : ~ perform cb e d o ps v live w ks (Some n) v' live' w'.
Proof.
  remember (Some n) as on. intros H. revert Heqon. induction H; intros E; try discriminate; auto.
  eapply Hcb; eauto.
Qed.

Variable ds : list dep.
Hypothesis Hds : ds <> [].

Lemma moves_one x (s s1 : st) pl pl1 : moves m 0 x s s1 -> at_place m s 0 = Some pl ->
  at_place m s1 0 = Some pl1 -> goes env x pl pl1.
Proof.
  intros Hmv Hat. unfold goes.
  destruct Hmv as [s0 Hi|s0 pl' Hi Hh Ht Hset|s0 pl' Hi Hh Hx Ht Hset|s0 wk p c Hi Hh Hx Hhis Hset]; rewrite Hi; try congruence.
  intros E. rewrite Ht. f_equal. symmetry. destruct (relocate_rest m 0 (code m pl') s0) as (_ & _ & _ & _ & Ec & _).
  unfold at_place in E. rewrite Ec in E. destruct (rt_cur s0); [discriminate|]. cbn [set_nth nth_error] in E.
  unfold code in E. rewrite Nnat.Nat2N.id in E. now apply nth_pos_is in E.
Qed.

Lemma step_one e v (s : st) vd v' s' pl : region_step cb m ds 0 e v s vd v' s' -> at_place m s 0 = Some pl ->
  threw vd = None /\
  ((exists x o, vd = RFired x /\ possible env root e pl (CRow x o) /\
      forall pl', at_place m s' 0 = Some pl' -> goes env x pl pl') \/
   (fired vd = false /\ at_place m s' 0 = Some pl /\ (vd <> RDeferred -> Forall guarded (cands m e pl)))).
Proof.
  intros St Hat. destruct St as [v s pl0 H1 H2|v s pl0 ks v' w' H1 H2 H3|v s pl0 ks d x o v1 w1 v' s' H1 H2 H3
    |v s pl0 ks v' w' H1 H2|v s pl0 ks n v' w' H1 H2|v s pl0 ks d x o v1 w1 n v' s' H1 H2 H3];
    assert (pl0 = pl) by congruence; subst pl0.
  - split; [reflexivity|right]. split; [reflexivity|]. split; [exact Hat|]. intros _.
    apply (bound_guarded m ds e pl Hds). rewrite H2. constructor.
  - split; [reflexivity|right]. split; [reflexivity|]. split; [exact Hat|]. intros _.
    apply (bound_guarded m ds e pl Hds). eapply scan_none_guarded; eauto.
  - split; [reflexivity|left]. exists x, o. split; [reflexivity|]. split.
    + apply (possible_iff m Hm). eapply scan_reached; eauto.
    + inversion H3 as [v0 s0 s1 ks' n' v2 l' w' Hmv Hp]; subst. intros pl'. apply (moves_one x (after s w1 ks) s1 pl pl' Hmv Hat).
  - split; [reflexivity|right]. split; [reflexivity|]. split; [exact Hat|]. congruence.
  - exfalso. eapply scan_no_raise; eauto.
  - exfalso. inversion H3 as [v0 s0 s1 ks' n' v2 l' w' Hmv Hp]; subst. eapply perform_no_raise; eauto.
Qed.

Lemma run_one e v (s : st) vds v' s' : regions_run cb m ds e 1 0 v s vds v' s' ->
  exists vd, vds = [vd] /\ region_step cb m ds 0 e v s vd v' s'.
Proof.
  intros H. inversion H as [| |r v0 s0 vd v1 s1 vds' v2 s2 Hl Hst Hs Hr]; subst; [lia|eauto|].
  inversion Hr; subst; [|lia|lia]. eauto.
Qed.
Lemma pass_one v (s : st) vds pe v' s' : anon_pass cb m ds 1 0 v s vds pe v' s' ->
  exists vd, vds = [vd] /\ region_step cb m ds 0 ENone v s vd v' s' /\
    match pe with PeThrew n => threw vd = Some n | PeEmptyRegion => vd = RNothing | PeComplete => vd <> RDeferred end.
Proof.
  intros H. inversion H as [| | |r v0 s0 vd v1 s1 vds' pe' v2 s2 Hl Hst Hs Hn Hr]; subst; [lia|eauto|eauto|].
  inversion Hr; subst; try lia. exists vd. split; [reflexivity|]. split; [exact Hst|]. destruct vd; cbn in Hs; congruence.
Qed.

Lemma rested_refused pl : arrives env root pl -> Forall guarded (cands m ENone pl) -> stays env root pl.
Proof. intros Ha Hg. eapply sy_refused; [exact Ha| |exact Hg]. now apply (candidate_list_cands m Hc). Qed.

Definition comes_to_rest (s : st) : Prop := forall pl, at_place m s 0 = Some pl -> stays env root pl.
Lemma anonymous_one v (s : st) vdss n s' : anonymous cb m ds v s vdss n s' -> has_anonymous m = true ->
  (forall pl, at_place m s 0 = Some pl -> arrives env root pl) -> n = None /\ comes_to_rest s'.
Proof.
  intros H Hh. apply completion_iff in Hh.
  induction H as [v s vds v' s' H|v s vds n v' s' H|v s vds v' s' H Hf|v s vds v1 s1 rest n s' H Hf H' IH]; intros Ha;
    rewrite active_one in H; apply pass_one in H; destruct H as (vd & -> & St & Hpe);
    destruct (at_place m s 0) as [pl|] eqn:Hat; try (exfalso; inversion St; congruence);
    destruct (step_one _ _ _ _ _ _ _ St Hat) as (Ht & Hs).
  - split; [reflexivity|]. destruct Hs as [(x & o & -> & _)|(Hf & Hat' & Hg)]; [discriminate|].
    intros pl' E. assert (pl' = pl) by congruence. subst pl'. apply rested_refused; [now apply Ha|]. apply Hg. congruence.
  - congruence.
  - split; [reflexivity|]. cbn in Hf. destruct Hs as [(x & o & -> & _)|(_ & Hat' & Hg)]; [discriminate|].
    intros pl' E. assert (pl' = pl) by congruence. subst pl'. apply rested_refused; [now apply Ha|]. auto.
  - cbn in Hf. destruct Hs as [(x & o & -> & P & G)|(Hf' & _)]; [|rewrite Hf' in Hf; discriminate].
    apply IH. intros pl' E. eapply av_anonymous; eauto.
Qed.

Lemma offer_one e v (s : st) vds avds oe v' s' : offer cb m ds vnone e v s vds avds oe v' s' ->
  comes_to_rest s -> (forall n, oe <> OfThrew n) /\ comes_to_rest s'.
Proof.
  intros H Hr.
  assert (K : forall vd v1 s1, region_step cb m ds 0 e v s vd v1 s1 -> fired vd = false -> comes_to_rest s1).
  { intros vd v1 s1 St Hf. destruct (at_place m s 0) as [pl|] eqn:Hat; [|inversion St; congruence].
    destruct (step_one _ _ _ _ _ _ _ St Hat) as (_ & [(x & o & -> & _)|(_ & Hat' & _)]); [discriminate|].
    intros pl' E. assert (pl' = pl) by congruence. subst pl'. now apply Hr. }
  assert (F : forall vd v1 s1, region_step cb m ds 0 e v s vd v1 s1 -> fired vd = true ->
     forall pl', at_place m s1 0 = Some pl' -> arrives env root pl').
  { intros vd v1 s1 St Hf pl' E. destruct (at_place m s 0) as [pl|] eqn:Hat; [|inversion St; congruence].
    destruct (step_one _ _ _ _ _ _ _ St Hat) as (_ & [(x & o & -> & P & G)|(Hf' & _)]); [|congruence].
    eapply av_event; eauto. }
  destruct H as [v s vds v' s' H Hu|v s vds v' s' H Hs Hu Hf|v s vds v' s' H Hd|v s vds vd n v' s' H Ht
    |v s vds v' s1 avds s' H Hs Hf Ha|v s vds v' s1 avds n s' H Hs Hf Hh Ha];
    rewrite active_one in H; apply run_one in H; destruct H as (vd0 & E & St); subst.
  - split; [congruence|]. eapply K; eauto. destruct vd0; cbn in Hu; try discriminate; reflexivity.
  - split; [congruence|]. eapply K; eauto. destruct (fired vd0) eqn:E; [|reflexivity]. cbn in Hf. rewrite E in Hf. discriminate.
  - split; [congruence|]. eapply K; eauto. destruct vd0; cbn in Hd; try discriminate; reflexivity.
  - exfalso. destruct vds as [|? [|? ?]]; inversion E; subst. destruct (at_place m s 0) as [pl|] eqn:Hat; [|inversion St; congruence].
    destruct (step_one _ _ _ _ _ _ _ St Hat) as (Ht' & _). congruence.
  - split; [congruence|]. assert (Hf' : fired vd0 = true) by (cbn in Hf; destruct (fired vd0); auto).
    destruct (has_anonymous m) eqn:Hh.
    + eapply anonymous_one; eauto.
    + destruct Ha as (_ & ->). intros pl' E'. apply sy_incomplete; [eapply F; eauto|].
      intros Hcp. apply completion_iff in Hcp. congruence.
  - exfalso. assert (Hf' : fired vd0 = true) by (cbn in Hf; destruct (fired vd0); auto).
    destruct (anonymous_one _ _ _ _ _ Ha Hh) as (Hn & _); [eapply F; eauto|discriminate].
Qed.

Lemma process_one d0 e v (s : st) vds rp s' : process cb m ds vnone d0 e v s vds rp s' ->
  comes_to_rest s -> comes_to_rest s'.
Proof.
  intros H Hr. destruct H as [v s vds v1 s1 n v' s' Ho Hu|v s vds oe v' s' Ho _|v s vds avds n v' s' Ho
    |v s vds avds v' s1 n s' Ho Hd]; destruct (offer_one _ _ _ _ _ _ _ _ Ho Hr) as (_ & H1); auto.
  - destruct Hu; exact H1.
  - destruct (has_deferred m); [|destruct Hd as (_ & ->); exact H1].
    destruct Hd as [s4 Hq|s4 e2 v2 q vds2 avds2 oe v3 s3 Hq Ho2]; [exact H1|].
    eapply offer_one; eauto.
Qed.
End Sound.

Lemma client_stays {V W} (cb : cbfun V W) vnone ks ds d0 s : never_throws cb -> client cb m vnone ks ds d0 s ->
  never_sets ks -> comes_to_rest s /\ ds <> [].
Proof.
  intros Hcb H. assert (Hmax : max_initials m <= 255) by lia.
  induction H as [fuel d w s H|fuel ks ds d0 s k o s' H IH H1]; intros Hn.
  - split; [|discriminate]. destruct (construct_sound m Hc _ _ _ _ (root_initials_le m Hc Hmax) H) as [(F1 & F2 & _) _].
    intros pl. unfold at_place. rewrite F2, initials_spec.
    destruct (nth_error (initial_states env root) 0) as [i|] eqn:Ei.
    + unfold code. rewrite Nnat.Nat2N.id. intros E. apply nth_pos_is in E. subst pl. apply sy_start.
      unfold first_initial. destruct (initial_states env root); cbn in *; congruence.
    + destruct (Nat.ltb 0 (max_initials m)); discriminate.
  - destruct IH as (IH & Hds); [intros r p q Hi; apply (Hn r p q); apply in_or_app; now left|].
    pose proof (reachable_rinvs cb m Hc vnone Hmax ds d0 s (client_reachable m cb vnone _ _ _ _ H)) as R.
    pose proof (call_sound cb m Hc vnone Hmax d0 ds fuel k s o s' R H1) as E.
    split; [|destruct k; cbn; congruence].
    destruct k as [e v|r p q|p|r p q|d|]; cbn [call_effect] in E; try (subst s'; exact IH).
    + destruct E as (vds & rp & P & _). eapply process_one; eauto.
    + exfalso. apply (Hn r p q). apply in_or_app. right. now left.
    + destruct E as (_ & t & _ & ->). exact IH.
Qed.

(** ** Every place of the graph is reached *)
Section Reached.
Hypothesis Hwf : well_formed env root.
Notation st := (rt unit (list bool)).
Notation session := (session scripted m tt).
Let Hw : wpm m := wpm_placed env root m Hm (wf_placed _ _ Hwf).
Let Hregs : regs_ok m := wm_regs m Hw.

Lemma Hnu : forall fuel w ks, Forall (typed m) ks -> forall u, session fuel 0 w ks <> Undef u.
Proof.
  intros fuel w ks Ht. apply (session_well_formed scripted env root m Hm tt fuel 0 w ks Hwf).
  eapply Forall_impl; [|exact Ht]. intros k. now apply (typed_iff env root m k Hm).
Qed.

Lemma scan_refusing e : forall l v w, Forall guarded l -> exists ks, forall rest vd v' w' ks',
  scan scripted m e rest v w ks' vd v' w' ->
  scan scripted m e (map (pair 0) l ++ rest) v (repeat false (length l) ++ w) (ks ++ ks') vd v' w'.
Proof.
  induction l as [|c l IH]; intros v w Hg.
  - exists []. intros. assumption.
  - inversion Hg as [|? ? H1 H2]; subst. destruct (IH v w H2) as (ks & IH').
    destruct c as [|x o]; [destruct H1|]. cbn [guarded] in H1. destruct (x_guard x) as [|ty val] eqn:Eg; [congruence|].
    eexists (_ :: ks). intros rest vd v' w' ks' Hs. cbn [length repeat map app].
    eapply scan_no; [exact Eg|reflexivity|]. now apply IH'.
Qed.
Lemma bound_one e pl : bound m [0] e pl = map (pair 0) (cands m e pl).
Proof. unfold bound. cbn [flat_map]. apply app_nil_r. Qed.

Lemma perform_total e d o : forall ps v live w, exists ks v' live',
  (forall p, In p ps -> forall ty val, p_callee p <> CGuard ty val) ->
  perform scripted e d o ps v live w ks None v' live' w.
Proof.
  induction ps as [|p ps IH]; intros v live w; [exists [], v, live; intros _; constructor|].
  destruct (IH (if p_keep p then v else v) (match p_makes p with Some t => assign live t false | None => live end) w)
    as (ks & v' & live' & H).
  exists (mkCall (p_callee p) (mkArgs e o (p_targ p) d) v :: ks), v', live'. intros Hp.
  eapply (pf_call scripted e d o p ps v live w false v w); [|apply H; intros p' Hi; apply Hp; now right].
  specialize (Hp p (or_introl eq_refl)). destruct (p_callee p); try reflexivity. exfalso. eapply Hp; reflexivity.
Qed.
Lemma body_no_guard at_ t p : forall b, In p (body_calls at_ t b) -> forall ty val, p_callee p <> CGuard ty val.
Proof.
  induction b as [f|f|f|l IH] using abody_ind2; cbn [body_calls]; intros Hi ty val;
    try (destruct Hi as [<-|[]]; discriminate).
  apply in_flat_map in Hi. destruct Hi as (b & Hb & Hi). rewrite Forall_forall in IH. exact (IH b Hb Hi ty val).
Qed.
Lemma effects_no_guard x o p : In p (effects env x o) -> forall ty val, p_callee p <> CGuard ty val.
Proof.
  unfold effects. rewrite !in_app_iff. intros Hi ty val.
  assert (P : forall l, In p (map (fun c => mkPrim c (action_target env x o) true None) l) -> In (p_callee p) l).
  { intros l H. apply in_map_iff in H. destruct H as (c & <- & H). exact H. }
  intros E. destruct Hi as [H|[H|[H|H]]].
  - apply P in H. rewrite E in H. unfold exit_call in H. destruct (x_int x); [destruct H|].
    destruct (x_src x); try destruct H; destruct (has_exit env _); destruct H; try discriminate; contradiction.
  - destruct (x_act x) as [|ty' b]; [destruct H|]. eapply body_no_guard; eauto.
  - apply P in H. rewrite E in H. unfold entry_call in H. destruct (x_int x); [destruct H|].
    destruct (x_tgt x); try destruct H; destruct (has_entry env _); destruct H; try discriminate; contradiction.
  - apply P in H. rewrite E in H. unfold initial_entry_call in H.
    destruct (x_tgt x) as [c| | | | |]; try destruct H. destruct (if is_composite env c then _ else _) as [[i| | | | |]|]; try destruct H.
    destruct (has_entry env i); destruct H; try discriminate; contradiction.
Qed.

Lemma fires e pl x o pl' : reached m e pl (CRow x o) -> goes env x pl pl' ->
  exists w1, forall (s : st) w, at_place m s 0 = Some pl -> rt_world s = w1 ++ w ->
  exists s', region_step scripted m [0] 0 e tt s (RFired x) tt s' /\ rt_world s' = w /\
    rt_queue s' = rt_queue s /\ at_place m s' 0 = Some pl'.
Proof.
  intros Hre Hgo. pose proof (reached_in m e pl _ Hre) as Hin. destruct Hre as (l1 & l2 & Ec & Hg).
  exists (repeat false (length l1) ++ answer (CRow x o) []). intros s w Hat Ew. rewrite <- app_assoc in Ew.
  set (wa := answer (CRow x o) [] ++ w) in *.
  destruct (scan_refusing e l1 tt wa Hg) as (ks & Hs).
  assert (S : exists ks', scan scripted m e (map (pair 0) (CRow x o :: l2)) tt wa ks' (VPick 0 x o) tt w).
  { unfold wa, answer. cbn [map]. destruct (x_guard x) as [|ty val] eqn:Eg.
    - exists []. now apply scan_free.
    - eexists. eapply scan_yes; [exact Eg|reflexivity]. }
  destruct S as (ks' & S). specialize (Hs _ _ _ _ _ S). rewrite <- map_app, <- Ec, <- bound_one, <- Ew in Hs.
  set (s0 := after s w (ks ++ ks')).
  assert (M : exists s1, moves m 0 x s0 s1 /\ rt_world s1 = w /\ rt_queue s1 = rt_queue s /\ at_place m s1 0 = Some pl').
  { unfold goes in Hgo. destruct (x_int x) eqn:Hi.
    - exists s0. split; [now apply mv_internal|]. subst pl'. auto.
    - exists (relocate m 0 (code m pl') s0). destruct (relocate_rest m 0 (code m pl') s0) as (E1 & _ & E3 & _ & E5 & _).
      split; [apply mv_plain; auto; unfold settled; rewrite not_parallel; discriminate|].
      rewrite E3, E1. split; [reflexivity|]. split; [reflexivity|].
      unfold at_place. rewrite E5. unfold at_place in Hat. change (rt_cur s0) with (rt_cur s).
      destruct (rt_cur s) as [|c0 l]; [discriminate|]. cbn [set_nth nth_error].
      destruct pl' as [p' q']. pose proof (cands_accepted m Hc _ _ _ _ Hin) as Hacc.
      destruct (dst_of_target m x (row_accepted_dst m x Hacc)) as [_ Ht']. rewrite Hgo in Ht'. inversion Ht'; subst p' q'.
      destruct (row_accepted_states m x Hacc) as [Hd _].
      apply (decode_code m Hc); [|exact Hd]. apply (wm_dst m Hw). eapply (cands_flat m Hc); eauto. }
  destruct M as (s1 & M & E1 & E2 & E3).
  destruct (perform_total e 0 o (effects env x o) tt (rt_live s1) (rt_world s1)) as (ks2 & [] & l' & P).
  specialize (P (effects_no_guard x o)).
  exists (with_live (after s1 (rt_world s1) ks2) l'). split; [|auto].
  eapply rs_fired; [exact Hat|exact Hs|]. econstructor; [exact M|exact P].
Qed.

Lemma refuses_all e pl : Forall guarded (cands m e pl) ->
  exists w1, forall (s : st) w, at_place m s 0 = Some pl -> rt_world s = w1 ++ w ->
  exists vd s', region_step scripted m [0] 0 e tt s vd tt s' /\
    (vd = RRefused \/ vd = RNothing /\ s' = s) /\ rt_world s' = w /\
    rt_queue s' = rt_queue s /\ at_place m s' 0 = Some pl.
Proof.
  intros Hg. exists (repeat false (length (cands m e pl))). intros s w Hat Ew.
  destruct (cands m e pl) as [|c cs] eqn:Ec.
  - exists RNothing, s. split; [eapply rs_nothing; [exact Hat|rewrite bound_one, Ec; reflexivity]|]. auto.
  - destruct (scan_refusing e (c :: cs) tt w Hg) as (ks & Hs). specialize (Hs [] VNone tt w [] (scan_nil _ _ _ _ _)).
    rewrite !app_nil_r, <- Ec, <- bound_one in Hs. rewrite <- Ec in Ew. rewrite <- Ew in Hs.
    exists RRefused. eexists. split; [eapply Semantics.rs_refused; [exact Hat| |exact Hs]|].
    + rewrite bound_one, Ec. discriminate.
    + auto.
Qed.

(** A completion under way. *)
Inductive chain : st -> st -> Prop :=
| ch_refl s : chain s s
| ch_step s1 s2 s3 vds : chain s1 s2 -> anon_pass scripted m [0] (active m s2) 0 tt s2 vds PeComplete tt s3 ->
    existsb fired vds = true -> chain s1 s3.
Lemma chain_ends s1 s2 : chain s1 s2 -> forall rest s', anonymous scripted m [0] tt s2 rest None s' ->
  exists rest', anonymous scripted m [0] tt s1 rest' None s'.
Proof.
  intros H. induction H as [s|s1 s2 s3 vds H IH Hp Hf]; intros rest s' Ha; [eauto|].
  eapply IH. eapply an_again; eauto.
Qed.

Definition at_rest (w : list bool) (pl : place) (w2 : list bool) (ks : list (call unit)) (s : st) : Prop :=
  (exists fuel outs, session fuel 0 w ks = Done outs s) /\ never_sets ks /\ (forall d, ~ In (KSetDep d) ks) /\
  at_place m s 0 = Some pl /\ rt_queue s = [] /\ rt_world s = w2.

Definition stays_here (pl : place) : Prop := forall w2, exists w1 ks s, at_rest (w1 ++ w2) pl w2 ks s.
Definition arrives_here (pl : place) : Prop := forall w2, exists w1 w0 ks s pl0 e vds s1 s2,
  at_rest (w1 ++ w2) pl0 w0 ks s /\ In e (events m) /\
  regions_run scripted m [0] e (active m s) 0 tt s vds tt s1 /\ existsb stops vds = false /\ existsb fired vds = true /\
  (chain s1 s2 /\ (s1 = s2 \/ has_anonymous m = true)) /\
  at_place m s2 0 = Some pl /\ rt_queue s2 = [] /\ rt_world s2 = w2.

Lemma at_rest_running w pl w2 ks s : at_rest w pl w2 ks s -> running scripted env root m tt [0] 0 s.
Proof.
  intros ((fuel & outs & E) & _ & Hd & _). split; [exact Hm|]. split; [apply (wf_placed _ _ Hwf)|].
  destruct (session_client m scripted tt fuel 0 w ks outs s E) as (ds & Hcl).
  assert (Eds : forall ks ds d0 (s : st), client scripted m tt ks ds d0 s -> (forall d, ~ In (KSetDep d) ks) -> ds = [d0]).
  { clear. intros ks ds d0 s H. induction H as [|fuel ks ds d0 s k o s' H IH H1]; intros Hd; [reflexivity|].
    rewrite IH by (intros d Hi; apply (Hd d); apply in_or_app; now left).
    destruct k; cbn; try reflexivity. exfalso. eapply Hd. apply in_or_app. right. left. reflexivity. }
  pose proof (Eds _ _ _ _ Hcl Hd) as ->. now apply (client_reachable m scripted tt ks).
Qed.

Lemma run_snoc fuel k : forall ks (s : st) outs s1 o s2, run scripted m tt fuel ks s = Done outs s1 ->
  do_call_catch scripted m tt fuel k s1 = Done o s2 -> run scripted m tt fuel (ks ++ [k]) s = Done (outs ++ [o]) s2.
Proof.
  induction ks as [|k0 ks IH]; intros s outs s1 o s2 E E2.
  - cbn in E. inversion E; subst. cbn [app run]. rewrite E2. reflexivity.
  - cbn [app run] in *. destruct (do_call_catch scripted m tt fuel k0 s) as [o0 s0|x s0|u|]; try discriminate. cbn [bind] in *.
    destruct (run scripted m tt fuel ks s0) as [os s3|x s3|u|] eqn:Er; try discriminate. cbn [bind] in E. inversion E; subst.
    rewrite (IH s0 os s1 o s2 Er E2). reflexivity.
Qed.

(** One more event. *)
Lemma at_rest_event w pl0 w0 ks s e vds v s' pl w2 : at_rest w pl0 w0 ks s -> In e (events m) ->
  process scripted m [0] tt 0 e tt s vds (Returned true v) s' ->
  at_place m s' 0 = Some pl -> rt_queue s' = [] -> rt_world s' = w2 ->
  at_rest w pl w2 (ks ++ [KProcess e tt]) s'.
Proof.
  intros Hr He P E1 E2 E3. pose proof (at_rest_running _ _ _ _ _ Hr) as Hrun.
  destruct Hr as ((fuel & outs & E) & Hn & Hd & _).
  destruct (complete scripted env root m tt [0] 0 s Hrun e tt vds _ s' P) as (n & F).
  { intros f u. apply (well_formed_no_ub scripted env root m tt [0] 0 s Hrun f e tt u Hwf). now apply (events_iff env root m Hm). }
  specialize (F (Nat.max fuel n) (Nat.le_max_r _ _)). cbn [outcome] in F.
  split; [|split; [|split; [|auto]]].
  - exists (Nat.max fuel n), (outs ++ [OBool true]).
    assert (Em : session (Nat.max fuel n) 0 w ks = Done outs s).
    { rewrite <- E. apply session_more; [apply Nat.le_max_l|]. rewrite E. discriminate. }
    unfold Runtime.session in *. destruct (construct m (Nat.max fuel n) 0 w) as [[] s0|x s0|u|]; try discriminate. cbn [bind] in *.
    eapply run_snoc; [exact Em|]. unfold do_call_catch, do_call. rewrite F. reflexivity.
  - intros r p q Hi. apply in_app_iff in Hi. destruct Hi as [Hi|[Hi|[]]]; [eapply Hn; eauto|discriminate].
  - intros d Hi. apply in_app_iff in Hi. destruct Hi as [Hi|[Hi|[]]]; [eapply Hd; eauto|discriminate].
Qed.

Lemma settle pl w2 : (exists w1 w0 ks s pl0 e vds s1 avds s',
  at_rest (w1 ++ w2) pl0 w0 ks s /\ In e (events m) /\
  regions_run scripted m [0] e (active m s) 0 tt s vds tt s1 /\ existsb stops vds = false /\ existsb fired vds = true /\
  (if has_anonymous m then anonymous scripted m [0] tt s1 avds None s' else avds = [] /\ s' = s1) /\
  at_place m s' 0 = Some pl /\ rt_queue s' = [] /\ rt_world s' = w2) ->
  exists w1 ks s, at_rest (w1 ++ w2) pl w2 ks s.
Proof.
  intros (w1 & w0 & ks & s & pl0 & e & vds & s1 & avds & s' & Hr & He & Hrun & Hst & Hf & Ha & E1 & E2 & E3).
  exists w1, (ks ++ [KProcess e tt]), s'. eapply (at_rest_event _ _ _ _ _ e vds tt); eauto.
  apply (pr_handled scripted m [0] tt 0 e tt s vds avds tt s' None s').
  - eapply of_handled; eauto.
  - destruct (has_deferred m); [now apply rc_none|auto].
Qed.

Theorem graph_reached : (forall pl, arrives env root pl -> arrives_here pl) /\ (forall pl, stays env root pl -> stays_here pl).
Proof.
  assert (Lev : forall e pl x o pl', stays_here pl -> possible env root e pl (CRow x o) -> goes env x pl pl' -> arrives_here pl').
  { intros e pl x o pl' IH Hp Hgo w2. apply (possible_iff m Hm) in Hp.
    destruct (fires e pl x o pl' Hp Hgo) as (wf & F). destruct (IH (wf ++ w2)) as (w1 & ks & s & Hr).
    pose proof Hr as (_ & _ & _ & Hat & Hq & Ew). destruct (F s w2 Hat Ew) as (s' & St & E1 & E2 & E3).
    exists (w1 ++ wf), (wf ++ w2), ks, s, pl, e, [RFired x], s', s'. rewrite <- app_assoc.
    split; [exact Hr|]. split; [apply (reached_support m Hm Hregs e pl _ Hp)|]. split.
    - rewrite active_one. eapply rr_next; [lia|exact St|reflexivity|]. apply rr_end. lia.
    - split; [reflexivity|]. split; [reflexivity|]. split; [split; [apply ch_refl|now left]|]. rewrite E2. auto. }
  assert (Lan : forall pl x o pl', arrives_here pl -> completion env root -> possible env root ENone pl (CRow x o) ->
     goes env x pl pl' -> arrives_here pl').
  { intros pl x o pl' IH Hcp Hp Hgo w2. apply (possible_iff m Hm) in Hp.
    destruct (fires ENone pl x o pl' Hp Hgo) as (wf & F).
    destruct (IH (wf ++ w2)) as (w1 & w0 & ks & s & pl0 & e & vds & s1 & s2 & Hr & He & Hrun & Hst & Hf & (Hch & _) & Hat & Hq & Ew).
    destruct (F s2 w2 Hat Ew) as (s' & St & E1 & E2 & E3).
    exists (w1 ++ wf), w0, ks, s, pl0, e, vds, s1, s'. rewrite <- app_assoc.
    repeat (split; [assumption|]). split.
    - split; [|right; now apply completion_iff]. eapply (ch_step s1 s2 s' [RFired x]); [exact Hch| |reflexivity].
      rewrite active_one. eapply ap_next; [lia|exact St|reflexivity|discriminate|]. apply ap_end. lia.
    - rewrite E2. auto. }
  assert (Lst : forall i, first_initial env root = Some i -> stays_here (root, i)).
  { intros i Hi w2. assert (Hfew : max_initials m <= 255) by lia.
    destruct (construct_total m Hc (V := unit) (W := list bool) 300 0 w2 Hregs) as [s E].
    { pose proof (initials_le_max m root (root_parent m Hc)). lia. }
    { pose proof (initials_le_max m root (root_parent m Hc)). lia. }
    { rewrite not_parallel. discriminate. }
    exists [], [], s. cbn [app]. destruct (construct_sound m Hc _ _ _ _ (root_initials_le m Hc Hfew) E) as [F _].
    destruct F as (F1 & F2 & _ & Fq & _ & _ & _ & _ & Fw & _).
    split; [exists 300, []; unfold Runtime.session; rewrite E; reflexivity|].
    split; [intros r p q []|]. split; [intros d []|]. split; [|auto].
    unfold at_place. rewrite F2, initials_spec. unfold first_initial in Hi.
    destruct (initial_states env root) as [|i0 l] eqn:Ei; [discriminate|]. cbn in Hi. inversion Hi; subst i0. cbn [nth_error].
    apply (decode_code m Hc); [apply (root_parent m Hc)|]. apply (initials_states m Hc root); [apply (root_parent m Hc)|].
    rewrite initials_spec, Ei. now left. }
  assert (Lin : forall pl, arrives_here pl -> ~ completion env root -> stays_here pl).
  { intros pl IH Hcp w2. apply settle.
    destruct (IH w2) as (w1 & w0 & ks & s & pl0 & e & vds & s1 & s2 & Hr & He & Hrun & Hst & Hf & (_ & Hch) & Hat & Hq & Ew).
    assert (Eh : has_anonymous m = false).
    { destruct (has_anonymous m) eqn:Eh; [|reflexivity]. exfalso. apply Hcp. now apply completion_iff. }
    destruct Hch as [<-|Hch]; [|congruence].
    exists w1, w0, ks, s, pl0, e, vds, s1, [], s1. rewrite Eh. auto 12. }
  assert (Lre : forall pl cs, arrives_here pl -> candidate_list env root ENone pl cs -> Forall guarded cs -> stays_here pl).
  { intros pl cs IH Hcs Hg w2. apply (candidate_list_cands m Hc) in Hcs. subst cs. apply settle.
    destruct (refuses_all ENone pl Hg) as (wf & F).
    destruct (has_anonymous m) eqn:Eh.
    - destruct (IH (wf ++ w2)) as (w1 & w0 & ks & s & pl0 & e & vds & s1 & s2 & Hr & He & Hrun & Hst & Hf & (Hch & _) & Hat & Hq & Ew).
      destruct (F s2 w2 Hat Ew) as (vd & s' & St & Hvd & E1 & E2 & E3).
      assert (A : exists vds, anonymous scripted m [0] tt s2 vds None s').
      { destruct Hvd as [->|[-> ->]].
        - exists [[RRefused]]. eapply an_quiet; [|reflexivity]. rewrite active_one.
          eapply ap_next; [lia|exact St|reflexivity|discriminate|]. apply ap_end. lia.
        - exists [[RNothing]]. eapply an_empty. rewrite active_one. apply ap_empty; [lia|exact St]. }
      destruct A as (avds & A). destruct (chain_ends s1 s2 Hch avds s' A) as (avds' & A').
      exists (w1 ++ wf), w0, ks, s, pl0, e, vds, s1, avds', s'. rewrite <- app_assoc.
      repeat (split; [assumption|]). rewrite E2. auto.
    - destruct (IH w2) as (w1 & w0 & ks & s & pl0 & e & vds & s1 & s2 & Hr & He & Hrun & Hst & Hf & (_ & Hch) & Hat & Hq & Ew).
      destruct Hch as [<-|Hch]; [|congruence].
      exists w1, w0, ks, s, pl0, e, vds, s1, [], s1. auto 12. }
  split; intros pl H.
  - apply (arrives_min env root arrives_here stays_here); eauto.
  - apply (stays_min env root arrives_here stays_here); eauto.
Qed.
End Reached.

(** The check. *)
Lemma memb_in pl l : memb place_eq_dec pl l = true -> In pl l.
Proof. unfold memb. destruct (in_dec place_eq_dec pl l); [auto|discriminate]. Qed.
Lemma goes_in_sound A pl x o pl' : goes_in env A pl (CRow x o) = true -> goes env x pl pl' -> In pl' A.
Proof.
  unfold goes_in, goes. destruct (x_int x); intros H E.
  - subst pl'. now apply memb_in.
  - rewrite E in H. now apply memb_in.
Qed.
Lemma rest_check_sound A S : regs_ok m -> rest_check m A S = true ->
  (forall pl, arrives env root pl -> In pl A) /\ (forall pl, stays env root pl -> In pl S).
Proof.
  intros Hregs H. unfold rest_check in H. apply andb_true_iff in H. destruct H as [H H3]. apply andb_true_iff in H. destruct H as [H1 H2].
  rewrite forallb_forall in H2, H3.
  assert (G2 : forall e pl x o pl', In pl S -> possible env root e pl (CRow x o) -> goes env x pl pl' -> In pl' A).
  { intros e pl x o pl' Hi Hp Hgo. apply (possible_iff m Hm) in Hp. specialize (H2 pl Hi). rewrite forallb_forall in H2.
    specialize (H2 e (proj1 (reached_support m Hm Hregs e pl _ Hp))). rewrite forallb_forall in H2.
    specialize (H2 _ (proj2 (reached_at_iff m e pl _) Hp)). eapply goes_in_sound; eauto. }
  assert (G3 : forall pl, In pl A -> completion env root ->
     (forall x o pl', possible env root ENone pl (CRow x o) -> goes env x pl pl' -> In pl' A) /\
     (Forall guarded (cands m ENone pl) -> In pl S)).
  { intros pl Hi Hcp. specialize (H3 pl Hi). apply completion_iff in Hcp. rewrite Hcp in H3. apply andb_true_iff in H3.
    destruct H3 as [Ha Hb]. split.
    - intros x o pl' Hp Hgo. apply (possible_iff m Hm) in Hp. rewrite forallb_forall in Ha.
      specialize (Ha _ (proj2 (reached_at_iff m ENone pl _) Hp)). eapply goes_in_sound; eauto.
    - intros Hg. apply orb_true_iff in Hb. destruct Hb as [Hb|Hb]; [|now apply memb_in]. exfalso.
      apply negb_true_iff, not_true_iff_false in Hb. apply Hb. apply forallb_forall. intros c Hcd.
      rewrite Forall_forall in Hg. apply guarded_b_iff. auto. }
  assert (G4 : forall pl, In pl A -> ~ completion env root -> In pl S).
  { intros pl Hi Hcp. specialize (H3 pl Hi). destruct (has_anonymous m) eqn:Eh.
    - exfalso. apply Hcp. now apply completion_iff.
    - now apply memb_in. }
  assert (G1 : forall i, first_initial env root = Some i -> In (root, i) S).
  { intros i Hi. rewrite Hi in H1. now apply memb_in. }
  assert (G5 : forall pl cs, In pl A -> candidate_list env root ENone pl cs -> Forall guarded cs -> In pl S).
  { intros pl cs Hi Hcs Hg. apply (candidate_list_cands m Hc) in Hcs. subst cs.
    destruct (has_anonymous m) eqn:Eh.
    - apply G3; [exact Hi|now apply completion_iff|exact Hg].
    - apply G4; [exact Hi|]. intros Hcp. apply completion_iff in Hcp. congruence. }
  split; intros pl H.
  - apply (arrives_min env root (fun pl => In pl A) (fun pl => In pl S)); eauto. intros; eapply G3; eauto.
  - apply (stays_min env root (fun pl => In pl A) (fun pl => In pl S)); eauto. intros; eapply G3; eauto.
Qed.
End Single.

(** * By names *)
Section Names.
Variables (env : cenv) (root : cls) (m : machine).
Hypothesis Hm : compile env root = Some m.

Lemma amid_visitable V W (cb : cbfun V W) vnone ks ds d0 s r pl : few_regions env root ->
  amid cb m vnone ks ds d0 s -> at_place m s r = Some pl -> visitable env root r (put env root ks r) pl.
Proof.
  intros Hf H Hat. pose proof (few_max_compiled _ _ _ Hm Hf) as Hmax. compiled Hm.
  destruct (amid_within m Hm Hmax cb vnone ks ds d0 s H) as (_ & _ & (G & _)). exact (G r pl Hat).
Qed.
Lemma session_visitable V W (cb : cbfun V W) vnone fuel d w ks outs s r pl : few_regions env root ->
  session cb m vnone fuel d w ks = Done outs s -> at_place m s r = Some pl ->
  visitable env root r (put env root ks r) pl.
Proof.
  intros Hf H Hat. destruct (session_client m cb vnone fuel d w ks outs s H) as (ds & Hcl).
  eapply amid_visitable; eauto. apply am_start. exact Hcl.
Qed.
Lemma amid_client V W (cb : cbfun V W) vnone ks ds d0 (s : rt V W) : amid cb m vnone ks ds d0 s ->
  exists s0, client cb m vnone ks ds d0 s0.
Proof. intros H. induction H; eauto. Qed.
Lemma amid_closed V W (cb : cbfun V W) vnone ks ds d0 s r R pl : few_regions env root ->
  closed_check m r R = true -> (forall r' p q, In (KSet r' p q) ks -> to_region r' = r -> In (p, q) R) ->
  amid cb m vnone ks ds d0 s -> at_place m s r = Some pl -> In pl R.
Proof.
  intros Hf Hck Hset H Hat. pose proof (amid_visitable V W cb vnone ks ds d0 s r pl Hf H Hat) as Hv.
  destruct (amid_client _ _ _ _ _ _ _ _ H) as (s0 & Hcl).
  compiled Hm. pose proof (client_regs m Hm cb vnone ks ds d0 s0 Hcl) as Hregs.
  apply (closed_check_sound m Hm r R Hregs Hck (put (mc_env m) (mc_root m) ks r) pl); [|exact Hv].
  intros pl0 [i Hi|r' p q Hi Hr]; [|eauto].
  unfold closed_check in Hck. rewrite Hi in Hck. apply andb_true_iff in Hck. destruct Hck as [Hck _].
  unfold memb in Hck. destruct (in_dec place_eq_dec (mc_root m, i) R); [assumption|discriminate].
Qed.
Lemma session_closed V W (cb : cbfun V W) vnone fuel d w ks outs s r R pl : few_regions env root ->
  closed_check m r R = true -> (forall r' p q, In (KSet r' p q) ks -> to_region r' = r -> In (p, q) R) ->
  session cb m vnone fuel d w ks = Done outs s -> at_place m s r = Some pl -> In pl R.
Proof.
  intros Hf Hck Hset H Hat. destruct (session_client m cb vnone fuel d w ks outs s H) as (ds & Hcl).
  eapply amid_closed; eauto. apply am_start. exact Hcl.
Qed.

Lemma single_max : single env root -> max_initials m = 1.
Proof.
  intros Hs. assert (H : max_initials m <= 1).
  { compiled Hm. unfold max_initials. apply list_max_le. apply Forall_forall. intros n Hn. apply in_map_iff in Hn.
    destruct Hn as (p & <- & Hp). rewrite initials_spec. apply Hs. now apply (parents_iff m Hc). }
  compiled Hm. pose proof (max_pos m Hc). lia.
Qed.
Lemma no_history_flag : no_history env root -> has_history m = false.
Proof.
  intros H. destruct (has_history m) eqn:E; [|reflexivity]. exfalso. apply H. now apply (history_iff env root m Hm).
Qed.

Lemma session_stays V W (cb : cbfun V W) vnone fuel d w ks outs s pl : single env root -> no_history env root ->
  never_throws cb -> never_sets ks -> session cb m vnone fuel d w ks = Done outs s ->
  at_place m s 0 = Some pl -> stays env root pl.
Proof.
  intros Hs Hn Hcb Hks H Hat. pose proof (single_max Hs) as Hone. pose proof (no_history_flag Hn) as Hnh.
  destruct (session_client m cb vnone fuel d w ks outs s H) as (ds & Hcl).
  compiled Hm. destruct (client_stays m Hm Hone Hnh cb vnone ks ds d s Hcb Hcl Hks) as (G & _). exact (G pl Hat).
Qed.
Lemma stays_exactly pl : single env root -> no_history env root -> well_formed env root ->
  stays env root pl <->
  exists V W (cb : cbfun V W) vnone fuel d w ks outs s, never_throws cb /\ never_sets ks /\
    session cb m vnone fuel d w ks = Done outs s /\ at_place m s 0 = Some pl.
Proof.
  intros Hs Hn Hwf. split.
  - intros H. pose proof (single_max Hs) as Hone. pose proof (no_history_flag Hn) as Hnh.
    compiled Hm. destruct (proj2 (graph_reached m Hm Hone Hnh Hwf) pl H []) as (w1 & ks & s & (fuel & outs & E) & Hks & _ & Hat & _).
    exists unit, (list bool), scripted, tt, fuel, 0, (w1 ++ []), ks, outs, s. split; [|auto].
    intros c a v w n v' w'. unfold scripted. destruct c; try discriminate. destruct w; discriminate.
  - intros (V & W & cb & vnone & fuel & d & w & ks & outs & s & Hcb & Hks & E & Hat). eapply session_stays; eauto.
Qed.
Lemma session_rest_check V W (cb : cbfun V W) vnone fuel d w ks outs s A S pl :
  single env root -> no_history env root -> rest_check m A S = true ->
  never_throws cb -> never_sets ks -> session cb m vnone fuel d w ks = Done outs s ->
  at_place m s 0 = Some pl -> In pl S.
Proof.
  intros Hs Hn Hck Hcb Hks H Hat. pose proof (session_stays _ _ _ _ _ _ _ _ _ _ _ Hs Hn Hcb Hks H Hat) as Hst.
  destruct (session_client m cb vnone fuel d w ks outs s H) as (ds & Hcl).
  compiled Hm. apply (rest_check_sound m Hm A S (client_regs m Hm cb vnone ks ds d s Hcl) Hck). exact Hst.
Qed.
End Names.
