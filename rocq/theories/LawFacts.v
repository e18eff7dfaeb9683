(** Proofs about Law.v. *)

From Coq Require Import List Arith NArith ZArith Bool Lia.
From Verif Require Import Types Static Dispatch Runtime ListFacts IndexFacts Spec
  DispatchFacts FlattenFacts Semantics RefineFacts StaticFacts TermFacts Reach ReachFacts TableFacts
  QueryFacts ProcessFacts RegionFacts CallFacts StepFacts Balance BalanceFacts Law.
Import ListNotations.
Local Open Scope Z_scope.

Lemma sum_app a b : sum (a ++ b) = sum a + sum b.
Proof. induction a as [|x a IH]; cbn; [reflexivity|]. unfold sum in *. lia. Qed.
Lemma total_app {V} psi (a b : list (called V)) : total psi (a ++ b) = total psi a + total psi b.
Proof. unfold total. now rewrite map_app, sum_app. Qed.
Lemma total_callees {V} psi (t : list (called V)) : total psi t = sum (map (weight psi) (map k_callee t)).
Proof. unfold total. now rewrite map_map. Qed.
Lemma sum_zero l : (forall x, In x l -> x = 0) -> sum l = 0.
Proof. induction l as [|x l IH]; intros H; [reflexivity|]. cbn. rewrite (H x) by now left. apply IH. intros y Hy. apply H. now right. Qed.
Lemma sum_set {A} (f : A -> Z) : forall l n a b, nth_error l n = Some a -> sum (map f (set_nth n b l)) + f a = sum (map f l) + f b.
Proof.
  induction l as [|y l IH]; intros [|n] a b H; cbn in H; try discriminate.
  - inversion H; subst. cbn. lia.
  - specialize (IH n a b H). cbn [set_nth map sum fold_right]. unfold sum in *. lia.
Qed.

(** * Places *)
Section Places.
Variable m : machine.
Variable phi : place -> Z.
Definition value (o : option N) : Z :=
  match o with
  | Some n => match nth_error (places m) (N.to_nat n) with Some pl => phi pl | None => 0 end
  | None => 0
  end.
Lemma level_cur {V W} (s : rt V W) : level m phi s = sum (map value (rt_cur s)).
Proof.
  unfold level, at_place.
  assert (G : forall l pre, rt_cur s = pre ++ l ->
    sum (map (fun r => match match nth_error (rt_cur s) r with Some (Some n) => nth_error (places m) (N.to_nat n) | _ => None end with
      Some pl => phi pl | None => 0 end) (seq (length pre) (length l))) = sum (map value l)).
  { induction l as [|o l IH]; intros pre E; [reflexivity|]. cbn [length seq map].
    assert (N0 : nth_error (rt_cur s) (length pre) = Some o).
    { rewrite E, nth_error_app2 by lia. rewrite Nat.sub_diag. reflexivity. }
    rewrite N0. specialize (IH (pre ++ [o])). rewrite app_length in IH. cbn [length] in IH. rewrite Nat.add_1_r in IH.
    rewrite <- app_assoc in IH. specialize (IH E). cbn [sum fold_right]. fold (sum (map value l)). rewrite <- IH. unfold sum. f_equal.
    unfold value. destruct o; reflexivity. }
  exact (G (rt_cur s) [] eq_refl).
Qed.
Lemma level_same {V W} (s s' : rt V W) : rt_cur s' = rt_cur s -> level m phi s' = level m phi s.
Proof. intros E. now rewrite !level_cur, E. Qed.
Lemma level_move {V W} (s s' : rt V W) r n pl : at_place m s r = Some pl -> rt_cur s' = set_nth r (Some n) (rt_cur s) ->
  level m phi s' + phi pl = level m phi s + value (Some n).
Proof.
  intros H E. rewrite !level_cur, E. unfold at_place in H. destruct (nth_error (rt_cur s) r) as [[n0|]|] eqn:E0; try discriminate.
  rewrite <- (sum_set value (rt_cur s) r (Some n0) (Some n) E0). unfold value at 3. rewrite H. reflexivity.
Qed.
Lemma value_code env root pl : compile env root = Some m -> is_place env root pl -> value (Some (code m pl)) = phi pl.
Proof.
  intros Hm. compiled Hm. intros P. apply (place_iff m Hc) in P. destruct P as [P1 P2]. destruct pl as [p q].
  unfold value. now rewrite (decode_code m Hc).
Qed.
End Places.

(** * Steps *)
Section Steps.
Context {V W : Type}.
Variable cb : cbfun V W.
Variables (env : cenv) (root : cls) (m : machine) (vnone : V) (phi : place -> Z) (psi : callee -> Z).
Hypothesis Hm : compile env root = Some m.
Hypothesis Kt : known_targets env root.
Notation st := (rt V W).

Definition light (t : list (called V)) : Prop := forall k, In k t -> weight psi (k_callee k) = 0.
Lemma light_total t : light t -> total psi t = 0.
Proof. intros H. apply sum_zero. intros x Hx. apply in_map_iff in Hx. destruct Hx as (k & <- & Hk). auto. Qed.
Lemma scan_light e bs v w ks vd v' w' : scan cb m e bs v w ks vd v' w' -> light ks.
Proof.
  intros H k Hk. destruct (scan_guards cb m e _ _ _ _ _ _ _ H k Hk) as (d & x & o & ty & val & _ & _ & E).
  unfold signature in E. inversion E as [[E1 E2]]. now rewrite E1.
Qed.
Lemma signed ks (l : list callee) (f : callee -> args) n : map signature ks = firstn n (map (fun k => (k, f k)) l) -> map (@k_callee V) ks = firstn n l.
Proof.
  intros H. apply (f_equal (map fst)) in H. rewrite <- firstn_map, !map_map in H. cbn [fst] in H. rewrite map_id in H. exact H.
Qed.

Definition did (e : ev) (s s' : st) (t : list (called V)) : Prop := exists x pl o gs ks n, t = gs ++ ks /\ light gs /\ candidate env root e pl (CRow x o) /\
  map k_callee ks = firstn n (row_calls env x) /\
  (only_guards_throw cb -> firstn n (row_calls env x) = row_calls env x) /\ level m phi s' - level m phi s = gain env phi x pl.
Lemma exec_law ds r e pl v s ks d x o v1 w1 on v2 s2 : at_place m s r = Some pl ->
  scan cb m e (bound m ds e pl) v (rt_world s) ks (VPick d x o) v1 w1 -> executes cb m r e d x o v1 (after s w1 ks) on v2 s2 ->
  exists t, rt_trace s2 = rt_trace s ++ t /\ did e s s2 t.
Proof.
  destruct (compile_comp _ _ _ Hm) as (Hc & Ee & Er). intros Hat Hs Hx. unfold did.
  assert (Nh : has_history m = false).
  { destruct (has_history m) eqn:E; [|reflexivity]. apply (history_iff _ _ m Hm) in E. destruct E as (y & w0 & p & Hy & Hz).
    destruct (Kt _ Hy) as [E _]. rewrite Hz in E. discriminate. }
    inversion Hx as [v3 s0 s1 ks2 n0 v4 live' w' Mv Pf]; subst.
    assert (Ca : candidate (mc_env m) (mc_root m) e pl (CRow x o)).
    { apply scan_pick in Hs. destruct Hs as (pre & rest & k1 & k2 & va & wa & Eb & _). apply (cands_sound m Hc).
      assert (In (d, CRow x o) (bound m ds e pl)) by (rewrite Eb; apply in_or_app; right; now left).
      unfold bound in H. apply in_flat_map in H. destruct H as (d1 & _ & H). apply in_map_iff in H. destruct H as (q & Eq & H). inversion Eq; subst. exact H. }
    exists (ks ++ ks2). split.
    { inversion Mv as [? Hi|? pl' Hi Hn Ht _|? ? ? Hn|? ? ? ? ? Hn]; subst; try congruence.
      + cbn. now rewrite app_assoc.
      + destruct (relocate_rest m r (code m pl') (after s w1 ks)) as (_ & _ & _ & Rt & Rc & _). cbn [rt_trace with_live with_user after] in *. rewrite Rt. cbn. now rewrite app_assoc. }
    exists x, pl, o, ks, ks2, (length ks2). split; [reflexivity|]. split; [eapply scan_light; eauto|]. split; [exact Ca|].
    pose proof (perform_calls cb _ _ _ _ _ _ _ _ _ _ _ _ Pf) as [P1 P2]. rewrite effects_signature in P1. unfold row_signature in P1.
    split; [eapply signed; exact P1|]. split.
    { intros Hg. destruct on as [k|]; [exfalso; eapply (effect_quiet cb Hg); exact Pf|]. apply firstn_all2.
      pose proof (effects_signature (mc_env m) x o e d) as E. apply (f_equal (@length _)) in E. unfold row_signature in E. rewrite !map_length in E. lia. }
    unfold gain. inversion Mv as [? Hi|? pl' Hi Hn Ht _|? ? ? Hn|? ? ? ? ? Hn]; subst; try congruence.
    + rewrite Hi. rewrite (level_same m phi s); [lia|reflexivity].
    + rewrite Hi, Ht. destruct (relocate_rest m r (code m pl') (after s w1 ks)) as (_ & _ & _ & _ & Rc & _).
      assert (D : declared (mc_env m) (mc_root m) x) by (apply (candidate_starts (mc_env m) (mc_root m) e pl x o Hi Ca)).
      destruct (Kt x D) as (_ & pl2 & Ht2 & Pl2). rewrite Ht in Ht2. inversion Ht2; subst pl2.
      rewrite <- (value_code m phi (mc_env m) (mc_root m) pl' Hm Pl2).
      match goal with |- level m phi ?s2 - _ = _ => pose proof (level_move m phi s s2 r (code m pl') pl Hat) as L end.
      cbn [rt_cur with_live after with_user] in L, Rc. specialize (L Rc). lia.
Qed.

(** A step of a region: guards only, or a row with some or all of its calls. *)
Lemma step_law ds r e v s vd v' s' : region_step cb m ds r e v s vd v' s' ->
  exists t, rt_trace s' = rt_trace s ++ t /\ (light t /\ rt_cur s' = rt_cur s \/ did e s s' t).
Proof.
  intros H.
  destruct H as [v s pl|v s pl ks v' w' Hat Hb Hs|v s pl ks d x o v1 w1 v' s' Hat Hs Hx|v s pl ks v' w' Hat Hs|v s pl ks n v' w' Hat Hs|v s pl ks d x o v1 w1 n v' s' Hat Hs Hx].
  - exists []. rewrite app_nil_r. split; [reflexivity|]. left. split; [intros k []|reflexivity].
  - exists ks. split; [reflexivity|]. left. split; [eapply scan_light; eauto|reflexivity].
  - destruct (exec_law _ _ _ _ _ _ _ _ _ _ _ _ _ _ _ Hat Hs Hx) as (t & Et & D). exists t. auto.
  - exists ks. split; [reflexivity|]. left. split; [eapply scan_light; eauto|reflexivity].
  - exists ks. split; [reflexivity|]. left. split; [eapply scan_light; eauto|reflexivity].
  - destruct (exec_law _ _ _ _ _ _ _ _ _ _ _ _ _ _ _ Hat Hs Hx) as (t & Et & D). exists t. auto.
Qed.

(** * Calls *)
Section Calls.
Variable I : st -> Prop.
Hypothesis I_step : forall ds r e v s vd v' s', I s -> region_step cb m ds r e v s vd v' s' -> I s'.
Hypothesis I_light : forall s s' gs, I s -> light gs -> rt_cur s' = rt_cur s -> rt_trace s' = rt_trace s ++ gs -> I s'.
Hypothesis Hmax : (max_initials m <= 255)%nat.

Lemma J_same s s' : I s -> rt_cur s' = rt_cur s -> rt_trace s' = rt_trace s -> I s'.
Proof. intros H Ec Et. eapply (I_light s s' []); auto; [intros k []|]. now rewrite app_nil_r. Qed.
Lemma process_J ds d0 e v s vds rp s' : rinvs m ds d0 s -> process cb m ds vnone d0 e v s vds rp s' -> I s -> I s'.
Proof.
  destruct (compile_comp _ _ _ Hm) as (Hc & _ & _). intros [T R _] P HI.
  assert (O : forall s1 e1 v1 vds1 avds oe v2 s2, tinv m ds d0 s1 -> rinv m s1 -> I s1 -> offer cb m ds vnone e1 v1 s1 vds1 avds oe v2 s2 -> tinv m ds d0 s2 /\ rinv m s2 /\ I s2).
  { intros s1 e1 v1 vds1 avds oe v2 s2 T1 R1 I1 H. eapply (offer_keeps cb m Hc vnone ds d0 I); eauto. }
  destruct P as [v s vds v1 s1 n v' s' Of Ux|v s vds oe v' s' Of _|v s vds avds n v' s' Of|v s vds avds v' s1 n s' Of Rc].
  - destruct (O _ _ _ _ _ _ _ _ T R HI Of) as (_ & _ & I1). destruct Ux; [exact I1| |]; (eapply I_light; [exact I1| |reflexivity|reflexivity]); intros k [<-|[]]; reflexivity.
  - eapply O; eauto.
  - eapply O; eauto.
  - destruct (O _ _ _ _ _ _ _ _ T R HI Of) as (T1 & R1 & I1). destruct (has_deferred m); [|destruct Rc as [_ ->]; exact I1].
    destruct Rc as [s1|s1 e2 v2 q vds2 avds2 oe v3 s3 Eq Of2]; [exact I1|].
    refine (proj2 (proj2 (O _ _ _ _ _ _ _ _ _ _ _ Of2))).
    + apply (tinv_frame m ds d0 s1); auto.
    + exact R1.
    + eapply J_same; eauto.
Qed.
Lemma run_J fuel : forall ks ds d0 s os s', (forall r p q, ~ In (KSet r p q) ks) -> reachable cb m vnone ds d0 s ->
  run cb m vnone fuel ks s = Done os s' -> I s -> I s'.
Proof.
  destruct (compile_comp _ _ _ Hm) as (Hc & _ & _).
  induction ks as [|k ks IH]; intros ds d0 s os s' Hk R H HI; cbn [run] in H.
  - inversion H; subst. exact HI.
  - apply bind_Done in H. destruct H as (o & s1 & H1 & H). apply bind_Done in H. destruct H as (os' & s2 & H2 & H). inversion H; subst.
    eapply (IH (deps_after k ds) d0 s1); eauto; [intros r p q Hq; eapply Hk; right; eauto|eapply reach_call; eauto|].
    pose proof (reachable_call cb m Hc vnone Hmax ds d0 s fuel k o s1 R H1) as E.
    destruct k as [e v|r p q|p|r p q|d|]; cbn [call_effect] in E; try (subst; exact HI).
    + destruct E as (vds & rp & P & _). eapply process_J; eauto. now apply (reachable_rinvs cb m Hc vnone Hmax).
    + exfalso. eapply Hk. left. reflexivity.
    + destruct E as (_ & t & _ & ->). eapply J_same; eauto.
Qed.
End Calls.

Definition kept_law (s0 s : st) : Prop := exists t, rt_trace s = rt_trace s0 ++ t /\ total psi t = level m phi s - level m phi s0.
Definition kept_bound (s0 s : st) : Prop := exists t, rt_trace s = rt_trace s0 ++ t /\ total psi t <= level m phi s - level m phi s0.
Lemma law_light s0 s s' gs : kept_law s0 s -> light gs -> rt_cur s' = rt_cur s -> rt_trace s' = rt_trace s ++ gs -> kept_law s0 s'.
Proof.
  intros (t & Et & K) G Ec Eg. exists (t ++ gs). split; [rewrite Eg, Et; now rewrite app_assoc|]. rewrite (level_same m phi s s' Ec), total_app, (light_total gs G). lia.
Qed.
Lemma bound_light s0 s s' gs : kept_bound s0 s -> light gs -> rt_cur s' = rt_cur s -> rt_trace s' = rt_trace s ++ gs -> kept_bound s0 s'.
Proof.
  intros (t & Et & K) G Ec Eg. exists (t ++ gs). split; [rewrite Eg, Et; now rewrite app_assoc|]. rewrite (level_same m phi s s' Ec), total_app, (light_total gs G). lia.
Qed.
Lemma law_refl s : kept_law s s.
Proof. exists []. rewrite app_nil_r. split; [reflexivity|]. cbn. lia. Qed.
Lemma bound_refl s : kept_bound s s.
Proof. exists []. rewrite app_nil_r. split; [reflexivity|]. cbn. lia. Qed.
Lemma step_kept ds r e v s0 s vd v' s' : lawful env root phi psi -> only_guards_throw cb -> kept_law s0 s -> region_step cb m ds r e v s vd v' s' -> kept_law s0 s'.
Proof.
  intros L Hg K H. apply step_law in H. destruct H as (t & Et & [[G Ec]|(x & pl & o & gs & ks & n & -> & G & Ca & Ek & Full & Gn)]); [eapply law_light; eauto|].
  destruct K as (t0 & E0 & K). exists (t0 ++ gs ++ ks). split; [rewrite Et, E0; now rewrite <- app_assoc|].
  rewrite !total_app, (light_total gs G), (total_callees psi ks), Ek, (Full Hg), (L _ _ _ _ Ca). lia.
Qed.
Lemma step_bound ds r e v s0 s vd v' s' : bounded env root phi psi -> kept_bound s0 s -> region_step cb m ds r e v s vd v' s' -> kept_bound s0 s'.
Proof.
  intros L K H. apply step_law in H. destruct H as (t & Et & [[G Ec]|(x & pl & o & gs & ks & n & -> & G & Ca & Ek & _ & Gn)]); [eapply bound_light; eauto|].
  destruct K as (t0 & E0 & K). exists (t0 ++ gs ++ ks). split; [rewrite Et, E0; now rewrite <- app_assoc|].
  rewrite !total_app, (light_total gs G), (total_callees psi ks), Ek. pose proof (L _ _ _ _ Ca _ _ (eq_sym (firstn_skipn n (row_calls env x)))). lia.
Qed.
End Steps.

(** * Whole runs *)
Section Runs.
Context {V W : Type}.
Variable cb : cbfun V W.
Variables (env : cenv) (root : cls) (m : machine) (vnone : V) (ds : list dep) (d0 : dep) (s : rt V W) (phi : place -> Z) (psi : callee -> Z).
Hypothesis R : running cb env root m vnone ds d0 s.
Hypothesis Kt : known_targets env root.
Variables (fuel : nat) (ks : list (call V)) (os : list out) (s' : rt V W).
Hypothesis Hk : forall r p q, ~ In (KSet r p q) ks.
Hypothesis Hr : run cb m vnone fuel ks s = Done os s'.

Lemma run_law : lawful env root phi psi -> only_guards_throw cb ->
  exists t, rt_trace s' = rt_trace s ++ t /\ total psi t = level m phi s' - level m phi s.
Proof.
  destruct R as (Hm & F & Re). intros L Hg.
  eapply (run_J cb env root m vnone psi Hm (kept_law m phi psi s)); eauto using law_refl, few_max_compiled, law_light.
  intros. eapply step_kept; eauto.
Qed.
Lemma run_bound : bounded env root phi psi ->
  exists t, rt_trace s' = rt_trace s ++ t /\ total psi t <= level m phi s' - level m phi s.
Proof.
  destruct R as (Hm & F & Re). intros L.
  eapply (run_J cb env root m vnone psi Hm (kept_bound m phi psi s)); eauto using bound_refl, few_max_compiled, bound_light.
  intros. eapply step_bound; eauto.
Qed.
End Runs.

(** * Sessions *)
Definition start_level (env : cenv) (root : cls) (phi : place -> Z) : Z := sum (map (fun i => phi (root, i)) (initial_states env root)).
Lemma fresh_level {V W} env root m (s : rt V W) d w phi : compile env root = Some m -> fresh m d w s -> level m phi s = start_level env root phi.
Proof.
  intros Hm. compiled Hm. intros (Hl & Hcur & _). rewrite level_cur. rewrite initials_spec in Hcur.
  assert (E : rt_cur s = map (fun i => Some (code m (mc_root m, i))) (initial_states (mc_env m) (mc_root m)) ++
    repeat None (max_initials m - length (initial_states (mc_env m) (mc_root m)))).
  { apply lists_same. intros n. rewrite Hcur.
    assert (Le : (length (initial_states (mc_env m) (mc_root m)) <= max_initials m)%nat) by (rewrite <- initials_spec; apply initials_le_max, root_parent; exact Hc).
    destruct (nth_error (initial_states (mc_env m) (mc_root m)) n) as [i|] eqn:E.
    - rewrite nth_error_app1 by (rewrite map_length; apply nth_error_Some; congruence). rewrite nth_error_map, E. reflexivity.
    - apply nth_error_None in E. rewrite nth_error_app2 by (rewrite map_length; exact E). rewrite map_length, nth_repeat.
      destruct (Nat.ltb_spec n (max_initials m)), (Nat.ltb_spec (n - length (initial_states (mc_env m) (mc_root m))) (max_initials m - length (initial_states (mc_env m) (mc_root m)))); auto; lia. }
  rewrite E, map_app, sum_app.
  assert (Z0 : forall n, sum (map (value m phi) (repeat None n)) = 0) by (induction n; [reflexivity|exact IHn]).
  rewrite Z0, Z.add_0_r, map_map. unfold start_level. f_equal. apply map_ext_in. intros i Hi. unfold value. rewrite (decode_code m Hc); [reflexivity|apply root_parent; exact Hc|].
  apply (initials_states m Hc (mc_root m)); [apply root_parent; exact Hc|]. now rewrite initials_spec.
Qed.

Section Session.
Context {V W : Type}.
Variable cb : cbfun V W.
Variables (env : cenv) (root : cls) (m : machine) (vnone : V) (phi : place -> Z) (psi : callee -> Z).
Hypothesis Hm : compile env root = Some m.
Hypothesis F : few_regions env root.
Hypothesis Kt : known_targets env root.
Variables (fuel : nat) (d : dep) (w : W) (ks : list (call V)) (os : list out) (s' : rt V W).
Hypothesis Hk : forall r p q, ~ In (KSet r p q) ks.
Hypothesis Hr : session cb m vnone fuel d w ks = Done os s'.

Lemma session_level : exists s, running cb env root m vnone [d] d s /\ run cb m vnone fuel ks s = Done os s' /\ rt_trace s = [] /\
  level m phi s = start_level env root phi.
Proof.
  unfold session in Hr. apply bind_Done in Hr. destruct Hr as ([] & s & H0 & H). exists s.
  split; [split; [exact Hm|split; [exact F|]]; econstructor; eauto|]. split; [exact H|].
  destruct (compile_comp _ _ _ Hm) as (Hc & _ & _).
  destruct (construct_sound m Hc _ _ _ _ (root_initials_le m Hc (few_max_compiled _ _ _ Hm F)) H0) as [Fr _].
  split; [apply Fr|]. eapply fresh_level; eauto.
Qed.
Lemma session_law : lawful env root phi psi -> only_guards_throw cb ->
  total psi (rt_trace s') = level m phi s' - start_level env root phi.
Proof.
  intros L Hg. destruct session_level as (s & R & H & Et & E).
  destruct (run_law cb env root m vnone [d] d s phi psi R Kt fuel ks os s' Hk H L Hg) as (t & Tt & K). rewrite Et in Tt. cbn in Tt. now rewrite Tt, <- E.
Qed.
Lemma session_bound : bounded env root phi psi -> total psi (rt_trace s') <= level m phi s' - start_level env root phi.
Proof.
  intros L. destruct session_level as (s & R & H & Et & E).
  destruct (run_bound cb env root m vnone [d] d s phi psi R Kt fuel ks os s' Hk H L) as (t & Tt & K). rewrite Et in Tt. cbn in Tt. now rewrite Tt, <- E.
Qed.
End Session.

(** * Checks *)
Section Checks.
Variables (env : cenv) (root : cls) (m : machine) (phi : place -> Z) (psi : callee -> Z).
Hypothesis Hm : compile env root = Some m.

Lemma known_ok_iff : known_ok m = true <-> known_targets env root.
Proof.
  compiled Hm. unfold known_ok, known_targets. rewrite forallb_forall. split.
  - intros H x D. apply (flat_declared m Hc) in D. specialize (H x D). apply andb_true_iff in H. destruct H as [H1 H2]. apply negb_true_iff in H1. split; [exact H1|].
    destruct (target_place (mc_env m) x) as [pl|]; [|discriminate]. exists pl. split; [reflexivity|]. apply (place_iff m Hc).
    destruct (in_dec place_eq_dec pl (places m)) as [Hin|]; [|discriminate]. destruct pl as [p q]. unfold places in Hin. now apply in_prod_iff in Hin.
  - intros H x D. apply (flat_declared m Hc) in D. destruct (H x D) as (H1 & pl & Ht & P). rewrite H1, Ht. cbn [negb andb].
    apply (place_iff m Hc) in P. destruct (in_dec place_eq_dec pl (places m)) as [|Hn]; [reflexivity|]. destruct Hn. destruct pl as [p q]. now apply in_prod_iff.
Qed.

Lemma all_cands_iff pl x : In (pl, x) (all_cands m) <-> exists e o, candidate env root e pl (CRow x o).
Proof.
  compiled Hm. unfold all_cands. rewrite in_app_iff, in_flat_map, in_map_iff. split.
  - intros [(y & Hy & H)|(y & E & Hy)].
    + apply in_map_iff in H. destruct H as (pl0 & E & H). inversion E; subst. apply (flat_declared m Hc) in Hy. unfold row_places in H.
      destruct H as [<-|H]; [exists (x_ev x), (snd (source_place x)); now constructor|].
      destruct (x_src x) as [c| | | | |] eqn:Es; try (destruct H; fail). destruct (is_composite (mc_env m) c) eqn:Ec; [|destruct H].
      apply in_map_iff in H. destruct H as (s & <- & H). apply is_composite_iff in Ec. exists (x_ev x), (SState c).
      eapply cand_enclosing; eauto. now apply (child_typeids_iff m).
    + inversion E; subst. apply (internal_all_iff m Hc) in Hy. exists (x_ev x), (snd (source_place x)). now constructor.
  - intros (e & o & H). inversion H as [y D|y c s D He Hs Hcc Hch|y D|]; subst.
    + left. exists x. split; [now apply (flat_declared m Hc)|]. apply in_map_iff. exists (source_place x). split; [reflexivity|now left].
    + left. exists x. split; [now apply (flat_declared m Hc)|]. apply in_map_iff. exists (c, s). split; [reflexivity|]. right. rewrite Hs. apply is_composite_iff in Hcc. rewrite Hcc.
      apply in_map. now apply (child_typeids_iff m).
    + right. exists x. split; [reflexivity|]. now apply (internal_all_iff m Hc).
Qed.
Lemma lawful_ok_iff : lawful_ok m phi psi = true <-> lawful env root phi psi.
Proof.
  pose proof all_cands_iff as A. compiled Hm. unfold lawful_ok, lawful. rewrite forallb_forall. split.
  - intros H e pl x o Ca. apply Z.eqb_eq. apply (H (pl, x)). apply A. eauto.
  - intros H [pl x] Hin. apply A in Hin. destruct Hin as (e & o & Ca). apply Z.eqb_eq. exact (H _ _ _ _ Ca).
Qed.
Lemma bounded_ok_iff : bounded_ok m phi psi = true <-> bounded env root phi psi.
Proof.
  pose proof all_cands_iff as A. compiled Hm. unfold bounded_ok, bounded. rewrite forallb_forall. split.
  - intros H e pl x o Ca l l' E. assert (Hin : In (pl, x) (all_cands m)) by (apply A; eauto). specialize (H _ Hin). cbn [fst snd] in H. rewrite forallb_forall in H.
    specialize (H (length l)). rewrite E, firstn_app, Nat.sub_diag, firstn_all, app_nil_r in H. apply Z.leb_le, H. apply in_seq. rewrite app_length. lia.
  - intros H [pl x] Hin. apply A in Hin. destruct Hin as (e & o & Ca). apply forallb_forall. intros n _. apply Z.leb_le. eapply H; [exact Ca|]. symmetry. apply firstn_skipn.
Qed.
End Checks.
