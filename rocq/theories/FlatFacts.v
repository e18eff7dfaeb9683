(** Programs with one table are the machines of Flat.v. *)

From Coq Require Import List Arith NArith Bool Lia.
From Verif Require Import Types Static Dispatch Runtime ListFacts IndexFacts Spec
  DispatchFacts FlattenFacts Semantics RefineFacts StaticFacts TermFacts Reach ReachFacts TableFacts
  QueryFacts ProcessFacts CallFacts Safe SafeFacts SafeObjects TermRank TermMeta Graph GraphFacts GraphExact RegionFacts Flat.
Import ListNotations.

Section Static.
Variables (env : cenv) (root : cls).
Hypothesis Hf : one_table env root.

Lemma flat_used p : used env root p -> p = root.
Proof.
  intros H. induction H as [|p r c H IH Hr Hl Hc]; [reflexivity|]. subst p.
  destruct (ot_rows _ _ Hf r Hr) as (_ & _ & b & Eb & Hb). rewrite Eb in Hl. inversion Hl; subst. contradiction.
Qed.
Lemma flat_declared_row x : declared env root x <-> exists r, In r (table env root) /\ x = row_in root r.
Proof.
  split.
  - intros (p & r & Hu & Hr & ->). apply flat_used in Hu. subst p. eauto.
  - intros (r & Hr & ->). exists root, r. split; [constructor|auto].
Qed.
Lemma flat_no_internal x : ~ declared_internal env root x.
Proof. intros H. destruct H as [p c i s _ _ Hi _|p c i _ _ Hi]; rewrite (proj1 (ot_classes _ _ Hf c)) in Hi; exact Hi. Qed.
Lemma flat_constructible q : default_constructible env q = true.
Proof. destruct q; try reflexivity. exact (proj2 (proj2 (ot_classes _ _ Hf c))). Qed.
Lemma flat_no_defers c : defers env c = [].
Proof. unfold defers. now rewrite (proj1 (proj2 (ot_classes _ _ Hf c))). Qed.
Lemma flat_few : few_regions env root.
Proof. intros p (Hu & _). apply flat_used in Hu. subst p. exact (proj2 (ot_regions _ _ Hf)). Qed.
Lemma flat_no_history : no_history env root.
Proof.
  intros (x & w & p & Hx & E). apply flat_declared_row in Hx. destruct Hx as (r & Hr & ->).
  destruct (ot_rows _ _ Hf r Hr) as (_ & _ & b & Eb & _). cbn in E. congruence.
Qed.
Lemma flat_no_anonymous : ~ exists x, declared env root x /\ x_ev x = ENone.
Proof.
  intros (x & Hx & E). apply flat_declared_row in Hx. destruct Hx as (r & Hr & ->).
  exact (proj1 (ot_rows _ _ Hf r Hr) E).
Qed.
Lemma row_source r : In r (table env root) -> source_place (row_in root r) = (root, unmarked (r_src r)).
Proof.
  intros Hr. destruct (ot_rows _ _ Hf r Hr) as (_ & (a & Ea & _) & _). unfold source_place, row_in. cbn.
  destruct (r_src r); cbn in *; try discriminate; reflexivity.
Qed.
Lemma row_target r : In r (table env root) -> target_place env (row_in root r) = Some (root, r_tgt r).
Proof.
  intros Hr. destruct (ot_rows _ _ Hf r Hr) as (_ & _ & b & Eb & Hb). unfold target_place, row_in. cbn. rewrite Eb.
  unfold is_composite. unfold composite in Hb. destruct (cd_table (lookup env b)); [|reflexivity]. exfalso. apply Hb. discriminate.
Qed.
Lemma flat_candidate e pl c : candidate env root e pl c ->
  exists r, In r (table env root) /\ r_ev r = e /\ pl = (root, unmarked (r_src r)) /\ c = CRow (row_in root r) (unmarked (r_src r)).
Proof.
  intros H. inversion H as [x D E1|x c0 s D E1 E2 Hcomp Hch|x D E1|x c0 D E1 E2]; subst.
  - apply flat_declared_row in D. destruct D as (r & Hr & ->). exists r. rewrite (row_source r Hr). auto.
  - exfalso. apply flat_declared_row in D. destruct D as (r & Hr & ->).
    destruct (ot_rows _ _ Hf r Hr) as (_ & (a & Ea & Ha) & _). cbn in E2. rewrite E2 in Ea. cbn in Ea.
    inversion Ea; subst. contradiction.
  - exfalso. exact (flat_no_internal x D).
  - exfalso. rewrite flat_no_defers in E2. exact E2.
Qed.
Variable m : machine.
Hypothesis Hm : compile env root = Some m.

Lemma root_parent : is_parent env root root.
Proof.
  split; [constructor|]. intros E. pose proof (proj1 (ot_regions _ _ Hf)) as H. unfold initial_states, mentioned in H. rewrite E in H. inversion H.
Qed.
Lemma target_is_place r : In r (table env root) -> is_place env root (root, r_tgt r).
Proof. intros Hr. split; [exact root_parent|]. right. exists root. split; [constructor|]. exists r. auto. Qed.
Lemma source_is_place r : In r (table env root) -> is_place env root (root, unmarked (r_src r)).
Proof. intros Hr. split; [exact root_parent|]. right. exists root. split; [constructor|]. exists r. auto. Qed.
Lemma flat_pointer r ty b : In r (table env root) -> r_act r = Action ty b -> ~ needs_pointer b.
Proof.
  intros Hr Ha Hb. assert (D : declared env root (row_in root r)) by (apply flat_declared_row; eauto).
  pose proof (rf_pointer _ _ _ (declared_fine env root m Hm _ D) ty b Ha Hb) as F. now rewrite flat_constructible in F.
Qed.
Lemma flat_visits_rows : visits env root (table env root) (map (row_in root) (table env root)).
Proof.
  assert (H : forall l, incl l (table env root) -> visits env root l (map (row_in root) l)).
  { induction l as [|r l IH]; intros Hi; [constructor|]. cbn. apply vis_leaf.
    - destruct (ot_rows _ _ Hf r (Hi r (or_introl eq_refl))) as (_ & _ & b & Eb & Hb). rewrite Eb.
      intros c' Hl. inversion Hl; subst. exact Hb.
    - apply IH. intros x Hx. apply Hi. now right. }
  apply H. apply incl_refl.
Qed.
Lemma flat_candidate_list e q :
  candidate_list env root e (root, q) (map (fun r => CRow (row_in root r) q) (rows_for env root q e)).
Proof.
  exists (map (row_in root) (table env root)), []. split; [exact flat_visits_rows|].
  assert (Ei : internal_rows env root (map (row_in root) (table env root)) = []).
  { unfold internal_rows. induction (occurrences _ _) as [|[p s] l IH]; [reflexivity|]. cbn [flat_map]. rewrite IH, app_nil_r.
    unfold internal_rows_of. cbn [snd]. destruct s; try reflexivity. now rewrite (proj1 (ot_classes _ _ Hf c)). }
  rewrite Ei. split; [constructor|]. unfold priority.
  assert (Ed : forall l, defers_at (deferred_by env) e (root, q) l = []).
  { induction l as [|x l IH]; [reflexivity|]. unfold defers_at in *. cbn [flat_map]. rewrite IH, app_nil_r.
    assert (Eb : deferred_by env x = []) by (unfold deferred_by; destruct (unmarked (x_src x)); try reflexivity; apply flat_no_defers).
    rewrite Eb. now destruct (place_eq_dec _ _). }
  rewrite Ed. cbn [rev app rows_at flat_map]. rewrite app_nil_r. unfold rows_for. rewrite map_rev. f_equal.
  assert (H : forall l, incl l (table env root) ->
    map (fun r => CRow (row_in root r) q) (filter (row_for q e) l) =
    rows_at (is_composite env) (children env) e (root, q) (map (row_in root) l)).
  { induction l as [|r l IH]; intros Hi; [reflexivity|]. assert (Hr : In r (table env root)) by (apply Hi; now left).
    assert (IH' := IH (fun x Hx => Hi x (or_intror Hx))). clear IH. unfold rows_at in *. cbn [map flat_map filter]. rewrite <- IH'.
    assert (Eo : offers (is_composite env) (children env) (row_in root r) =
                 [(source_place (row_in root r), snd (source_place (row_in root r)))]).
    { unfold offers. destruct (ot_rows _ _ Hf r Hr) as (_ & (a & Ea & Ha) & _). unfold row_in at 3. cbn [x_int]. f_equal.
      unfold row_in. cbn [x_src]. destruct (r_src r); try reflexivity. cbn in Ea. inversion Ea; subst.
      unfold is_composite. unfold composite in Ha. destruct (cd_table (lookup env a)); [|reflexivity]. exfalso. apply Ha. discriminate. }
    rewrite Eo. cbn [flat_map fst snd]. rewrite (row_source r Hr). unfold row_for at 1. change (x_ev (row_in root r)) with (r_ev r).
    destruct (ev_eq_dec (r_ev r) e) as [Ee|Ne]; destruct (sref_eq_dec (unmarked (r_src r)) q) as [Eq|Nq]; cbn [map app snd].
    - rewrite Eq. destruct (place_eq_dec (root, q) (root, q)); [reflexivity|congruence].
    - destruct (place_eq_dec (root, unmarked (r_src r)) (root, q)); [congruence|reflexivity].
    - reflexivity.
    - reflexivity. }
  apply H. apply incl_refl.
Qed.
Lemma flat_cands e q : cands m e (root, q) = map (fun r => CRow (row_in root r) q) (rows_for env root q e).
Proof. symmetry. generalize (flat_candidate_list e q). compiled Hm. apply (candidate_list_cands m Hc). Qed.
Lemma rows_for_In q e r : In r (rows_for env root q e) -> In r (table env root) /\ unmarked (r_src r) = q /\ r_ev r = e.
Proof.
  unfold rows_for. rewrite <- in_rev, filter_In. unfold row_for. intros [H1 H2]. split; [exact H1|].
  destruct (sref_eq_dec _ _); [|discriminate]. destruct (ev_eq_dec _ _); [auto|discriminate].
Qed.

Lemma flat_offered e pl c : offered env root e pl c -> candidate env root e pl c.
Proof. compiled Hm. intros H. apply (offered_iff m Hm) in H. now apply (cands_sound m Hc). Qed.
Lemma flat_well_formed : well_formed env root.
Proof.
  split.
  - split.
    + intros e pl c H. destruct (flat_candidate _ _ _ H) as (r & Hr & _ & -> & _). now apply source_is_place.
    + intros x pl Hx Ht. apply flat_declared_row in Hx. destruct Hx as (r & Hr & ->). rewrite (row_target r Hr) in Ht.
      inversion Ht. exact root_parent.
    + exact flat_few.
    + intros p (Hu & _). apply flat_used in Hu. subst p. apply le_n.
    + intros H. contradiction (flat_no_history H).
  - split.
    + intros. rewrite !flat_constructible. auto.
    + intros. apply flat_constructible.
    + intros e pl x o ty b H Ha Hb. apply flat_offered in H. apply flat_candidate in H. destruct H as (r & Hr & _ & _ & E).
      inversion E; subst. apply (flat_pointer r ty b Hr Ha). clear - Hb. induction Hb; econstructor; eauto.
    + intros. apply flat_constructible.
  - intros H. contradiction (flat_no_anonymous H).
Qed.
Lemma flat_ranked : ranked env root (fun _ => 0).
Proof.
  intros pl x o H. exfalso. apply flat_candidate in H. destruct H as (r & Hr & E & _).
  exact (proj1 (ot_rows _ _ Hf r Hr) E).
Qed.
Lemma table_plain : has_history m = false /\ has_anonymous m = false /\ has_deferred m = false.
Proof.
  split; [apply (no_history_flag env root m Hm), flat_no_history|].
  split.
  - destruct (has_anonymous m) eqn:E; [|reflexivity]. exfalso. apply (anonymous_iff env root m Hm) in E. exact (flat_no_anonymous E).
  - destruct (has_deferred m) eqn:E; [|reflexivity]. exfalso. apply (deferred_iff env root m Hm) in E.
    destruct E as (x & c & l & _ & _ & E). rewrite (proj1 (proj2 (ot_classes _ _ Hf c))) in E. discriminate.
Qed.
End Static.

Coercion flat_table env root (H : flat env root) : one_table env root :=
  mkOneTable env root (fl_rows _ _ H) (ltac:(rewrite (fl_one _ _ H); lia)) (fl_classes _ _ H).
Lemma flat_single env root : flat env root -> single env root.
Proof. intros Hf p (Hu & _). apply (flat_used env root Hf) in Hu. subst p. rewrite (fl_one _ _ Hf). apply le_n. Qed.
Lemma flat_plain env root (Hf : flat env root) m (Hm : compile env root = Some m) :
  parallel m = false /\ has_history m = false /\ has_anonymous m = false /\ has_deferred m = false.
Proof.
  split; [apply not_parallel; apply (single_max env root m Hm); now apply flat_single|]. exact (table_plain env root Hf m Hm).
Qed.

Section Rows.
Variables (env : cenv) (root : cls) (m : machine).
Hypothesis Hf : one_table env root.
Hypothesis Hm : compile env root = Some m.
Context {V W : Type}.
Variable cb : cbfun V W.
Variables (vnone : V) (d : dep).
Notation st := (rt V W).

Lemma env_eq : mc_env m = env.
Proof. destruct (compile_comp _ _ _ Hm) as (_ & H & _). congruence. Qed.
Lemma root_eq : mc_root m = root.
Proof. destruct (compile_comp _ _ _ Hm) as (_ & _ & H). congruence. Qed.
Lemma row_target_state r : In r (table env root) -> target_state (mc_env m) (row_in root r) = r_tgt r.
Proof. intros Hr. unfold target_state. now rewrite env_eq, (row_target env root Hf r Hr). Qed.

Definition verdict_of (q : sref) (c : choice) : verdict :=
  match c with Nobody => VNone | Chosen r => VPick d (row_in root r) q | Objection n => VRaise n end.
Definition bcands (q : sref) (rs : list row) : list bcand := map (fun r => (d, CRow (row_in root r) q)) rs.
Lemma choose_scan q e : forall rs v w c ks v' w', incl rs (table env root) ->
  choose cb d q e rs v w = (c, ks, v', w') -> scan cb m e (bcands q rs) v w ks (verdict_of q c) v' w'.
Proof.
  induction rs as [|r rs IH]; intros v w c ks v' w' Hi H; cbn [choose] in H.
  - inversion H; subst. constructor.
  - assert (Hr : In r (table env root)) by (apply Hi; now left).
    assert (Hi' : incl rs (table env root)) by (intros x Hx; apply Hi; now right).
    assert (Ea : guard_args m e d (row_in root r) q = mkArgs e q (TObj (r_tgt r)) d).
    { unfold guard_args. rewrite (row_target_state r Hr). reflexivity. }
    cbn [bcands map]. fold (bcands q rs). destruct (r_guard r) as [|ty val] eqn:G.
    + inversion H; subst. apply scan_free. exact G.
    + destruct (cb (CGuard ty val) (mkArgs e q (TObj (r_tgt r)) d) v w) as [[|] v1 w1|n v1 w1] eqn:K.
      * inversion H; subst. rewrite <- Ea in *. eapply scan_yes; [exact G|exact K].
      * destruct (choose cb d q e rs v1 w1) as [[[c0 ks0] v2] w2] eqn:C. inversion H; subst. rewrite <- Ea in *.
        eapply scan_no; [exact G|exact K|]. now apply IH.
      * inversion H; subst. rewrite <- Ea in *. eapply scan_raise; [exact G|exact K].
Qed.
Definition plain (t : sref) (c : callee) : prim := mkPrim c (TObj t) true None.
Lemma carry_perform q e t live : forall cs v w n ks w',
  carry_out cb d q e t cs v w = (n, ks, w') ->
  exists v', perform cb e d q (map (plain t) cs) v live w ks n v' live w'.
Proof.
  induction cs as [|c cs IH]; intros v w n ks w' H; cbn [carry_out] in H.
  - inversion H; subst. exists v. constructor.
  - destruct (cb c (mkArgs e q (TObj t) d) v w) as [b v1 w1|k v1 w1] eqn:K.
    + destruct (carry_out cb d q e t cs v1 w1) as [[n0 ks0] w2] eqn:C. inversion H; subst.
      destruct (IH _ _ _ _ _ C) as (v' & P). exists v'. cbn [map]. exact (pf_call cb e d q (plain t c) _ v live w b v1 w1 ks0 n v' live w' K P).
    + inversion H; subst. exists v. cbn [map]. exact (pf_raise cb e d q (plain t c) _ v live w k v1 w' K).
Qed.
Lemma body_plain t : forall b, ~ needs_pointer b -> body_calls (TObj t) t b = map (plain t) (callees b).
Proof.
  fix IH 1. intros [f|f|f|l] H; cbn.
  - reflexivity.
  - exfalso. apply H. constructor.
  - exfalso. apply H. constructor.
  - assert (H' : forall b, In b l -> ~ needs_pointer b) by (intros b Hb N; apply H; econstructor; eauto). clear H.
    induction l as [|b l IHl]; [reflexivity|]. cbn [flat_map]. rewrite map_app. f_equal.
    + apply IH. apply H'. now left.
    + apply IHl. intros b' Hb'. apply H'. now right.
Qed.
Lemma row_effects r q : In r (table env root) ->
  effects (mc_env m) (row_in root r) q = map (plain (r_tgt r)) (deeds env r).
Proof.
  intros Hr. unfold effects. rewrite (row_target_state r Hr). unfold action_target. rewrite (row_target_state r Hr), env_eq.
  rewrite (flat_constructible env root Hf). cbn [x_int row_in].
  destruct (ot_rows _ _ Hf r Hr) as (_ & (a & Ea & Ha) & b & Eb & Hb). unfold deeds. rewrite !map_app.
  assert (E1 : initial_entry_call env (row_in root r) = []).
  { unfold initial_entry_call, row_in. cbn. rewrite Eb. unfold is_composite. unfold composite in Hb.
    destruct (cd_table (lookup env b)); [exfalso; apply Hb; discriminate|reflexivity]. }
  rewrite E1. cbn [map]. rewrite app_nil_r. f_equal; [|f_equal].
  - unfold exit_call, row_in. cbn. destruct (r_src r); try discriminate; reflexivity.
  - unfold row_in. cbn. destruct (r_act r) as [|ty bd] eqn:A; [reflexivity|]. apply body_plain.
    now apply (flat_pointer env root Hf m Hm r ty bd Hr).
Qed.
Lemma bound_one q e : bound m [d] e (root, q) = bcands q (rows_for env root q e).
Proof. unfold bound. cbn [flat_map]. rewrite app_nil_r, (flat_cands env root Hf m Hm). unfold bcands. now rewrite map_map. Qed.

End Rows.

Section Run.
Variables (env : cenv) (root : cls) (m : machine).
Hypothesis Hf : flat env root.
Hypothesis Hm : compile env root = Some m.
Context {V W : Type}.
Variable cb : cbfun V W.
Variables (vnone : V) (d : dep).
Notation st := (rt V W).
Lemma row_executes r q e v (s : st) n ks w' : In r (table env root) -> 0 < length (rt_cur s) ->
  carry_out cb d q e (r_tgt r) (deeds env r) v (rt_world s) = (n, ks, w') ->
  exists v' s', executes cb m 0 e d (row_in root r) q v s n v' s' /\ at_place m s' 0 = Some (root, r_tgt r) /\
    rt_trace s' = rt_trace s ++ ks /\ rt_world s' = w'.
Proof.
  intros Hr Hl H. destruct (flat_plain env root Hf m Hm) as (Hp & Hh & _).
  set (s1 := relocate m 0 (code m (root, r_tgt r)) s).
  assert (Em : moves m 0 (row_in root r) s s1).
  { apply mv_plain; [reflexivity|exact Hh|rewrite (env_eq env root m Hm); apply (row_target env root Hf r Hr)|]. intros F. congruence. }
  destruct (relocate_rest m 0 (code m (root, r_tgt r)) s) as (_ & Ew0 & Ew & Et & Ec & _). fold s1 in Ew0, Ew, Et, Ec.
  rewrite <- Ew in H. destruct (carry_perform cb d q e (r_tgt r) (rt_live s1) _ _ _ _ _ _ H) as (v' & P).
  rewrite <- (row_effects env root m Hf Hm r q Hr) in P.
  exists v', (with_live (after s1 w' ks) (rt_live s1)). split; [econstructor; [exact Em|exact P]|].
  split; [|split; [cbn; now rewrite Et|reflexivity]].
  assert (Ea : at_place m (with_live (after s1 w' ks) (rt_live s1)) 0 = at_place m s1 0) by reflexivity.
  rewrite Ea. apply at_place_relocate; [exact Hl|].
  assert (Pl : is_place env root (root, r_tgt r)) by (now apply (target_is_place env root Hf)).
  clear - Pl Hm. compiled Hm. apply (place_iff m Hc) in Pl. destruct Pl. now apply (decode_code m Hc).
Qed.
Lemma one_region e v (s : st) vd v' s' : region_step cb m [d] 0 e v s vd v' s' ->
  regions_run cb m [d] e (active m s) 0 v s [vd] v' s'.
Proof.
  intros H. destruct (flat_plain env root Hf m Hm) as (Hp & _). unfold active. rewrite Hp.
  destruct (stops vd) eqn:S; [now apply rr_stop; auto|]. eapply rr_next; eauto. constructor. apply le_n.
Qed.
Definition reply_out (rp : reply (V:=V)) : out :=
  match rp with Returned b _ => OBool b | Exception n => OExn (XUser n) end.

Lemma react_process q e v (s : st) o ks q' w' : at_place m s 0 = Some (root, q) ->
  react cb env root d q e v (rt_world s) = (o, ks, q', w') ->
  exists vds rp s', process cb m [d] vnone d e v s vds rp s' /\ reply_out rp = o /\
    at_place m s' 0 = Some (root, q') /\ rt_trace s' = rt_trace s ++ ks /\ rt_world s' = w'.
Proof.
  intros Hat H. destruct (flat_plain env root Hf m Hm) as (Hp & Hh & Ha & Hd).
  assert (Hl : 0 < length (rt_cur s)).
  { unfold at_place in Hat. destruct (rt_cur s); [discriminate|cbn; lia]. }
  assert (Hi : incl (rows_for env root q e) (table env root)) by (intros r Hr; apply (rows_for_In env root q e r Hr)).
  pose proof (bound_one env root m Hf Hm d q e) as B. unfold react in H. destruct (rows_for env root q e) as [|r0 rs0] eqn:R.
  - assert (Of : offer cb m [d] vnone e v s [RNothing] [] OfUnhandled v s).
    { apply of_unhandled; [|reflexivity]. apply one_region. eapply rs_nothing; [exact Hat|]. now rewrite B. }
    destruct (cd_unexpected (lookup env root)) eqn:U.
    + destruct (cb CHandler (mkArgs e q TNone d) v (rt_world s)) as [b v1 w1|n v1 w1] eqn:K; inversion H; subst.
      * exists [RNothing], (Returned false v1). eexists. split.
        { eapply (pr_unhandled cb m [d] vnone d e v s [RNothing] v s None); [exact Of|].
          eapply ux_handled; [rewrite (env_eq env root m Hm), (root_eq env root m Hm); exact U|exact Hat|exact K]. }
        split; [reflexivity|]. split; [exact Hat|]. split; reflexivity.
      * exists [RNothing], (Exception n). eexists. split.
        { eapply (pr_unhandled cb m [d] vnone d e v s [RNothing] v s (Some n)); [exact Of|].
          eapply ux_threw; [rewrite (env_eq env root m Hm), (root_eq env root m Hm); exact U|exact Hat|exact K]. }
        split; [reflexivity|]. split; [exact Hat|]. split; reflexivity.
    + inversion H; subst. exists [RNothing], (Returned false v), s. split.
      { eapply (pr_unhandled cb m [d] vnone d e v s [RNothing] v s None); [exact Of|]. apply ux_no_handler.
        now rewrite (env_eq env root m Hm), (root_eq env root m Hm). }
      split; [reflexivity|]. split; [exact Hat|]. split; [now rewrite app_nil_r|reflexivity].
  - rewrite <- R in B, Hi, H. destruct (choose cb d q e (rows_for env root q e) v (rt_world s)) as [[[c ks1] v1] w1] eqn:C.
    assert (Sc := choose_scan env root m Hf Hm cb d q e _ _ _ _ _ _ _ Hi C). rewrite <- B in Sc.
    assert (Nb : bound m [d] e (root, q) <> []) by (rewrite B, R; discriminate).
    destruct c as [|r|n]; cbn [verdict_of] in Sc.
    + inversion H; subst. exists [RRefused], (Returned false v1). eexists. split.
      { eapply (pr_not_taken cb m [d] vnone d e v s [RRefused] OfRefused); [|now left].
        apply of_refused; try reflexivity. apply one_region. eapply Semantics.rs_refused; [exact Hat|exact Nb|exact Sc]. }
      split; [reflexivity|]. split; [exact Hat|]. split; reflexivity.
    + assert (Hr : In r (table env root)).
      { assert (G : forall rs v0 w0 c0 k0 v2 w2, choose cb d q e rs v0 w0 = (c0, k0, v2, w2) -> c0 = Chosen r -> In r rs).
        { clear. induction rs as [|x rs IH]; intros v0 w0 c0 k0 v2 w2 H E; cbn [choose] in H; [inversion H; congruence|].
          destruct (r_guard x) as [|ty val]; [inversion H; subst; left; congruence|].
          destruct (cb _ _ _ _) as [[|] va wa|k va wa]; [inversion H; subst; left; congruence| |inversion H; congruence].
          destruct (choose cb d q e rs va wa) as [[[c1 k1] v3] w3] eqn:C. inversion H; subst. right. eapply IH; eauto. }
        apply Hi. eapply G; eauto. }
      destruct (carry_out cb d q e (r_tgt r) (deeds env r) v1 w1) as [[n ks2] w2] eqn:K. inversion H; subst.
      destruct (row_executes r q e v1 (after s w1 ks1) n ks2 w' Hr Hl K) as (v' & s' & X & P1 & P2 & P3).
      destruct n as [n|].
      * exists ([] ++ [REffectThrew (row_in root r) n]), (Exception n), s'. split.
        { eapply pr_threw. eapply of_threw; [|reflexivity]. apply one_region. eapply rs_effect_threw; [exact Hat|exact Sc|exact X]. }
        split; [reflexivity|]. split; [exact P1|]. split; [|exact P3]. rewrite P2. cbn. now rewrite app_assoc.
      * exists [RFired (row_in root r)], (Returned true v'), s'. split.
        { eapply (pr_handled cb m [d] vnone d e v s _ [] v' s' None); [|rewrite Hd; auto].
          eapply of_handled; [apply one_region; eapply rs_fired; [exact Hat|exact Sc|exact X]|reflexivity|reflexivity|].
          rewrite Ha. auto. }
        split; [reflexivity|]. split; [exact P1|]. split; [|exact P3]. rewrite P2. cbn. now rewrite app_assoc.
    + inversion H; subst. exists ([] ++ [RGuardThrew n]), (Exception n). eexists. split.
      { eapply pr_threw. eapply of_threw; [|reflexivity]. apply one_region. eapply rs_guard_threw; [exact Hat|exact Sc]. }
      split; [reflexivity|]. split; [exact Hat|]. split; reflexivity.
Qed.
End Run.

Lemma react_step env root m : compile env root = Some m -> flat env root ->
  exists bound, 2 <= bound /\ forall V W (cb : cbfun V W) vnone fuel d s q e v, bound <= fuel ->
    reachable cb m vnone [d] d s -> event_of env root e -> at_place m s 0 = Some (root, q) ->
    forall o ks q' w', react cb env root d q e v (rt_world s) = (o, ks, q', w') ->
    exists s', do_call_catch cb m vnone fuel (KProcess e v) s = Done o s' /\
      at_place m s' 0 = Some (root, q') /\ rt_trace s' = rt_trace s ++ ks /\ rt_world s' = w'.
Proof.
  intros Hm Hf. destruct (rank_bounds_calls env root m Hm (flat_few env root Hf) _ (flat_ranked env root Hf)) as (b & Hb).
  exists (Nat.max b 2). split; [lia|]. intros V W cb vnone fuel d s q e v Hle R He Hat o ks q' w' E.
  destruct (react_process env root m Hf Hm cb vnone d q e v s o ks q' w' Hat E) as (vds & rp & s1 & P & Ro & P1 & P2 & P3).
  assert (Hle' : b <= fuel) by lia. specialize (Hb V W cb vnone fuel [d] d s (KProcess e v) Hle' R).
  destruct (call_well_formed cb env root m Hm vnone fuel [d] d s (KProcess e v) (flat_well_formed env root Hf m Hm) R He) as (U1 & U2).
  pose proof (process_agrees cb env root m vnone [d] d s fuel e v (conj Hm (conj (flat_few env root Hf) R))) as A.
  unfold do_call_catch, do_call in *. destruct (process_event cb m vnone fuel e v s) as [[bb v'] s'|x s'|u|]; cbn [bind fst] in *.
  - destruct A as (_ & A). destruct (A _ _ _ P) as (-> & ->). exists s'. cbn in Ro. subst o. auto.
  - destruct A as (n & -> & _ & A). destruct (A _ _ _ P) as (-> & ->). exists s'. cbn in Ro. subst o. auto.
  - exfalso. exact (U1 u eq_refl).
  - contradiction.
Qed.

Lemma flat_session env root m : compile env root = Some m -> flat env root ->
  exists bound, forall V W (cb : cbfun V W) vnone fuel d w l i outs ks q w', bound <= fuel ->
    Forall (fun ev => event_of env root (fst ev)) l -> first_initial env root = Some i ->
    reacts cb env root d i l w = (outs, ks, q, w') ->
    exists s, session cb m vnone fuel d w (map (fun ev => KProcess (fst ev) (snd ev)) l) = Done outs s /\
      at_place m s 0 = Some (root, q) /\ rt_trace s = ks /\ rt_world s = w'.
Proof.
  intros Hm Hf. destruct (react_step env root m Hm Hf) as (b & Hb2 & Hb). exists b.
  intros V W cb vnone fuel d w l i outs ks q w' Hle Hl Hi H. pose proof (fl_one _ _ Hf) as L1.
  destruct (construct_defined (V:=V) (W:=W) env root m Hm fuel d w) as (s0 & E0);
    [exact (wp_sources _ _ (wf_placed _ _ (flat_well_formed env root Hf m Hm)))|lia|lia|intros _ F; rewrite F in L1; discriminate|].
  destruct (construct_result env root m Hm fuel d w s0 ltac:(lia) E0) as (C1 & _ & _ & _ & _ & _ & _ & Ct & Cw).
  unfold session. rewrite E0. cbn [bind].
  assert (A0 : at_place m s0 0 = Some (root, i)).
  { apply C1. unfold first_initial in Hi. destruct (initial_states env root); [discriminate|exact Hi]. }
  assert (R0 : reachable cb m vnone [d] d s0) by (econstructor; exact E0).
  assert (G : exists s, run cb m vnone fuel (map (fun ev => KProcess (fst ev) (snd ev)) l) s0 = Done outs s /\
      at_place m s 0 = Some (root, q) /\ rt_trace s = rt_trace s0 ++ ks /\ rt_world s = w').
  { clear E0 C1 Ct Hi L1. revert s0 i w outs ks q w' Cw A0 R0 H. induction Hl as [|[e v] l He Hl IH]; intros s0 i w outs ks q w' Cw A0 R0 H.
    - cbn in H. inversion H; subst. exists s0. cbn [map run]. rewrite app_nil_r. auto.
    - cbn [reacts] in H. destruct (react cb env root d i e v w) as [[[o k1] q1] w1] eqn:E1.
      destruct (reacts cb env root d q1 l w1) as [[[os k2] q2] w2] eqn:E2. inversion H; subst.
      destruct (Hb V W cb vnone fuel d s0 i e v Hle R0 He A0 _ _ _ _ E1) as (s1 & D1 & P1 & P2 & P3).
      assert (R1 : reachable cb m vnone [d] d s1) by (exact (reach_call cb m vnone fuel [d] d s0 (KProcess e v) o s1 R0 D1)).
      destruct (IH s1 q1 w1 os k2 q w' P3 P1 R1 E2) as (s2 & D2 & Q1 & Q2 & Q3).
      exists s2. cbn [map fst snd run]. rewrite D1. cbn [bind]. rewrite D2. cbn [bind]. split; [reflexivity|].
      split; [exact Q1|]. split; [|exact Q3]. rewrite Q2, P2. now rewrite app_assoc. }
  destruct G as (s & D & Q1 & Q2 & Q3). rewrite Ct in Q2. exists s. auto.
Qed.

(** Without guards the states do not depend on the user code at all. *)
Lemma unguarded_next {V W} (cb : cbfun V W) env root d q e v w :
  (forall r, In r (table env root) -> r_guard r = NoGuard) ->
  snd (fst (react cb env root d q e v w)) = next env root q e.
Proof.
  intros Hg. unfold react, next. assert (Hi : forall r, In r (rows_for env root q e) -> r_guard r = NoGuard).
  { intros r Hr. apply Hg. apply (rows_for_In env root q e r Hr). }
  destruct (rows_for env root q e) as [|r rs].
  - destruct (cd_unexpected (lookup env root)); [|reflexivity]. now destruct (cb CHandler _ v w).
  - cbn [choose]. rewrite (Hi r (or_introl eq_refl)). now destruct (carry_out _ _ _ _ _ _ _ _) as [[n ks] w2].
Qed.
Lemma unguarded_states {V W} (cb : cbfun V W) env root d : (forall r, In r (table env root) -> r_guard r = NoGuard) ->
  forall l q w, snd (fst (reacts cb env root d q l w)) = fold_left (next env root) (map fst l) q.
Proof.
  intros Hg. induction l as [|[e v] l IH]; intros q w; [reflexivity|]. cbn [reacts map fst fold_left].
  pose proof (unguarded_next cb env root d q e v w Hg) as N. destruct (react cb env root d q e v w) as [[[o k1] q1] w1].
  cbn in N. subst q1. specialize (IH (next env root q e) w1).
  destruct (reacts cb env root d (next env root q e) l w1) as [[[os k2] q2] w2]. exact IH.
Qed.
Lemma flat_states env root m : compile env root = Some m -> flat env root ->
  (forall r, In r (table env root) -> r_guard r = NoGuard) ->
  exists bound, forall V W (cb : cbfun V W) vnone fuel d w (l : list (ev * V)) i, bound <= fuel ->
    Forall (fun ev => event_of env root (fst ev)) l -> first_initial env root = Some i ->
    exists outs s, session cb m vnone fuel d w (map (fun ev => KProcess (fst ev) (snd ev)) l) = Done outs s /\
      at_place m s 0 = Some (root, fold_left (next env root) (map fst l) i).
Proof.
  intros Hm Hf Hg. destruct (flat_session env root m Hm Hf) as (b & Hb). exists b. intros V W cb vnone fuel d w l i Hle Hl Hi.
  pose proof (unguarded_states cb env root d Hg l i w) as N.
  destruct (reacts cb env root d i l w) as [[[outs ks] q] w'] eqn:E. cbn in N. subst q.
  destruct (Hb V W cb vnone fuel d w l i outs ks _ w' Hle Hl Hi E) as (s & D & P & _). eauto.
Qed.

Lemma carry_quiet {V W} (cb : cbfun V W) d q e t : never_throws cb -> forall cs v w,
  exists ks w', carry_out cb d q e t cs v w = (None, ks, w') /\ map (@k_callee V) ks = cs.
Proof.
  intros Hcb. induction cs as [|c cs IH]; intros v w; cbn [carry_out]; [exists [], w; auto|].
  destruct (cb c (mkArgs e q (TObj t) d) v w) as [b v1 w1|n v1 w1] eqn:E; [|now apply Hcb in E].
  destruct (IH v1 w1) as (ks & w' & -> & H). exists (mkCall c (mkArgs e q (TObj t) d) v :: ks), w'. cbn. now rewrite H.
Qed.
Lemma automaton_reacts {V W} (cb : cbfun V W) env root d : (forall r, In r (table env root) -> r_guard r = NoGuard) ->
  cd_unexpected (lookup env root) = false -> never_throws cb ->
  forall (l : list (ev * V)) q w bs cs q', automaton env root q (map fst l) = (bs, cs, q') ->
  exists ks w', reacts cb env root d q l w = (map OBool bs, ks, q', w') /\ map (@k_callee V) ks = cs.
Proof.
  intros Hg Hu Hcb. induction l as [|[e v] l IH]; intros q w bs cs q' H; cbn [map fst automaton reacts] in *.
  - inversion H; subst. exists [], w. auto.
  - assert (S : exists ks w1, react cb env root d q e v w =
       (OBool (match rows_for env root q e with [] => false | _ => true end), ks, next env root q e, w1) /\
       map (@k_callee V) ks = match rows_for env root q e with [] => [] | r :: _ => deeds env r end).
    { assert (Hi : forall r, In r (rows_for env root q e) -> r_guard r = NoGuard).
      { intros r Hr. apply Hg. apply (rows_for_In env root q e r Hr). }
      unfold react, next. destruct (rows_for env root q e) as [|r rs]; [rewrite Hu; exists [], w; auto|].
      cbn [choose]. rewrite (Hi r (or_introl eq_refl)). destruct (carry_quiet cb d q e (r_tgt r) Hcb (deeds env r) v w) as (ks & w1 & -> & E).
      exists ks, w1. auto. }
    destruct S as (k1 & w1 & -> & E1). destruct (automaton env root (next env root q e) (map fst l)) as [[bs2 cs2] q2] eqn:A.
    destruct (IH _ w1 _ _ _ A) as (k2 & w2 & -> & E2). exists (k1 ++ k2), w2. rewrite map_app, E1, E2.
    destruct (rows_for env root q e); inversion H; subst; auto.
Qed.
Lemma flat_automaton env root m : compile env root = Some m -> flat env root ->
  (forall r, In r (table env root) -> r_guard r = NoGuard) -> cd_unexpected (lookup env root) = false ->
  exists bound, forall V W (cb : cbfun V W) vnone fuel d w (l : list (ev * V)) i bs cs q, bound <= fuel -> never_throws cb ->
    Forall (fun ev => event_of env root (fst ev)) l -> first_initial env root = Some i ->
    automaton env root i (map fst l) = (bs, cs, q) ->
    exists s, session cb m vnone fuel d w (map (fun ev => KProcess (fst ev) (snd ev)) l) = Done (map OBool bs) s /\
      at_place m s 0 = Some (root, q) /\ map (@k_callee V) (rt_trace s) = cs.
Proof.
  intros Hm Hf Hg Hu. destruct (flat_session env root m Hm Hf) as (b & Hb). exists b.
  intros V W cb vnone fuel d w l i bs cs q Hle Hcb Hl Hi A.
  destruct (automaton_reacts cb env root d Hg Hu Hcb l i w bs cs q A) as (ks & w' & E & Ec).
  destruct (Hb V W cb vnone fuel d w l i _ _ _ _ Hle Hl Hi E) as (s & D & P & T & _). exists s. rewrite T. auto.
Qed.
