(** Termination of anonymous transitions along a rank, divergence along a cycle. *)

From Coq Require Import List Arith NArith Bool Lia.
From Verif Require Import Types Static Dispatch Runtime ListFacts IndexFacts Spec
  DispatchFacts FlattenFacts Semantics RefineFacts StaticFacts TermFacts Reach ReachFacts TableFacts
  QueryFacts ProcessFacts RegionFacts QueueFacts StepFacts Journey HistFacts.
Import ListNotations.

(** Where an external row can lead: its target; for history every place of the
    class (with parallel regions: every place). *)
Definition can_lead (env : cenv) (root : cls) (x : xrow) (pl : place) : Prop :=
  match x_tgt x with
  | SHistory _ p => is_place env root pl /\ (fst pl = p \/ region_exists env root 1)
  | _ => target_place env x = Some pl
  end.

(** Every anonymous row is external and leads to a place of smaller rank. *)
Definition ranked (env : cenv) (root : cls) (rank : place -> nat) : Prop :=
  forall pl x o, candidate env root ENone pl (CRow x o) ->
    x_int x = false /\ forall pl', can_lead env root x pl' -> rank pl' < rank pl.

(** * Sums *)
Lemma sum_le (f g : nat -> nat) : (forall k, f k <= g k) -> forall l, list_sum (map f l) <= list_sum (map g l).
Proof. intros H. induction l as [|k l IH]; [apply le_n|]. cbn. specialize (H k). unfold list_sum in IH. lia. Qed.
Lemma sum_lt (f g : nat -> nat) r : (forall k, f k <= g k) -> f r < g r -> forall l, In r l ->
  list_sum (map f l) < list_sum (map g l).
Proof.
  intros H Hr. induction l as [|k l IH]; [intros []|]. pose proof (sum_le f g H l) as L. specialize (H k).
  unfold list_sum in *. cbn. intros [->|Hin]; [lia|]. specialize (IH Hin). lia.
Qed.
Lemma sum_bound (f : nat -> nat) b : (forall k, f k <= b) -> forall l, list_sum (map f l) <= length l * b.
Proof. intros H. induction l as [|k l IH]; [apply le_n|]. cbn. specialize (H k). unfold list_sum in IH. lia. Qed.

(** * Where a fired row lands *)
Section Lands.
Context {V W : Type}.
Variable cb : cbfun V W.
Variable m : machine.
Hypothesis Hm : compile (mc_env m) (mc_root m) = Some m.
Notation env := (mc_env m).
Notation root := (mc_root m).
Notation st := (rt V W).
Let Hc : comp m := proj1 (compile_comp _ _ _ Hm).
Hypothesis Hmax : max_initials m <= 255.

Lemma code_place pl pl' : nth_error (places m) (N.to_nat (code m pl)) = Some pl' -> pl = pl'.
Proof.
  intros H. unfold code in H. rewrite Nnat.Nat2N.id in H.
  destruct (in_dec place_eq_dec pl (places m)) as [Hin|Hn].
  - rewrite nth_pos in H by exact Hin. congruence.
  - rewrite pos_absent in H by exact Hn. assert (H0 : nth_error (places m) (length (places m)) <> None) by congruence.
    apply nth_error_Some in H0. lia.
Qed.

Lemma lands ds d0 s L r e v d x o v1 s1 n v' s' : journey cb m ds d0 s L -> r < max_initials m ->
  takes cb m ds r e v s d x o v1 s1 -> executes cb m r e d x o v1 s1 n v' s' -> x_int x = false ->
  (forall pl', at_place m s' r = Some pl' -> can_lead env root x pl') /\
  (exists pl', can_lead env root x pl' /\ (is_place env root pl' -> at_place m s' r = Some pl')) /\
  (forall k, k <> r -> at_place m s' k = at_place m s k).
Proof.
  intros J Hr Tk Ex Hi. pose proof Ex as Ex0. pose proof Tk as (pl & ks & w1 & Hpl & Sc & E1). subst s1.
  apply executes_moves in Ex. destruct Ex as (s2 & ks2 & l & w2 & Mv & ->).
  assert (Hlen : r < length (rt_cur (after s w1 ks))) by (cbn; eapply at_place_lt; eauto).
  assert (Hothers : forall k, k <> r -> at_place m (with_live (after s2 w2 ks2) l) k = at_place m s k).
  { intros k Hk. destruct (moves_rest m r x _ _ Mv) as (_ & _ & _ & _ & E). unfold at_place. cbn. now rewrite (E k Hk). }
  destruct (is_history (x_tgt x)) eqn:Eh.
  - unfold is_history in Eh. destruct (x_tgt x) as [| | | | |w p] eqn:Et; try discriminate.
    assert (A : forall pl', at_place m (with_live (after s2 w2 ks2) l) r = Some pl' -> can_lead env root x pl').
    { intros pl' E. unfold can_lead. rewrite Et. split.
      { apply (at_place_code m Hc) in E. destruct E as [_ E]. now apply (in_places_iff m Hc). }
      destruct (parallel m) eqn:Ep.
      + right. now apply (parallel_iff _ _ m Hm).
      + left. assert (H1 : max_initials m <= 1).
        { unfold parallel in Ep. apply Nat.ltb_ge in Ep. exact Ep. }
        assert (r = 0) by lia. subst r.
        destruct (single_target cb m Hc Hmax ds d0 s L e v d x o v1 _ n v' _ w p H1 J Tk Ex0 Hi Et) as (pl0 & E0 & E1).
        rewrite E in E1. destruct (find _ _) as [pl2|] eqn:Ef.
        * inversion E1; subst. apply find_some in Ef. destruct Ef as [_ Ef]. now apply Nat.eqb_eq in Ef.
        * destruct (first_initial env p); inversion E1; subst; reflexivity. }
    split; [exact A|]. split; [|exact Hothers].
    destruct (history_target cb m Hc Hmax ds d0 s L r e v d x o v1 _ n v' _ w p J Tk Ex0 Hi Et) as [_ Hn].
    destruct (at_place m (with_live (after s2 w2 ks2) l) r) as [pl'|] eqn:E; [|congruence].
    exists pl'. auto.
  - assert (B : exists pl2 s3, target_place env x = Some pl2 /\ length (rt_cur s3) = length (rt_cur (after s w1 ks)) /\
      s2 = relocate m r (code m pl2) s3).
    { destruct Mv as [s3 Hi'|s3 pl2 _ _ Ht _|s3 pl2 _ _ _ Ht _|s3 w0 p c _ _ Ht _ _]; try congruence.
      - exists pl2, s3. auto.
      - exists pl2, (remember m r s3). destruct (remember_rest m r s3) as (_ & _ & _ & _ & E4 & _). rewrite E4. auto.
      - rewrite Ht in Eh. discriminate. }
    destruct B as (pl2 & s3 & Ht & El & ->).
    assert (C : can_lead env root x pl2). { unfold can_lead. destruct (x_tgt x); try exact Ht. discriminate. }
    assert (D : at_place m (with_live (after (relocate m r (code m pl2) s3) w2 ks2) l) r =
      nth_error (places m) (N.to_nat (code m pl2))).
    { change (at_place m (relocate m r (code m pl2) s3) r = nth_error (places m) (N.to_nat (code m pl2))).
      unfold at_place. destruct (relocate_rest m r (code m pl2) s3) as (_ & _ & _ & _ & E3 & _).
      rewrite E3, nth_set_same by (rewrite El; exact Hlen). reflexivity. }
    split; [|split; [|exact Hothers]].
    + intros pl' E. rewrite D in E. apply code_place in E. now subst.
    + exists pl2. split; [exact C|]. intros Hp. rewrite D. destruct pl2 as [p2 q2].
      apply (place_iff m Hc) in Hp. apply (decode_code m Hc); apply Hp.
Qed.
End Lands.

Section Rank.
Context {V W : Type}.
Variable cb : cbfun V W.
Variable m : machine.
Hypothesis Hm : compile (mc_env m) (mc_root m) = Some m.
Variable vnone : V.
Notation env := (mc_env m).
Notation root := (mc_root m).
Notation st := (rt V W).
Let Hc : comp m := proj1 (compile_comp _ _ _ Hm).
Variable rank : place -> nat.
Hypothesis Hrank : ranked env root rank.
Hypothesis Hmax : max_initials m <= 255.

Definition weight (o : option place) : nat := match o with Some pl => S (rank pl) | None => 0 end.
Definition measure (s : st) : nat := list_sum (map (fun r => weight (at_place m s r)) (seq 0 (max_initials m))).
Definition max_rank : nat := list_max (map rank (places m)).
Definition enough : nat := 256 + max_initials m * S max_rank.

Lemma measure_bound s : measure s <= max_initials m * S max_rank.
Proof.
  unfold measure. rewrite <- (seq_length (max_initials m) 0) at 2. apply sum_bound. intros k.
  unfold weight. destruct (at_place m s k) as [pl|] eqn:E; [|lia].
  apply (at_place_code m Hc) in E. destruct E as [_ E]. apply le_n_S. unfold max_rank.
  pose proof (proj1 (list_max_le (map rank (places m)) _) (le_n _)) as F.
  rewrite Forall_forall in F. apply F. now apply in_map.
Qed.

(** A fired anonymous row makes the measure smaller. *)
Lemma fired_smaller ds d0 s L r v x v' s' : journey cb m ds d0 s L -> r < max_initials m ->
  region_step cb m ds r ENone v s (RFired x) v' s' -> measure s' < measure s.
Proof.
  intros J Hr St. inversion St; subst.
  match goal with A : at_place m s r = Some _ |- _ => rename A into Hpl end.
  match goal with A : scan _ _ _ _ _ _ _ (VPick _ _ _) _ _ |- _ => rename A into Sc end.
  match goal with A : executes _ _ _ _ _ _ _ _ _ _ _ _ |- _ => rename A into Ex end.
  assert (Tk : takes cb m ds r ENone v s d x o v1 (after s w1 ks)).
  { exists pl, ks, w1. split; [exact Hpl|]. split; [exact Sc|reflexivity]. }
  assert (Hin : In (CRow x o) (cands m ENone pl)).
  { apply scan_pick in Sc. destruct Sc as (pre & rest & k1 & k2 & va & wa & Eb & _).
    apply (in_bound m ds ENone pl d (CRow x o)). rewrite Eb. apply in_or_app. right. now left. }
  destruct (Hrank pl x o (cands_sound m Hc _ _ _ Hin)) as [Hi Hlt].
  destruct (lands cb m Hm Hmax ds d0 s L r ENone v d x o v1 _ None v' s' J Hr Tk Ex Hi) as (HA & _ & Hothers).
  assert (Hnew : weight (at_place m s' r) < weight (at_place m s r)).
  { rewrite Hpl. cbn [weight]. destruct (at_place m s' r) as [pl'|] eqn:E; cbn [weight]; [|lia].
    apply le_n_S. apply Hlt. now apply HA. }
  unfold measure. apply (sum_lt _ _ r); [| |apply in_seq; lia].
  - intros k. destruct (Nat.eq_dec k r) as [->|Hk]; [lia|]. now rewrite Hothers.
  - exact Hnew.
Qed.

Lemma pass_smaller ds d0 limit r v s vds pe v' s' : anon_pass cb m ds limit r v s vds pe v' s' ->
  pe = PeComplete -> limit <= max_initials m -> forall L, journey cb m ds d0 s L ->
  measure s' <= measure s /\ (existsb fired vds = true -> measure s' < measure s) /\
  exists L', journey cb m ds d0 s' L'.
Proof.
  intros P. induction P as [r v s Hr|r v s Hr St|r v s vd n v' s' Hr St Ht|r v s vd v1 s1 vds pe v' s' Hr St Hs Hn P IH];
    intros E HL L J; try discriminate.
  - split; [apply le_n|]. split; [discriminate|eauto].
  - pose proof (jo_turn cb m ds d0 s L r ENone v vd v1 s1 J St) as J1.
    destruct (IH E HL _ J1) as (H1 & H2 & H3). cbn [existsb].
    assert (K : measure s1 <= measure s /\ (fired vd = true -> measure s1 < measure s)).
    { destruct vd as [| |x| | |]; try discriminate; try congruence.
      - inversion St; subst. split; [apply le_n|discriminate].
      - pose proof (fired_smaller ds d0 s L r v x v1 s1 J ltac:(lia) St). split; [lia|auto]. }
    destruct K as [K1 K2]. split; [lia|]. split; [|exact H3].
    intros Ef. apply orb_true_iff in Ef. destruct Ef as [Ef|Ef]; [specialize (K2 Ef); lia|specialize (H2 Ef); lia].
Qed.

Lemma active_bound (s : st) : rinv m s -> active m s <= 255.
Proof. intros R. pose proof (active_le_max m Hc s R). lia. Qed.

Lemma loop_terminates ds d0 rfuel : 255 < rfuel -> forall fuel v s L, measure s < fuel ->
  rinvs m ds d0 s -> journey cb m ds d0 s L -> anonymous_loop cb m rfuel fuel v s <> Timeout.
Proof.
  intros Hrf. induction fuel as [|fuel IH]; intros v s L Hf R J; [lia|]. cbn [anonymous_loop].
  change (current_regions m s) with (active m s). pose proof (active_bound s (ri_rinv _ _ _ _ R)) as HA.
  pose proof (anonymous_pass_sound cb m Hc ds d0 rfuel (active m s) 0 true v s HA (ri_tinv _ _ _ _ R)) as P.
  apply bind_timeout; [apply anonymous_pass_timeout; lia|]. intros [o v1] s1 E. rewrite E in P. cbn [fst snd].
  destruct o as [[|]|]; try discriminate. destruct P as (vds & P & Ef).
  assert (HL : active m s <= max_initials m) by (apply (active_le_max m Hc); apply R).
  destruct (pass_smaller ds d0 _ _ _ _ _ _ _ _ P eq_refl HL L J) as (_ & H2 & L' & J').
  assert (Hfd : existsb fired vds = true).
  { unfold pass_flag in Ef. cbn in Ef. destruct (existsb fired vds); [reflexivity|discriminate]. }
  specialize (H2 Hfd). apply (IH v1 s1 L'); [lia| |exact J'].
  destruct R as [T R S]. split.
  - eapply frame_tinv; [eapply anon_pass_frame; eauto|exact T].
  - eapply anon_pass_rinv; eauto.
  - eapply anon_pass_settled; eauto.
Qed.

Lemma anonymous_terminates ds d0 fuel s L : enough <= fuel ->
  rinvs m ds d0 s -> journey cb m ds d0 s L -> process_anonymous cb m vnone fuel s <> Timeout.
Proof.
  intros Hf R J. unfold process_anonymous. destruct (has_anonymous m); [|discriminate].
  pose proof (measure_bound s). unfold enough in Hf. eapply loop_terminates; eauto; lia.
Qed.

Lemma internal_terminates ds d0 fuel e v s L : enough <= fuel ->
  rinvs m ds d0 s -> journey cb m ds d0 s L -> process_event_internal cb m vnone fuel e v s <> Timeout.
Proof.
  intros Hf R J. unfold process_event_internal. change (current_regions m s) with (active m s).
  pose proof (active_bound s (ri_rinv _ _ _ _ R)) as HA.
  assert (Hf' : 255 < fuel) by (unfold enough in Hf; lia).
  pose proof (region_loop_sound cb m Hc ds d0 e fuel (active m s) 0 true true v s HA (ri_tinv _ _ _ _ R)) as P.
  apply bind_timeout; [apply region_loop_timeout; lia|]. intros [o v1] s1 E. rewrite E in P. cbn [fst snd].
  destruct o; try discriminate. apply bind_timeout; [|discriminate].
  destruct P as (vds & P & _).
  assert (HL : active m s <= max_initials m) by (apply (active_le_max m Hc); apply R).
  assert (K : exists L', journey cb m ds d0 s1 L').
  { eapply (regions_run_keeps cb m Hc ds d0 (fun s => exists L', journey cb m ds d0 s L')); eauto; try apply R.
    intros r0 e0 v0 s0 vd v0' s0' _ _ _ (L0 & J0) St. eexists. eapply jo_turn; eauto. }
  destruct K as [L' J']. eapply anonymous_terminates; eauto. destruct R as [T R S]. split.
  - eapply frame_tinv; [eapply regions_run_frame; eauto|exact T].
  - eapply regions_run_rinv; eauto.
  - eapply regions_run_settled; eauto.
Qed.

Lemma offer_rinvs ds d0 e v s vds avds oe v' s' : offer cb m ds vnone e v s vds avds oe v' s' ->
  rinvs m ds d0 s -> rinvs m ds d0 s'.
Proof.
  intros P [T R S]. split.
  - eapply frame_tinv; [eapply offer_frame; eauto|exact T].
  - eapply offer_rinv; eauto.
  - eapply offer_settled; eauto.
Qed.
Lemma offer_journey ds d0 e v s vds avds oe v' s' L : offer cb m ds vnone e v s vds avds oe v' s' ->
  rinvs m ds d0 s -> journey cb m ds d0 s L -> exists L', journey cb m ds d0 s' L'.
Proof.
  intros P R J.
  eapply (offer_keeps cb m Hc vnone ds d0 (fun s => exists L', journey cb m ds d0 s L')); eauto; try apply R.
  intros r0 e0 v0 s0 vd v0' s0' _ _ _ (L0 & J0) St. eexists. eapply jo_turn; eauto.
Qed.

Lemma process_terminates ds d0 fuel e v s L : enough <= fuel ->
  rinvs m ds d0 s -> journey cb m ds d0 s L -> process_event cb m vnone fuel e v s <> Timeout.
Proof.
  intros Hf R J. unfold process_event. destruct (in_dec ev_eq_dec e (events m)) as [He|]; [|discriminate].
  pose proof (process_event_internal_sound cb m Hc ds d0 vnone Hmax fuel e v s (ri_tinv _ _ _ _ R) (ri_rinv _ _ _ _ R)) as P.
  apply bind_timeout; [eapply internal_terminates; eauto|]. intros [p v1] s1 E. rewrite E in P. cbn [fst snd].
  destruct P as (vds & avds & oe & P & Ep & _).
  destruct p; try discriminate.
  - apply bind_timeout; [|discriminate]. unfold call_handler. destruct (cd_unexpected _); [|discriminate].
    apply bind_timeout; [apply at_cur_timeout|]. intros c s2 _.
    destruct (get_table (rt_htabs s2) e) as [l|]; [|discriminate].
    destruct (nth_at c l) as [[[o d]|]|]; try discriminate.
    destruct (alive s2 o); [|discriminate]. apply keep_timeout, invoke_timeout.
  - apply bind_timeout; [|discriminate]. unfold process_deferred. destruct (has_deferred m); [|discriminate].
    destruct (rt_queue s1) as [|[e2 v2] q] eqn:Eq; [discriminate|].
    apply bind_timeout; [|discriminate].
    destruct (offer_journey ds d0 _ _ _ _ _ _ _ _ L P R J) as [L' J'].
    eapply internal_terminates; [exact Hf| |apply jo_queue; exact J'].
    destruct (offer_rinvs _ _ _ _ _ _ _ _ _ _ P R) as [T1 R1 S1]. split; [|exact R1|exact S1].
    apply (frame_tinv m ds d0 s1); [split; reflexivity|exact T1].
Qed.

Lemma call_terminates ds d0 fuel k s : enough <= fuel -> reachable cb m vnone ds d0 s ->
  do_call_catch cb m vnone fuel k s <> Timeout.
Proof.
  intros Hf Rb. pose proof (reachable_rinvs cb m Hc vnone Hmax ds d0 s Rb) as R.
  destruct (reachable_journey cb m Hc vnone Hmax ds d0 s Rb) as [L J].
  assert (G : do_call cb m vnone fuel k s <> Timeout).
  { destruct k as [e v|r p q|p|r p q|d|]; cbn [do_call].
    - apply bind_timeout; [eapply process_terminates; eauto|discriminate].
    - apply bind_timeout; [|discriminate]. unfold q_is. apply bind_timeout; [apply current_parent_timeout|].
      intros c s1 _. destruct (N.eqb c (parent_idx m p)); [|discriminate].
      apply bind_timeout; [apply current_state_timeout|discriminate].
    - apply bind_timeout; [|discriminate]. apply bind_timeout; [apply current_parent_timeout|discriminate].
    - apply bind_timeout; [|discriminate]. unfold set_state.
      destruct (in_dec sref_eq_dec q (states m)); [|discriminate]. destruct (in_dec Nat.eq_dec p (parents m)); [|discriminate].
      destruct (upd_nth _ _ _); discriminate.
    - apply bind_timeout; [|discriminate]. unfold set_dependency. destruct (fill_dispatch m d (rt_tabs s)); discriminate.
    - apply bind_timeout; [|discriminate]. unfold status. change (current_regions m s) with (active m s).
      pose proof (active_bound s (ri_rinv _ _ _ _ R)). unfold enough in Hf. apply status_loop_timeout; lia. }
  unfold do_call_catch. destruct (do_call cb m vnone fuel k s); congruence.
Qed.

Lemma run_terminates fuel : enough <= fuel -> forall ks ds d0 s, reachable cb m vnone ds d0 s ->
  run cb m vnone fuel ks s <> Timeout.
Proof.
  intros Hf. induction ks as [|k ks IH]; intros ds d0 s R; cbn [run]; [discriminate|].
  apply bind_timeout; [eapply call_terminates; eauto|]. intros o s1 E.
  apply bind_timeout; [|discriminate]. eapply IH. eapply reach_call; eauto.
Qed.

Lemma session_terminates fuel d w ks : enough <= fuel -> session cb m vnone fuel d w ks <> Timeout.
Proof.
  intros Hf. unfold session. apply bind_timeout.
  - unfold construct. destruct (if cd_unexpected _ then _ else _); [|discriminate].
    destruct (fill_dispatch m d (empty_tables m)); [|discriminate].
    unfold init_current_state. rewrite nth_at_nth, (parent_idx_pos m Hc), Nnat.Nat2N.id.
    change (pos Nat.eq_dec root (parents m)) with (parent_pos m root).
    rewrite (initial_table_nth m Hc root (root_parent m Hc)).
    apply bind_timeout; [|intros; apply update_current_regions_timeout].
    match goal with |- init_loop ?f ?l 0 ?s <> Timeout =>
      pose proof (init_loop_spec l ltac:(rewrite map_length; apply (root_initials_le m Hc Hmax)) f 0 s) as P end.
    intros E. rewrite E in P. rewrite map_length in P. cbn [rt_cur] in P. rewrite repeat_length in P.
    pose proof (root_initials_le m Hc Hmax). pose proof (initials_le_max m root (root_parent m Hc)).
    unfold enough in Hf. specialize (P ltac:(lia)). lia.
  - intros [] s E. eapply run_terminates; [exact Hf|]. econstructor; eauto.
Qed.
End Rank.
