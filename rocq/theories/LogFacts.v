(** Proofs about Log.v. *)

From Coq Require Import List Arith NArith Bool Lia.
From Verif Require Import Types Static Dispatch Runtime ListFacts IndexFacts Spec
  DispatchFacts FlattenFacts Semantics RefineFacts StaticFacts TermFacts Reach ReachFacts TableFacts
  QueryFacts ProcessFacts CallFacts Safe Exact StepFacts Graph GraphFacts GraphExact Log.
Import ListNotations.

Lemma output_app {V} f (a b : list (called V)) : output f (a ++ b) = output f a ++ output f b.
Proof. apply flat_map_app. Qed.
Lemma output_none {V} f (ks : list (called V)) : (forall k, In k ks -> k_callee k <> CAction f) -> output f ks = [].
Proof.
  induction ks as [|k ks IH]; intros H; [reflexivity|]. unfold output. cbn [flat_map]. change (written f k ++ output f ks = []).
  rewrite IH by (intros; apply H; now right). rewrite app_nil_r. unfold written. pose proof (H k (or_introl eq_refl)) as Hk.
  destruct (k_callee k); try reflexivity. destruct (Nat.eqb_spec f0 f); [congruence|reflexivity].
Qed.
Lemma of_region_app r a b : of_region r (a ++ b) = of_region r a ++ of_region r b.
Proof. unfold of_region. now rewrite filter_app, map_app. Qed.

Definition callee_dec : forall a b : callee, {a = b} + {a <> b}.
Proof. decide equality; apply Nat.eq_dec. Defined.

Section Log.
Variable m : machine.
Notation env := (mc_env m).
Notation root := (mc_root m).
Hypothesis Hm : compile env root = Some m.
Let Hc : comp m := proj1 (compile_comp _ _ _ Hm).
Hypothesis Hmax : max_initials m <= 255.
Hypothesis Hnh : has_history m = false.
Context {V W : Type}.
Variable cb : cbfun V W.
Variable vnone : V.
Variable f : nat.
Hypothesis Hlog : logs_transitions env root f.
Hypothesis Hexit : exits_quietly cb.
Notation st := (rt V W).

Lemma scan_output e bs v w ks vd v' w' : scan cb m e bs v w ks vd v' w' -> output f ks = [].
Proof.
  intros H. apply output_none. induction H; cbn; try contradiction.
  - intros k [<-|[]]; discriminate.
  - intros k [<-|Hk]; [discriminate|now apply IHscan].
  - intros k [<-|[]]; discriminate.
Qed.
Lemma perform_callees e d o ps v live w ks n v' live' w' : perform cb e d o ps v live w ks n v' live' w' ->
  forall k, In k ks -> exists p, In p ps /\ k_callee k = p_callee p.
Proof.
  intros H. induction H as [|p ps v live w b v1 w1 ks n v' live' w' H1 H2 IH|p ps v live w n v1 w1 H1]; intros k; cbn; [contradiction| |].
  - intros [<-|Hk]; [eauto|]. destruct (IH k Hk) as (q & Hq & E). eauto.
  - intros [<-|[]]. eauto.
Qed.
Lemma perform_exits e d o at_ cs v live w ks n v' live' w' : (forall c, In c cs -> exists q, c = CExit q) ->
  perform cb e d o (map (fun c => mkPrim c at_ true None) cs) v live w ks n v' live' w' -> n = None.
Proof.
  revert v live w ks. induction cs as [|c cs IH]; intros v live w ks H P; inversion P; subst; auto.
  - eapply IH; [intros c' Hc'; apply H; now right|eassumption].
  - exfalso. destruct (H c (or_introl eq_refl)) as (q & ->). eapply Hexit; eauto.
Qed.
Lemma exit_calls x c : In c (exit_call env x) -> exists q, c = CExit q.
Proof.
  unfold exit_call. destruct (x_int x); [intros []|]. destruct (x_src x) as [q| | |w p q| |]; try (intros []; fail).
  - destruct (has_exit env q); [|intros []]. intros [<-|[]]. eauto.
  - destruct (has_exit env p); [|intros []]. intros [<-|[]]. eauto.
Qed.
Lemma entry_calls x c : In c (entry_call env x ++ initial_entry_call env x) -> exists q, c = CEntry q.
Proof.
  intros H. apply in_app_or in H. unfold entry_call, initial_entry_call in H. destruct H as [H|H].
  - destruct (x_int x); [destruct H|]. destruct (x_tgt x) as [q| | | | |]; try (destruct H; fail).
    destruct (has_entry env q); [|destruct H]. destruct H as [<-|[]]. eauto.
  - destruct (x_tgt x) as [q| | | | |]; try (destruct H; fail).
    destruct (if is_composite env q then first_initial env q else None) as [[i| | | | |]|]; try (destruct H; fail).
    destruct (has_entry env i); [|destruct H]. destruct H as [<-|[]]. eauto.
Qed.

Lemma action_external x rest : x_int x = false -> action_calls x = CAction f :: rest -> ~ In (CAction f) rest ->
  forall e d o v live w ks n v' live' w', perform cb e d o (effects env x o) v live w ks n v' live' w' ->
  output f ks = [(o, e, target_state env x)].
Proof.
  intros Hi Ha Hr e d o v live w ks n v' live' w' P. unfold effects in P.
  apply CallFacts.perform_app in P. destruct P as [(k & -> & P)|(k1 & k2 & va & la & wa & -> & P1 & P)].
  { apply perform_exits in P; [discriminate|apply exit_calls]. }
  rewrite output_app. rewrite (output_none f k1), app_nil_l.
  2:{ intros k Hk. destruct (perform_callees _ _ _ _ _ _ _ _ _ _ _ _ P1 k Hk) as (p & Hp & E). apply in_map_iff in Hp.
      destruct Hp as (c & <- & Hcx). destruct (exit_calls x c Hcx) as (q & ->). rewrite E. discriminate. }
  set (at_ := action_target env x o) in *. set (t := target_state env x) in *.
  assert (B : exists ps, match x_act x with NoAction => [] | Action _ b => body_calls at_ t b end = mkPrim (CAction f) at_ true None :: ps /\
     forall p, In p ps -> p_callee p <> CAction f).
  { unfold action_calls in Ha. destruct (x_act x) as [|ty b]; [discriminate|].
    assert (G : forall b, map p_callee (body_calls at_ t b) = callees b /\
       Forall (fun p => forall g, p_callee p = CAction g -> p = mkPrim (CAction g) at_ true None) (body_calls at_ t b)).
    { clear. induction b as [g|g|g|l IH] using abody_ind2; cbn [body_calls callees].
      - split; [reflexivity|]. constructor; [|constructor]. cbn. intros g' E. congruence.
      - split; [reflexivity|]. constructor; [|constructor]. cbn. discriminate.
      - split; [reflexivity|]. constructor; [|constructor]. cbn. discriminate.
      - induction IH as [|b l Hb Hl IHl]; [split; [reflexivity|constructor]|]. cbn [flat_map].
        destruct Hb as (E1 & F1), IHl as (E2 & F2). split; [rewrite map_app, E1; f_equal; exact E2|]. apply Forall_app. auto. }
    destruct (G b) as (E & F). rewrite Ha in E. destruct (body_calls at_ t b) as [|p ps]; [discriminate|]. injection E as Ep Eps.
    exists ps. split; [f_equal; apply (Forall_inv F f Ep)|]. intros q Hq Eq. apply Hr. rewrite <- Eps, <- Eq. now apply in_map. }
  destruct B as (ps & EB & Hps). rewrite EB in P. cbn [app] in P.
  assert (N : forall ks' : list (called V), (forall k, In k ks' -> exists p, In p (ps ++ map (fun c => mkPrim c at_ true None) (entry_call env x) ++
      map (fun c => mkPrim c at_ true None) (initial_entry_call env x)) /\ k_callee k = p_callee p) -> output f ks' = []).
  { intros ks' H. apply output_none. intros k Hk. destruct (H k Hk) as (p & Hp & ->). apply in_app_or in Hp. destruct Hp as [Hp|Hp]; [auto|].
    rewrite <- map_app in Hp. apply in_map_iff in Hp. destruct Hp as (c & <- & Hcx). destruct (entry_calls x c Hcx) as (q & ->). discriminate. }
  assert (T : named at_ = Some t).
  { unfold at_, action_target. rewrite Hi. destruct (default_constructible env (target_state env x)); reflexivity. }
  assert (L : forall (ks' : list (called V)) v0, output f ks' = [] -> output f (mkCall (CAction f) (mkArgs e o at_ d) v0 :: ks') = [(o, e, t)]).
  { intros ks' v0 H. unfold output. cbn [flat_map]. change (written f (mkCall (CAction f) (mkArgs e o at_ d) v0) ++ output f ks' = [(o, e, t)]).
    rewrite H, app_nil_r. unfold written. cbn. now rewrite Nat.eqb_refl, T. }
  inversion P; subst; cbn [p_callee p_targ]; apply L; [|reflexivity].
  apply N. eapply perform_callees. eassumption.
Qed.
Lemma action_internal x o : x_int x = true ->
  (In (CAction f) (action_calls x) -> default_constructible env (target_state env x) = true) ->
  forall e d v live w ks n v' live' w', perform cb e d o (effects env x o) v live w ks n v' live' w' ->
  Forall (eq (o, e, o)) (output f ks).
Proof.
  intros Hi Hd e d v live w ks n v' live' w' P.
  destruct (in_dec callee_dec (CAction f) (action_calls x)) as [Hin|Hout].
  - specialize (Hd Hin). assert (A : forall k, In k ks -> exists p, In p (effects env x o) /\ k_callee k = p_callee p /\
        k_args k = mkArgs e o (p_targ p) d).
    { clear - P. induction P as [|p ps v live w b v1 w1 ks n v' live' w' H1 H2 IH|p ps v live w n v1 w1 H1]; intros k; cbn; [contradiction| |].
      - intros [<-|Hk]; [eauto 6|]. destruct (IH k Hk) as (q & Hq & E). eauto.
      - intros [<-|[]]. eauto 6. }
    apply Forall_forall. intros l Hl. unfold output in Hl. apply in_flat_map in Hl. destruct Hl as (k & Hk & Hl).
    destruct (A k Hk) as (p & Hp & Ec & Ea).
    assert (At : forall g, p_callee p = CAction g -> p_targ p = TObj o).
    { intros g Eg. assert (Q : action_target env x o = TObj o) by (unfold action_target; now rewrite Hd, Hi).
      unfold effects in Hp. rewrite Q in Hp. apply in_app_or in Hp. destruct Hp as [Hp|Hp].
      - apply in_map_iff in Hp. destruct Hp as (c & <- & _). reflexivity.
      - rewrite <- map_app in Hp. apply in_app_or in Hp. destruct Hp as [Hp|Hp].
        + destruct (x_act x) as [|ty b]; [destruct Hp|]. clear - Hp Eg. revert Hp.
          induction b as [h|h|h|l IH] using abody_ind2; cbn [body_calls]; try (intros [<-|[]]; cbn in *; congruence).
          induction IH as [|b l Hb Hl IHl]; [intros []|]. cbn [flat_map]. intros Hp. apply in_app_or in Hp. destruct Hp; auto.
        + apply in_map_iff in Hp. destruct Hp as (c & <- & _). reflexivity. }
    unfold written in Hl. destruct (k_callee k) as [|g| | | | |] eqn:Ek; try (destruct Hl; fail).
    destruct (Nat.eqb g f); [|destruct Hl]. rewrite Ea in Hl. cbn in Hl. rewrite (At g) in Hl by congruence. cbn in Hl.
    destruct Hl as [<-|[]]. reflexivity.
  - rewrite output_none; [constructor|]. intros k Hk.
    destruct (perform_callees _ _ _ _ _ _ _ _ _ _ _ _ P k Hk) as (p & Hp & E).
    assert (In (p_callee p) (row_calls env x)).
    { pose proof (effects_signature env x o e d) as S. apply (f_equal (map fst)) in S. unfold row_signature in S.
      rewrite !map_map in S. cbn [fst] in S. rewrite map_id in S. rewrite <- S. now apply in_map. }
    rewrite E. unfold row_calls in H. apply in_app_or in H. destruct H as [H|H].
    { destruct (exit_calls x _ H) as (q & ->). discriminate. }
    apply in_app_or in H. destruct H as [H|H]; [intros E'; rewrite E' in H; auto|].
    destruct (entry_calls x _ H) as (q & ->). discriminate.
Qed.

Definition start_of (r : nat) (pl : place) : Prop := exists i, nth_error (initial_states env root) r = Some i /\ pl = (root, i).
Definition told (s : st) : Prop := exists l, map snd l = output f (rt_trace s) /\ Forall (fun t => fst t < max_initials m) l /\
  forall r pl, at_place m s r = Some pl -> exists pl0, start_of r pl0 /\ walk env root pl0 (of_region r l) pl.

Lemma told_same s s' : rt_cur s' = rt_cur s -> output f (rt_trace s') = output f (rt_trace s) -> told s -> told s'.
Proof. intros Ec Et (l & A & B & C). exists l. rewrite Et. split; [exact A|]. split; [exact B|]. unfold at_place. rewrite Ec. exact C. Qed.

Lemma cands_internal e pl x o : candidate env root e pl (CRow x o) -> x_int x = false /\ declared env root x \/ x_int x = true /\ declared_internal env root x.
Proof.
  intros H. inversion H as [x1 D|x1 c1 s1 D|x1 D|]; subst; [left|left|right]; (split; [|assumption]).
  - destruct D as (p0 & r0 & _ & _ & ->). reflexivity.
  - destruct D as (p0 & r0 & _ & _ & ->). reflexivity.
  - destruct D; reflexivity.
Qed.

Lemma executes_told r e d x o v s n v' s' pl : r < max_initials m -> candidate env root e pl (CRow x o) -> at_place m s r = Some pl ->
  executes cb m r e d x o v s n v' s' -> told s -> told s'.
Proof.
  intros Hr Hca Hat E T. inversion E as [v0 s0 s1 ks n0 v1 live' w' Hmv P]; subst.
  destruct (cands_internal e pl x o Hca) as [[Hi Hd]|[Hi Hd]].
  - destruct (proj1 Hlog x Hd) as (rest & Ha & Hn). pose proof (action_external x rest Hi Ha Hn _ _ _ _ _ _ _ _ _ _ _ P) as O.
    destruct Hmv as [s Hi'|s pl' Hi' Hh Ht Hs|s pl' Hi' Hh Hx Ht Hs|s wk p c Hi' Hh Hx Hhis Hs]; try congruence.
    destruct T as (l & A & B & C). destruct (relocate_rest m r (code m pl') s) as (_ & _ & _ & Et & Ec & _).
    exists (l ++ [(r, (o, e, target_state env x))]). cbn [rt_trace with_live after with_user].
    rewrite map_app, A, output_app, Et, O. split; [reflexivity|]. split; [apply Forall_app; split; [exact B|now constructor]|].
    intros k pk. unfold at_place. cbn [rt_cur with_live after with_user]. rewrite Ec, of_region_app.
    destruct (Nat.eq_dec k r) as [->|Hk].
    + destruct (C r pl Hat) as (pl0 & H0 & Hw). assert (Hlt : r < length (rt_cur s)).
      { apply nth_error_Some. unfold at_place in Hat. destruct (nth_error (rt_cur s) r); congruence. }
      rewrite nth_set_same by exact Hlt. unfold code. rewrite Nnat.Nat2N.id. intros Ek. apply nth_pos_is in Ek. subst pk.
      exists pl0. split; [exact H0|]. unfold of_region at 2. cbn [filter fst]. rewrite Nat.eqb_refl. cbn [map snd].
      assert (Es : target_state env x = snd pl') by (unfold target_state; rewrite Ht; now destruct pl'). rewrite Es.
      eapply wa_row; eauto.
    + rewrite nth_set_other by congruence. intros Ek. destruct (C k pk Ek) as (pl0 & H0 & Hw). exists pl0. split; [exact H0|].
      unfold of_region at 2. cbn [filter fst]. destruct (Nat.eqb_spec r k); [congruence|]. cbn [map]. now rewrite app_nil_r.
  - pose proof (action_internal x o Hi (proj2 Hlog x Hd) _ _ _ _ _ _ _ _ _ _ P) as O.
    destruct Hmv as [s Hi'|s pl' Hi' Hh Ht Hs|s pl' Hi' Hh Hx Ht Hs|s wk p c Hi' Hh Hx Hhis Hs]; try congruence.
    assert (Eo : o = snd pl).
    { inversion Hca as [x1 D|x1 c1 s1 D|x1 D|]; subst; try reflexivity. destruct D as (p0 & r0 & _ & _ & ->). discriminate. }
    destruct T as (l & A & B & C). exists (l ++ map (pair r) (output f ks)). cbn [rt_trace with_live after with_user].
    rewrite map_app, A, output_app, map_map. cbn [snd]. rewrite map_id. split; [reflexivity|]. split.
    { apply Forall_app; split; [exact B|]. apply Forall_forall. intros t Ht. apply in_map_iff in Ht. destruct Ht as (y & <- & _). exact Hr. }
    intros k pk Hk. destruct (C k pk Hk) as (pl0 & H0 & Hw). exists pl0. split; [exact H0|]. rewrite of_region_app.
    destruct (Nat.eq_dec k r) as [->|Hne].
    + assert (pk = pl) by (unfold at_place in *; cbn [rt_cur with_live after with_user] in *; congruence). subst pk.
      assert (G : forall ys l0, Forall (eq (o, e, o)) ys -> walk env root pl0 l0 pl -> walk env root pl0 (l0 ++ of_region r (map (pair r) ys)) pl).
      { clear - Hca Hi Eo. induction ys as [|y ys IH]; intros l0 F Hw; [now rewrite app_nil_r|]. inversion F as [|? ? E F']; subst y.
        cbn [map]. change ((r, (o, e, o)) :: map (pair r) ys) with ([(r, (o, e, o))] ++ map (pair r) ys). rewrite of_region_app, app_assoc.
        apply IH; [exact F'|]. unfold of_region. cbn [filter fst]. rewrite Nat.eqb_refl. cbn [map snd]. subst o. eapply wa_stay; eauto. }
      now apply G.
    + assert (N : forall ys, of_region k (map (pair r) ys) = []).
      { clear - Hne. induction ys as [|y ys IH]; [reflexivity|]. unfold of_region in *. cbn [map filter fst].
        destruct (Nat.eqb_spec r k); [congruence|exact IH]. }
      now rewrite N, app_nil_r.
Qed.

Lemma step_told ds r e v s vd v' s' : r < max_initials m -> region_step cb m ds r e v s vd v' s' -> told s -> told s'.
Proof.
  intros Hr St T.
  assert (Ca : forall pl ks d x o v1 w1, scan cb m e (bound m ds e pl) v (rt_world s) ks (VPick d x o) v1 w1 -> candidate env root e pl (CRow x o)).
  { intros pl ks d x o v1 w1 H. apply (cands_sound m Hc). destruct (scan_pick cb m e _ _ _ _ _ _ _ _ _ H) as (pre & rest & k1 & k2 & v2 & w2 & E & _).
    assert (I : In (d, CRow x o) (bound m ds e pl)) by (rewrite E; apply in_or_app; right; now left).
    unfold bound in I. apply in_flat_map in I. destruct I as (d' & _ & I). apply in_map_iff in I. destruct I as (c & Ec & I). congruence. }
  assert (A : forall w ks bs vd v1 w1, scan cb m e bs v (rt_world s) ks vd v1 w1 -> told (after s w ks)).
  { intros w ks bs vd0 v1 w1 H. eapply told_same; [| |exact T]; [reflexivity|]. cbn [rt_trace after with_user].
    now rewrite output_app, (scan_output _ _ _ _ _ _ _ _ H), app_nil_r. }
  destruct St as [v s pl0 H1 H2|v s pl0 ks v' w' H1 H2 H3|v s pl0 ks d x o v1 w1 v' s' H1 H2 H3
    |v s pl0 ks v' w' H1 H2|v s pl0 ks n v' w' H1 H2|v s pl0 ks d x o v1 w1 n v' s' H1 H2 H3].
  - exact T.
  - eapply A; eauto.
  - eapply (executes_told r e d x o v1 (after s w1 ks) _ _ _ pl0); [exact Hr|eapply Ca; eauto|exact H1|eauto|eapply A; eauto].
  - eapply (told_same (after s w' ks)); [reflexivity|reflexivity|eapply A; eauto].
  - eapply A; eauto.
  - eapply (executes_told r e d x o v1 (after s w1 ks) _ _ _ pl0); [exact Hr|eapply Ca; eauto|exact H1|eauto|eapply A; eauto].
Qed.

Lemma offer_told ds d0 e v s vds avds oe v' s' : offer cb m ds vnone e v s vds avds oe v' s' ->
  tinv m ds d0 s -> rinv m s -> told s -> tinv m ds d0 s' /\ rinv m s' /\ told s'.
Proof.
  intros H T R Hi. eapply (offer_keeps cb m Hc vnone ds d0 told); eauto.
  intros r e0 v0 s0 vd v1 s1 Hr _ _ H0 St. eapply step_told; eauto.
Qed.
Lemma process_told ds d0 e v s vds rp s' : process cb m ds vnone d0 e v s vds rp s' ->
  tinv m ds d0 s -> rinv m s -> told s -> told s'.
Proof.
  intros H T R Hi. destruct H as [v s vds v1 s1 n v' s' Ho Hu|v s vds oe v' s' Ho _|v s vds avds n v' s' Ho
    |v s vds avds v' s1 n s' Ho Hd]; destruct (offer_told _ _ _ _ _ _ _ _ _ _ Ho T R Hi) as (T1 & R1 & H1); auto.
  - destruct Hu as [v2 s1 Hn|v2 s1 pl b v3 w' Hh Hat E|v2 s1 pl n v3 w' Hh Hat E]; [exact H1| |];
      (eapply told_same; [| |exact H1]; [reflexivity|]; cbn [rt_trace after with_user]; rewrite output_app;
       cbn; now rewrite app_nil_r).
  - destruct (has_deferred m); [|destruct Hd as (_ & ->); exact H1].
    destruct Hd as [s4 Hq|s4 e2 v2 q vds2 avds2 oe v3 s3 Hq Ho2]; [exact H1|].
    eapply (offer_told ds d0); [exact Ho2|apply (tinv_frame m ds d0 s4); auto|exact R1|].
    eapply told_same; [| |exact H1]; reflexivity.
Qed.
Lemma client_told ks ds d0 s : client cb m vnone ks ds d0 s -> never_sets ks -> told s.
Proof.
  intros H. induction H as [fuel d w s H|fuel ks ds d0 s k o s' H IH H1]; intros Hn.
  - destruct (construct_sound m Hc _ _ _ _ (root_initials_le m Hc Hmax) H) as [(F1 & F2 & F) _].
    exists []. split; [|split; [constructor|]].
    + assert (E : rt_trace s = []) by (decompose [and] F; assumption). now rewrite E.
    + intros r pl. unfold at_place. rewrite F2, initials_spec.
      destruct (nth_error (initial_states env root) r) as [i|] eqn:Ei.
      * unfold code. rewrite Nnat.Nat2N.id. intros E. apply nth_pos_is in E. subst pl. exists (root, i). split; [exists i; auto|constructor].
      * destruct (Nat.ltb r (max_initials m)); discriminate.
  - assert (Hn' : never_sets ks) by (intros r p q Hi; apply (Hn r p q); apply in_or_app; now left). specialize (IH Hn').
    pose proof (reachable_rinvs cb m Hc vnone Hmax ds d0 s (client_reachable m cb vnone _ _ _ _ H)) as R.
    pose proof (call_sound cb m Hc vnone Hmax d0 ds fuel k s o s' R H1) as E.
    destruct k as [e v|r p q|p|r p q|d|]; cbn [call_effect] in E; try (subst s'; exact IH).
    + destruct E as (vds & rp & P & _). destruct R as [T R _]. eapply process_told; eauto.
    + exfalso. apply (Hn r p q). apply in_or_app. right. now left.
    + destruct E as (_ & t & _ & ->). eapply told_same; [| |exact IH]; reflexivity.
Qed.
End Log.

(** ** What the lines say *)
Lemma connected_app : forall l a b c e q, connected a l b -> b = c -> connected a (l ++ [(c, e, q)]) q.
Proof.
  induction l as [|[[x e0] y] l IH]; intros a b c e q H E; cbn in *; [split; congruence|].
  destruct H as [-> H]. split; [reflexivity|]. eapply IH; eauto.
Qed.
Lemma walk_last env root pl0 l pl : walk env root pl0 l pl -> snd pl = match rev l with [] => snd pl0 | (_, _, b) :: _ => b end.
Proof. intros H. destruct H as [|l pl e x o pl' H H1 H2 H3|l pl e x H H1 H2]; [reflexivity| |]; now rewrite rev_app_distr. Qed.
Lemma walk_connected env root pl0 l pl : no_composite_source env root -> walk env root pl0 l pl -> connected (snd pl0) l (snd pl).
Proof.
  intros Hn H. induction H as [|l pl e x o pl' H IH H1 H2 H3|l pl e x H IH H1 H2]; [reflexivity| |eapply connected_app; [exact IH|reflexivity]].
  eapply connected_app; [exact IH|]. inversion H1; subst; try reflexivity. exfalso. eapply Hn; eauto.
Qed.
Lemma of_all : forall l, Forall (fun t => fst t < 1) l -> of_region 0 l = map snd l.
Proof.
  induction l as [|[r x] l IH]; intros H; [reflexivity|]. inversion H as [|? ? H1 H2]; subst. cbn [fst] in H1.
  unfold of_region. cbn [filter fst]. assert (r = 0) by lia. subst r. cbn [Nat.eqb map snd]. f_equal. now apply IH.
Qed.

Section Names.
Context {V W : Type}.
Variables (env : cenv) (root : cls) (m : machine).
Hypothesis Hm : compile env root = Some m.
Variable cb : cbfun V W.
Variable f : nat.
Hypothesis Hlog : logs_transitions env root f.
Hypothesis Hexit : exits_quietly cb.
Hypothesis Hnh : no_history env root.
Lemma session_log vnone fuel d w ks outs s : few_regions env root -> never_sets ks ->
  session cb m vnone fuel d w ks = Done outs s ->
  exists l, map snd l = output f (rt_trace s) /\ Forall (fun t => region_exists env root (fst t)) l /\
    forall r pl, at_place m s r = Some pl ->
      exists i, nth_error (initial_states env root) r = Some i /\ walk env root (root, i) (of_region r l) pl.
Proof.
  intros Hf Hk E. pose proof (few_max_compiled _ _ _ Hm Hf) as Hmax. pose proof (region_exists_max env root m Hm) as Hre. pose proof (no_history_flag env root m Hm Hnh) as Hh.
  destruct (session_client m cb vnone fuel d w ks outs s E) as (ds & Hcl).
  compiled Hm. destruct (client_told m Hm Hmax Hh cb vnone f Hlog Hexit ks ds d s Hcl Hk) as (l & A & B & C).
  exists l. split; [exact A|]. split.
  - eapply Forall_impl; [|exact B]. intros [r x] Hr. cbn [fst] in *. now apply Hre.
  - intros r pl Hat. destruct (C r pl Hat) as (pl0 & (i & Hi & ->) & Hw). eauto.
Qed.
Lemma session_log_single vnone fuel d w ks outs s : single env root -> never_sets ks ->
  session cb m vnone fuel d w ks = Done outs s ->
  forall p q, at_place m s 0 = Some (p, q) -> exists i, first_initial env root = Some i /\
    walk env root (root, i) (output f (rt_trace s)) (p, q) /\
    q = match rev (output f (rt_trace s)) with [] => i | (_, _, b) :: _ => b end /\
    (no_composite_source env root -> connected i (output f (rt_trace s)) q).
Proof.
  intros Hs Hk E p q Hat. pose proof (single_max env root m Hm Hs) as Hone. pose proof (no_history_flag env root m Hm Hnh) as Hh.
  destruct (session_client m cb vnone fuel d w ks outs s E) as (ds & Hcl).
  compiled Hm. assert (Hmax : max_initials m <= 255) by lia.
  destruct (client_told m Hm Hmax Hh cb vnone f Hlog Hexit ks ds d s Hcl Hk) as (l & A & B & C).
  rewrite Hone in B. destruct (C 0 (p, q) Hat) as (pl0 & (i & Hi & ->) & Hw). rewrite (of_all l B), A in Hw. exists i.
  split; [unfold first_initial; destruct (initial_states _ _); cbn in *; congruence|]. split; [exact Hw|]. split.
  - exact (walk_last _ _ _ _ _ Hw).
  - intros Hn. exact (walk_connected _ _ _ _ _ Hn Hw).
Qed.
End Names.
