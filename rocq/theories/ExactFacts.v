(** The conditions of Exact.v suffice. *)

From Coq Require Import List Arith NArith Bool Lia.
From Verif Require Import Types Static Dispatch Runtime ListFacts IndexFacts Spec
  DispatchFacts FlattenFacts Semantics RefineFacts StaticFacts TermFacts Reach ReachFacts TableFacts
  QueryFacts ProcessFacts Safe SafeFacts SafeObjects Exact.
Import ListNotations.

Section Exact.
Variable m : machine.
Notation env := (mc_env m).
Notation root := (mc_root m).

Definition reached (e : ev) (pl : place) (c : cand) : Prop :=
  exists l1 l2, cands m e pl = l1 ++ c :: l2 /\ Forall guarded l1.
Inductive rests (e : ev) (p0 : cls) : Prop :=
| rs_refused q : In (p0, q) (places m) -> Forall guarded (cands m e (p0, q)) -> rests e p0
| rs_internal q x o : reached e (p0, q) (CRow x o) -> x_int x = true -> rests e p0
| rs_external pl x o : reached e pl (CRow x o) -> x_int x = false ->
    resolve_dst_parent env x = p0 -> rests e p0.
Definition sleepy : Prop :=
  parallel m = true /\ exists e pl x o p0, reached e pl (CRow x o) /\ x_int x = false /\
    rests e p0 /\ initials env p0 = [].

Record xpm : Prop := mkXpm {
  xm_based : based m;
  xm_dst : forall e pl x o, reached e pl (CRow x o) -> x_int x = false ->
     In (resolve_dst_parent env x) (parents m);
  xm_hist : has_history m = true -> forall e pl x o, reached e pl (CRow x o) -> x_int x = false ->
     initials env (fst pl) <> [] /\
     forall r p0, 0 < r < max_initials m -> rests e p0 -> r < length (initials env p0);
  xm_cand : forall e pl x o, reached e pl (CRow x o) -> cand_ok m x o;
  xm_handler : cd_unexpected (lookup env root) = true -> forall e pl, In e (events m) -> In pl (places m) ->
     cands m e pl = [] \/ sleepy -> defctor env (snd pl) = true }.

Lemma reached_in e pl c : reached e pl c -> In c (cands m e pl).
Proof. intros (l1 & l2 & -> & _). apply in_or_app. right. now left. Qed.

(** Rebinding repeats the list; what is reached in the repetition is reached. *)
Lemma bound_reached ds e pl : forall pre d c post, bound m ds e pl = pre ++ (d, c) :: post ->
  Forall (fun b => guarded (snd b)) pre -> reached e pl c.
Proof.
  unfold bound. induction ds as [|d0 ds IH]; intros pre d c post E H.
  - cbn in E. destruct pre; discriminate.
  - cbn [flat_map] in E. remember (cands m e pl) as cs eqn:Ecs.
    assert (G : forall cs1 cs2 pre post rest, cs = cs1 ++ cs2 -> Forall guarded cs1 ->
       map (pair d0) cs2 ++ rest = pre ++ (d, c) :: post -> Forall (fun b => guarded (snd b)) pre ->
       reached e pl c \/ exists pre', rest = pre' ++ (d, c) :: post /\ Forall (fun b => guarded (snd b)) pre').
    { clear E H pre post. intros cs1 cs2. revert cs1. induction cs2 as [|c2 cs2 IH2]; intros cs1 pre post rest Ec Hg E H.
      - right. cbn in E. eauto.
      - cbn [map app] in E. destruct pre as [|b pre].
        + left. inversion E; subst. exists cs1, cs2. split; [congruence|exact Hg].
        + inversion E as [[Eb E']]. subst b. inversion H as [|? ? H1 H2]; subst. cbn in H1.
          apply (IH2 (cs1 ++ [c2]) pre post rest); auto.
          * rewrite <- app_assoc. exact Ec.
          * apply Forall_app. auto. }
    destruct (G [] cs pre post _ eq_refl (Forall_nil _) E H) as [R|(pre' & E' & H')]; [exact R|].
    eapply IH; eauto.
Qed.
Lemma bound_guarded ds e pl : ds <> [] -> Forall (fun b => guarded (snd b)) (bound m ds e pl) ->
  Forall guarded (cands m e pl).
Proof.
  destruct ds as [|d ds]; [congruence|]. intros _ H. unfold bound in H. cbn [flat_map] in H.
  apply Forall_app in H. destruct H as [H _]. rewrite Forall_map in H. exact H.
Qed.

Hypothesis Hm : compile env root = Some m.
Let Hc : comp m := proj1 (compile_comp _ _ _ Hm).
Hypothesis Hx : xpm.
Hypothesis Ha : anonm m.
Context {V W : Type}.
Variable cb : cbfun V W.
Variable vnone : V.
Notation st := (rt V W).

Definition awake (s : st) : Prop := parallel m = true -> rt_regions s = 0 -> sleepy.
Definition fit (s : st) : Prop := stocked m s /\ awake s.

Section Deps.
Variables (ds : list dep) (d0 : dep).
Let NoUB : ub -> Prop := fun _ => False.
Notation ok := (sinv m ds d0 fit).
Notation safe := (safe m ds d0 NoUB fit).
Local Hint Extern 1 (always _ _) => exact I : core.
Local Hint Extern 1 (SafeFacts.always _ _) => exact I : core.

Lemma ds_nonempty (s : st) : tinv m ds d0 s -> ds <> [].
Proof. intros [T _ _ _]. inversion T; discriminate. Qed.

(** Region 0 has had its turn. *)
Definition rested (e : ev) (s : st) : Prop := exists p0 q0, at_place m s 0 = Some (p0, q0) /\ rests e p0.

Lemma resolve_dst_nonempty x : row_accepted m x = true -> resolve_history x = true ->
  initials env (resolve_dst_parent env x) <> [].
Proof.
  intros H Hh E. apply row_accepted_dst in H. apply H. unfold resolve_dst, resolve_history, resolve_dst_parent in *.
  destruct (x_tgt x); try discriminate. now rewrite E.
Qed.

(** ** update_current_state *)
Lemma relocate_regions r c (s : st) p q : parallel m = true -> at_place m (relocate m r c s) 0 = Some (p, q) ->
  rt_regions (relocate m r c s) = length (initials env p).
Proof.
  unfold relocate. intros ->. destruct (at_place m (with_cur s (set_nth r (Some c) (rt_cur s))) 0) as [[p' q']|] eqn:E; intros H.
  - rewrite initials_spec. change (at_place m (with_cur s (set_nth r (Some c) (rt_cur s))) 0 = Some (p, q)) in H.
    rewrite E in H. inversion H. reflexivity.
  - congruence.
Qed.

Lemma update_exact d x o r e pl (s : st) : ok s -> r < max_initials m -> at_place m s r = Some pl ->
  reached e pl (CRow x o) -> (r <> 0 -> rested e s) ->
  exists s', update_current_state m r (bentry m (d, CRow x o)) s = Done tt s' /\ ok s' /\
    moves m r x s s' /\ rested e s'.
Proof.
  intros [P [Hs Hz]] Hr Hat Hre Hrest. pose proof (reached_in _ _ _ Hre) as Hin.
  pose proof (cands_accepted m Hc _ _ _ _ Hin) as Hacc.
  assert (Hfl : x_int x = false -> In x (mc_flat m)) by (intros; eapply (cands_flat m); eauto).
  destruct pl as [p q].
  assert (G : exists s', update_current_state m r (bentry m (d, CRow x o)) s = Done tt s' /\ placed m ds d0 s' /\
     rested e s' /\ (parallel m = true -> x_int x = false -> forall p0 q0, at_place m s' 0 = Some (p0, q0) ->
        rt_regions s' = length (initials env p0)) /\ (x_int x = true -> s' = s)).
  { unfold update_current_state. cbn [bentry centry fst snd entry_of_row en_int en_hist en_to].
    destruct (x_int x) eqn:Ei.
    { exists s. split; [reflexivity|]. split; [exact P|]. split; [|split; [discriminate|reflexivity]].
      destruct r as [|r]; [|apply Hrest; discriminate]. exists p, q. split; [exact Hat|]. eapply rs_internal; eauto. }
    pose proof (xm_dst Hx _ _ _ _ Hre Ei) as Hdp. destruct (row_accepted_states m x Hacc) as [Hds _].
    pose proof (places_at_combined m Hc _ _ Hdp Hds) as Hto.
    assert (Hrt : rests e (resolve_dst_parent env x)) by (eapply rs_external; eauto).
    assert (Move : forall s1 c plc, placed m ds d0 s1 -> rt_cur s1 = rt_cur s ->
       nth_error (places m) (N.to_nat c) = Some plc -> (r = 0 -> fst plc = resolve_dst_parent env x) ->
       exists s', bind (write_cur s1 r c) (fun _ s => update_current_regions m s) = Done tt s' /\ placed m ds d0 s' /\
         rested e s' /\ (parallel m = true -> false = false -> forall p0 q0, at_place m s' 0 = Some (p0, q0) ->
           rt_regions s' = length (initials env p0)) /\ (false = true -> s' = s)).
    { intros s1 c plc P1 Ecur Hplc Hfst. exists (relocate m r c s1).
      split; [eapply relocate_total; eauto|]. split; [eapply relocate_placed; eauto|].
      assert (A0 : r <> 0 -> at_place m (relocate m r c s1) 0 = at_place m s 0).
      { intros Hn. destruct (relocate_rest m r c s1) as (_ & _ & _ & _ & Ec & _). unfold at_place.
        rewrite Ec, nth_set_other by (intros E; now apply Hn). now rewrite Ecur. }
      split; [|split; [intros Hp _ p0 q0; now apply relocate_regions|discriminate]].
      destruct (Nat.eq_dec r 0) as [->|Hn].
      - destruct plc as [pc qc]. cbn [fst] in Hfst. exists pc, qc. split.
        + apply at_place_relocate; [|exact Hplc]. rewrite (ti_cur _ _ _ _ (pd_tinv _ _ _ _ P1)). exact Hr.
        + now rewrite (Hfst eq_refl).
      - destruct (Hrest Hn) as (p0 & q0 & E0 & R0). exists p0, q0. split; [now rewrite A0|exact R0]. }
    destruct (has_history m) eqn:Eh.
    - destruct (xm_hist Hx Eh _ _ _ _ Hre Ei) as [Hne Hlen]. cbn [fst] in Hne.
      destruct (current_parent_placed m Hc ds d0 s P) as (p0 & q0 & E0 & Hp & Ecp). rewrite Ecp. cbn [bind].
      destruct (placed_cur m Hc ds d0 s r P Hr) as (c & p1 & q1 & E1 & Ep1 & _).
      unfold read_cur at 1. rewrite E1. cbn [bind].
      destruct (hist_row m Hc ds d0 s p0 P Hp) as (l & El & Hl).
      assert (Hrl : r < length l).
      { rewrite Hl. destruct (Nat.eq_dec r 0) as [->|Hn].
        - rewrite E0 in Hat. inversion Hat; subst. destruct (initials env p); [congruence|cbn; lia].
        - destruct (Hrest Hn) as (p0' & q0' & E0' & R0). rewrite E0 in E0'. inversion E0'; subst. apply Hlen; [lia|exact R0]. }
      assert (Ewh : write_hist s (N.of_nat (parent_pos m p0)) r c = Done tt (remember m r s)).
      { unfold write_hist, remember. rewrite nth_at_nth, Nnat.Nat2N.id, El, E0, E1, upd_nth_in by lia.
        rewrite upd_at_upd, Nnat.Nat2N.id, upd_nth_in by (apply nth_error_Some; congruence). now rewrite El. }
      rewrite Ewh. cbn [bind]. pose proof (remember_placed m Hc ds d0 r s P) as P1.
      destruct (remember_rest m r s) as (_ & _ & _ & _ & Ercur & _).
      destruct (resolve_history x) eqn:Erh.
      + rewrite (calc_parent_combined m Hc) by assumption.
        destruct (hist_row m Hc ds d0 _ _ P1 Hdp) as (l' & El' & Hl').
        unfold read_hist. rewrite nth_at_nth, (parent_idx_pos m Hc), Nnat.Nat2N.id.
        change (pos Nat.eq_dec (resolve_dst_parent env x) (parents m)) with (parent_pos m (resolve_dst_parent env x)).
        rewrite El'.
        assert (Hrl' : r < length l').
        { rewrite Hl'. destruct (Nat.eq_dec r 0) as [->|Hn].
          - pose proof (resolve_dst_nonempty x Hacc Erh). destruct (initials env (resolve_dst_parent env x)); [congruence|cbn; lia].
          - apply Hlen; [lia|exact Hrt]. }
        destruct (nth_error l' r) as [c'|] eqn:Ec'; [|apply nth_error_None in Ec'; lia]. cbn [bind].
        destruct (pd_hist _ _ _ _ P1 (resolve_dst_parent env x) r c' Hdp) as (pl' & Epl' & H0).
        { unfold history_of. now rewrite El'. }
        exact (Move _ c' pl' P1 Ercur Epl' H0).
      + exact (Move _ _ _ P1 Ercur Hto (fun _ => eq_refl)).
    - exact (Move s _ _ P eq_refl Hto (fun _ => eq_refl)). }
  destruct G as (s' & E & P' & Hr' & Hreg & Hint). exists s'. split; [exact E|].
  assert (Hmv : moves m r x s s') by (eapply (update_sound m Hc ds d0); eauto; apply P).
  split; [|split; [exact Hmv|exact Hr']]. split; [exact P'|]. split.
  - destruct (moves_rest m _ _ _ _ Hmv) as (_ & El & _). unfold stocked. rewrite El. exact Hs.
  - intros Hp Hz'. destruct (x_int x) eqn:Ei; [rewrite (Hint eq_refl) in Hz'; now apply Hz|].
    destruct Hr' as (p0 & q0 & E0 & R0). rewrite (Hreg Hp eq_refl p0 q0 E0) in Hz'.
    split; [exact Hp|]. exists e, (p, q), x, o, p0. split; [exact Hre|]. split; [exact Ei|]. split; [exact R0|].
    now apply length_zero_iff_nil.
Qed.

Lemma ok_after s w ks : ok s -> ok (after s w ks).
Proof. intros [P Ho]. split; [now apply placed_after|]. exact Ho. Qed.

Lemma ok_place (s : st) r p q : at_place m s r = Some (p, q) -> In (p, q) (places m).
Proof.
  unfold at_place. destruct (nth_error (rt_cur s) r) as [[c|]|]; try discriminate. intros H. eapply nth_error_In; eauto.
Qed.

Lemma guard_ok d x o e pl v (s : st) : ok s -> reached e pl (CRow x o) ->
  no_ub (execute_guard cb (btrans m d x o) e v s).
Proof.
  intros [_ [Hs _]] H. eapply (execute_guard_defined m Hm); eauto using reached_in. exact (xm_cand Hx _ _ _ _ H).
Qed.

Lemma fire_exact s r pl e d x o v : ok s -> r < max_initials m -> at_place m s r = Some pl ->
  reached e pl (CRow x o) -> (r <> 0 -> rested e s) ->
  safe (fun _ s' => rested e s')
    (bind (update_current_state m r (bentry m (d, CRow x o)) s)
         (fun _ s => execute_action cb (btrans m d x o) e v s)).
Proof.
  intros Hs Hr Hat Hre Hrest. destruct (update_exact d x o r e pl s Hs Hr Hat Hre Hrest) as (s1 & -> & S1 & _ & R1). cbn [bind].
  pose proof (reached_in _ _ _ Hre) as Hin. pose proof (cands_accepted m Hc _ _ _ _ Hin) as Hacc.
  destruct S1 as [P1 [St1 Z1]].
  pose proof (execute_action_defined m Hm cb d x o e v s1 pl Hin (xm_cand Hx _ _ _ _ Hre) St1) as G.
  pose proof (execute_action_stocked m Hm cb d x o e v s1 pl Hin St1) as G2.
  pose proof (execute_action_sound cb m d x o e v s1 (row_accepted_dst m x Hacc)) as P.
  destruct (execute_action cb (btrans m d x o) e v s1) as [v' s'|ex s'|u|]; cbn in *; auto.
  - destruct P as (ks & l' & w' & _ & ->). split; [|exact R1]. split; [now apply placed_live|]. split; [exact G2|exact Z1].
  - destruct P as (n & ks & v1 & l' & w' & _ & _ & ->). split; [now apply placed_live|]. split; [exact G2|exact Z1].
Qed.

(** ** One region *)
Lemma try_entries_exact r e pl : In e (events m) -> forall bs pre, bound m ds e pl = pre ++ bs ->
  Forall (fun b => guarded (snd b)) pre -> forall v s,
  ok s -> r < max_initials m -> at_place m s r = Some pl -> (r <> 0 -> rested e s) ->
  safe (fun tv s' => fst tv <> Deferred -> rested e s') (try_entries cb m (map (bentry m) bs) r e v s).
Proof.
  intros He. induction bs as [|[d [|x o]] bs IH]; intros pre Eb Hpre v s Hs Hr Hat Hrest.
  - cbn. split; [exact Hs|]. intros _. destruct r as [|r]; [|apply Hrest; discriminate].
    destruct pl as [p q]. exists p, q. split; [exact Hat|]. apply (rs_refused e p q).
    + eapply ok_place; eauto.
    + apply (bound_guarded ds); [eapply ds_nonempty; apply Hs|]. rewrite Eb, app_nil_r. exact Hpre.
  - cbn. split; [|intros H; now destruct H]. destruct Hs as [P Ho]. split; [|exact Ho].
    apply (placed_same m ds d0 s); auto. cbn. intros e' v'. rewrite in_app_iff. intros [H|[H|[]]].
    + eapply (pd_queue _ _ _ _ P); eauto.
    + now inversion H; subst.
  - assert (Hre : reached e pl (CRow x o)) by (eapply bound_reached; eauto).
    pose proof (cands_accepted m Hc _ _ _ _ (reached_in _ _ _ Hre)) as Hacc.
    cbn [map try_entries]. rewrite bentry_tr. cbn [en_defer bentry centry fst snd entry_of_row].
    pose proof (guard_ok d x o e pl v s Hs Hre) as G.
    pose proof (execute_guard_sound cb m d x o e v s (row_accepted_dst m x Hacc)) as P.
    assert (HIH : x_guard x <> NoGuard -> forall v s, ok s -> at_place m s r = Some pl -> (r <> 0 -> rested e s) ->
              safe (fun tv s' => fst tv <> Deferred -> rested e s') (try_entries cb m (map (bentry m) bs) r e v s)).
    { intros Hg v0 s0 Hs0 Hat0 Hr0. apply (IH (pre ++ [(d, CRow x o)])); auto.
      - rewrite <- app_assoc. exact Eb.
      - apply Forall_app. split; [exact Hpre|]. constructor; [exact Hg|constructor]. }
    destruct (execute_guard cb (btrans m d x o) e v s) as [[b v1] s1|ex s1|u|]; cbn [bind fst snd]; auto.
    + assert (S1 : ok s1 /\ at_place m s1 r = Some pl /\ (r <> 0 -> rested e s1) /\ (b = false -> x_guard x <> NoGuard)).
      { destruct P as [(Eg & Eb' & _ & ->)|(ty & val & w' & Eg & _ & ->)].
        - split; [exact Hs|]. split; [exact Hat|]. split; [exact Hrest|]. congruence.
        - split; [now apply ok_after|]. split; [exact Hat|]. split; [exact Hrest|]. congruence. }
      destruct S1 as (S1 & A1 & R1 & Hg). destruct b; [|apply HIH; auto].
      pose proof (fire_exact s1 r pl e d x o v1 S1 Hr A1 Hre R1) as F.
      unfold bentry, centry, entry_of_row in F |- *. cbn [fst snd] in F |- *.
      destruct (update_current_state m r _ s1) as [[] s2|ex s2|u|]; cbn [bind] in F |- *; auto.
      eapply safe_bind; [exact F|]. intros v' s' Hs' R'. cbn. split; [exact Hs'|]. intros _. exact R'.
    + destruct P as (ty & val & n & v' & w' & _ & _ & _ & ->). now apply ok_after.
Qed.

Lemma try_region_exact r e v s : In e (events m) -> ok s -> r < max_initials m -> (r <> 0 -> rested e s) ->
  safe (fun tv s' => fst tv <> Some Deferred -> rested e s') (try_region cb m r e v s).
Proof.
  intros He Hs Hr Hrest. destruct (pd_at _ _ _ _ (proj1 Hs) r Hr) as [pl Hat]. unfold try_region.
  rewrite (get_entries_total m Hc ds d0 e r s pl (pd_tinv _ _ _ _ (proj1 Hs)) He Hat). cbn [bind].
  pose proof (try_entries_exact r e pl He (bound m ds e pl) [] eq_refl (Forall_nil _) v s Hs Hr Hat Hrest) as F.
  destruct (map (bentry m) (bound m ds e pl)) as [|b bs] eqn:Eb.
  - cbn in F |- *. split; [exact Hs|]. intros _. apply F. discriminate.
  - eapply safe_bind; [exact F|]. intros [t v'] s' Hs' H. cbn in *. split; [exact Hs'|]. intros Hn. apply H. congruence.
Qed.

Lemma region_loop_exact e : In e (events m) -> forall fuel limit r agf ati v s,
  limit <= max_initials m -> ok s -> (r <> 0 -> rested e s) -> safe always (region_loop cb m fuel limit r agf ati e v s).
Proof.
  intros He. induction fuel as [|fuel IH]; intros limit r agf ati v s Hl Hs Hrest; [exact I|].
  cbn [region_loop]. destruct (Nat.ltb_spec r limit) as [Hr|Hr]; [|cbn; auto].
  eapply safe_bind; [apply try_region_exact; auto; lia|]. intros [o v1] s1 Hs1 R1. cbn [fst snd] in *.
  destruct o as [[| |]|]; cbn [Runtime.bind]; try (apply IH; auto; intros _; apply R1; discriminate). cbn. auto.
Qed.

(** Nothing was found: nothing has happened. *)
Lemma region_loop_invalid e : forall fuel limit r agf ati v (s s' : st) v',
  region_loop cb m fuel limit r agf ati e v s = Done (PInvalid, v') s' ->
  ati = true /\ s' = s /\ (r < limit -> get_entries e r s = Done [] s).
Proof.
  induction fuel as [|fuel IH]; intros limit r agf ati v s s' v'; [discriminate|]. cbn [region_loop].
  destruct (Nat.ltb_spec r limit) as [Hr|Hr].
  - destruct (try_region cb m r e v s) as [[o v1] s1|ex s1|u|] eqn:E; cbn [bind fst snd]; try discriminate.
    destruct o as [[| |]|]; intros H; try (apply IH in H; destruct H; discriminate); [discriminate|].
    apply IH in H. destruct H as (-> & -> & _). split; [reflexivity|]. unfold try_region in E.
    destruct (get_entries e r s) as [l s2|ex s2|u|] eqn:Eg; cbn [bind] in E; try discriminate.
    assert (s2 = s).
    { unfold get_entries in Eg. destruct (get_table (rt_tabs s) e); [|discriminate]. unfold read_cur in Eg.
      destruct (nth_error (rt_cur s) r) as [[c|]|]; cbn in Eg; try discriminate. destruct (nth_at c l0); [|discriminate]. congruence. }
    subst s2. destruct l; [inversion E; subst; auto|].
    destruct (try_entries cb m (e0 :: l) r e v s) as [[t v2] s2|? ?|?|]; cbn in E; try discriminate.
  - destruct ati; [|destruct agf; discriminate]. intros H; inversion H; subst. split; [reflexivity|]. split; [reflexivity|lia].
Qed.

(** ** The anonymous loop *)
Lemma try_anonymous_exact r pl : has_anonymous m = true -> forall bs pre, bound m ds ENone pl = pre ++ bs ->
  Forall (fun b => guarded (snd b)) pre -> forall v s,
  ok s -> r < max_initials m -> at_place m s r = Some pl -> (r <> 0 -> rested ENone s) ->
  safe (fun _ s' => rested ENone s') (try_anonymous cb m (map (bentry m) bs) r v s).
Proof.
  intros Han. induction bs as [|[d [|x o]] bs IH]; intros pre Eb Hpre v s Hs Hr Hat Hrest.
  - cbn. split; [exact Hs|]. destruct r as [|r]; [|apply Hrest; discriminate].
    destruct pl as [p q]. exists p, q. split; [exact Hat|]. apply (rs_refused ENone p q).
    + eapply ok_place; eauto.
    + apply (bound_guarded ds); [eapply ds_nonempty; apply Hs|]. rewrite Eb, app_nil_r. exact Hpre.
  - exfalso. apply (Ha Han pl). apply (reached_in ENone). eapply bound_reached; eauto.
  - assert (Hre : reached ENone pl (CRow x o)) by (eapply bound_reached; eauto).
    pose proof (cands_accepted m Hc _ _ _ _ (reached_in _ _ _ Hre)) as Hacc.
    cbn [map try_anonymous]. rewrite bentry_tr.
    pose proof (guard_ok d x o ENone pl v s Hs Hre) as G.
    pose proof (execute_guard_sound cb m d x o ENone v s (row_accepted_dst m x Hacc)) as P.
    assert (HIH : x_guard x <> NoGuard -> forall v s, ok s -> at_place m s r = Some pl -> (r <> 0 -> rested ENone s) ->
              safe (fun _ s' => rested ENone s') (try_anonymous cb m (map (bentry m) bs) r v s)).
    { intros Hg v0 s0 Hs0 Hat0 Hr0. apply (IH (pre ++ [(d, CRow x o)])); auto.
      - rewrite <- app_assoc. exact Eb.
      - apply Forall_app. split; [exact Hpre|]. constructor; [exact Hg|constructor]. }
    destruct (execute_guard cb (btrans m d x o) ENone v s) as [[b v1] s1|ex s1|u|]; cbn [bind fst snd]; auto.
    + assert (S1 : ok s1 /\ at_place m s1 r = Some pl /\ (r <> 0 -> rested ENone s1) /\ (b = false -> x_guard x <> NoGuard)).
      { destruct P as [(Eg & Eb' & _ & ->)|(ty & val & w' & Eg & _ & ->)].
        - split; [exact Hs|]. split; [exact Hat|]. split; [exact Hrest|]. congruence.
        - split; [now apply ok_after|]. split; [exact Hat|]. split; [exact Hrest|]. congruence. }
      destruct S1 as (S1 & A1 & R1 & Hg). destruct b; [|apply HIH; auto].
      pose proof (fire_exact s1 r pl ENone d x o v1 S1 Hr A1 Hre R1) as F.
      destruct (update_current_state m r _ s1) as [[] s2|ex s2|u|]; cbn [bind] in F |- *; auto.
      eapply safe_bind; [exact F|]. intros v' s' Hs' R'. cbn. split; [exact Hs'|exact R'].
    + destruct P as (ty & val & n & v' & w' & _ & _ & _ & ->). now apply ok_after.
Qed.

Lemma anonymous_region_exact r v s : has_anonymous m = true -> ok s -> r < max_initials m ->
  (r <> 0 -> rested ENone s) -> safe (fun _ s' => rested ENone s') (anonymous_region cb m r v s).
Proof.
  intros Han Hs Hr Hrest. destruct (pd_at _ _ _ _ (proj1 Hs) r Hr) as [pl Hat]. unfold anonymous_region.
  rewrite (get_entries_total m Hc ds d0 ENone r s pl (pd_tinv _ _ _ _ (proj1 Hs)) (none_event m Han) Hat). cbn [bind].
  pose proof (try_anonymous_exact r pl Han (bound m ds ENone pl) [] eq_refl (Forall_nil _) v s Hs Hr Hat Hrest) as F.
  destruct (map (bentry m) (bound m ds ENone pl)); [exact F|].
  eapply safe_bind; [exact F|]. intros [t v'] s' Hs' R'. cbn. auto.
Qed.

Lemma anonymous_pass_exact : has_anonymous m = true -> forall fuel limit r agf v s,
  limit <= max_initials m -> ok s -> (r <> 0 -> rested ENone s) ->
  safe always (anonymous_pass cb m fuel limit r agf v s).
Proof.
  intros Han. induction fuel as [|fuel IH]; intros limit r agf v s Hl Hs Hrest; [exact I|].
  cbn [anonymous_pass]. destruct (Nat.ltb_spec r limit) as [Hr|Hr]; [|cbn; auto].
  eapply safe_bind; [apply anonymous_region_exact; auto; lia|]. intros [o v1] s1 Hs1 R1. cbn [fst snd].
  destruct o as [b|]; [apply IH; auto|cbn; auto].
Qed.

Lemma anonymous_loop_exact : has_anonymous m = true -> forall rfuel fuel v s,
  ok s -> safe always (anonymous_loop cb m rfuel fuel v s).
Proof.
  intros Han rfuel. induction fuel as [|fuel IH]; intros v s Hs; [exact I|]. cbn [anonymous_loop].
  eapply (safe_bind m ds d0 NoUB fit always).
  - apply anonymous_pass_exact; auto; [eapply current_regions_le; eauto|]. intros H; now destruct H.
  - intros [[[|]|] v1] s1 Hs1 _; cbn; auto.
Qed.

Lemma process_anonymous_exact fuel s : ok s -> safe always (process_anonymous cb m vnone fuel s).
Proof.
  intros Hs. unfold process_anonymous. case_eq (has_anonymous m); intros E; [|cbn; auto].
  now apply anonymous_loop_exact.
Qed.

(** Nothing found: region 0 has no candidates, or no region is active. *)
Definition idle (e : ev) (s : st) : Prop := exists pl, at_place m s 0 = Some pl /\ In pl (places m) /\
  (cands m e pl = [] \/ sleepy).

Lemma process_event_internal_exact fuel e v s : In e (events m) -> ok s ->
  safe (fun pv s' => fst pv = PInvalid -> idle e s') (process_event_internal cb m vnone fuel e v s).
Proof.
  intros He Hs. unfold process_event_internal.
  assert (L : safe always (region_loop cb m fuel (current_regions m s) 0 true true e v s)).
  { apply region_loop_exact; auto; [eapply current_regions_le; eauto|]. intros H; now destruct H. }
  destruct (region_loop cb m fuel (current_regions m s) 0 true true e v s) as [[p v1] s1|ex s1|u|] eqn:E; cbn [bind fst]; auto.
  destruct L as [Hs1 _]. destruct p; try (cbn; split; [exact Hs1|intros H; discriminate H]).
  - cbn. split; [exact Hs1|]. intros _. apply region_loop_invalid in E. destruct E as (_ & -> & Hg).
    destruct (pd_at _ _ _ _ (proj1 Hs) 0 (max_pos m Hc)) as [[p q] Hat]. exists (p, q). split; [exact Hat|].
    split; [eapply ok_place; eauto|].
    destruct (Nat.eq_dec (current_regions m s) 0) as [Ez|Ez].
    + right. destruct Hs as [_ [_ Hz]]. unfold current_regions in Ez.
      destruct (parallel m) eqn:Epar; [|discriminate]. now apply Hz.
    + left. specialize (Hg ltac:(lia)).
      rewrite (get_entries_total m Hc ds d0 e 0 s (p, q) (pd_tinv _ _ _ _ (proj1 Hs)) He Hat) in Hg.
      inversion Hg as [Hb]. pose proof (ds_nonempty s (pd_tinv _ _ _ _ (proj1 Hs))) as Hd.
      destruct ds as [|d l]; [congruence|]. unfold bound in Hb. cbn [flat_map] in Hb.
      destruct (cands m e (p, q)); [reflexivity|discriminate].
  - eapply (safe_bind m ds d0 NoUB fit always); [now apply process_anonymous_exact|].
    intros [] s2 Hs2 _. cbn. split; [exact Hs2|intros H; discriminate H].
Qed.

Lemma process_deferred_exact fuel s : ok s -> safe always (process_deferred cb m vnone fuel s).
Proof.
  intros Hs. unfold process_deferred. destruct (has_deferred m); [|cbn; auto].
  destruct (rt_queue s) as [|[e v] q] eqn:Eq; [cbn; auto|].
  destruct Hs as [P Ho].
  eapply safe_bind; [|intros ? s2 Hs2 _; cbn; auto].
  apply process_event_internal_exact.
  - apply (pd_queue _ _ _ _ P e v). rewrite Eq. now left.
  - split; [|exact Ho]. apply (placed_same m ds d0 s); auto. cbn. intros e' v' Hin.
    apply (pd_queue _ _ _ _ P e' v'). rewrite Eq. now right.
Qed.

Lemma call_handler_exact e v s : In e (events m) -> ok s -> idle e s -> safe always (call_handler cb m e v s).
Proof.
  intros He Hs (pl & Hat' & Hpl & Hi). unfold call_handler. case_eq (cd_unexpected (lookup env root)); intros Eu; [|cbn; auto].
  destruct (placed_cur m Hc ds d0 s 0 (proj1 Hs) (max_pos m Hc)) as (c & p & q & E & Ep & Hp & Hq).
  unfold at_cur. rewrite E. cbn [bind].
  pose proof (ti_htabs _ _ _ _ (pd_tinv _ _ _ _ (proj1 Hs)) Eu) as Hh.
  pose proof (fill_handlers_get m Hc d0 (rt_htabs s) e p q Hh He Hp Hq) as G.
  destruct (get_table (rt_htabs s) e) as [arr|]; [|contradiction]. destruct G as [G _].
  destruct (places_at_inv m Hc _ _ _ Ep) as (_ & _ & ->). rewrite nth_at_nth, G.
  assert (Hat : at_place m s 0 = Some (p, q)) by (unfold at_place; rewrite E; exact Ep).
  rewrite Hat in Hat'. inversion Hat'; subst pl.
  pose proof (xm_handler Hx Eu e (p, q) He Hpl Hi) as Hd. cbn [snd] in Hd.
  rewrite (stocked_alive m s q (proj1 (proj2 Hs)) Hq Hd). unfold keep_payload, invoke.
  destruct (cb CHandler (mkArgs e q TNone d0) v (rt_world s)) as [b v' w'|n v' w']; cbn.
  + split; [|exact I]. apply (ok_after s w' [mkCall CHandler (mkArgs e q TNone d0) v] Hs).
  + apply (ok_after s w' [mkCall CHandler (mkArgs e q TNone d0) v] Hs).
Qed.

Lemma process_event_exact fuel e v s : In e (events m) -> ok s ->
  safe always (process_event cb m vnone fuel e v s).
Proof.
  intros He Hs. unfold process_event. destruct (in_dec ev_eq_dec e (events m)); [|contradiction].
  eapply safe_bind; [now apply process_event_internal_exact|]. intros [p v1] s1 Hs1 Hi. cbn [fst snd] in *.
  destruct p; try (cbn; auto; fail).
  - eapply (safe_bind m ds d0 NoUB fit always); [apply call_handler_exact; auto|]. intros; cbn; auto.
  - eapply (safe_bind m ds d0 NoUB fit always); [now apply process_deferred_exact|]. intros; cbn; auto.
Qed.
End Deps.

(** ** Sessions *)
Lemma call_exact fuel ds d0 k s : sinv m ds d0 fit s -> typed m k ->
  match do_call_catch cb m vnone fuel k s with
  | Done _ s' => sinv m (deps_after k ds) d0 fit s'
  | Timeout => True
  | _ => False
  end.
Proof.
  intros Hs Ht.
  assert (G : deps_after k ds = ds -> SafeFacts.safe m ds d0 (fun _ => False) fit always (do_call cb m vnone fuel k s) ->
     match do_call_catch cb m vnone fuel k s with
     | Done _ s' => sinv m (deps_after k ds) d0 fit s'
     | Timeout => True | _ => False end).
  { intros -> H. unfold do_call_catch. destruct (do_call cb m vnone fuel k s); cbn in *; auto. apply H. }
  destruct k as [e v|r p q|p|r p q|d|]; cbn [deps_after typed] in *.
  - apply G; [reflexivity|]. cbn [do_call].
    apply (safe_bind m ds d0 _ fit always); [|intros [b v'] s' H' _; cbn; split; [exact H'|exact I]].
    now apply process_event_exact.
  - apply G; [reflexivity|]. cbn [do_call].
    apply (safe_bind m ds d0 _ fit always); [now apply q_is_safe|]. intros b s' H' _; cbn; split; [exact H'|exact I].
  - apply G; [reflexivity|]. cbn [do_call].
    apply (safe_bind m ds d0 _ fit always); [now apply q_parent_is_safe|]. intros b s' H' _; cbn; split; [exact H'|exact I].
  - destruct Ht as [Hp Hq].
    destruct (set_state_placed m Hc ds d0 r p q s (proj1 Hs) Hp Hq) as [(s' & E & P' & L & Hh & A)| E];
      unfold do_call_catch, do_call; rewrite E; cbn [bind].
    + split; [exact P'|]. destruct Hs as [_ [H1 H2]]. split; [unfold stocked; rewrite L; exact H1|].
      unfold awake. pose proof (set_state_result m Hc r p q s) as R. rewrite E in R.
      destruct R as (_ & _ & _ & ->). exact H2.
    + exact Hs.
  - destruct (set_dependency_based m Hc ds d0 d s (xm_based Hx) (proj1 Hs)) as (t & E & P').
    unfold do_call_catch, do_call. rewrite E. cbn [bind]. split; [exact P'|]. apply Hs.
  - apply G; [reflexivity|]. cbn [do_call].
    apply (safe_bind m ds d0 _ fit always); [|intros b s' H' _; cbn; split; [exact H'|exact I]].
    apply status_loop_safe; [exact Hc| |exact Hs]. eapply current_regions_le; eauto.
Qed.

Lemma run_exact fuel : forall ks ds d0 s, sinv m ds d0 fit s -> Forall (typed m) ks ->
  match run cb m vnone fuel ks s with
  | Done _ s' => exists ds', sinv m ds' d0 fit s'
  | Timeout => True
  | _ => False
  end.
Proof.
  induction ks as [|k ks IH]; intros ds d0 s Hs Ht; cbn [run]; [eauto|].
  inversion Ht as [|? ? Ht1 Ht2]; subst.
  pose proof (call_exact fuel ds d0 k s Hs Ht1) as P.
  destruct (do_call_catch cb m vnone fuel k s) as [o s1|x s1|u|]; cbn [bind]; auto.
  specialize (IH _ _ _ P Ht2). destruct (run cb m vnone fuel ks s1); cbn [bind]; auto.
Qed.

Lemma session_exact fuel d w ks : Forall (typed m) ks ->
  match session cb m vnone fuel d w ks with
  | Done _ s' => exists ds', sinv m ds' d fit s'
  | Timeout => True
  | _ => False
  end.
Proof.
  intros Ht. unfold session. pose proof (construct_based (V := V) m Hc fuel d w (xm_based Hx)) as P.
  destruct (construct m fuel d w) as [u s|x s|u|]; cbn [bind]; auto.
  destruct P as (P1 & P2 & P3 & P4 & F). apply (run_exact fuel ks [d]); [|exact Ht]. split; [exact P1|]. split.
  - intros q Hq Hd. rewrite P2. now apply filter_In.
  - intros Hp Hz. exfalso. destruct F as (_ & _ & _ & _ & F & _). rewrite Hp in F. rewrite F in Hz.
    rewrite (bs_root m (xm_based Hx)) in Hz. pose proof (max_pos m Hc). lia.
Qed.
End Exact.
