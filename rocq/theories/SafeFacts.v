(** Well-formed machines never run into undefined behaviour. *)

From Coq Require Import List Arith NArith Bool Lia.
From Verif Require Import Types Static Dispatch Runtime ListFacts IndexFacts Spec
  DispatchFacts FlattenFacts Semantics RefineFacts StaticFacts TermFacts Reach ReachFacts TableFacts
  QueryFacts ProcessFacts Safe.
Import ListNotations.

(** What [well_placed] says about a compiled machine. *)
Record wpm (m : machine) : Prop := mkWpm {
  wm_regs : regs_ok m;
  wm_dst : forall x, In x (mc_flat m) -> In (resolve_dst_parent (mc_env m) x) (parents m);
  wm_max : max_initials m <= 255;
  wm_root : length (initials (mc_env m) (mc_root m)) = max_initials m;
  wm_hist : has_history m = true -> forall p, In p (parents m) ->
     length (initials (mc_env m) p) = max_initials m }.

(** The part that construction needs. *)
Record based (m : machine) : Prop := mkBased {
  bs_regs : regs_ok m;
  bs_max : max_initials m <= 255;
  bs_root : length (initials (mc_env m) (mc_root m)) = max_initials m }.
Lemma wpm_based m : wpm m -> based m.
Proof. intros [W1 W2 W3 W4 W5]. now split. Qed.

Section Safe.
Context {V W : Type}.
Variable cb : cbfun V W.
Variable m : machine.
Hypothesis Hc : comp m.
Hypothesis Hw : wpm m.
Variable vnone : V.
Notation env := (mc_env m).
Notation root := (mc_root m).
Notation st := (rt V W).

Record placed (ds : list dep) (d0 : dep) (s : st) : Prop := mkPlaced {
  pd_tinv : tinv m ds d0 s;
  pd_rinv : rinv m s;
  pd_at : forall r, r < max_initials m -> exists pl, at_place m s r = Some pl;
  pd_hist : forall p r c, In p (parents m) -> history_of m s p r = Some c ->
     exists pl, nth_error (places m) (N.to_nat c) = Some pl /\ (r = 0 -> fst pl = p);
  pd_queue : forall e v, In (e, v) (rt_queue s) -> In e (events m) }.

Section Deps.
Variables (ds : list dep) (d0 : dep).

(** ** Steps that do not touch places *)
Lemma placed_same (s s' : st) : placed ds d0 s ->
  rt_cur s' = rt_cur s -> rt_hist s' = rt_hist s -> rt_tabs s' = rt_tabs s ->
  rt_htabs s' = rt_htabs s -> rt_regions s' = rt_regions s ->
  (forall e v, In (e, v) (rt_queue s') -> In e (events m)) -> placed ds d0 s'.
Proof.
  intros [T R A H Q] Ec Eh Et Eht Er Hq. split.
  - apply (tinv_frame m ds d0 s); congruence.
  - unfold rinv. now rewrite Er.
  - intros r Hr. unfold at_place. rewrite Ec. exact (A r Hr).
  - intros p r c Hp. unfold history_of. rewrite Eh. exact (H p r c Hp).
  - exact Hq.
Qed.
Lemma placed_after (s : st) w ks : placed ds d0 s -> placed ds d0 (after s w ks).
Proof. intros P. apply (placed_same s); auto. apply P. Qed.
Lemma placed_live (s : st) w ks l : placed ds d0 s -> placed ds d0 (with_live (after s w ks) l).
Proof. intros P. apply (placed_same s); auto. apply P. Qed.

Lemma max_pos : 0 < max_initials m.
Proof. pose proof (cp_max m Hc). lia. Qed.

Lemma placed_cur (s : st) r : placed ds d0 s -> r < max_initials m ->
  exists c p q, nth_error (rt_cur s) r = Some (Some c) /\
    nth_error (places m) (N.to_nat c) = Some (p, q) /\ In p (parents m) /\ In q (states m).
Proof.
  intros P Hr. destruct (pd_at _ _ _ P r Hr) as [[p q] E]. unfold at_place in E.
  destruct (nth_error (rt_cur s) r) as [[c|]|]; try discriminate. exists c, p, q.
  destruct (places_at_inv m Hc _ _ _ E) as (Hp & Hq & _). auto.
Qed.

Lemma hist_row (s : st) p : placed ds d0 s -> In p (parents m) ->
  exists l, nth_error (rt_hist s) (parent_pos m p) = Some l /\ length l = length (initials env p).
Proof.
  intros P Hp. pose proof (ti_hist _ _ _ _ (pd_tinv _ _ _ P)) as E.
  apply (f_equal (fun l => nth_error l (parent_pos m p))) in E. rewrite !nth_error_map in E.
  rewrite (initial_table_nth m Hc p Hp) in E. cbn in E.
  destruct (nth_error (rt_hist s) (parent_pos m p)) as [l|]; [|discriminate]. cbn in E.
  exists l. split; [reflexivity|]. inversion E as [E']. now rewrite map_length in E'.
Qed.

Lemma current_parent_placed (s : st) : placed ds d0 s ->
  exists p q, at_place m s 0 = Some (p, q) /\ In p (parents m) /\
    current_parent m s = Done (N.of_nat (parent_pos m p)) s.
Proof.
  intros P. destruct (placed_cur s 0 P max_pos) as (c & p & q & E & Ep & Hp & _).
  exists p, q. unfold at_place, current_parent, read_cur. rewrite E. split; [exact Ep|]. split; [exact Hp|].
  cbn. now rewrite (decode_parent m Hc _ _ _ Ep).
Qed.

(** ** update_current_state *)
Lemma relocate_placed r c (s : st) pl : placed ds d0 s -> r < max_initials m ->
  nth_error (places m) (N.to_nat c) = Some pl -> placed ds d0 (relocate m r c s).
Proof.
  intros P Hr Hp. destruct (relocate_rest m r c s) as (Eq & _ & _ & _ & Ec & Eh).
  split.
  - apply (frame_tinv m ds d0 s); [apply relocate_frame|apply P].
  - apply (relocate_rinv m Hc). apply P.
  - intros k Hk. destruct (Nat.eq_dec k r) as [->|Hn].
    + exists pl. apply at_place_relocate; [|exact Hp]. rewrite (ti_cur _ _ _ _ (pd_tinv _ _ _ P)). exact Hr.
    + unfold at_place. rewrite Ec, nth_set_other by exact Hn. apply (pd_at _ _ _ P k Hk).
  - intros p k c0 Hpp. unfold history_of. rewrite Eh. apply (pd_hist _ _ _ P p k c0 Hpp).
  - rewrite Eq. apply P.
Qed.

Lemma remember_placed r (s : st) : placed ds d0 s -> placed ds d0 (remember m r s).
Proof.
  intros P. destruct (remember_rest m r s) as (Eq & _ & _ & _ & Ec & Er).
  split.
  - apply (frame_tinv m ds d0 s); [apply remember_frame|apply P].
  - unfold rinv. rewrite Er. apply P.
  - intros k Hk. unfold at_place. rewrite Ec. apply (pd_at _ _ _ P k Hk).
  - intros p k c Hp. unfold remember.
    destruct (at_place m s 0) as [[p0 q0]|] eqn:E0; [|apply (pd_hist _ _ _ P p k c Hp)].
    destruct (nth_error (rt_cur s) r) as [[c1|]|] eqn:E1; try apply (pd_hist _ _ _ P p k c Hp).
    destruct (nth_error (rt_hist s) (parent_pos m p0)) as [l|] eqn:E2; [|apply (pd_hist _ _ _ P p k c Hp)].
    unfold history_of. cbn [rt_hist with_hist].
    assert (Hp0 : In p0 (parents m)).
    { unfold at_place in E0. destruct (nth_error (rt_cur s) 0) as [[c0|]|]; try discriminate.
      apply (places_at_inv m Hc) in E0. apply E0. }
    destruct (Nat.eq_dec (parent_pos m p) (parent_pos m p0)) as [E|Hn].
    2:{ rewrite nth_set_other by exact Hn. apply (pd_hist _ _ _ P p k c Hp). }
    assert (p = p0).
    { unfold parent_pos in E. pose proof (nth_pos Nat.eq_dec p (parents m) Hp) as N1.
      pose proof (nth_pos Nat.eq_dec p0 (parents m) Hp0) as N2. rewrite E in N1. congruence. }
    subst p0. rewrite nth_set_same by (apply nth_error_Some; congruence).
    destruct (Nat.eq_dec k r) as [->|Hk].
    + destruct (Nat.lt_ge_cases r (length l)) as [Hl|Hl].
      * rewrite nth_set_same by exact Hl. intros H; inversion H; subst c1; clear H.
        assert (Hr : r < max_initials m).
        { rewrite <- (ti_cur _ _ _ _ (pd_tinv _ _ _ P)). apply nth_error_Some. congruence. }
        destruct (pd_at _ _ _ P r Hr) as [pl Epl]. exists pl. unfold at_place in Epl. rewrite E1 in Epl.
        split; [exact Epl|]. intros ->. unfold at_place in E0. rewrite E1, Epl in E0. now inversion E0.
      * intros H. assert (r < length (set_nth r c1 l)) by (apply nth_error_Some; congruence).
        rewrite set_nth_length in H0. lia.
    + rewrite nth_set_other by exact Hk. intros H. apply (pd_hist _ _ _ P p k c Hp).
      unfold history_of. now rewrite E2.
  - rewrite Eq. apply P.
Qed.

Lemma relocate_total r c (s : st) pl : placed ds d0 s -> r < max_initials m ->
  nth_error (places m) (N.to_nat c) = Some pl ->
  bind (write_cur s r c) (fun _ s => update_current_regions m s) = Done tt (relocate m r c s).
Proof.
  intros P Hr Hp. unfold write_cur.
  rewrite upd_nth_in by (rewrite (ti_cur _ _ _ _ (pd_tinv _ _ _ P)); exact Hr). cbn [bind].
  unfold update_current_regions, relocate.
  pose proof (relocate_placed r c s pl P Hr Hp) as P1. unfold relocate in P1.
  destruct (parallel m); [|reflexivity].
  set (s1 := with_cur s (set_nth r (Some c) (rt_cur s))) in *.
  assert (Q : exists p q, at_place m s1 0 = Some (p, q) /\ In p (parents m) /\
    current_parent m s1 = Done (N.of_nat (parent_pos m p)) s1).
  { destruct (at_place m s1 0) as [[p q]|] eqn:E0.
    - exists p, q. split; [reflexivity|]. unfold at_place in E0.
      unfold current_parent, read_cur. destruct (nth_error (rt_cur s1) 0) as [[c0|]|]; try discriminate.
      cbn. destruct (places_at_inv m Hc _ _ _ E0) as (Hpp & _). split; [exact Hpp|].
      now rewrite (decode_parent m Hc _ _ _ E0).
    - destruct (pd_at _ _ _ P1 0 max_pos) as [pl0 E]. congruence. }
  destruct Q as (p & q & E0 & Hpp & Ep). rewrite Ep, E0. cbn [bind].
  rewrite nth_at_nth, Nnat.Nat2N.id, (initial_table_nth m Hc p Hpp). rewrite map_length, initials_spec. reflexivity.
Qed.

Lemma update_total d x o r (s : st) : placed ds d0 s -> r < max_initials m ->
  row_accepted m x = true -> (x_int x = false -> In x (mc_flat m)) ->
  exists s', update_current_state m r (bentry m (d, CRow x o)) s = Done tt s' /\ placed ds d0 s' /\
    moves m r x s s'.
Proof.
  intros P Hr Ha Hx.
  assert (G : exists s', update_current_state m r (bentry m (d, CRow x o)) s = Done tt s' /\ placed ds d0 s').
  { unfold update_current_state. cbn [bentry centry fst snd entry_of_row en_int en_hist en_to].
    destruct (x_int x) eqn:Ei; [eauto|]. specialize (Hx eq_refl).
    pose proof (wm_dst m Hw x Hx) as Hdp. destruct (row_accepted_states m x Ha) as [Hds _].
    pose proof (places_at_combined m Hc _ _ Hdp Hds) as Hto.
    destruct (has_history m) eqn:Eh.
    - destruct (current_parent_placed s P) as (p & q & E0 & Hp & Ecp). rewrite Ecp. cbn [bind].
      destruct (placed_cur s r P Hr) as (c & p1 & q1 & E1 & Ep1 & _).
      unfold read_cur at 1. rewrite E1. cbn [bind].
      destruct (hist_row s p P Hp) as (l & El & Hl). rewrite (wm_hist m Hw Eh p Hp) in Hl.
      assert (Ewh : write_hist s (N.of_nat (parent_pos m p)) r c = Done tt (remember m r s)).
      { unfold write_hist, remember. rewrite nth_at_nth, Nnat.Nat2N.id, El, E0, E1, upd_nth_in by lia.
        rewrite upd_at_upd, Nnat.Nat2N.id, upd_nth_in by (apply nth_error_Some; congruence). now rewrite El. }
      rewrite Ewh. cbn [bind]. pose proof (remember_placed r s P) as P1.
      destruct (resolve_history x) eqn:Erh.
      + rewrite (calc_parent_combined m Hc) by assumption.
        destruct (hist_row _ _ P1 Hdp) as (l' & El' & Hl'). rewrite (wm_hist m Hw Eh _ Hdp) in Hl'.
        unfold read_hist. rewrite nth_at_nth, (parent_idx_pos m Hc), Nnat.Nat2N.id.
        change (pos Nat.eq_dec (resolve_dst_parent env x) (parents m)) with (parent_pos m (resolve_dst_parent env x)).
        rewrite El'.
        destruct (nth_error l' r) as [c'|] eqn:Ec'; [|apply nth_error_None in Ec'; lia]. cbn [bind].
        destruct (pd_hist _ _ _ P1 (resolve_dst_parent env x) r c' Hdp) as (pl' & Epl' & _).
        { unfold history_of. now rewrite El'. }
        exists (relocate m r c' (remember m r s)). split; [|eapply relocate_placed; eauto].
        eapply relocate_total; eauto.
      + eexists. split; [exact (relocate_total r _ _ _ P1 Hr Hto)|exact (relocate_placed r _ _ _ P1 Hr Hto)].
    - eexists. split; [exact (relocate_total r _ _ _ P Hr Hto)|exact (relocate_placed r _ _ _ P Hr Hto)]. }
  destruct G as (s' & E & P'). exists s'. split; [exact E|]. split; [exact P'|].
  eapply (update_sound m Hc ds d0); eauto. apply P.
Qed.

(** ** The generic part: an additional invariant [O] on objects, and the undefined
    behaviour [U] that is tolerated. *)
Variable U : ub -> Prop.
Variable O : st -> Prop.
Hypothesis O_same : forall s s' : st, rt_cur s' = rt_cur s -> rt_hist s' = rt_hist s ->
  rt_live s' = rt_live s -> O s -> O s'.
Definition sinv (s : st) : Prop := placed ds d0 s /\ O s.
Hypothesis O_guard : forall (s : st) r pl e d x o v, sinv s -> r < max_initials m ->
  at_place m s r = Some pl -> In (d, CRow x o) (bound m ds e pl) ->
  match execute_guard cb (btrans m d x o) e v s with Undef u => U u | _ => True end.
Hypothesis O_fire : forall (s s1 : st) r pl e d x o v, sinv s -> r < max_initials m ->
  at_place m s r = Some pl -> In (d, CRow x o) (bound m ds e pl) ->
  placed ds d0 s1 -> moves m r x s s1 ->
  match execute_action cb (btrans m d x o) e v s1 with
  | Done _ s' => O s'
  | Threw _ s' => O s'
  | Undef u => U u
  | Timeout => True
  end.
Hypothesis O_anon : forall pl, has_anonymous m = true -> In CDefer (cands m ENone pl) -> U UBNull.
Hypothesis O_handler : forall (s : st) pl, sinv s -> at_place m s 0 = Some pl ->
  cd_unexpected (lookup env root) = true -> alive s (snd pl) = true \/ U UBNull.

Definition safe {A} (Q : A -> st -> Prop) (r : res V W A) : Prop :=
  match r with
  | Done a s => sinv s /\ Q a s
  | Threw _ s => sinv s
  | Undef u => U u
  | Timeout => True
  end.
Definition always {A} : A -> st -> Prop := fun _ _ => True.
Local Hint Extern 1 (always _ _) => exact I : core.

Lemma safe_bind {A B} (Q : A -> st -> Prop) (R : B -> st -> Prop) r f :
  safe Q r -> (forall a s, sinv s -> Q a s -> safe R (f a s)) -> safe R (bind r f).
Proof. intros H1 H2. destruct r; cbn in *; auto. destruct H1. auto. Qed.
Lemma safe_weaken {A} (Q Q' : A -> st -> Prop) r : safe Q r -> (forall a s, Q a s -> Q' a s) -> safe Q' r.
Proof. intros H1 H2. destruct r; cbn in *; auto. destruct H1. auto. Qed.

Lemma sinv_after s w ks : sinv s -> sinv (after s w ks).
Proof. intros [P Ho]. split; [now apply placed_after|]. revert Ho. apply O_same; reflexivity. Qed.

Lemma fire_safe s r pl e d x o v : sinv s -> r < max_initials m -> at_place m s r = Some pl ->
  In (d, CRow x o) (bound m ds e pl) ->
  safe always (bind (update_current_state m r (bentry m (d, CRow x o)) s)
         (fun _ s => execute_action cb (btrans m d x o) e v s)).
Proof.
  intros Hs Hr Hat Hin. destruct (bound_fine m Hc ds e pl d x o Hin) as [Ha Hx].
  destruct (update_total d x o r s (proj1 Hs) Hr Ha Hx) as (s1 & -> & P1 & Hmv). cbn [bind].
  pose proof (O_fire s s1 r pl e d x o v Hs Hr Hat Hin P1 Hmv) as G.
  pose proof (execute_action_sound cb m d x o e v s1 (row_accepted_dst m x Ha)) as P.
  destruct (execute_action cb (btrans m d x o) e v s1) as [v' s'|ex s'|u|]; cbn in *; auto.
  - destruct P as (ks & l' & w' & _ & ->). split; [|exact I]. split; [now apply placed_live|exact G].
  - destruct P as (n & ks & v1 & l' & w' & _ & _ & ->). split; [now apply placed_live|exact G].
Qed.

Lemma try_entries_safe r e pl : In e (events m) -> forall bs, incl bs (bound m ds e pl) -> forall v s,
  sinv s -> r < max_initials m -> at_place m s r = Some pl ->
  safe always (try_entries cb m (map (bentry m) bs) r e v s).
Proof.
  intros He. induction bs as [|[d [|x o]] bs IH]; intros Hin v s Hs Hr Hat.
  - cbn. auto.
  - cbn. split; [|exact I]. destruct Hs as [P Ho]. split.
    + apply (placed_same s); auto. cbn. intros e' v'. rewrite in_app_iff. intros [H|[H|[]]].
      * eapply (pd_queue _ _ _ P); eauto.
      * now inversion H; subst.
    + revert Ho. now apply O_same.
  - assert (Hx : In (d, CRow x o) (bound m ds e pl)) by (apply Hin; now left).
    destruct (bound_fine m Hc ds e pl d x o Hx) as [Ha _].
    cbn [map try_entries]. rewrite bentry_tr. cbn [en_defer bentry centry fst snd entry_of_row].
    pose proof (O_guard s r pl e d x o v Hs Hr Hat Hx) as G.
    pose proof (execute_guard_sound cb m d x o e v s (row_accepted_dst m x Ha)) as P.
    assert (HIH : forall v s, sinv s -> at_place m s r = Some pl ->
              safe always (try_entries cb m (map (bentry m) bs) r e v s)).
    { intros v0 s0 Hs0 Hat0. apply IH; auto. intros b Hb. apply Hin. now right. }
    destruct (execute_guard cb (btrans m d x o) e v s) as [[b v1] s1|ex s1|u|]; cbn [bind fst snd]; auto.
    + assert (S1 : sinv s1 /\ at_place m s1 r = Some pl).
      { destruct P as [(_ & _ & _ & ->)|(ty & val & w' & _ & _ & ->)]; [auto|].
        split; [now apply sinv_after|exact Hat]. }
      destruct S1 as [S1 A1]. destruct b; [|now apply HIH].
      pose proof (fire_safe s1 r pl e d x o v1 S1 Hr A1 Hx) as F.
      unfold bentry, centry, entry_of_row in F |- *. cbn [fst snd] in F |- *.
      destruct (update_current_state m r _ s1) as [[] s2|ex s2|u|]; cbn [bind] in F |- *; auto.
      apply (safe_bind always); [exact F|]. intros v' s' Hs' _. cbn. auto.
    + destruct P as (ty & val & n & v' & w' & _ & _ & _ & ->). now apply sinv_after.
Qed.

Lemma try_region_safe r e v s : In e (events m) -> sinv s -> r < max_initials m ->
  safe always (try_region cb m r e v s).
Proof.
  intros He Hs Hr. destruct (pd_at _ _ _ (proj1 Hs) r Hr) as [pl Hat]. unfold try_region.
  rewrite (get_entries_total m Hc ds d0 e r s pl (pd_tinv _ _ _ (proj1 Hs)) He Hat). cbn [bind].
  pose proof (try_entries_safe r e pl He (bound m ds e pl) (incl_refl _) v s Hs Hr Hat) as F.
  destruct (map (bentry m) (bound m ds e pl)); [cbn; auto|].
  apply (safe_bind always); [exact F|]. intros [t v'] s' Hs' _. cbn. auto.
Qed.

Lemma current_regions_le s : sinv s -> current_regions m s <= max_initials m.
Proof.
  intros [P _]. pose proof (pd_rinv _ _ _ P) as R. unfold rinv in R. unfold current_regions.
  pose proof max_pos. destruct (parallel m); lia.
Qed.

Lemma region_loop_safe e : In e (events m) -> forall fuel limit r agf ati v s,
  limit <= max_initials m -> sinv s -> safe always (region_loop cb m fuel limit r agf ati e v s).
Proof.
  intros He. induction fuel as [|fuel IH]; intros limit r agf ati v s Hl Hs; [exact I|].
  cbn [region_loop]. destruct (Nat.ltb_spec r limit) as [Hr|Hr]; [|cbn; auto].
  apply (safe_bind always); [apply try_region_safe; auto; lia|]. intros [o v1] s1 Hs1 _. cbn [fst snd].
  destruct o as [[| |]|]; cbn; auto.
Qed.

Lemma try_anonymous_safe r pl : has_anonymous m = true -> forall bs, incl bs (bound m ds ENone pl) -> forall v s,
  sinv s -> r < max_initials m -> at_place m s r = Some pl ->
  safe always (try_anonymous cb m (map (bentry m) bs) r v s).
Proof.
  intros He. induction bs as [|[d [|x o]] bs IH]; intros Hin v s Hs Hr Hat.
  - cbn. auto.
  - cbn. apply (O_anon pl He). specialize (Hin (d, CDefer) (or_introl eq_refl)).
    unfold bound in Hin. apply in_flat_map in Hin. destruct Hin as (d' & _ & H).
    apply in_map_iff in H. destruct H as (c & E & H). now inversion E; subst.
  - assert (Hx : In (d, CRow x o) (bound m ds ENone pl)) by (apply Hin; now left).
    destruct (bound_fine m Hc ds ENone pl d x o Hx) as [Ha _].
    cbn [map try_anonymous]. rewrite bentry_tr.
    pose proof (O_guard s r pl ENone d x o v Hs Hr Hat Hx) as G.
    pose proof (execute_guard_sound cb m d x o ENone v s (row_accepted_dst m x Ha)) as P.
    assert (HIH : forall v s, sinv s -> at_place m s r = Some pl ->
              safe always (try_anonymous cb m (map (bentry m) bs) r v s)).
    { intros v0 s0 Hs0 Hat0. apply IH; auto. intros b Hb. apply Hin. now right. }
    destruct (execute_guard cb (btrans m d x o) ENone v s) as [[b v1] s1|ex s1|u|]; cbn [bind fst snd]; auto.
    + assert (S1 : sinv s1 /\ at_place m s1 r = Some pl).
      { destruct P as [(_ & _ & _ & ->)|(ty & val & w' & _ & _ & ->)]; [auto|].
        split; [now apply sinv_after|exact Hat]. }
      destruct S1 as [S1 A1]. destruct b; [|now apply HIH].
      pose proof (fire_safe s1 r pl ENone d x o v1 S1 Hr A1 Hx) as F.
      destruct (update_current_state m r _ s1) as [[] s2|ex s2|u|]; cbn [bind] in F |- *; auto.
      apply (safe_bind always); [exact F|]. intros v' s' Hs' _. cbn. auto.
    + destruct P as (ty & val & n & v' & w' & _ & _ & _ & ->). now apply sinv_after.
Qed.

Lemma none_event : has_anonymous m = true -> In ENone (events m).
Proof.
  unfold has_anonymous, events, events_of. rewrite existsb_exists. intros (x & Hx & E).
  apply unique_In, in_map_iff. exists x. unfold is_anonymous in E.
  destruct (ev_eq_dec (x_ev x) ENone); [|discriminate]. split; [assumption|]. apply in_or_app. now left.
Qed.

Lemma anonymous_region_safe r v s : has_anonymous m = true -> sinv s -> r < max_initials m ->
  safe always (anonymous_region cb m r v s).
Proof.
  intros Ha Hs Hr. destruct (pd_at _ _ _ (proj1 Hs) r Hr) as [pl Hat]. unfold anonymous_region.
  rewrite (get_entries_total m Hc ds d0 ENone r s pl (pd_tinv _ _ _ (proj1 Hs)) (none_event Ha) Hat). cbn [bind].
  pose proof (try_anonymous_safe r pl Ha (bound m ds ENone pl) (incl_refl _) v s Hs Hr Hat) as F.
  destruct (map (bentry m) (bound m ds ENone pl)); [cbn; auto|].
  apply (safe_bind always); [exact F|]. intros [t v'] s' Hs' _. cbn. auto.
Qed.

Lemma anonymous_pass_safe : has_anonymous m = true -> forall fuel limit r agf v s,
  limit <= max_initials m -> sinv s -> safe always (anonymous_pass cb m fuel limit r agf v s).
Proof.
  intros Ha. induction fuel as [|fuel IH]; intros limit r agf v s Hl Hs; [exact I|].
  cbn [anonymous_pass]. destruct (Nat.ltb_spec r limit) as [Hr|Hr]; [|cbn; auto].
  apply (safe_bind always); [apply anonymous_region_safe; auto; lia|]. intros [o v1] s1 Hs1 _. cbn [fst snd].
  destruct o as [b|]; cbn; auto.
Qed.

Lemma anonymous_loop_safe : has_anonymous m = true -> forall rfuel fuel v s,
  sinv s -> safe always (anonymous_loop cb m rfuel fuel v s).
Proof.
  intros Ha rfuel. induction fuel as [|fuel IH]; intros v s Hs; [exact I|]. cbn [anonymous_loop].
  apply (safe_bind always); [apply anonymous_pass_safe; auto using current_regions_le|].
  intros [[[|]|] v1] s1 Hs1 _; cbn; auto.
Qed.

Lemma process_anonymous_safe fuel s : sinv s -> safe always (process_anonymous cb m vnone fuel s).
Proof.
  intros Hs. unfold process_anonymous. case_eq (has_anonymous m); intros E; [|cbn; auto].
  now apply anonymous_loop_safe.
Qed.

Lemma process_event_internal_safe fuel e v s : In e (events m) -> sinv s ->
  safe always (process_event_internal cb m vnone fuel e v s).
Proof.
  intros He Hs. unfold process_event_internal.
  apply (safe_bind always); [apply region_loop_safe; auto using current_regions_le|].
  intros [p v1] s1 Hs1 _. cbn [fst]. destruct p; try (cbn; auto; fail).
  apply (safe_bind always); [now apply process_anonymous_safe|]. intros [] s2 Hs2 _. cbn. auto.
Qed.

Lemma process_deferred_safe fuel s : sinv s -> safe always (process_deferred cb m vnone fuel s).
Proof.
  intros Hs. unfold process_deferred. destruct (has_deferred m); [|cbn; auto].
  destruct (rt_queue s) as [|[e v] q] eqn:Eq; [cbn; auto|].
  apply (safe_bind always); [|intros ? s2 Hs2 _; cbn; auto]. destruct Hs as [P Ho].
  apply process_event_internal_safe.
  - apply (pd_queue _ _ _ P e v). rewrite Eq. now left.
  - split; [|revert Ho; now apply O_same]. apply (placed_same s); auto. cbn. intros e' v' Hin.
    apply (pd_queue _ _ _ P e' v'). rewrite Eq. now right.
Qed.

Lemma call_handler_safe e v s : In e (events m) -> sinv s -> safe always (call_handler cb m e v s).
Proof.
  intros He Hs. unfold call_handler. case_eq (cd_unexpected (lookup env root)); intros Eu; [|cbn; auto].
  destruct (placed_cur s 0 (proj1 Hs) max_pos) as (c & p & q & E & Ep & Hp & Hq).
  unfold at_cur. rewrite E. cbn [bind].
  pose proof (ti_htabs _ _ _ _ (pd_tinv _ _ _ (proj1 Hs)) Eu) as Hh.
  pose proof (fill_handlers_get m Hc d0 (rt_htabs s) e p q Hh He Hp Hq) as G.
  destruct (get_table (rt_htabs s) e) as [arr|]; [|contradiction]. destruct G as [G _].
  destruct (places_at_inv m Hc _ _ _ Ep) as (_ & _ & ->). rewrite nth_at_nth, G.
  assert (Hat : at_place m s 0 = Some (p, q)) by (unfold at_place; rewrite E; exact Ep).
  destruct (O_handler s (p, q) Hs Hat Eu) as [Ha|Hu]; cbn [snd] in *.
  - rewrite Ha. unfold keep_payload, invoke.
    destruct (cb CHandler (mkArgs e q TNone d0) v (rt_world s)) as [b v' w'|n v' w']; cbn.
    + split; [|exact I]. apply (sinv_after s w' [mkCall CHandler (mkArgs e q TNone d0) v] Hs).
    + apply (sinv_after s w' [mkCall CHandler (mkArgs e q TNone d0) v] Hs).
  - destruct (alive s q); [|exact Hu]. unfold keep_payload, invoke.
    destruct (cb CHandler (mkArgs e q TNone d0) v (rt_world s)) as [b v' w'|n v' w']; cbn.
    + split; [|exact I]. apply (sinv_after s w' [mkCall CHandler (mkArgs e q TNone d0) v] Hs).
    + apply (sinv_after s w' [mkCall CHandler (mkArgs e q TNone d0) v] Hs).
Qed.

Lemma process_event_safe fuel e v s : In e (events m) -> sinv s ->
  safe always (process_event cb m vnone fuel e v s).
Proof.
  intros He Hs. unfold process_event. destruct (in_dec ev_eq_dec e (events m)); [|contradiction].
  apply (safe_bind always); [now apply process_event_internal_safe|]. intros [p v1] s1 Hs1 _. cbn [fst snd].
  destruct p; try (cbn; auto; fail).
  - apply (safe_bind always); [now apply call_handler_safe|]. intros; cbn; auto.
  - apply (safe_bind always); [now apply process_deferred_safe|]. intros; cbn; auto.
Qed.

(** ** Other members *)
Lemma current_state_safe r s : sinv s -> r < max_initials m ->
  exists c, current_state m s r = Done c s.
Proof.
  intros Hs Hr. destruct (placed_cur s r (proj1 Hs) Hr) as (c & p & q & E & _).
  unfold current_state, at_cur. rewrite E. cbn. eauto.
Qed.
Lemma q_parent_is_safe p s : sinv s -> safe always (q_parent_is m p s).
Proof.
  intros Hs. unfold q_parent_is. destruct (current_parent_placed s (proj1 Hs)) as (p0 & q0 & _ & _ & ->).
  cbn. auto.
Qed.
Lemma q_is_safe r p q s : sinv s -> safe always (q_is m r p q s).
Proof.
  intros Hs. unfold q_is. destruct (current_parent_placed s (proj1 Hs)) as (p0 & q0 & _ & _ & ->).
  cbn [bind]. destruct (N.eqb _ _); [|cbn; auto].
  destruct (Nat.lt_ge_cases (to_region r) (max_initials m)) as [Hr|Hr].
  - destruct (current_state_safe (to_region r) s Hs Hr) as [c ->]. cbn. auto.
  - unfold current_state, at_cur. destruct (nth_error (rt_cur s) (to_region r)) eqn:E.
    + assert (to_region r < length (rt_cur s)) by (apply nth_error_Some; congruence).
      rewrite (ti_cur _ _ _ _ (pd_tinv _ _ _ (proj1 Hs))) in H. lia.
    + cbn. exact Hs.
Qed.
Lemma status_loop_safe : forall fuel limit r s, limit <= max_initials m -> sinv s ->
  safe always (status_loop m fuel limit r s).
Proof.
  induction fuel as [|fuel IH]; intros limit r s Hl Hs; [exact I|]. cbn [status_loop].
  destruct (Nat.ltb_spec r limit) as [Hr|Hr]; [|cbn; auto].
  destruct (placed_cur s r (proj1 Hs) ltac:(lia)) as (c & p & q & E & _). unfold read_cur. rewrite E. cbn [bind].
  destruct (current_parent_placed s (proj1 Hs)) as (p0 & q0 & _ & _ & ->). cbn [bind].
  destruct (current_state_safe r s Hs ltac:(lia)) as [c' ->]. cbn [bind].
  apply (safe_bind always); [apply IH; auto; lia|]. intros; cbn; auto.
Qed.
Lemma set_state_placed r p q s : placed ds d0 s -> In p (parents m) -> In q (states m) ->
  (exists s', set_state m r p q s = Done tt s' /\ placed ds d0 s' /\ rt_live s' = rt_live s /\
     rt_hist s' = rt_hist s /\ forall k, at_place m s' k = if Nat.eq_dec k (to_region r) then Some (p, q) else at_place m s k) \/
  set_state m r p q s = Threw XOutOfRange s.
Proof.
  intros P Hp Hq. unfold set_state. destruct (in_dec sref_eq_dec q (states m)); [|contradiction].
  destruct (in_dec Nat.eq_dec p (parents m)); [|contradiction].
  destruct (Nat.lt_ge_cases (to_region r) (length (rt_cur s))) as [Hr|Hr].
  2:{ rewrite (proj2 (upd_nth_None (fun _ => Some (combined_idx m p q)) (rt_cur s) (to_region r)) Hr). auto. }
  rewrite upd_nth_in by exact Hr. left. eexists. split; [reflexivity|].
  pose proof (places_at_combined m Hc p q Hp Hq) as Epl.
  assert (A : forall k, at_place m (with_cur s (set_nth (to_region r) (Some (combined_idx m p q)) (rt_cur s))) k
     = if Nat.eq_dec k (to_region r) then Some (p, q) else at_place m s k).
  { intros k. unfold at_place. cbn [rt_cur with_cur]. destruct (Nat.eq_dec k (to_region r)) as [->|Hk].
    - rewrite nth_set_same by exact Hr. exact Epl.
    - now rewrite nth_set_other by exact Hk. }
  split; [|cbn; auto]. destruct P as [T R At H Q]. split; auto.
  - apply (tinv_frame m ds d0 s); auto. cbn. apply set_nth_length.
  - intros k Hk. rewrite A. destruct (Nat.eq_dec k (to_region r)); [eauto|apply At; auto].
Qed.
End Deps.

Lemma set_dependency_based ds d0 d (s : st) : based m -> placed ds d0 s ->
  exists t, set_dependency m d s = Done tt (with_tabs s t) /\ placed (d :: ds) d0 (with_tabs s t).
Proof.
  intros Hb [[T Th Tc Ti] R At H Q]. unfold set_dependency.
  destruct (proj2 (fill_ok_iff m Hc d (rt_tabs s) (filled_shape m Hc _ _ T)) (bs_regs m Hb)) as [t Ht].
  exists t. rewrite Ht. split; [reflexivity|]. split; auto. split; auto. cbn. eapply filled_again; eauto.
Qed.
Lemma set_dependency_placed ds d0 d (s : st) : placed ds d0 s ->
  exists t, set_dependency m d s = Done tt (with_tabs s t) /\ placed (d :: ds) d0 (with_tabs s t).
Proof. apply set_dependency_based. now apply wpm_based. Qed.

Lemma construct_based fuel d w : based m ->
  match construct (V := V) m fuel d w with
  | Done _ s => placed [d] d s /\ rt_live s = filter (defctor env) (states m) /\
      (forall r pl, at_place m s r = Some pl -> fst pl = root /\ In (snd pl) (initials env root)) /\
      rt_hist s = initial_table m /\ fresh m d w s
  | Timeout => True
  | _ => False
  end.
Proof.
  intros Hb. pose proof max_pos as Hpos.
  assert (HL : length (initials env root) <= 255) by (rewrite (bs_root m Hb); apply Hb).
  destruct (construct_total m Hc (V := V) (fuel + 256) d w (bs_regs m Hb) HL) as [s0 E0]; [lia| |].
  { intros _ E. pose proof (bs_root m Hb) as H. rewrite E in H. cbn in H. lia. }
  destruct (construct (V := V) m fuel d w) as [[] s|ex s|u|] eqn:E; auto.
  - destruct (construct_sound m Hc fuel d w s HL E) as [F Fn].
    pose proof (fresh_rinvs m Hc (bs_max m Hb) d w s F Fn) as RI.
    pose proof F as F0. destruct F as (F1 & F2 & F3 & F4 & F5 & F6 & F7 & F8 & F9 & F10).
    assert (A : forall r pl, at_place m s r = Some pl <-> exists i, nth_error (initials env root) r = Some i /\ pl = (root, i)).
    { intros r pl. unfold at_place. rewrite F2.
      destruct (nth_error (initials env root) r) as [i|] eqn:Ei.
      - assert (Hi : In i (states m)).
        { apply (initials_states m Hc root); [apply (root_parent m Hc)|]. eapply nth_error_In; eauto. }
        rewrite (decode_code m Hc root i (root_parent m Hc) Hi). split; [intros H; inversion H; eauto|].
        intros (j & H & ->). now inversion H.
      - destruct (Nat.ltb r (max_initials m)); split; try discriminate; intros (i & ? & ?); discriminate. }
    split; [|split; [exact F6|split; [|split; [exact F3|exact F0]]]].
    + destruct RI as [T R _]. split; auto.
      * intros r Hr. destruct (nth_error (initials env root) r) as [i|] eqn:Ei.
        -- exists (root, i). apply A. eauto.
        -- apply nth_error_None in Ei. rewrite (bs_root m Hb) in Ei. lia.
      * intros p r c Hp. unfold history_of. rewrite F3, (initial_table_nth m Hc p Hp), nth_error_map.
        destruct (nth_error (initials env p) r) as [i|] eqn:Ei; [|discriminate]. cbn. intros H; inversion H; subst c.
        exists (p, i). split; [|reflexivity]. apply (decode_code m Hc p i Hp).
        apply (initials_states m Hc p); [exact Hp|]. eapply nth_error_In; eauto.
      * rewrite F4. intros e v [].
    + intros r pl H. apply A in H. destruct H as (i & H & ->). split; [reflexivity|]. eapply nth_error_In; eauto.
  - pose proof (construct_mono m (V := V) fuel (fuel + 256) d w ltac:(lia)) as M. unfold extends in M.
    rewrite E, E0 in M. specialize (M ltac:(discriminate)). discriminate.
  - pose proof (construct_mono m (V := V) fuel (fuel + 256) d w ltac:(lia)) as M. unfold extends in M.
    rewrite E, E0 in M. specialize (M ltac:(discriminate)). discriminate.
Qed.

Lemma construct_placed fuel d w :
  match construct (V := V) m fuel d w with
  | Done _ s => placed [d] d s /\ rt_live s = filter (defctor env) (states m) /\
      (forall r pl, at_place m s r = Some pl -> fst pl = root /\ In (snd pl) (initials env root)) /\
      rt_hist s = initial_table m
  | Timeout => True
  | _ => False
  end.
Proof.
  pose proof (construct_based fuel d w (wpm_based m Hw)) as P.
  destruct (construct (V := V) m fuel d w); auto. destruct P as (P1 & P2 & P3 & P4 & _). auto.
Qed.

(** ** Whole sessions *)
Section Session.
Variable U : ub -> Prop.
Variable O : st -> Prop.
Variable OK : call V -> Prop.   (* restriction on the calls *)
Hypothesis O_same : forall s s' : st, rt_cur s' = rt_cur s -> rt_hist s' = rt_hist s ->
  rt_live s' = rt_live s -> O s -> O s'.
Hypothesis O_guard : forall ds d0 (s : st) r pl e d x o v, sinv ds d0 O s -> r < max_initials m ->
  at_place m s r = Some pl -> In (d, CRow x o) (bound m ds e pl) ->
  match execute_guard cb (btrans m d x o) e v s with Undef u => U u | _ => True end.
Hypothesis O_fire : forall ds d0 (s s1 : st) r pl e d x o v, sinv ds d0 O s -> r < max_initials m ->
  at_place m s r = Some pl -> In (d, CRow x o) (bound m ds e pl) ->
  placed ds d0 s1 -> moves m r x s s1 ->
  match execute_action cb (btrans m d x o) e v s1 with
  | Done _ s' => O s'
  | Threw _ s' => O s'
  | Undef u => U u
  | Timeout => True
  end.
Hypothesis O_anon : forall pl, has_anonymous m = true -> In CDefer (cands m ENone pl) -> U UBNull.
Hypothesis O_handler : forall ds d0 (s : st) pl, sinv ds d0 O s -> at_place m s 0 = Some pl ->
  cd_unexpected (lookup env root) = true -> alive s (snd pl) = true \/ U UBNull.
Hypothesis O_set : forall ds d0 r p q (s s' : st), OK (KSet r p q) -> sinv ds d0 O s ->
  In p (parents m) -> In q (states m) -> placed ds d0 s' -> rt_live s' = rt_live s -> rt_hist s' = rt_hist s ->
  (forall k, at_place m s' k = if Nat.eq_dec k (to_region r) then Some (p, q) else at_place m s k) -> O s'.
Hypothesis O_new : forall d (s : st), placed [d] d s -> rt_live s = filter (defctor env) (states m) ->
  (forall r pl, at_place m s r = Some pl -> fst pl = root /\ In (snd pl) (initials env root)) ->
  rt_hist s = initial_table m -> O s.

Definition typed (k : call V) : Prop :=
  match k with
  | KProcess e _ => In e (events m)
  | KSet _ p q => In p (parents m) /\ In q (states m)
  | _ => True
  end.

Lemma call_safe fuel ds d0 k s : sinv ds d0 O s -> typed k -> OK k ->
  match do_call_catch cb m vnone fuel k s with
  | Done _ s' => sinv (deps_after k ds) d0 O s'
  | Threw _ _ => False
  | Undef u => U u
  | Timeout => True
  end.
Proof.
  intros Hs Ht Hk.
  assert (G : deps_after k ds = ds -> safe ds d0 U O always (do_call cb m vnone fuel k s) ->
     match do_call_catch cb m vnone fuel k s with
     | Done _ s' => sinv (deps_after k ds) d0 O s'
     | Threw _ _ => False | Undef u => U u | Timeout => True end).
  { intros -> H. unfold do_call_catch. destruct (do_call cb m vnone fuel k s); cbn in *; auto. apply H. }
  destruct k as [e v|r p q|p|r p q|d|]; cbn [deps_after typed] in *.
  - apply G; [reflexivity|]. cbn [do_call].
    apply (safe_bind ds d0 U O always); [|intros [b v'] s' H' _; cbn; split; [exact H'|exact I]].
    apply (process_event_safe ds d0 U O O_same (O_guard ds d0) (O_fire ds d0) O_anon (O_handler ds d0)); assumption.
  - apply G; [reflexivity|]. cbn [do_call].
    apply (safe_bind ds d0 U O always); [now apply q_is_safe|]. intros b s' H' _; cbn; split; [exact H'|exact I].
  - apply G; [reflexivity|]. cbn [do_call].
    apply (safe_bind ds d0 U O always); [now apply q_parent_is_safe|]. intros b s' H' _; cbn; split; [exact H'|exact I].
  - destruct Ht as [Hp Hq].
    destruct (set_state_placed ds d0 r p q s (proj1 Hs) Hp Hq) as [(s' & E & P' & L & Hh & A)| E];
      unfold do_call_catch, do_call; rewrite E; cbn [bind].
    + split; [exact P'|]. eapply O_set; eauto.
    + exact Hs.
  - destruct (set_dependency_placed ds d0 d s (proj1 Hs)) as (t & E & P').
    unfold do_call_catch, do_call. rewrite E. cbn [bind].
    split; [exact P'|]. destruct Hs as [_ Ho]. revert Ho. now apply O_same.
  - apply G; [reflexivity|]. cbn [do_call].
    apply (safe_bind ds d0 U O always); [|intros b s' H' _; cbn; split; [exact H'|exact I]].
    apply status_loop_safe; [|exact Hs]. eapply current_regions_le; eauto.
Qed.

Lemma run_safe fuel : forall ks ds d0 s, sinv ds d0 O s -> Forall typed ks -> Forall OK ks ->
  match run cb m vnone fuel ks s with
  | Done _ s' => exists ds', sinv ds' d0 O s'
  | Threw _ _ => False
  | Undef u => U u
  | Timeout => True
  end.
Proof.
  induction ks as [|k ks IH]; intros ds d0 s Hs Ht Hk; cbn [run]; [eauto|].
  inversion Ht as [|? ? Ht1 Ht2]; subst. inversion Hk as [|? ? Hk1 Hk2]; subst.
  pose proof (call_safe fuel ds d0 k s Hs Ht1 Hk1) as P.
  destruct (do_call_catch cb m vnone fuel k s) as [o s1|x s1|u|]; cbn [bind]; auto.
  specialize (IH _ _ _ P Ht2 Hk2). destruct (run cb m vnone fuel ks s1); cbn [bind]; auto.
Qed.

Lemma construct_safe fuel d w :
  match construct m fuel d w with
  | Done _ s => sinv [d] d O s
  | Timeout => True
  | _ => False
  end.
Proof.
  pose proof (construct_placed fuel d w) as P. destruct (construct m fuel d w) as [u s|x s|u|]; auto.
  destruct P as (P1 & P2 & P3 & P4). split; [exact P1|]. eapply O_new; eauto.
Qed.

Lemma session_safe fuel d w ks : Forall typed ks -> Forall OK ks ->
  match session cb m vnone fuel d w ks with
  | Done _ s' => exists ds', sinv ds' d O s'
  | Threw _ _ => False
  | Undef u => U u
  | Timeout => True
  end.
Proof.
  intros Ht Hk. unfold session. pose proof (construct_safe fuel d w) as P.
  destruct (construct m fuel d w) as [u s|x s|u|]; cbn [bind]; auto; try contradiction.
  now apply (run_safe fuel ks [d]).
Qed.

Lemma reachable_safe ds d0 s : (forall k, OK k) -> reachable cb m vnone ds d0 s -> sinv ds d0 O s.
Proof.
  intros Hk R. induction R as [fuel d w s E|fuel ds d0 s k o s' R IH E].
  - pose proof (construct_safe fuel d w) as P. now rewrite E in P.
  - assert (Ht : typed k).
    { destruct k as [e v|r p q|p|r p q|d|]; cbn; auto.
      - unfold do_call_catch, do_call, process_event in E.
        destruct (in_dec ev_eq_dec e (events m)); [assumption|discriminate].
      - unfold do_call_catch, do_call, set_state in E.
        destruct (in_dec sref_eq_dec q (states m)); [|discriminate].
        destruct (in_dec Nat.eq_dec p (parents m)); [auto|discriminate]. }
    pose proof (call_safe fuel ds d0 k s IH Ht (Hk k)) as P. now rewrite E in P.
Qed.
End Session.
End Safe.
