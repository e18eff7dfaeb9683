(** Construction, and invariants of reachable states. *)

From Coq Require Import List Arith NArith Bool Lia.
From Verif Require Import Types Static Dispatch Runtime ListFacts IndexFacts Spec
  DispatchFacts FlattenFacts Semantics RefineFacts Reach.
Import ListNotations.

Section Init.
Context {V W : Type}.
Notation st := (rt V W).

Definition overwritten (l : list N) (r : nat) (cur cur' : list (option N)) : Prop :=
  length cur' = length cur /\
  forall k, nth_error cur' k =
    if (Nat.leb r k && Nat.ltb k (length l))%bool then Some (nth_error l k) else nth_error cur k.

Lemma init_loop_spec l : length l <= 255 -> forall fuel r (s : st),
  length l <= length (rt_cur s) ->
  match init_loop fuel l r s with
  | Done _ s' => exists cur', s' = with_cur s cur' /\ overwritten l r (rt_cur s) cur'
  | Timeout => fuel <= length l - r
  | _ => False
  end.
Proof.
  intros HL. induction fuel as [|fuel IH]; intros r s Hlen; [cbn; lia|].
  cbn [init_loop]. destruct (Nat.ltb_spec r (length l)) as [Hr|Hr].
  - destruct (nth_error l r) as [c|] eqn:E; [|apply nth_error_None in E; lia].
    unfold write_cur. rewrite upd_nth_in by lia. cbn [bind].
    unfold next_region. destruct (Nat.eqb_spec r 255); [lia|].
    set (s1 := with_cur s (set_nth r (Some c) (rt_cur s))).
    assert (L1 : length (rt_cur s1) = length (rt_cur s)) by (cbn; apply set_nth_length).
    specialize (IH (S r) s1 ltac:(lia)).
    destruct (init_loop fuel l (S r) s1) as [[] s'|ex s'|u|]; auto; [|lia].
    destruct IH as (cur' & -> & HL1 & HN). exists cur'. split; [reflexivity|].
    split; [congruence|]. intros k. rewrite HN. cbn [rt_cur s1 with_cur].
    destruct (Nat.leb_spec (S r) k), (Nat.leb_spec r k); cbn [andb]; try lia; try reflexivity.
    + destruct (Nat.ltb_spec k (length l)); [reflexivity|]. apply nth_set_other. lia.
    + assert (k = r) by lia. subst k. destruct (Nat.ltb_spec r (length l)); [|lia].
      rewrite E. apply nth_set_same. lia.
    + apply nth_set_other. lia.
  - exists (rt_cur s). split; [destruct s; reflexivity|]. split; [reflexivity|].
    intros k. destruct (Nat.leb_spec r k); cbn [andb]; [|reflexivity].
    destruct (Nat.ltb_spec k (length l)); [lia|reflexivity].
Qed.

(** With 256 or more initial states the counter wraps and the loop never ends. *)
Lemma init_loop_wraps l : 256 <= length l -> forall fuel r (s : st),
  r <= 255 -> length l <= length (rt_cur s) -> init_loop fuel l r s = Timeout.
Proof.
  intros HL. induction fuel as [|fuel IH]; intros r s Hr Hlen; [reflexivity|].
  cbn [init_loop]. destruct (Nat.ltb_spec r (length l)) as [Hr'|Hr']; [|lia].
  destruct (nth_error l r) as [c|] eqn:E; [|apply nth_error_None in E; lia].
  unfold write_cur. rewrite upd_nth_in by lia. cbn [bind]. apply IH.
  - unfold next_region. destruct (Nat.eqb_spec r 255); lia.
  - cbn. now rewrite set_nth_length.
Qed.
End Init.

Section Machine.
Variable m : machine.
Hypothesis Hc : comp m.
Notation env := (mc_env m).
Notation root := (mc_root m).

Lemma root_parent : In root (parents m).
Proof.
  apply (parents_iff m Hc). split; [constructor|]. intros E.
  destruct (cp_fl m Hc) as [f Hf]. pose proof (cp_flat m Hc) as Hne.
  destruct f as [|f]; [discriminate|]. rewrite flatten_S in Hf. unfold table in E.
  destruct (cd_table (lookup env root)) as [rows|]; [|discriminate]. subst rows.
  cbn in Hf. congruence.
Qed.

Lemma flat_src_state x : In x (mc_flat m) -> In (unwrap_initial (x_src x)) (states m).
Proof.
  intros H. unfold states, child_states_rec. apply in_or_app. left. apply unique_In.
  apply in_flat_map. exists x. split; [exact H|]. now left.
Qed.
Lemma flat_tgt_state x : In x (mc_flat m) -> In (x_tgt x) (states m).
Proof.
  intros H. unfold states, child_states_rec. apply in_or_app. left. apply unique_In.
  apply in_flat_map. exists x. split; [exact H|]. right. now left.
Qed.

Lemma row_accepted_states x : row_accepted m x = true ->
  In (dst_of m x) (states m) /\ In (resolve_src x) (states m).
Proof.
  unfold row_accepted, dst_of. destruct (resolve_dst env x) as [d|]; [|discriminate].
  rewrite !andb_true_iff. intros [[[H1 H2] _] _].
  destruct (in_dec sref_eq_dec d (states m)); [|discriminate].
  destruct (in_dec sref_eq_dec (resolve_src x) (states m)); [|discriminate]. auto.
Qed.

Lemma initials_states p i : In p (parents m) -> In i (initials env p) -> In i (states m).
Proof.
  intros Hp Hi. unfold initials in Hi. apply in_map_iff in Hi. destruct Hi as (s & <- & Hs).
  apply filter_In in Hs. destruct Hs as [Hs Hm].
  apply (child_states_iff m) in Hs. destruct Hs as (r & Hr & Hs).
  apply (parents_iff m Hc) in Hp. destruct Hp as [Hu _].
  assert (Hx : In (row_in p r) (mc_flat m)).
  { apply (flat_declared m Hc). exists p, r. auto. }
  destruct Hs as [-> | ->].
  - apply (flat_src_state _ Hx).
  - destruct (r_tgt r) as [|w c| | | |] eqn:Et; try discriminate.
    pose proof (cp_rows m Hc (row_in p r)) as Ha.
    rewrite in_app_iff in Ha. specialize (Ha (or_introl Hx)).
    apply row_accepted_states in Ha. destruct Ha as [Ha _].
    unfold dst_of, resolve_dst in Ha. cbn in Ha. rewrite Et in Ha. exact Ha.
Qed.

Lemma initial_table_nth p : In p (parents m) ->
  nth_error (initial_table m) (parent_pos m p) = Some (map (fun s => code m (p, s)) (initials env p)).
Proof.
  intros Hp. unfold initial_table, parent_pos. rewrite nth_error_map, nth_pos by exact Hp. cbn. f_equal.
  apply map_ext. intros s. symmetry. apply (code_combined m Hc).
Qed.

Lemma decode_code p s : In p (parents m) -> In s (states m) ->
  nth_error (places m) (N.to_nat (code m (p, s))) = Some (p, s).
Proof. intros Hp Hs. rewrite (code_combined m Hc). now apply (places_at_combined m Hc). Qed.

Context {V W : Type}.
Notation st := (rt V W).

(** The state right after construction. *)
Definition fresh (d : dep) (w : W) (s : st) : Prop :=
  length (rt_cur s) = max_initials m /\
  (forall r, nth_error (rt_cur s) r =
     match nth_error (initials env root) r with
     | Some i => Some (Some (code m (root, i)))
     | None => if Nat.ltb r (max_initials m) then Some None else None
     end) /\
  rt_hist s = initial_table m /\ rt_queue s = [] /\
  rt_regions s = (if parallel m then length (initials env root) else 0) /\
  rt_live s = filter (defctor env) (states m) /\
  filled m [d] (rt_tabs s) /\
  (cd_unexpected (lookup env root) = true -> fill_handlers m d = Some (rt_htabs s)) /\
  rt_world s = w /\ rt_trace s = [].

Lemma nth_repeat {A} (a : A) n k : nth_error (repeat a n) k = if Nat.ltb k n then Some a else None.
Proof.
  revert k. induction n as [|n IH]; intros k.
  - destruct k; reflexivity.
  - destruct k as [|k]; [reflexivity|]. cbn [repeat nth_error]. rewrite IH. reflexivity.
Qed.

Lemma construct_sound fuel d w (s : st) : length (initials env root) <= 255 ->
  construct m fuel d w = Done tt s -> fresh d w s /\ (parallel m = true -> initials env root <> []).
Proof.
  intros HL. unfold construct.
  set (hopt := if cd_unexpected (lookup env root) then fill_handlers m d else Some []).
  destruct hopt as [h|] eqn:Eh; [|discriminate].
  destruct (fill_dispatch m d (empty_tables m)) as [t|] eqn:Et; [|discriminate].
  unfold init_current_state. rewrite nth_at_nth, (parent_idx_pos m Hc), Nnat.Nat2N.id.
  change (pos Nat.eq_dec root (parents m)) with (parent_pos m root).
  rewrite (initial_table_nth root root_parent).
  set (l := map (fun s => code m (root, s)) (initials env root)).
  set (s0 := mkRt _ _ _ _ _ _ _ _ _).
  assert (Hl : length l = length (initials env root)) by (unfold l; now rewrite map_length).
  assert (Hl0 : length l <= length (rt_cur s0)).
  { rewrite Hl. cbn. rewrite repeat_length. apply initials_le_max. exact root_parent. }
  pose proof (init_loop_spec l ltac:(lia) fuel 0 s0 Hl0) as P.
  destruct (init_loop fuel l 0 s0) as [[] s1|ex s1|u|]; cbn [bind]; try discriminate.
  destruct P as (cur' & -> & HL1 & HN). cbn [rt_cur s0] in HL1, HN. rewrite repeat_length in HL1.
  assert (Hcur : forall r, nth_error cur' r =
     match nth_error (initials env root) r with
     | Some i => Some (Some (code m (root, i)))
     | None => if Nat.ltb r (max_initials m) then Some None else None
     end).
  { intros r. rewrite HN. cbn [Nat.leb andb]. rewrite Hl.
    destruct (Nat.ltb_spec r (length (initials env root))) as [Hr|Hr].
    - unfold l. rewrite nth_error_map. destruct (nth_error (initials env root) r) eqn:E; [reflexivity|].
      apply nth_error_None in E. lia.
    - apply nth_error_None in Hr. rewrite Hr. apply nth_repeat. }
  assert (Hh : cd_unexpected (lookup env root) = true -> fill_handlers m d = Some h).
  { intros Hu. unfold hopt in Eh. now rewrite Hu in Eh. }
  unfold update_current_regions. destruct (parallel m) eqn:Ep.
  - unfold current_parent, read_cur. cbn [rt_cur with_cur]. rewrite Hcur.
    destruct (initials env root) as [|i0 il] eqn:Ei.
    + cbn [nth_error]. destruct (Nat.ltb 0 (max_initials m)); discriminate.
    + cbn [nth_error bind].
      assert (Hi0 : In i0 (states m)).
      { apply (initials_states root); [exact root_parent|]. rewrite Ei. now left. }
      rewrite nth_at_nth.
      rewrite (decode_parent m Hc _ _ _ (decode_code root i0 root_parent Hi0)), Nnat.Nat2N.id.
      rewrite (initial_table_nth root root_parent). rewrite Ei.
      intros H; inversion H; subst s; clear H. split; [|discriminate].
      unfold fresh. rewrite Ei, Ep.
      cbn [rt_cur rt_hist rt_queue rt_regions rt_live rt_tabs rt_htabs rt_world rt_trace with_cur with_regions s0].
      rewrite map_length. repeat (split; [first [assumption | reflexivity | constructor; exact Et]|]). reflexivity.
  - intros H; inversion H; subst s; clear H. split; [|discriminate].
    unfold fresh. rewrite Ep.
    cbn [rt_cur rt_hist rt_queue rt_regions rt_live rt_tabs rt_htabs rt_world rt_trace with_cur with_regions s0].
    repeat (split; [first [assumption | reflexivity | constructor; exact Et]|]). reflexivity.
Qed.

Lemma fill_handlers_total d : exists h, fill_handlers m d = Some h.
Proof.
  unfold fill_handlers.
  assert (G : forall l arr, (forall pr, In pr l -> In pr (places m)) -> length arr = length (places m) ->
     exists arr', foldM (fun (pr : place) arr =>
        upd_at (combined_idx m (fst pr) (snd pr)) (fun _ => Some (snd pr, d)) arr) l arr = Some arr').
  { induction l as [|[p q] l IH]; intros arr Hin HLa; [eexists; reflexivity|]. cbn [foldM fst snd].
    rewrite upd_at_upd.
    assert (Hlt : N.to_nat (combined_idx m p q) < length arr).
    { rewrite HLa. specialize (Hin (p, q) (or_introl eq_refl)). apply (in_places m) in Hin.
      destruct Hin as [Hp Hq]. apply nth_error_Some. rewrite (places_at_combined m Hc) by assumption. discriminate. }
    rewrite upd_nth_in by exact Hlt. apply IH; [intros pr Hpr; apply Hin; now right|].
    now rewrite set_nth_length. }
  destruct (G (handler_places m) (repeat None (N.to_nat (n_states m) * n_parents m))) as [arr Harr].
  { intros pr Hpr; exact Hpr. }
  { rewrite repeat_length. symmetry. apply (places_length_nat m). }
  rewrite Harr.
  assert (G2 : forall l t, exists h, foldM (fun e (t : handler_tables) => Some (t ++ [(e, arr)])) l t = Some h).
  { induction l as [|e l IH]; intros t; cbn [foldM]; [eauto|]. apply IH. }
  apply G2.
Qed.

Lemma construct_total fuel d w : regs_ok m -> length (initials env root) <= 255 ->
  length (initials env root) < fuel -> (parallel m = true -> initials env root <> []) ->
  exists s : st, construct m fuel d w = Done tt s.
Proof.
  intros Hr HL Hf Hn. unfold construct.
  assert (Hh : exists h, (if cd_unexpected (lookup env root) then fill_handlers m d else Some []) = Some h).
  { destruct (cd_unexpected (lookup env root)); [apply fill_handlers_total|eauto]. }
  destruct Hh as [h ->].
  destruct (proj2 (fill_ok_iff m Hc d (empty_tables m) (empty_tables_shape m)) Hr) as [t ->].
  unfold init_current_state. rewrite nth_at_nth, (parent_idx_pos m Hc), Nnat.Nat2N.id.
  change (pos Nat.eq_dec root (parents m)) with (parent_pos m root).
  rewrite (initial_table_nth root root_parent).
  set (l := map (fun s => code m (root, s)) (initials env root)).
  set (s0 := mkRt _ _ _ _ _ _ _ _ _).
  assert (Hl : length l = length (initials env root)) by (unfold l; now rewrite map_length).
  assert (Hl0 : length l <= length (rt_cur s0)).
  { rewrite Hl. cbn. rewrite repeat_length. apply initials_le_max. exact root_parent. }
  pose proof (init_loop_spec l ltac:(lia) fuel 0 s0 Hl0) as P.
  destruct (init_loop fuel l 0 s0) as [[] s1|ex s1|u|]; cbn [bind]; try contradiction; [|lia].
  destruct P as (cur' & -> & HL1 & HN).
  unfold update_current_regions. destruct (parallel m) eqn:Ep; [|eauto].
  specialize (Hn eq_refl). destruct (initials env root) as [|i0 il] eqn:Ei; [congruence|].
  assert (Hcur0 : nth_error cur' 0 = Some (Some (code m (root, i0)))).
  { rewrite HN. unfold l. rewrite map_length. reflexivity. }
  unfold current_parent, read_cur. cbn [rt_cur with_cur]. rewrite Hcur0. cbn [bind].
  assert (Hi0 : In i0 (states m)).
  { apply (initials_states root); [exact root_parent|]. rewrite Ei. now left. }
  rewrite nth_at_nth.
  rewrite (decode_parent m Hc _ _ _ (decode_code root i0 root_parent Hi0)), Nnat.Nat2N.id.
  rewrite (initial_table_nth root root_parent). eauto.
Qed.

(** * Settled states *)
Variable cb : cbfun V W.
Variable ds : list dep.

Lemma moves_settled r x (s s' : st) : moves m r x s s' -> settled m s -> settled m s'.
Proof. intros H S. destruct H; auto. Qed.
Lemma executes_settled r e d x o v s n v' s' : executes cb m r e d x o v s n v' s' ->
  settled m s -> settled m s'.
Proof. intros [v0 s0 s1 ks n0 v1 l1 w1 Hm Hp] S. exact (moves_settled _ _ _ _ Hm S). Qed.
Lemma region_step_settled r e v s vd v' s' : region_step cb m ds r e v s vd v' s' ->
  settled m s -> settled m s'.
Proof. intros H S. destruct H; auto; eapply executes_settled; eauto. Qed.
Lemma regions_run_settled e limit r v s vds v' s' :
  regions_run cb m ds e limit r v s vds v' s' -> settled m s -> settled m s'.
Proof. intros H. induction H; auto; intros S; eauto using region_step_settled. Qed.
Lemma anon_pass_settled limit r v s vds pe v' s' :
  anon_pass cb m ds limit r v s vds pe v' s' -> settled m s -> settled m s'.
Proof. intros H. induction H; auto; intros R; eauto using region_step_settled. Qed.
Lemma anonymous_settled v s vdss n s' : anonymous cb m ds v s vdss n s' -> settled m s -> settled m s'.
Proof. intros H. induction H; intros R; eauto using anon_pass_settled. Qed.
Variable vnone : V.
Lemma offer_settled e v s vds avds oe v' s' :
  offer cb m ds vnone e v s vds avds oe v' s' -> settled m s -> settled m s'.
Proof.
  intros H R. destruct H; eauto using regions_run_settled, anonymous_settled.
  destruct (has_anonymous m); [eauto using regions_run_settled, anonymous_settled|].
  destruct H2 as [_ ->]. eauto using regions_run_settled.
Qed.
Lemma recall_settled s n s' : recall cb m ds vnone s n s' -> settled m s -> settled m s'.
Proof. intros H R. destruct H; auto. eapply offer_settled; eauto. Qed.
Variable d0 : dep.
Lemma process_settled e v s vds rp s' : process cb m ds vnone d0 e v s vds rp s' ->
  settled m s -> settled m s'.
Proof.
  intros H R. destruct H; eauto using offer_settled.
  - apply offer_settled in H; auto. destruct H0; auto.
  - destruct (has_deferred m); [eauto using offer_settled, recall_settled|].
    destruct H0 as [_ ->]. eauto using offer_settled.
Qed.

(** An unhandled event changes nothing. *)
Lemma unhandled_same e limit r v s vds v' s' :
  regions_run cb m ds e limit r v s vds v' s' -> unhandled vds = true ->
  v' = v /\ s' = s /\ (r < limit -> at_place m s r <> None).
Proof.
  intros H. induction H; intros U.
  - split; [reflexivity|]. split; [reflexivity|]. lia.
  - exfalso. destruct vd; cbn in *; discriminate.
  - cbn in U. destruct vd; try discriminate. inversion H0; subst.
    destruct (IHregions_run U) as (-> & -> & _). split; [reflexivity|]. split; [reflexivity|]. congruence.
Qed.

Record rinvs (s : st) : Prop := mkRinvs {
  ri_tinv : tinv m ds d0 s;
  ri_rinv : rinv m s;
  ri_settled : settled m s }.

Hypothesis Hmax : max_initials m <= 255.

Lemma process_event_result fuel e v s : rinvs s ->
  match process_event cb m vnone fuel e v s with
  | Done (b, v') s' => exists vds, process cb m ds vnone d0 e v s vds (Returned b v') s'
  | Threw ex s' => exists n vds, ex = XUser n /\ process cb m ds vnone d0 e v s vds (Exception n) s'
  | _ => True
  end.
Proof.
  intros [T R S].
  pose proof (process_event_sound cb m Hc ds d0 vnone Hmax fuel e v s T R) as P.
  destruct (process_event cb m vnone fuel e v s) as [[b v'] s'|[n| |] s'|u|] eqn:E; auto.
  - destruct P as [vds P]. eauto.
  - exfalso. clear P. unfold process_event in E.
    destruct (in_dec ev_eq_dec e (events m)) as [He|]; [|discriminate].
    pose proof (process_event_internal_sound cb m Hc ds d0 vnone Hmax fuel e v s T R) as P.
    destruct (process_event_internal cb m vnone fuel e v s) as [[p v1] s1|ex s1|u|]; cbn [bind fst snd] in E; try discriminate.
    + destruct P as (vds & avds & oe & P & -> & Hnt & Hav).
      assert (T1 : tinv m ds d0 s1) by (eapply frame_tinv; [eapply offer_frame; eauto|exact T]).
      pose proof (offer_rinv cb m Hc ds vnone _ _ _ _ _ _ _ _ P R) as R1.
      destruct oe as [| | | |n]; cbn [offer_pres] in E; try discriminate.
      * pose proof (call_handler_sound cb m Hc ds d0 Hmax e v1 s1 T1 He) as Q.
        destruct (call_handler cb m e v1 s1) as [v' s2|[n| |] s2|u|]; cbn [bind] in E; try discriminate.
        destruct Q as [-> Q]. inversion P; subst.
        match goal with Hr : regions_run _ _ _ _ _ _ _ _ _ _ _, Hu : unhandled _ = true |- _ =>
          destruct (unhandled_same _ _ _ _ _ _ _ _ Hr Hu) as (-> & -> & Hat) end.
        unfold settled in S. unfold active in Hat.
        destruct (parallel m); [apply S; auto|]. apply Hat; [lia|exact Q].
      * unfold process_deferred in E. destruct (has_deferred m); cbn [bind] in E; [|discriminate].
        destruct (rt_queue s1) as [|[e2 v2] q] eqn:Eq; cbn [bind] in E; [discriminate|].
        assert (T2 : tinv m ds d0 (with_queue s1 q)) by (apply (frame_tinv m ds d0 s1); [split; reflexivity|exact T1]).
        pose proof (process_event_internal_sound cb m Hc ds d0 vnone Hmax fuel e2 v2 (with_queue s1 q) T2 R1) as Q.
        destruct (process_event_internal cb m vnone fuel e2 v2 (with_queue s1 q)) as [[p' v'] s2|ex s2|u|];
          cbn [bind] in E; try discriminate.
        inversion E; subst. destruct Q as (n & ? & ? & ? & Z & _). discriminate.
    + inversion E; subst. destruct P as (n & ? & ? & ? & Z & _). discriminate.
  - exfalso. clear P. unfold process_event in E.
    destruct (in_dec ev_eq_dec e (events m)) as [He|]; [|discriminate].
    pose proof (process_event_internal_sound cb m Hc ds d0 vnone Hmax fuel e v s T R) as P.
    destruct (process_event_internal cb m vnone fuel e v s) as [[p v1] s1|ex s1|u|]; cbn [bind fst snd] in E; try discriminate.
    + destruct P as (vds & avds & oe & P & -> & Hnt & Hav).
      assert (T1 : tinv m ds d0 s1) by (eapply frame_tinv; [eapply offer_frame; eauto|exact T]).
      pose proof (offer_rinv cb m Hc ds vnone _ _ _ _ _ _ _ _ P R) as R1.
      destruct oe as [| | | |n]; cbn [offer_pres] in E; try discriminate.
      * unfold call_handler in E. destruct (cd_unexpected _); [|discriminate].
        unfold at_cur in E. destruct (nth_error (rt_cur s1) 0) as [[c|]|]; cbn [bind] in E; try discriminate.
        destruct (get_table (rt_htabs s1) e); [|discriminate].
        destruct (nth_at c l) as [[[o d]|]|]; try discriminate.
        destruct (alive s1 o); [|discriminate]. unfold keep_payload, invoke in E.
        destruct (cb _ _ _ _); discriminate.
      * unfold process_deferred in E. destruct (has_deferred m); cbn [bind] in E; [|discriminate].
        destruct (rt_queue s1) as [|[e2 v2] q] eqn:Eq; cbn [bind] in E; [discriminate|].
        assert (T2 : tinv m ds d0 (with_queue s1 q)) by (apply (frame_tinv m ds d0 s1); [split; reflexivity|exact T1]).
        pose proof (process_event_internal_sound cb m Hc ds d0 vnone Hmax fuel e2 v2 (with_queue s1 q) T2 R1) as Q.
        destruct (process_event_internal cb m vnone fuel e2 v2 (with_queue s1 q)) as [[p' v'] s2|ex s2|u|];
          cbn [bind] in E; try discriminate.
        inversion E; subst. destruct Q as (n & ? & ? & ? & Z & _). discriminate.
    + inversion E; subst. destruct P as (n & ? & ? & ? & Z & _). discriminate.
Qed.

Lemma process_rinvs e v s vds rp s' : process cb m ds vnone d0 e v s vds rp s' -> rinvs s -> rinvs s'.
Proof.
  intros P [T R S]. split.
  - eapply frame_tinv; [eapply process_frame; eauto|exact T].
  - eapply process_rinv; eauto.
  - eapply process_settled; eauto.
Qed.
End Machine.

Section Calls.
Context {V W : Type}.
Variable cb : cbfun V W.
Variable m : machine.
Hypothesis Hc : comp m.
Variable vnone : V.
Notation env := (mc_env m).
Notation st := (rt V W).

(** Queries leave the state alone. *)
Lemma current_parent_same (s : st) :
  match current_parent m s with Done _ s' | Threw _ s' => s' = s | _ => True end.
Proof. unfold current_parent, read_cur. destruct (nth_error (rt_cur s) 0) as [[?|]|]; cbn; auto. Qed.
Lemma current_state_same (s : st) r :
  match current_state m s r with Done _ s' | Threw _ s' => s' = s | _ => True end.
Proof. unfold current_state, at_cur. destruct (nth_error (rt_cur s) r) as [[?|]|]; cbn; auto. Qed.
Lemma q_is_same r p q (s : st) :
  match q_is m r p q s with Done _ s' | Threw _ s' => s' = s | _ => True end.
Proof.
  unfold q_is. pose proof (current_parent_same s) as P.
  destruct (current_parent m s) as [c s1|x s1|u|]; cbn [bind]; auto. subst s1.
  destruct (N.eqb c (parent_idx m p)); auto.
  pose proof (current_state_same s (to_region r)) as Q.
  destruct (current_state m s (to_region r)); cbn [bind]; auto.
Qed.
Lemma q_parent_is_same p (s : st) :
  match q_parent_is m p s with Done _ s' | Threw _ s' => s' = s | _ => True end.
Proof.
  unfold q_parent_is. pose proof (current_parent_same s) as P.
  destruct (current_parent m s); cbn [bind]; auto.
Qed.
Lemma status_loop_same : forall fuel limit r (s : st),
  match status_loop m fuel limit r s with Done _ s' | Threw _ s' => s' = s | _ => True end.
Proof.
  induction fuel as [|fuel IH]; intros limit r s; cbn [status_loop]; [exact I|].
  destruct (Nat.ltb r limit); [|reflexivity].
  unfold read_cur at 1. destruct (nth_error (rt_cur s) r) as [[c|]|]; cbn [bind]; auto.
  pose proof (current_parent_same s) as P.
  destruct (current_parent m s) as [c1 s1|x s1|u|]; cbn [bind]; auto. subst s1.
  pose proof (current_state_same s r) as Q.
  destruct (current_state m s r) as [c2 s2|x s2|u|]; cbn [bind]; auto. subst s2.
  specialize (IH limit (next_region r) s).
  destruct (status_loop m fuel limit (next_region r) s); cbn [bind]; auto.
Qed.

Lemma set_state_result r p q (s : st) :
  match set_state m r p q s with
  | Done _ s' => In q (states m) /\ In p (parents m) /\ to_region r < length (rt_cur s) /\
      s' = with_cur s (set_nth (to_region r) (Some (code m (p, q))) (rt_cur s))
  | Threw x s' => x = XOutOfRange /\ s' = s /\ In q (states m) /\ In p (parents m) /\
      length (rt_cur s) <= to_region r
  | Undef u => u = UBIllformed /\ ~ (In q (states m) /\ In p (parents m))
  | Timeout => False
  end.
Proof.
  unfold set_state. destruct (in_dec sref_eq_dec q (states m)); [|cbn; tauto].
  destruct (in_dec Nat.eq_dec p (parents m)); [|cbn; tauto].
  destruct (upd_nth _ _ _) as [cur|] eqn:E.
  - pose proof E as E'. apply upd_nth_set in E. subst cur. apply upd_nth_spec in E'.
    rewrite (code_combined m Hc). tauto.
  - apply upd_nth_None in E. tauto.
Qed.

Hypothesis Hmax : max_initials m <= 255.
Variable d0 : dep.

(** What a call answers and does. *)
Definition call_effect (ds : list dep) (k : call V) (o : out) (s s' : st) : Prop :=
  match k with
  | KProcess e v => exists vds rp, process cb m ds vnone d0 e v s vds rp s' /\
      o = match rp with Returned b _ => OBool b | Exception n => OExn (XUser n) end
  | KSet r p q =>
      (o = OUnit /\ In q (states m) /\ In p (parents m) /\ to_region r < length (rt_cur s) /\
         s' = with_cur s (set_nth (to_region r) (Some (code m (p, q))) (rt_cur s))) \/
      (o = OExn XOutOfRange /\ s' = s)
  | KSetDep d => o = OUnit /\ exists t, fill_dispatch m d (rt_tabs s) = Some t /\ s' = with_tabs s t
  | _ => s' = s
  end.

Lemma call_sound ds fuel k s o s' : rinvs m ds d0 s ->
  do_call_catch cb m vnone fuel k s = Done o s' -> call_effect ds k o s s'.
Proof.
  intros I. unfold do_call_catch. destruct k as [e v|r p q|p|r p q|d|]; cbn [do_call call_effect].
  - pose proof (process_event_result m Hc cb ds vnone d0 Hmax fuel e v s I) as P.
    destruct (process_event cb m vnone fuel e v s) as [[b v'] s1|x s1|u|]; cbn [bind]; intros H; inversion H; subst.
    + destruct P as [vds P]. eauto.
    + destruct P as (n & vds & -> & P). eauto.
  - pose proof (q_is_same r p q s) as P.
    destruct (q_is m r p q s); cbn [bind]; intros H; inversion H; subst; auto.
  - pose proof (q_parent_is_same p s) as P.
    destruct (q_parent_is m p s); cbn [bind]; intros H; inversion H; subst; auto.
  - pose proof (set_state_result r p q s) as P.
    destruct (set_state m r p q s); cbn [bind]; intros H; inversion H; subst; intuition congruence.
  - unfold set_dependency. destruct (fill_dispatch m d (rt_tabs s)) as [t|]; cbn [bind]; intros H; inversion H; subst.
    eauto.
  - unfold status. pose proof (status_loop_same fuel (current_regions m s) 0 s) as P.
    destruct (status_loop m fuel (current_regions m s) 0 s); cbn [bind]; intros H; inversion H; subst; auto.
Qed.

Lemma call_rinvs ds k o s s' : rinvs m ds d0 s -> call_effect ds k o s s' ->
  rinvs m (deps_after k ds) d0 s'.
Proof.
  intros I. destruct k as [e v|r p q|p|r p q|d|]; cbn [call_effect deps_after]; try (intros ->; exact I).
  - intros (vds & rp & P & _). eapply process_rinvs; eauto.
  - intros [(_ & Hq & Hp & Hr & ->)|(_ & ->)]; [|exact I].
    destruct I as [T R S]. split; [|exact R|].
    + apply (tinv_frame m ds d0 s); auto. cbn. apply set_nth_length.
    + unfold settled, at_place in *. cbn [rt_cur with_cur]. intros Hpar. specialize (S Hpar).
      destruct (Nat.eq_dec 0 (to_region r)) as [H0|Hn].
      * rewrite <- H0 in *. rewrite nth_set_same by exact Hr. rewrite (decode_code m Hc) by assumption. discriminate.
      * rewrite nth_set_other by exact Hn. exact S.
  - intros (_ & t & Ht & ->). destruct I as [[T1 T2 T3 T4] R S]. split; [|exact R|exact S].
    split; auto. cbn. econstructor; eauto.
Qed.
End Calls.

Section Reachable.
Context {V W : Type}.
Variable cb : cbfun V W.
Variable m : machine.
Hypothesis Hc : comp m.
Variable vnone : V.
Hypothesis Hmax : max_initials m <= 255.

Lemma fresh_rinvs d w (s : rt V W) : fresh m d w s ->
  (parallel m = true -> initials (mc_env m) (mc_root m) <> []) -> rinvs m [d] d s.
Proof.
  intros (Hlen & Hcur & Hh & Hq & Hr & Hl & Hf & Hht & Hw & Ht) Hn. split.
  - split; auto. now rewrite Hh.
  - unfold rinv. rewrite Hr. destruct (parallel m); [|lia]. apply initials_le_max. apply root_parent; exact Hc.
  - unfold settled, at_place. intros Hp. specialize (Hn Hp). rewrite Hcur.
    destruct (initials (mc_env m) (mc_root m)) as [|i l] eqn:Ei; [congruence|]. cbn [nth_error].
    rewrite (decode_code m Hc); [discriminate|apply root_parent; exact Hc|].
    apply (initials_states m Hc (mc_root m)); [apply root_parent; exact Hc|]. rewrite Ei. now left.
Qed.

Lemma root_initials_le : length (initials (mc_env m) (mc_root m)) <= 255.
Proof.
  pose proof (initials_le_max m (mc_root m) (root_parent m Hc)). lia.
Qed.

Lemma reachable_rinvs ds d0 s : reachable cb m vnone ds d0 s -> rinvs m ds d0 s.
Proof.
  intros H. induction H as [fuel d w s H|fuel ds d0 s k o s' H IH H1].
  - destruct (construct_sound m Hc _ _ _ _ root_initials_le H) as [F Hn].
    now apply (fresh_rinvs d w).
  - eapply call_rinvs; eauto. eapply call_sound; eauto.
Qed.

Lemma reachable_call ds d0 s fuel k o s' : reachable cb m vnone ds d0 s ->
  do_call_catch cb m vnone fuel k s = Done o s' -> call_effect cb m vnone d0 ds k o s s'.
Proof. intros H. apply call_sound; auto. now apply reachable_rinvs. Qed.

(** A whole session stays within the reachable states. *)
Fixpoint deps_run (ks : list (call V)) (ds : list dep) : list dep :=
  match ks with [] => ds | k :: ks' => deps_run ks' (deps_after k ds) end.

Lemma run_reachable fuel : forall ks ds d0 s os s', reachable cb m vnone ds d0 s ->
  run cb m vnone fuel ks s = Done os s' -> reachable cb m vnone (deps_run ks ds) d0 s'.
Proof.
  induction ks as [|k ks IH]; intros ds d0 s os s' R H; cbn [run] in H.
  - inversion H; subst. exact R.
  - apply bind_Done in H. destruct H as (o & s1 & H1 & H).
    apply bind_Done in H. destruct H as (os' & s2 & H2 & H). inversion H; subst.
    cbn [deps_run]. eapply IH; [|exact H2]. eapply reach_call; eauto.
Qed.

Lemma session_reachable fuel d w ks os s :
  session cb m vnone fuel d w ks = Done os s -> reachable cb m vnone (deps_run ks [d]) d s.
Proof.
  unfold session. intros H. apply bind_Done in H. destruct H as ([] & s0 & H0 & H).
  eapply run_reachable; [|exact H]. econstructor; eauto.
Qed.
End Reachable.
