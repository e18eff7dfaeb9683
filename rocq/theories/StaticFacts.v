(** Facts about the compile-time part in the vocabulary of Spec.v. *)

From Coq Require Import List Arith NArith Bool Lia.
From Verif Require Import Types Static Dispatch ListFacts IndexFacts Spec DispatchFacts
  FlattenFacts Runtime Semantics RefineFacts.
Import ListNotations.

Section Machine.
Variable m : machine.
Hypothesis Hc : flattened m.
Notation env := (mc_env m).
Notation root := (mc_root m).

Lemma parent_iff p : In p (parents m) <-> is_parent env root p.
Proof. apply (parents_iff m Hc). Qed.

Lemma state_iff s : In s (states m) <-> is_state env root s.
Proof.
  unfold states, is_state, child_states_rec. rewrite in_app_iff, unique_In, in_flat_map. cbn [In].
  split.
  - intros [(x & Hx & Hs)|[<-|[]]]; [|auto]. right.
    apply (flat_declared m Hc) in Hx. destruct Hx as (p & r & Hu & Hr & ->).
    exists p. split; [exact Hu|]. exists r. split; [exact Hr|]. cbn in Hs.
    rewrite unwrap_unmarked in Hs. intuition congruence.
  - intros [->|(p & Hu & r & Hr & Hs)]; [auto|]. left.
    exists (row_in p r). split; [apply (flat_declared m Hc); exists p, r; auto|].
    cbn. rewrite unwrap_unmarked. intuition congruence.
Qed.

Lemma place_iff pl : inrange m pl <-> is_place env root pl.
Proof. unfold inrange, is_place. rewrite parent_iff, state_iff. reflexivity. Qed.

Lemma in_places_iff pl : In pl (places m) <-> is_place env root pl.
Proof. destruct pl as [p s]. rewrite (in_places m), <- place_iff. reflexivity. Qed.

(** Registration stays inside the arrays iff the machine is anchored. *)
Lemma regs_anchored : regs_ok m <-> anchored env root.
Proof.
  split.
  - intros [H1 H2] e pl c Hcand. apply place_iff.
    destruct Hcand as [x Hx He|x c s Hx He Hs Hcc Hch|x Hx He|x c Hx Hs He].
    + apply (H1 x (source_place x, snd (source_place x))).
      * apply in_or_app. right. now apply (flat_declared m Hc).
      * apply (offers_iff m). auto.
    + apply (H1 x ((c, s), SState c)).
      * apply in_or_app. right. now apply (flat_declared m Hc).
      * apply (offers_iff m). right. split; [|eauto 10].
        apply (flat_external m Hc). now apply (flat_declared m Hc).
    + pose proof (internal_flat_cover m Hc x Hx) as (y & Hy & Hk).
      assert (Es : source_place x = source_place y).
      { unfold xrow_key in Hk. inversion Hk as [[K1 K2 K3 K4 K5 K6]]. unfold source_place. now rewrite K1, K2. }
      rewrite Es.
      apply (H1 y (source_place y, snd (source_place y))).
      * apply in_or_app. now left.
      * apply (offers_iff m). auto.
    + apply (H2 x).
      * apply (deferring_iff m Hc x e). eauto.
      * intros E. assert (In e (deferred_events m x)) as Hin by (apply (deferring_iff m Hc x e); eauto).
        rewrite E in Hin. destruct Hin.
  - intros A. split.
    + intros x [pl o] Hx Ho. cbn [fst]. apply place_iff. apply (offers_iff m) in Ho.
      apply in_app_or in Hx. destruct Ho as [[-> ->]|(Hint & c & s & Hs & Hcc & Hch & -> & ->)].
      * destruct Hx as [Hx|Hx].
        -- eapply A. eapply cand_internal; [eapply (internal_flat_declared m Hc); exact Hx|reflexivity].
        -- eapply A. eapply cand_source; [apply (flat_declared m Hc); exact Hx|reflexivity].
      * destruct Hx as [Hx|Hx].
        -- apply (internal_flat_int m Hc) in Hx. congruence.
        -- eapply A. eapply cand_enclosing; eauto. now apply (flat_declared m Hc).
    + intros x Hx Hne. apply place_iff. destruct (deferred_events m x) as [|e l] eqn:E; [congruence|].
      assert (In x (deferring m) /\ In e (deferred_events m x)) as H by (rewrite E; split; [exact Hx|now left]).
      apply (deferring_iff m Hc) in H. destruct H as (Hd & c & Hs & He).
      eapply A. eapply cand_defer; eauto.
Qed.
End Machine.

(** * Order *)
Lemma flatten_visits env : forall f c l, flatten f env c = Some l -> visits env c (table env c) l.
Proof.
  induction f as [|f IH]; intros c l H; [discriminate|]. rewrite flatten_S in H. unfold table.
  destruct (cd_table (lookup env c)) as [rows|]; [|discriminate].
  revert l H. induction rows as [|r rows IHr]; intros l H; cbn in H.
  - inversion H; constructor.
  - destruct (contrib f env c r) as [a|] eqn:Ea; [|discriminate].
    destruct (concat_opt (map (contrib f env c) rows)) as [b|]; [|discriminate].
    inversion H; subst l; clear H. specialize (IHr b eq_refl).
    unfold contrib in Ea.
    destruct (sub_state_parent (r_tgt r)) as [p|w p|w p s|w p s|w p s|w p] eqn:Es.
    + destruct (has_table env (SState p)) eqn:Eh.
      * destruct (flatten f env p) as [sub|] eqn:Ef; [|discriminate]. inversion Ea; subst a; clear Ea.
        cbn [app]. apply vis_sub with (c' := p).
        -- now apply leads_into_iff.
        -- now apply has_table_iff.
        -- now apply IH.
        -- exact IHr.
      * inversion Ea; subst a; clear Ea. apply vis_leaf; [|exact IHr].
        intros c' Hl Hcc. apply leads_into_iff in Hl. apply has_table_iff in Hcc. congruence.
    + inversion Ea; subst a. apply vis_leaf; [|exact IHr]. intros c' Hl _. apply leads_into_iff in Hl. congruence.
    + inversion Ea; subst a. apply vis_leaf; [|exact IHr]. intros c' Hl _. apply leads_into_iff in Hl. congruence.
    + inversion Ea; subst a. apply vis_leaf; [|exact IHr]. intros c' Hl _. apply leads_into_iff in Hl. congruence.
    + inversion Ea; subst a. apply vis_leaf; [|exact IHr]. intros c' Hl _. apply leads_into_iff in Hl. congruence.
    + inversion Ea; subst a. apply vis_leaf; [|exact IHr]. intros c' Hl _. apply leads_into_iff in Hl. congruence.
Qed.

Lemma visits_det env : forall c rs l, visits env c rs l -> forall l', visits env c rs l' -> l' = l.
Proof.
  assert (LI : forall t a b, leads_into t a -> leads_into t b -> a = b).
  { intros t a b H1 H2. apply leads_into_iff in H1. apply leads_into_iff in H2. congruence. }
  intros c rs l H. induction H as [c|c r rs l Hn H IH|c r rs c' sub l Hl Hcc H1 IH1 H IH]; intros l' H'; inversion H'; subst; auto.
  - f_equal. auto.
  - exfalso. eapply Hn; eauto.
  - exfalso. match goal with H : forall c', _ -> ~ _ |- _ => eapply H; eauto end.
  - match goal with Hx : leads_into _ ?c0, Hy : leads_into _ c' |- _ => assert (c0 = c') by (eapply LI; eauto); subst c0 end.
    f_equal. f_equal; auto.
Qed.

Lemma unique_acc_places l : forall seen,
  unique_acc place_eq_dec seen l =
  filter (fun a => if in_dec place_eq_dec a seen then false else true) (dedup_places l).
Proof.
  induction l as [|a l IH]; intros seen; [reflexivity|]. cbn [unique_acc dedup_places filter].
  destruct (in_dec place_eq_dec a seen) as [Ha|Ha].
  - rewrite IH. rewrite filter_filter. apply filter_ext. intros b.
    destruct (place_eq_dec b a) as [->|Hb]; cbn [andb]; [|reflexivity].
    destruct (in_dec place_eq_dec a seen); [reflexivity|contradiction].
  - f_equal. rewrite IH, filter_filter. apply filter_ext. intros b.
    destruct (in_dec place_eq_dec b (a :: seen)) as [Hb|Hb]; destruct (place_eq_dec b a) as [->|Hn];
      destruct (in_dec place_eq_dec _ seen) as [Hi|Hi]; cbn [andb]; try reflexivity; exfalso; cbn in Hb; intuition congruence.
Qed.

Lemma unique_places l : unique place_eq_dec l = dedup_places l.
Proof.
  unfold unique. rewrite unique_acc_places. induction (dedup_places l) as [|a k IH]; [reflexivity|].
  change (filter (fun _ => true) (a :: k) = a :: k). cbn [filter]. f_equal. exact IH.
Qed.

Lemma xrow_key_same x y : xrow_key x = xrow_key y <-> same_cpp_type x y.
Proof.
  unfold xrow_key, same_cpp_type. split.
  - intros H. inversion H. auto 10.
  - intros (-> & -> & -> & -> & -> & ->). reflexivity.
Qed.

Lemma unique_by_keeps l : forall pre seen, (forall x, In (xrow_key x) seen <-> exists b, In b pre /\ same_cpp_type b x) ->
  keeps_first same_cpp_type pre l (unique_by_acc xkey_eq_dec xrow_key seen l).
Proof.
  induction l as [|a l IH]; intros pre seen H; cbn [unique_by_acc]; [constructor|].
  destruct (in_dec xkey_eq_dec (xrow_key a) seen) as [Ha|Ha].
  - apply kf_drop; [now apply H|]. apply IH. intros x. rewrite H. split.
    + intros (b & Hb & Hs). exists b. split; [apply in_or_app; auto|exact Hs].
    + intros (b & Hb & Hs). apply in_app_or in Hb. destruct Hb as [Hb|[<-|[]]]; [eauto|].
      apply H in Ha. destruct Ha as (b & Hb & Hs'). exists b. split; [exact Hb|].
      apply xrow_key_same in Hs'. apply xrow_key_same in Hs. apply xrow_key_same. congruence.
  - apply kf_keep.
    + intros b Hb Hs. apply Ha. apply H. eauto.
    + apply IH. intros x. cbn [In]. rewrite H. split.
      * intros [Hk|(b & Hb & Hs)].
        -- exists a. split; [apply in_or_app; right; now left|]. now apply xrow_key_same.
        -- exists b. split; [apply in_or_app; auto|exact Hs].
      * intros (b & Hb & Hs). apply in_app_or in Hb. destruct Hb as [Hb|[<-|[]]]; [eauto|].
        left. now apply xrow_key_same.
Qed.

Section Order.
Variable m : machine.
Hypothesis Hc : flattened m.
Notation env := (mc_env m).
Notation root := (mc_root m).

Lemma flat_visits : visits env root (table env root) (mc_flat m).
Proof. destruct Hc as [f Hf]. eapply flatten_visits; eauto. Qed.

Lemma internal_rows_eq : flat_map (internal_of_pair env) (state_pairs m) = internal_rows env root (mc_flat m).
Proof.
  unfold internal_rows, occurrences, state_pairs. rewrite unique_places.
  rewrite (flat_map_ext (fun x => [(x_parent x, unwrap_initial (x_src x)); (x_parent x, x_tgt x)])
                        (fun x => [(x_parent x, unmarked (x_src x)); (x_parent x, x_tgt x)])) by reflexivity.
  apply flat_map_ext. intros [p s]. unfold internal_of_pair, internal_rows_of. cbn [fst snd].
  destruct s as [c| | | | |]; try reflexivity. unfold internals.
  destruct (cd_internal (lookup env c)) as [l|]; [|reflexivity].
  apply flat_map_ext. intros i. rewrite has_table_b. destruct (is_composite env c); [|reflexivity].
  rewrite map_map. unfold child_states. rewrite unique_dedup. reflexivity.
Qed.

Lemma internal_keeps : keeps_first same_cpp_type [] (internal_rows env root (mc_flat m)) (internal_flat m).
Proof.
  unfold internal_flat. rewrite internal_rows_eq. apply unique_by_keeps.
  intros x. split; [intros []|intros (b & [] & _)].
Qed.

Lemma child_typeids_children c : child_typeids env c = children env c.
Proof. unfold child_typeids, children. rewrite unique_dedup. reflexivity. Qed.

Lemma deferred_events_by x : deferred_events m x = deferred_by env x.
Proof.
  unfold deferred_events, deferred_by, defer_of, defers. rewrite unwrap_unmarked.
  destruct (unmarked (x_src x)); reflexivity.
Qed.

Lemma flat_map_ext_in' {A B} (f g : A -> list B) l :
  (forall a, In a l -> f a = g a) -> flat_map f l = flat_map g l.
Proof.
  induction l as [|a l IH]; intros H; [reflexivity|]. cbn. rewrite H by (now left).
  f_equal. apply IH. intros b Hb. apply H. now right.
Qed.

Lemma offers_children x : offers (comp_b m) (child_typeids env) x = offers (is_composite env) (children env) x.
Proof.
  unfold offers, comp_b. f_equal. destruct (x_int x); [reflexivity|].
  destruct (x_src x) as [c| | | | |]; try reflexivity. rewrite has_table_b.
  destruct (is_composite env c); [|reflexivity]. now rewrite child_typeids_children.
Qed.

Lemma rows_at_children e pl l :
  rows_at (comp_b m) (child_typeids env) e pl l = rows_at (is_composite env) (children env) e pl l.
Proof.
  unfold rows_at. apply flat_map_ext. intros x. destruct (ev_eq_dec (x_ev x) e); [|reflexivity].
  now rewrite offers_children.
Qed.

Lemma cands_priority e pl :
  cands m e pl = priority (is_composite env) (children env) (deferred_by env) e pl
                          (mc_flat m) (internal_flat m) (mc_flat m).
Proof.
  unfold cands, priority. rewrite !rows_at_children. f_equal. f_equal.
  unfold defers_at, deferring.
  induction (mc_flat m) as [|x l IH]; [reflexivity|]. cbn [filter flat_map].
  rewrite <- IH. rewrite <- deferred_events_by. unfold deferred_events at 2.
  destruct (defer_of env (unwrap_initial (x_src x))) as [le|] eqn:E; cbn [is_some].
  - cbn [flat_map]. unfold deferred_events at 1. rewrite E. reflexivity.
  - destruct (place_eq_dec (source_place x) pl); reflexivity.
Qed.
End Order.

(** * What compiles *)

Lemma needs_ptr_iff : forall b, needs_ptr b = true <-> needs_pointer b.
Proof.
  induction b as [f|f|f|l IH] using abody_ind2; cbn [needs_ptr].
  - split; [discriminate|intros H; inversion H].
  - split; [constructor|reflexivity].
  - split; [constructor|reflexivity].
  - rewrite Forall_forall in IH. rewrite existsb_exists. split.
    + intros (b & Hb & H). econstructor; [exact Hb|]. now apply IH.
    + intros H. inversion H as [| |b l' Hb Hn]; subst. exists b. split; [exact Hb|]. now apply IH.
Qed.

Lemma keeps_first_det {A} (same : A -> A -> Prop) pre l k : keeps_first same pre l k ->
  forall k', keeps_first same pre l k' -> k' = k.
Proof.
  intros H. induction H as [pre|pre a l k Hn H IH|pre a l k (b & Hb & Hs) H IH]; intros k' H'; inversion H'; subst; auto.
  - f_equal. auto.
  - exfalso. match goal with H : exists _, _ |- _ => destruct H as (b & Hb & Hs) end. eapply Hn; eauto.
  - exfalso. match goal with H : forall _, In _ _ -> ~ _ |- _ => eapply H; eauto end.
Qed.

Lemma row_accepted_fine m x : flattened m -> row_accepted m x = true <-> row_fine (mc_env m) (mc_root m) x.
Proof.
  intros Hc. unfold row_accepted. destruct (resolve_dst_spec (mc_env m) x) as [E1 E2]. rewrite E1.
  split.
  - destruct (target_place (mc_env m) x) as [[p d]|] eqn:Et; [|discriminate]. cbn [option_map snd].
    rewrite !andb_true_iff. intros [[[H1 H2] H3] H4].
    destruct (in_dec sref_eq_dec d (states m)) as [Hd|]; [|discriminate].
    destruct (in_dec sref_eq_dec (resolve_src x) (states m)) as [Hs|]; [|discriminate].
    split.
    + exists (p, d). split; [exact Et|]. now apply (state_iff m Hc).
    + rewrite source_place_resolve. now apply (state_iff m Hc).
    + intros w q Eq. rewrite Eq in H3. now apply has_table_iff.
    + intros ty b Eb Hn. apply needs_ptr_iff in Hn. rewrite Eb, Hn in H4. cbn in H4. unfold target_state. rewrite Et.
      apply negb_true_iff. exact H4.
  - intros [(pl & Et & Hd) Hs Hh Hp]. rewrite Et. destruct pl as [p d]. cbn [option_map snd] in *.
    rewrite !andb_true_iff. repeat split.
    + destruct (in_dec sref_eq_dec d (states m)) as [|n]; [reflexivity|]. exfalso. apply n. now apply (state_iff m Hc).
    + destruct (in_dec sref_eq_dec (resolve_src x) (states m)) as [|n]; [reflexivity|].
      exfalso. apply n. rewrite source_place_resolve in Hs. now apply (state_iff m Hc).
    + destruct (x_tgt x) eqn:E; try reflexivity. apply has_table_iff. eapply Hh; eauto.
    + destruct (x_act x) as [|ty b] eqn:E; [reflexivity|]. destruct (needs_ptr b) eqn:En; [|reflexivity].
      cbn [negb orb]. apply negb_true_iff. specialize (Hp ty b eq_refl (proj1 (needs_ptr_iff b) En)). unfold target_state in Hp.
      rewrite Et in Hp. exact Hp.
Qed.

Lemma max_initials_pos m : flattened m ->
  max_initials m <> 0 <-> exists p, is_parent (mc_env m) (mc_root m) p /\ initial_states (mc_env m) p <> [].
Proof.
  intros Hf.
  assert (G : forall l, fold_right Nat.max 0 (map (fun p => length (initials (mc_env m) p)) l) <> 0 <->
     exists p, In p l /\ initial_states (mc_env m) p <> []).
  { induction l as [|p l IH]; cbn [map fold_right In].
    - split; [intros H; contradiction H; reflexivity|intros (p & [] & _)].
    - split.
      + intros H. rewrite initials_spec in H. destruct (initial_states (mc_env m) p) as [|a k] eqn:E.
        * cbn [length Nat.max] in H. apply IH in H. destruct H as (q & Hq & Hn). eauto.
        * exists p. split; [auto|]. congruence.
      + intros (q & [-> | Hq] & Hn).
        * rewrite initials_spec. destruct (initial_states (mc_env m) q) as [|a k]; [congruence|]. cbn [length]. intros H0. pose proof (Nat.le_max_l (S (length k)) (fold_right Nat.max 0 (map (fun p => length (initials (mc_env m) p)) l))). lia.
        * assert (H : fold_right Nat.max 0 (map (fun p => length (initials (mc_env m) p)) l) <> 0)
            by (apply IH; eauto). lia. }
  unfold max_initials. rewrite G. split; intros (p & Hp & Hn); exists p; split; auto; now apply (parent_iff m Hf).
Qed.

Lemma root_initial_iff env root :
  (forall s, In s (initials env root) -> has_table env s = false /\ has_internal env s = false) <->
  (forall c, In (SState c) (initial_states env root) -> ~ composite env c /\ cd_internal (lookup env c) = None).
Proof.
  rewrite <- initials_spec. split.
  - intros H c Hi. destruct (H _ Hi) as [H1 H2]. split.
    + intros Hc. apply has_table_iff in Hc. congruence.
    + unfold has_internal, internal_of in H2. destruct (cd_internal (lookup env c)); [discriminate|reflexivity].
  - intros H s Hi. unfold initials in Hi. pose proof Hi as Hi'. apply in_map_iff in Hi.
    destruct Hi as (t & <- & Ht). apply filter_In in Ht. destruct Ht as [_ Ht].
    destruct t as [|w c| | | |]; try discriminate. cbn [unwrap_initial] in *.
    destruct (H c Hi') as [H1 H2]. split.
    + destruct (has_table env (SState c)) eqn:E; [|reflexivity]. exfalso. apply H1. now apply has_table_iff.
    + unfold has_internal, internal_of. now rewrite H2.
Qed.

Lemma compile_compiles env root : (exists m, compile env root = Some m) <-> compiles env root.
Proof.
  split.
  - intros [m Hm]. destruct (compile_comp _ _ _ Hm) as (Hc & He & Hr). subst env root.
    pose proof (cp_fl m Hc) as Hf. split.
    + intros E. destruct Hf as [f Hf]. pose proof (flatten_visits _ _ _ _ Hf) as Hv. rewrite E in Hv.
      inversion Hv as [c0 Hnil| |]. apply (cp_flat m Hc). congruence.
    + intros Hrec. destruct Hf as [f Hf]. rewrite (flatten_recursive _ _ Hrec) in Hf. discriminate.
    + apply (max_initials_pos m Hf). apply (cp_max m Hc).
    + apply root_initial_iff. apply (cp_initab m Hc).
    + intros x Hx. apply (row_accepted_fine m x Hf). apply (cp_rows m Hc). apply in_or_app. left.
      now apply (flat_declared m Hf).
    + intros flat ints x Hv Hk Hx. apply (row_accepted_fine m x Hf). apply (cp_rows m Hc). apply in_or_app. right.
      rewrite (visits_det _ _ _ _ (flat_visits m Hf) _ Hv) in Hk.
      rewrite (keeps_first_det _ _ _ _ (internal_keeps m) _ Hk) in Hx. exact Hx.
    + intros x e Hx He. rewrite <- (deferred_events_by m) in He.
      assert (Hd : In x (deferring m)).
      { unfold deferring. apply filter_In. split; [now apply (flat_declared m Hf)|].
        unfold deferred_events in He. destruct (defer_of _ _); [reflexivity|destruct He]. }
      pose proof (cp_defer m Hc x e Hd He) as H. apply (events_spec m) in H.
      destruct H as (y & Hy & Ey). exists y. split; [|exact Ey]. apply in_app_or in Hy.
      destruct Hy as [Hy|Hy]; [left; now apply (flat_declared m Hf)|right; now apply (internal_flat_declared m Hf)].
    + intros p Hu Hch. apply (cp_root m Hc). unfold child_states_rec. apply unique_In. apply in_flat_map.
      destruct Hch as (r & Hr & Hs). exists (row_in p r). split; [apply (flat_declared m Hf); exists p, r; auto|].
      cbn. rewrite unwrap_unmarked. intuition congruence.
    + intros ps ss Np Ns Hp Hs. pose proof (cp_size m Hc) as H. unfold n_parents, n_states in H.
      assert (H1 : length ps <= length (parents m)).
      { apply NoDup_incl_length; [exact Np|]. intros p Hin. apply (parent_iff m Hf). auto. }
      assert (H2 : length ss <= length (states m)).
      { apply NoDup_incl_length; [exact Ns|]. intros p Hin. apply (state_iff m Hf). auto. }
      eapply N.le_lt_trans; [|exact H]. apply N.mul_le_mono; lia.
  - intros [C1 C2 C3 C4 C5 C6 C7 C8 C9].
    assert (Hroot : composite env root).
    { unfold composite. unfold table in C1. destruct (cd_table (lookup env root)); congruence. }
    destruct (flatten_acyclic env root Hroot C2) as [fl Hfl].
    unfold compile. rewrite Hfl. set (m := mkMachine env root fl).
    assert (Hf : flattened m) by (exists (S (length env)); exact Hfl).
    assert (Ha : accepted m = true); [|rewrite Ha; eauto].
    unfold accepted. rewrite !andb_true_iff. repeat split.
    + cbn [m mc_env mc_root]. unfold composite in Hroot. destruct (cd_table (lookup env root)); [reflexivity|congruence].
    + pose proof (flatten_visits _ _ _ _ Hfl) as Hv. cbn [m mc_flat].
      destruct (table env root); [congruence|]. inversion Hv; subst; reflexivity.
    + apply negb_true_iff. apply Nat.eqb_neq. apply (max_initials_pos m Hf). exact C3.
    + apply forallb_forall. intros s Hs. apply negb_true_iff. now apply (proj2 (root_initial_iff env root) C4).
    + apply forallb_forall. intros s Hs. apply negb_true_iff. now apply (proj2 (root_initial_iff env root) C4).
    + apply forallb_forall. intros x Hx. apply (row_accepted_fine m x Hf). apply in_app_or in Hx.
      destruct Hx as [Hx|Hx]; [apply C5; now apply (flat_declared m Hf)|].
      apply (C6 (mc_flat m) (internal_flat m)); [exact (flat_visits m Hf)|exact (internal_keeps m)|exact Hx].
    + apply forallb_forall. intros x Hx. apply forallb_forall. intros e He.
      destruct (in_dec ev_eq_dec e (events m)) as [|n]; [reflexivity|]. exfalso. apply n.
      assert (Hd : In x (mc_flat m)) by (unfold deferring in Hx; apply filter_In in Hx; apply Hx).
      apply (flat_declared m Hf) in Hd. rewrite (deferred_events_by m) in He.
      destruct (C7 x e Hd He) as (y & Hy & Ey). apply (events_spec m). destruct Hy as [Hy|Hy].
      * exists y. split; [apply in_or_app; left; now apply (flat_declared m Hf)|exact Ey].
      * destruct (internal_flat_cover m Hf y Hy) as (z & Hz & Hk). exists z.
        split; [apply in_or_app; now right|]. apply xrow_key_same in Hk. destruct Hk as (_ & _ & Hk & _). congruence.
    + destruct (in_dec sref_eq_dec (SState (mc_root m)) (child_states_rec m)) as [Hin|]; [|reflexivity].
      exfalso. unfold child_states_rec in Hin. apply unique_In, in_flat_map in Hin. destruct Hin as (x & Hx & Hs).
      apply (flat_declared m Hf) in Hx. destruct Hx as (p & r & Hu & Hr & ->).
      apply (C8 p Hu). exists r. split; [exact Hr|]. cbn in Hs. rewrite unwrap_unmarked in Hs. intuition congruence.
    + apply N.ltb_lt. unfold n_parents, n_states. apply C9.
      * apply parents_NoDup.
      * unfold states. apply NoDup_app_intro; [apply unique_NoDup|constructor; [intros []|constructor]|].
        intros x Hx [<-|[]]. unfold child_states_rec in Hx. apply unique_In, in_flat_map in Hx.
        destruct Hx as (x & Hx & Hs). apply (flat_declared m Hf) in Hx. destruct Hx as (p & r & Hu & Hr & ->).
        apply (C8 p Hu). exists r. split; [exact Hr|]. cbn in Hs. rewrite unwrap_unmarked in Hs. intuition congruence.
      * intros p Hp. now apply (parent_iff m Hf).
      * intros s Hs. now apply (state_iff m Hf).
Qed.

(** * Candidate lists *)
Section Lists.
Variable m : machine.
Hypothesis Hc : flattened m.
Notation env := (mc_env m).
Notation root := (mc_root m).

Lemma candidate_list_cands e pl cs : candidate_list env root e pl cs <-> cs = cands m e pl.
Proof.
  rewrite cands_priority. split.
  - intros (flat & ints & Hv & Hk & ->).
    rewrite (visits_det _ _ _ _ (flat_visits m Hc) _ Hv) in *.
    rewrite (keeps_first_det _ _ _ _ (internal_keeps m) _ Hk). reflexivity.
  - intros ->. exists (mc_flat m), (internal_flat m).
    split; [apply flat_visits; exact Hc|]. split; [apply internal_keeps|reflexivity].
Qed.

Lemma candidate_external e pl x o : x_int x = false ->
  In (CRow x o) (cands m e pl) <-> declared env root x /\ x_ev x = e /\ In (pl, o) (offers_of m x).
Proof.
  intros Hi. split.
  - intros H. apply (cands_sound m Hc) in H. inversion H as [y Hy He|y c s Hy He Hs Hcc Hch|y Hy He|]; subst.
    + split; [exact Hy|]. split; [reflexivity|]. apply (offers_iff m). auto.
    + split; [exact Hy|]. split; [reflexivity|]. apply (offers_iff m). right. split; [exact Hi|]. eauto 10.
    + destruct Hy; discriminate.
  - intros (Hd & He & Ho).
    assert (Hcand : candidate env root e pl (CRow x o)).
    { apply (offers_iff m) in Ho. destruct Ho as [[-> ->]|(_ & c & s & Hs & Hcc & Hch & -> & ->)].
      - now apply cand_source.
      - eapply cand_enclosing; eauto. }
    apply (cands_complete m Hc) in Hcand. rewrite Hi in Hcand. exact Hcand.
Qed.

Lemma few_max : few_regions env root -> max_initials m <= 255.
Proof.
  intros H. unfold max_initials.
  assert (G : forall l, (forall p, In p l -> length (initials env p) <= 255) ->
     fold_right Nat.max 0 (map (fun p => length (initials env p)) l) <= 255).
  { induction l as [|p l IH]; intros Hl; [cbn; lia|]. cbn [map fold_right].
    apply Nat.max_lub; [apply Hl; now left|apply IH; intros q Hq; apply Hl; now right]. }
  apply G. intros p Hp. rewrite initials_spec. apply H. now apply (parent_iff m Hc).
Qed.
End Lists.

(** Blocks of a priority list. *)
Lemma rows_at_rows cb ch e pl l c : In c (rows_at cb ch e pl l) -> exists x o, c = CRow x o /\ In x l /\ x_ev x = e.
Proof.
  unfold rows_at. rewrite in_flat_map. intros (x & Hx & H). destruct (ev_eq_dec (x_ev x) e) as [He|]; [|destruct H].
  apply in_flat_map in H. destruct H as ([q o] & Ho & H). cbn in H.
  destruct (place_eq_dec q pl); [|destruct H]. destruct H as [<-|[]]. eauto.
Qed.
Lemma defers_at_defer def e pl l c : In c (defers_at def e pl l) -> c = CDefer.
Proof.
  unfold defers_at. rewrite in_flat_map. intros (x & Hx & H). destruct (place_eq_dec (source_place x) pl); [|destruct H].
  apply in_flat_map in H. destruct H as (e' & _ & H). destruct (ev_eq_dec e' e); [|destruct H].
  destruct H as [<-|[]]. reflexivity.
Qed.

Definition cand_rank (c : cand) : nat :=
  match c with CDefer => 0 | CRow x _ => if x_int x then 2 else 1 end.

Lemma before_app {A} (a b : A) l1 l2 : before a b (l1 ++ l2) ->
  before a b l1 \/ before a b l2 \/ (In a l1 /\ In b l2).
Proof.
  intros (p & q & r & E). revert p E. induction l1 as [|c l1 IH]; intros p E.
  - right. left. exists p, q, r. exact E.
  - destruct p as [|c' p]; cbn in E; inversion E; subst.
    + assert (Hb : In b (l1 ++ l2)) by (rewrite H1; apply in_or_app; right; now left).
      apply in_app_or in Hb. destruct Hb as [Hb|Hb].
      * left. apply in_split in Hb. destruct Hb as (u & v & ->). exists [], u, v. reflexivity.
      * right. right. split; [now left|exact Hb].
    + destruct (IH p H1) as [(x & y & z & ->)|[H|[Ha Hb]]].
      * left. exists (c' :: x), y, z. reflexivity.
      * right. now left.
      * right. right. split; [now right|exact Hb].
Qed.

Lemma before_In {A} (a b : A) l : before a b l -> In a l /\ In b l.
Proof.
  intros (x & y & z & ->). split; apply in_or_app; right; [now left|]. right. apply in_or_app. right. now left.
Qed.

Section Blocks.
Variable m : machine.
Hypothesis Hc : flattened m.
Notation env := (mc_env m).
Notation root := (mc_root m).

Lemma cands_ranked e pl c1 c2 : before c1 c2 (cands m e pl) -> cand_rank c1 <= cand_rank c2.
Proof.
  rewrite cands_priority. unfold priority. intros H.
  assert (D : forall c, In c (rev (defers_at (deferred_by env) e pl (mc_flat m))) -> cand_rank c = 0).
  { intros c Hin. apply in_rev in Hin. apply defers_at_defer in Hin. now subst. }
  assert (X : forall c, In c (rev (rows_at (is_composite env) (children env) e pl (mc_flat m))) -> cand_rank c = 1).
  { intros c Hin. apply in_rev in Hin. apply rows_at_rows in Hin. destruct Hin as (x & o & -> & Hx & _).
    cbn. now rewrite (flat_external m Hc x Hx). }
  assert (I : forall c, In c (rev (rows_at (is_composite env) (children env) e pl (internal_flat m))) -> cand_rank c = 2).
  { intros c Hin. apply in_rev in Hin. apply rows_at_rows in Hin. destruct Hin as (x & o & -> & Hx & _).
    cbn. now rewrite (internal_flat_int m Hc x Hx). }
  apply before_app in H. destruct H as [H|[H|[H1 H2]]].
  - apply before_In in H. destruct H as [H1 H2]. rewrite (D c1 H1). lia.
  - apply before_app in H. destruct H as [H|[H|[H1 H2]]].
    + apply before_In in H. destruct H as [H1 H2]. rewrite (X c1 H1), (X c2 H2). lia.
    + apply before_In in H. destruct H as [H1 H2]. rewrite (I c1 H1), (I c2 H2). lia.
    + rewrite (X c1 H1), (I c2 H2). lia.
  - rewrite (D c1 H1). lia.
Qed.
End Blocks.
