(** The static part of a program with more rows for one event. *)

From Coq Require Import List Arith NArith Bool Lia.
From Verif Require Import Types Static Dispatch Runtime ListFacts IndexFacts Spec DispatchFacts FlattenFacts StaticFacts Reach ReachFacts
  Spelling AmalgamFacts Extend.
Import ListNotations.

Section Inserted.
Context {A : Type}.
Implicit Types R : list A -> A -> Prop.

Lemma inserted_app R b l1 l1' : inserted R b l1 l1' -> forall l2 l2', inserted R (b ++ l1) l2 l2' -> inserted R b (l1 ++ l2) (l1' ++ l2').
Proof.
  induction 1 as [b|b x l l' H IH|b x l l' Hx H IH]; intros l2 l2' H2.
  - now rewrite app_nil_r in H2.
  - cbn. constructor. apply IH. now rewrite <- app_assoc.
  - cbn. constructor; auto.
Qed.
Lemma inserted_imp R (T : list A -> A -> Prop) b l l' : inserted R b l l' -> forall k,
  (forall c x, R (b ++ c) x -> incl c l -> T (k ++ c) x) -> inserted T k l l'.
Proof.
  intros H. induction H as [b|b x l l' H IH|b x l l' Hx H IH]; intros k Hk.
  - constructor.
  - constructor. apply IH. intros c y Hy Hi. rewrite <- app_assoc. apply Hk; [now rewrite app_assoc|]. intros z [<-|Hz]; [now left|right; auto].
  - constructor; [|now apply IH]. specialize (Hk [] x). rewrite !app_nil_r in Hk. apply Hk; [exact Hx|]. intros ? [].
Qed.
Lemma inserted_filter R (F : A -> bool) b l l' : (forall b x, R b x -> F x = false) -> inserted R b l l' -> filter F l' = filter F l.
Proof.
  intros HR. induction 1 as [b|b x l l' H IH|b x l l' Hx H IH]; cbn; [reflexivity| |].
  - now rewrite IH.
  - now rewrite (HR b x Hx).
Qed.
Lemma inserted_unique {B} dec (g : A -> list B) R b l l' :
  (forall b x y, R b x -> In y (g x) -> In y (flat_map g b)) -> inserted R b l l' -> forall seen, incl (flat_map g b) seen ->
  unique_acc dec seen (flat_map g l') = unique_acc dec seen (flat_map g l).
Proof.
  intros HR. induction 1 as [b|b x l l' H IH|b x l l' Hx H IH]; intros seen Hs; cbn [flat_map]; [reflexivity| |].
  - rewrite !unique_acc_app. f_equal. apply IH. rewrite flat_map_app. cbn [flat_map]. rewrite app_nil_r. intros y Hy. apply in_app_iff in Hy.
    apply in_or_app. destruct Hy; [right; auto|now left].
  - rewrite unique_acc_app, (IH _ ltac:(intros y Hy; apply in_or_app; right; apply Hs, Hy)).
    assert (E : unique_acc dec seen (g x) = []).
    { assert (Hin : incl (g x) seen) by (intros y Hy; apply Hs; eapply HR; eauto). clear -Hin. induction (g x) as [|y k IHk]; [reflexivity|].
      cbn. destruct (in_dec dec y seen); [|exfalso; apply n, Hin; now left]. apply IHk. intros z Hz. apply Hin. now right. }
    rewrite E. cbn [app]. apply unique_acc_eq. intros y _. rewrite in_app_iff. split; [|auto]. intros [Hy|Hy]; [apply Hs; eapply HR; eauto|exact Hy].
Qed.
Lemma inserted_In R b l l' : (forall b c x, R b x -> R (b ++ c) x) -> inserted R b l l' -> forall x, In x l' -> In x l \/ R (b ++ l) x.
Proof.
  intros HR. induction 1 as [b|b x l l' H IH|b x l l' Hx H IH]; intros y Hy; [destruct Hy| |].
  - destruct Hy as [<-|Hy]; [left; now left|]. destruct (IH y Hy) as [|Hr]; [left; now right|]. right. now rewrite <- app_assoc in Hr.
  - destruct Hy as [<-|Hy]; [right; now apply HR|]. now apply IH.
Qed.
Lemma inserted_old R b l l' : inserted R b l l' -> forall x, In x l -> In x l'.
Proof. induction 1; intros y Hy; [destruct Hy| |]; cbn in *; intuition. Qed.
End Inserted.

Section Extend.
Variable e : ev.
Variable env env' : cenv.
Hypothesis He : extends e env env'.

(** ** Classes *)
Lemma lookup_extends c : extends_class (extra env e) (c, lookup env c) (c, lookup env' c).
Proof.
  unfold extends, extends_by in He. revert He. generalize (extra env e) as X. intros X H. induction H as [|[k d] [k' d'] l l' [Hk Hd] H IH].
  - split; reflexivity.
  - cbn [fst] in Hk. subst k'. cbn [lookup]. destruct (Nat.eq_dec c k) as [->|]; [split; [reflexivity|exact Hd]|exact IH].
Qed.
Lemma lk c : has_table env' (SState c) = has_table env (SState c) /\
  cd_internal (lookup env' c) = cd_internal (lookup env c) /\ cd_entry (lookup env' c) = cd_entry (lookup env c) /\
  cd_exit (lookup env' c) = cd_exit (lookup env c) /\ cd_unexpected (lookup env' c) = cd_unexpected (lookup env c) /\
  cd_defer (lookup env' c) = cd_defer (lookup env c) /\ cd_defctor (lookup env' c) = cd_defctor (lookup env c).
Proof.
  destruct (lookup_extends c) as [_ H]. cbn [snd fst] in H. unfold has_table, table_of.
  destruct (cd_table (lookup env c)), (cd_table (lookup env' c)); try contradiction.
  - destruct H as [-> _]. cbn. intuition.
  - rewrite H. intuition.
Qed.
Lemma has_table_x s : has_table env' s = has_table env s.
Proof. destruct s; try reflexivity. apply lk. Qed.
Lemma composite_x c : composite env' c <-> composite env c.
Proof. rewrite <- !has_table_iff, has_table_x. tauto. Qed.
Lemma internals_x c : internals env' c = internals env c.
Proof. unfold internals. destruct (lk c) as (_ & -> & _). reflexivity. Qed.
Lemma entry_x s : entry_of env' s = entry_of env s.
Proof. destruct s; try reflexivity. cbn. destruct (lk c) as (_ & _ & -> & _). reflexivity. Qed.
Lemma exit_x s : exit_of env' s = exit_of env s.
Proof. destruct s; try reflexivity. cbn. destruct (lk c) as (_ & _ & _ & -> & _). reflexivity. Qed.
Lemma defer_x s : defer_of env' s = defer_of env s.
Proof. destruct s; try reflexivity. cbn. destruct (lk c) as (_ & _ & _ & _ & _ & -> & _). reflexivity. Qed.
Lemma defctor_x s : defctor env' s = defctor env s.
Proof. destruct s; try reflexivity. cbn. destruct (lk c) as (_ & _ & _ & _ & _ & _ & ->). reflexivity. Qed.
Lemma unexpected_x c : cd_unexpected (lookup env' c) = cd_unexpected (lookup env c).
Proof. apply lk. Qed.
Lemma rows_x c : inserted (extra env e c) [] (rows_of env c) (rows_of env' c).
Proof.
  destruct (lookup_extends c) as [_ H]. cbn [snd fst] in H. unfold rows_of.
  destruct (cd_table (lookup env c)), (cd_table (lookup env' c)); try contradiction; [apply H|constructor].
Qed.
Lemma typeids_x c : child_typeids env' c = child_typeids env c.
Proof.
  unfold child_typeids, unique. eapply inserted_unique; [|apply rows_x|intros ? []].
  intros b r y (_ & (r0 & H0 & Hs) & (r1 & H1 & Ht) & _) Hy. apply in_flat_map. destruct Hy as [<-|[<-|[]]].
  - exists r0. split; [exact H0|]. left. destruct Hs as [->|(_ & w & k & -> & -> & _)]; reflexivity.
  - exists r1. split; [exact H1|]. destruct Ht as [->|[-> _]]; [right; now left|left; apply unwrap_unmarked].
Qed.
Lemma child_states_x c : internals env c <> [] -> child_states env' c = child_states env c.
Proof.
  intros Hi. unfold child_states, unique. eapply inserted_unique; [|apply rows_x|intros ? []].
  intros b r y (_ & (r0 & H0 & Hs) & (r1 & H1 & Ht) & _) Hy. apply in_flat_map. destruct Hy as [<-|[<-|[]]].
  - exists r0. split; [exact H0|]. left. destruct Hs as [->|(E & _)]; [reflexivity|congruence].
  - exists r1. split; [exact H1|]. destruct Ht as [->|[_ [E| ->]]]; [right; now left|congruence|now left].
Qed.
Lemma initials_x c : initials env' c = initials env c.
Proof.
  unfold initials, child_states. f_equal. rewrite !unique_filter, !filter_flat_map. unfold unique.
  eapply inserted_unique; [|apply rows_x|intros ? []].
  intros b r y (_ & (r0 & H0 & Hs) & (r1 & H1 & Ht) & _) Hy. apply filter_In in Hy. destruct Hy as [Hy Hi]. destruct Hy as [<-|[<-|[]]].
  - apply in_flat_map. exists r0. split; [exact H0|]. apply filter_In. split; [|exact Hi].
    destruct Hs as [->|(_ & w & k & _ & E & _)]; [now left|]. rewrite E in Hi. discriminate.
  - apply in_flat_map. exists r1. split; [exact H1|]. apply filter_In. split; [|exact Hi].
    destruct Ht as [->|[E _]]; [right; now left|]. rewrite E in Hi. destruct (r_src r1); discriminate.
Qed.

(** ** Flattening *)
Definition xtra (b : list xrow) (x : xrow) : Prop :=
  x_ev x = e /\ x_int x = false /\
  (exists x0, In x0 b /\ x_parent x0 = x_parent x /\ x_int x0 = false /\
     (x_src x = x_src x0 \/ exists w k, x_src x0 = SInitial w k /\ x_src x = SState k /\ ~ composite env k)) /\
  (exists x1, In x1 b /\ x_parent x1 = x_parent x /\ (x_tgt x = x_tgt x1 \/ x_tgt x = unwrap_initial (x_src x1))) /\
  (forall w k, x_tgt x <> SHistory w k).
Lemma xtra_more b c x : incl b c -> xtra b x -> xtra c x.
Proof.
  intros Hi (H1 & H2 & (x0 & H3 & H4) & (x1 & H5 & H6) & H7). split; [exact H1|]. split; [exact H2|].
  split; [exists x0; auto|]. split; [exists x1; auto|exact H7].
Qed.
Lemma contrib_extra f c b r : extra env e c b r -> contrib f env' c r = Some [extend c r].
Proof.
  intros (_ & _ & _ & H & _). unfold contrib. destruct (sub_state_parent (r_tgt r)) eqn:E; try reflexivity.
  rewrite has_table_x. destruct (has_table env (SState c0)) eqn:Et; [|reflexivity].
  exfalso. apply (H c0); [now apply leads_into_iff|now apply has_table_iff].
Qed.
Lemma flatten_x : forall f c l l', flatten f env c = Some l -> flatten f env' c = Some l' -> inserted xtra [] l l'.
Proof.
  induction f as [|f IH]; intros c l l' H H'; [discriminate|]. rewrite flatten_S in *.
  destruct (cd_table (lookup env c)) as [rows|] eqn:Er; [|discriminate]. destruct (cd_table (lookup env' c)) as [rows'|] eqn:Er'; [|discriminate].
  pose proof (rows_x c) as Hr. unfold rows_of in Hr. rewrite Er, Er' in Hr. clear Er Er'.
  assert (G : forall b rows rows', inserted (extra env e c) b rows rows' -> forall l l' k, 
    concat_opt (map (contrib f env c) rows) = Some l -> concat_opt (map (contrib f env' c) rows') = Some l' ->
    (forall r, In r b -> In (extend c r) k) -> inserted xtra k l l').
  { clear rows rows' l l' H H' Hr. induction 1 as [b|b r rows rows' Hi IHi|b r rows rows' Hx Hi IHi]; intros l l' k H H' Hk.
    - cbn in *. inversion H; inversion H'; subst. constructor.
    - cbn [map concat_opt] in H, H'.
      destruct (contrib f env c r) as [s|] eqn:E; [|discriminate]. destruct (concat_opt (map (contrib f env c) rows)) as [t|] eqn:Et; [|discriminate].
      destruct (contrib f env' c r) as [s'|] eqn:E'; [|discriminate]. destruct (concat_opt (map (contrib f env' c) rows')) as [t'|] eqn:Et'; [|discriminate].
      inversion H; inversion H'; subst. clear H H'.
      assert (S : inserted xtra k s s' /\ In (extend c r) s).
      { unfold contrib in E, E'. destruct (sub_state_parent (r_tgt r)) eqn:Es;
          try (inversion E; inversion E'; subst; split; [repeat constructor|now left]).
        rewrite has_table_x in E'. destruct (has_table env (SState c0)).
        - destruct (flatten f env c0) as [u|] eqn:Eu; [|discriminate]. destruct (flatten f env' c0) as [u'|] eqn:Eu'; [|discriminate].
          inversion E; inversion E'; subst. split; [|now left]. constructor. eapply inserted_imp; [exact (IH _ _ _ Eu Eu')|].
          intros d x Hx _. eapply xtra_more; [|exact Hx]. intros y Hy. apply in_or_app. now right.
        - inversion E; inversion E'; subst. split; [repeat constructor|now left]. }
      destruct S as [S1 S2]. eapply inserted_app; [exact S1|]. apply IHi; auto. intros r0 H0. apply in_app_iff in H0. apply in_or_app.
      destruct H0 as [H0|[<-|[]]]; [left; auto|now right].
    - cbn [map concat_opt] in H'. rewrite (contrib_extra f c b r Hx) in H'.
      destruct (concat_opt (map (contrib f env' c) rows')) as [t'|] eqn:Et'; [|discriminate]. inversion H'; subst. clear H'. cbn [app].
      constructor; [|now apply IHi].
      destruct Hx as (X1 & (r0 & X2 & X3) & (r1 & X4 & X5) & _ & X7). split; [exact X1|]. split; [reflexivity|].
      split; [exists (extend c r0); split; [now apply Hk|]|split; [exists (extend c r1); split; [now apply Hk|]|exact X7]].
      + split; [reflexivity|]. split; [reflexivity|]. destruct X3 as [X3|(_ & X3)]; [now left|now right].
      + split; [reflexivity|]. cbn. rewrite unwrap_unmarked. destruct X5 as [X5|[X5 _]]; auto. }
  eapply G; eauto.
Qed.
End Extend.

(** ** Machines *)
Section Machines.
Variable e : ev.
Variable m m' : machine.
Hypothesis Hc : comp m.
Hypothesis Hc' : comp m'.
Hypothesis He : extends e (mc_env m) (mc_env m').
Hypothesis Hroot : mc_root m' = mc_root m.
Hypothesis Hflat : inserted (xtra e (mc_env m)) [] (mc_flat m) (mc_flat m').
Hypothesis Hnew : ~ In e (events m).
Hypothesis Hnone : e <> ENone.
Notation env := (mc_env m).
Notation env' := (mc_env m').

Definition other (x : xrow) : bool := if ev_eq_dec (x_ev x) e then false else true.
Lemma old_other x : In x (mc_flat m ++ internal_flat m) -> other x = true.
Proof.
  intros H. unfold other. destruct (ev_eq_dec (x_ev x) e) as [E|]; [|reflexivity]. exfalso. apply Hnew. apply events_spec. eauto.
Qed.
Lemma flat_other : filter other (mc_flat m') = mc_flat m.
Proof.
  transitivity (filter other (mc_flat m)).
  - eapply inserted_filter; [|exact Hflat]. intros b x (E & _). unfold other. rewrite E. destruct (ev_eq_dec e e); congruence.
  - assert (H : forall x, In x (mc_flat m) -> other x = true) by (intros; apply old_other, in_or_app; now left).
    clear - H. induction (mc_flat m) as [|x l IH]; [reflexivity|]. cbn. rewrite (H x) by now left. f_equal. apply IH. intros; apply H; now right.
Qed.
Lemma flat_In x : In x (mc_flat m') -> In x (mc_flat m) \/ xtra e env (mc_flat m) x.
Proof.
  apply (inserted_In _ [] (mc_flat m) (mc_flat m')); [|exact Hflat]. intros b c y. apply xtra_more. intros z Hz. apply in_or_app. now left.
Qed.
Lemma parents_x : parents m' = parents m.
Proof.
  unfold parents, unique.
  assert (G : forall l, map x_parent l = flat_map (fun x => [x_parent x]) l) by (induction l; cbn; congruence).
  rewrite !G. eapply inserted_unique; [|exact Hflat|intros ? []].
  intros b x y (_ & _ & (x0 & H0 & Hp & _) & _) Hy. destruct Hy as [<-|[]]. apply in_flat_map. exists x0. split; [exact H0|]. now left.
Qed.
Lemma child_rec_x : child_states_rec m' = child_states_rec m.
Proof.
  unfold child_states_rec, unique. eapply inserted_unique; [|exact Hflat|intros ? []].
  intros b x y (_ & _ & (x0 & H0 & _ & _ & Hs) & (x1 & H1 & _ & Ht) & _) Hy. apply in_flat_map. destruct Hy as [<-|[<-|[]]].
  - exists x0. split; [exact H0|]. left. destruct Hs as [->|(w & k & -> & -> & _)]; reflexivity.
  - exists x1. split; [exact H1|]. destruct Ht as [->| ->]; [right; now left|now left].
Qed.
Lemma states_x : states m' = states m.
Proof. unfold states. now rewrite child_rec_x, Hroot. Qed.
Lemma pairs_x : state_pairs m' = state_pairs m.
Proof.
  unfold state_pairs, unique. rewrite Hroot.
  change (?a :: ?l) with ([a] ++ l). rewrite !unique_acc_app. f_equal. eapply inserted_unique; [|exact Hflat|intros ? []].
  intros b x y (_ & _ & (x0 & H0 & Hp0 & _ & Hs) & (x1 & H1 & Hp1 & Ht) & _) Hy. apply in_flat_map. destruct Hy as [<-|[<-|[]]].
  - exists x0. split; [exact H0|]. left. rewrite Hp0. destruct Hs as [->|(w & k & -> & -> & _)]; reflexivity.
  - exists x1. split; [exact H1|]. rewrite Hp1. destruct Ht as [->| ->]; [right; now left|now left].
Qed.
Lemma internal_x : internal_flat m' = internal_flat m.
Proof.
  unfold internal_flat. rewrite pairs_x. f_equal. apply flat_map_ext. intros [p s]. destruct s; try reflexivity. cbn.
  destruct (lk e env env' He c) as (_ & -> & _). destruct (cd_internal (lookup env c)) as [[|i l]|] eqn:E; try reflexivity.
  apply flat_map_ext. intros j. rewrite (has_table_x e env env' He). rewrite (child_states_x e env env' He); [reflexivity|].
  unfold internals. rewrite E. discriminate.
Qed.
Lemma events_x k : k <> e -> (In k (events m') <-> In k (events m)).
Proof.
  intros Hk. rewrite !events_spec. rewrite internal_x. split; intros (x & Hx & E); exists x; (split; [|exact E]); apply in_app_iff in Hx; apply in_or_app.
  - destruct Hx as [Hx|Hx]; [left|now right]. rewrite <- flat_other. apply filter_In. split; [exact Hx|]. unfold other. destruct (ev_eq_dec _ _); congruence.
  - destruct Hx as [Hx|Hx]; [left|now right]. rewrite <- flat_other in Hx. now apply filter_In in Hx.
Qed.
Lemma n_states_x : n_states m' = n_states m.
Proof. unfold n_states. now rewrite states_x. Qed.
Lemma n_parents_x : n_parents m' = n_parents m.
Proof. unfold n_parents. now rewrite parents_x. Qed.
Lemma combined_x p s : combined_idx m' p s = combined_idx m p s.
Proof. unfold combined_idx. now rewrite parents_x, states_x. Qed.
Lemma max_initials_x : max_initials m' = max_initials m.
Proof.
  unfold max_initials. rewrite parents_x. f_equal. apply map_ext. intros p. now rewrite (initials_x e env env' He).
Qed.
Lemma initial_table_x : initial_table m' = initial_table m.
Proof.
  unfold initial_table. rewrite parents_x. apply map_ext. intros p. rewrite (initials_x e env env' He). apply map_ext. intros s. apply combined_x.
Qed.
Lemma parallel_x : parallel m' = parallel m.
Proof. unfold parallel. now rewrite max_initials_x. Qed.
Lemma existsb_x (P : xrow -> bool) : (forall b x, xtra e env b x -> P x = false) -> existsb P (mc_flat m') = existsb P (mc_flat m).
Proof.
  intros H. pose proof Hflat as Hf. clear Hflat. revert Hf. generalize (@nil xrow). generalize (mc_flat m) (mc_flat m').
  induction 1 as [b|b x l l' Hi IH|b x l l' Hx Hi IH]; cbn; [reflexivity| |].
  - now rewrite IH.
  - now rewrite (H b x Hx).
Qed.
Lemma anonymous_x : has_anonymous m' = has_anonymous m.
Proof. apply existsb_x. intros b x (E & _). unfold is_anonymous. rewrite E. destruct (ev_eq_dec e ENone); congruence. Qed.
Lemma history_x : has_history m' = has_history m.
Proof. apply existsb_x. intros b x (_ & _ & _ & _ & H). destruct (x_tgt x) eqn:E; try reflexivity. exfalso. eapply H; eauto. Qed.
Lemma deferred_events_x x : deferred_events m' x = deferred_events m x.
Proof. unfold deferred_events. now rewrite (defer_x e env env' He). Qed.
Lemma deferring_x x : In x (deferring m') <-> In x (mc_flat m') /\ is_some (defer_of env (unwrap_initial (x_src x))) = true.
Proof. unfold deferring. now rewrite filter_In, (defer_x e env env' He). Qed.
(** A deferring row of the one has a row of the other with the same place and source. *)
Lemma deferring_old x : In x (deferring m') -> exists y, In y (deferring m) /\ source_place y = source_place x /\
  deferred_events m y = deferred_events m' x.
Proof.
  intros H. apply deferring_x in H. destruct H as [H Hd]. destruct (flat_In x H) as [Hx|(_ & _ & (x0 & H0 & Hp & _ & Hs) & _)].
  - exists x. split; [|split; [reflexivity|now rewrite deferred_events_x]]. apply filter_In. auto.
  - assert (E : unwrap_initial (x_src x0) = unwrap_initial (x_src x)) by (destruct Hs as [->|(w & k & -> & -> & _)]; reflexivity).
    exists x0. split; [apply filter_In; split; [exact H0|now rewrite E]|]. split.
    + unfold source_place. rewrite Hp. destruct Hs as [->|(w & k & -> & -> & _)]; reflexivity.
    + rewrite deferred_events_x. unfold deferred_events. now rewrite E.
Qed.
Lemma deferring_new x : In x (deferring m) -> In x (deferring m').
Proof.
  intros H. apply deferring_x. apply filter_In in H. destruct H as [H1 H2]. split; [|exact H2]. eapply inserted_old; eauto.
Qed.
Lemma has_deferred_x : has_deferred m' = has_deferred m.
Proof.
  unfold has_deferred. destruct (deferring m) as [|x l] eqn:E, (deferring m') as [|x' l'] eqn:E'; try reflexivity.
  - destruct (deferring_old x') as (y & Hy & _); [rewrite E'; now left|]. rewrite E in Hy. destruct Hy.
  - assert (H : In x (deferring m')) by (apply deferring_new; rewrite E; now left). rewrite E' in H. destruct H.
Qed.
Lemma resolve_dst_x x : resolve_dst env' x = resolve_dst env x.
Proof.
  unfold resolve_dst. destruct (x_tgt x); try reflexivity; rewrite ?(has_table_x e env env' He), ?(initials_x e env env' He); reflexivity.
Qed.
Lemma resolve_dst_parent_x x : resolve_dst_parent env' x = resolve_dst_parent env x.
Proof. unfold resolve_dst_parent. destruct (x_tgt x); try reflexivity. now rewrite (has_table_x e env env' He). Qed.
Lemma initial_entry_x s : initial_entry_of env' s = initial_entry_of env s.
Proof.
  unfold initial_entry_of. destruct s; try reflexivity. rewrite (has_table_x e env env' He), (initials_x e env env' He).
  destruct (has_table env (SState c)); [|reflexivity]. destruct (hd_error _); [|reflexivity]. apply (entry_x e env env' He).
Qed.
Lemma pseudo_exit_x x : pseudo_exit_of env' x = pseudo_exit_of env x.
Proof. unfold pseudo_exit_of. destruct (x_src x); try reflexivity. apply (exit_x e env env' He). Qed.
Lemma resolve_action_x x : resolve_action env' x = resolve_action env x.
Proof.
  unfold resolve_action, has_action, resolve_exit_action, resolve_entry_action, resolve_initial_entry_action.
  now rewrite !(entry_x e env env' He), !(exit_x e env env' He), !initial_entry_x, !pseudo_exit_x.
Qed.
Lemma offers_x x : offers_of m' x = offers_of m x.
Proof.
  unfold offers_of, offers, comp_b. destruct (x_int x); [reflexivity|]. destruct (x_src x); try reflexivity.
  now rewrite (has_table_x e env env' He), (typeids_x e env env' He).
Qed.
Lemma row_ops_x d x : row_ops m' d x = row_ops m d x.
Proof.
  unfold row_ops. rewrite offers_x. apply map_ext. intros po. rewrite combined_x. f_equal. unfold centry, dst_of, entry_of_row.
  now rewrite !resolve_dst_x, resolve_dst_parent_x, combined_x, resolve_action_x, (defctor_x e env env' He).
Qed.

(** ** Tables *)
Definition cells (l l' : list entry) : Prop :=
  l' = l \/ exists p a b, l = p ++ defer_entry :: a /\ l' = p ++ defer_entry :: b.
Lemma cells_app p l l' : cells l l' -> cells (p ++ l) (p ++ l').
Proof. intros [->|(q & a & b & -> & ->)]; [now left|]. right. exists (p ++ q), a, b. now rewrite <- !app_assoc. Qed.
Definition tsim (t t' : tables) : Prop := forall k, k <> e ->
  match get_table t k, get_table t' k with
  | Some a, Some a' => length a' = length a
  | None, None => True
  | _, _ => False
  end /\ forall i, match tget t k i, tget t' k i with
                   | Some l, Some l' => cells l l'
                   | None, None => True
                   | _, _ => False
                   end.
Lemma inrange_x pl : inrange m' pl <-> inrange m pl.
Proof. unfold inrange. now rewrite parents_x, states_x. Qed.
Lemma regs_x : regs_ok m' <-> regs_ok m.
Proof.
  unfold regs_ok. rewrite internal_x. split; intros [H1 H2]; split.
  - intros x po Hx Hpo. apply inrange_x. apply (H1 x); [|now rewrite offers_x]. apply in_app_iff in Hx. apply in_or_app.
    destruct Hx as [Hx|Hx]; [now left|right; eapply inserted_old; eauto].
  - intros x Hx Hd. apply inrange_x. apply H2; [now apply deferring_new|now rewrite deferred_events_x].
  - intros x po Hx Hpo. apply inrange_x. rewrite offers_x in Hpo. apply in_app_iff in Hx. destruct Hx as [Hx|Hx].
    + apply (H1 x po); [apply in_or_app; now left|exact Hpo].
    + destruct (flat_In x Hx) as [Hx0|(_ & Hi & (x0 & H0 & Hp & Hi0 & Hs) & _)]; [apply (H1 x po); [apply in_or_app; now right|exact Hpo]|].
      assert (G : map fst (offers_of m x) = map fst (offers_of m x0)).
      { unfold offers_of, offers, source_place. rewrite Hi, Hi0, Hp. destruct Hs as [->|(w & k & -> & -> & Hk)]; [reflexivity|].
        unfold comp_b. destruct (has_table env (SState k)) eqn:Ek; [|reflexivity]. exfalso. apply Hk. now apply has_table_iff. }
      assert (G2 : In (fst po) (map fst (offers_of m x0))) by (rewrite <- G; now apply in_map).
      apply in_map_iff in G2. destruct G2 as (po0 & <- & Hpo0). apply (H1 x0 po0); [apply in_or_app; now right|exact Hpo0].
  - intros x Hx Hd. apply inrange_x. destruct (deferring_old x Hx) as (y & Hy & E1 & E2). rewrite <- E1. apply H2; [exact Hy|congruence].
Qed.
Lemma row_part d k i l l' : filter other l' = filter other l -> k <> e ->
  filter (hits k i) (flat_map (fun e => flat_map (row_ops m' d) (filter_ev e l')) (events_of l')) =
  filter (hits k i) (flat_map (fun e => flat_map (row_ops m d) (filter_ev e l)) (events_of l)).
Proof.
  intros E Hk. rewrite !flat_ev_hits.
  assert (G : forall n l, flat_map (fun x => if ev_eq_dec (x_ev x) k then filter (hits k i) (row_ops n d x) else []) l =
                          flat_map (fun x => if ev_eq_dec (x_ev x) k then filter (hits k i) (row_ops n d x) else []) (filter other l)).
  { intros n. induction l0 as [|x l0 IH]; [reflexivity|]. cbn [filter flat_map]. rewrite IH. unfold other at 2.
    destruct (ev_eq_dec (x_ev x) e) as [Ex|]; [|reflexivity]. destruct (ev_eq_dec (x_ev x) k); [congruence|reflexivity]. }
  rewrite G, E, <- G. apply flat_map_ext. intros x. now rewrite row_ops_x.
Qed.
Lemma defer_part k i (n : machine) : exists j, @map op entry snd (filter (hits k i) (flat_map (defer_ops n) (deferring n))) = repeat defer_entry j.
Proof.
  exists (length (filter (hits k i) (flat_map (defer_ops n) (deferring n)))).
  assert (G : forall o, In o (filter (hits k i) (flat_map (defer_ops n) (deferring n))) -> snd o = defer_entry).
  { intros o Ho. apply filter_In in Ho. destruct Ho as [Ho _]. apply in_flat_map in Ho. destruct Ho as (x & _ & Ho).
    unfold defer_ops in Ho. apply in_map_iff in Ho. destruct Ho as (? & <- & _). reflexivity. }
  revert G. generalize (filter (hits k i) (flat_map (defer_ops n) (deferring n))). induction l as [|o l IH]; intros G; [reflexivity|].
  cbn. rewrite (G o) by now left. f_equal. apply IH. intros; apply G; now right.
Qed.
Lemma defer_hit k i : (exists o, In o (filter (hits k i) (flat_map (defer_ops m') (deferring m')))) <->
  (exists o, In o (filter (hits k i) (flat_map (defer_ops m) (deferring m)))).
Proof.
  split; intros (o & Ho); apply filter_In in Ho; destruct Ho as [Ho Hh]; apply in_flat_map in Ho; destruct Ho as (x & Hx & Ho).
  - destruct (deferring_old x Hx) as (y & Hy & E1 & E2). exists o. apply filter_In. split; [|exact Hh]. apply in_flat_map. exists y. split; [exact Hy|].
    unfold defer_ops in *. rewrite E1, E2. rewrite combined_x in Ho. exact Ho.
  - exists o. apply filter_In. split; [|exact Hh]. apply in_flat_map. exists x. split; [now apply deferring_new|].
    unfold defer_ops in *. rewrite deferred_events_x, combined_x. exact Ho.
Qed.
Lemma rev_repeat {A} (a : A) n : rev (repeat a n) = repeat a n.
Proof. induction n as [|n IH]; [reflexivity|]. cbn. rewrite IH. clear. induction n; cbn; congruence. Qed.
Lemma fill_tsim d t t' : shape m t -> shape m' t' -> tsim t t' ->
  match fill_dispatch m d t, fill_dispatch m' d t' with
  | Some r, Some r' => tsim r r' /\ shape m r /\ shape m' r'
  | None, None => True
  | _, _ => False
  end.
Proof.
  intros Hs Hs' Ht. pose proof (fill_ok_iff m Hc d t Hs) as F. pose proof (fill_ok_iff m' Hc' d t' Hs') as F'. rewrite regs_x in F'.
  pose proof (fill_shape m Hc d t) as G. pose proof (fill_shape m' Hc' d t') as G'.
  rewrite (fill_dispatch_pushes m d t Hc) in *. rewrite (fill_dispatch_pushes m' d t' Hc') in *.
  destruct (pushes (all_ops m d) t) as [r|] eqn:E, (pushes (all_ops m' d) t') as [r'|] eqn:E'.
  2:{ destruct (proj2 F') as [? ?]; [apply F; eauto|discriminate]. }
  2:{ destruct (proj2 F) as [? ?]; [apply F'; eauto|discriminate]. }
  2:{ exact I. }
  split; [|split; auto]. apply pushes_spec in E. apply pushes_spec in E'. destruct E as (_ & L & K & _). destruct E' as (_ & L' & K' & _).
  intros k Hk. destruct (Ht k Hk) as [T1 T2]. split.
  - specialize (L k). specialize (L' k). destruct (get_table t k), (get_table t' k), (get_table r k), (get_table r' k); cbn in *; try contradiction; try discriminate; auto; congruence.
  - intros i. rewrite K, K'. specialize (T2 i). destruct (tget t k i) as [l|], (tget t' k i) as [l'|]; try contradiction; [|exact I]. cbn [option_map].
    unfold all_ops. rewrite !filter_app, !map_app, !rev_app_distr.
    rewrite (row_part d k i (internal_flat m) (internal_flat m')) by (auto; now rewrite internal_x).
    rewrite (row_part d k i (mc_flat m) (mc_flat m')).
    2:{ rewrite <- flat_other. clear. induction (mc_flat m') as [|x l IH]; [reflexivity|]. cbn. destruct (other x) eqn:E; cbn; rewrite ?E; congruence. }
    2:{ exact Hk. }
    destruct (defer_part k i m) as [j Ej]. destruct (defer_part k i m') as [j' Ej']. rewrite Ej, Ej', !rev_repeat.
    pose proof (defer_hit k i) as D.
    assert (Z : j = 0 <-> j' = 0).
    { assert (A : forall n j, @map op entry snd (filter (hits k i) (flat_map (defer_ops n) (deferring n))) = repeat defer_entry j ->
        (j = 0 <-> ~ exists o, In o (filter (hits k i) (flat_map (defer_ops n) (deferring n))))).
      { clear. intros n j H. destruct (filter (hits k i) (flat_map (defer_ops n) (deferring n))) as [|o l]; destruct j; cbn in H; try discriminate.
        - split; [intros _ (o & [])|reflexivity].
        - split; [discriminate|]. intros N. exfalso. apply N. exists o. now left. }
      rewrite (A _ _ Ej), (A _ _ Ej'), D. tauto. }
    destruct j as [|j], j' as [|j']; try (exfalso; destruct Z as [Z1 Z2]; try discriminate Z1; try discriminate Z2; auto; fail).
    + cbn [repeat app]. rewrite <- !app_assoc. do 2 apply cells_app; exact T2.
    + right. exists []. cbn [repeat app]. eauto.
Qed.
End Machines.

Section Start.
Variable e : ev.
Variable m m' : machine.
Hypothesis Hc : comp m.
Hypothesis Hc' : comp m'.
Hypothesis He : extends e (mc_env m) (mc_env m').
Hypothesis Hroot : mc_root m' = mc_root m.
Hypothesis Hflat : inserted (xtra e (mc_env m)) [] (mc_flat m) (mc_flat m').
Hypothesis Hnew : ~ In e (events m).

Lemma constant_x {A} (a : A) k : k <> e ->
  get_table (map (fun x => (x, a)) (events m')) k = get_table (map (fun x => (x, a)) (events m)) k.
Proof.
  intros Hk. pose proof (events_x e m m' He Hroot Hflat Hnew k Hk) as Hi.
  assert (G : forall l, get_table (map (fun x : ev => (x, a)) l) k = if in_dec ev_eq_dec k l then Some a else None).
  { induction l as [|x l IH]; [reflexivity|]. cbn [map get_table]. rewrite IH.
    destruct (ev_eq_dec k x) as [->|N]; [destruct (in_dec ev_eq_dec x (x :: l)) as [|M]; [reflexivity|destruct M; now left]|].
    destruct (in_dec ev_eq_dec k l), (in_dec ev_eq_dec k (x :: l)) as [I|I]; try reflexivity.
    - destruct I; now right.
    - destruct I; [congruence|contradiction]. }
  rewrite !G. destruct (in_dec ev_eq_dec k (events m)), (in_dec ev_eq_dec k (events m')); tauto.
Qed.
Lemma empty_x : tsim e (empty_tables m) (empty_tables m').
Proof.
  intros k Hk. unfold tget, empty_tables. rewrite (n_states_x e m m' Hroot Hflat), (n_parents_x e m m' Hflat), constant_x by exact Hk.
  destruct (get_table _ k); [|now split]. split; [reflexivity|]. intros i. destruct (nth_error l (N.to_nat i)); [now left|exact I].
Qed.
Definition hsim (h h' : handler_tables) : Prop := forall k, k <> e -> get_table h' k = get_table h k.
Lemma handlers_x d : match fill_handlers m d, fill_handlers m' d with
  | Some h, Some h' => hsim h h'
  | None, None => True
  | _, _ => False
  end.
Proof.
  destruct (fill_handlers_total m Hc d) as [h Eh]. destruct (fill_handlers_total m' Hc' d) as [h' Eh']. rewrite Eh, Eh'. revert Eh Eh'.
  unfold fill_handlers. assert (P : handler_places m' = handler_places m) by (unfold handler_places; now rewrite (parents_x e m m' Hflat), (states_x e m m' Hroot Hflat)).
  rewrite P, (n_states_x e m m' Hroot Hflat), (n_parents_x e m m' Hflat).
  assert (G : forall l t, foldM (fun (pr : place) (arr : list (option (sref * dep))) => upd_at (combined_idx m' (fst pr) (snd pr)) (fun _ => Some (snd pr, d)) arr) l t =
              foldM (fun (pr : place) (arr : list (option (sref * dep))) => upd_at (combined_idx m (fst pr) (snd pr)) (fun _ => Some (snd pr, d)) arr) l t).
  { induction l as [|[p s] l IH]; intros t; [reflexivity|]. cbn [foldM fst snd]. rewrite (combined_x e m m' Hroot Hflat).
    destruct (upd_at _ _ t); [apply IH|reflexivity]. }
  rewrite G. destruct (foldM _ (handler_places m) (repeat None (N.to_nat (n_states m) * n_parents m))) as [arr|].
  - rewrite !fold_constant. cbn [app]. intros E E'. injection E as <-. injection E' as <-. intros k Hk. now apply constant_x.
  - intros E E'. destruct (events m) as [|k l] eqn:Ek; [|discriminate]. exfalso.
    pose proof (cp_flat m Hc) as F. destruct (mc_flat m) as [|x l] eqn:Ef; [congruence|].
    assert (I : In (x_ev x) (events m)) by (unfold events, events_of; rewrite unique_In, Ef; now left).
    rewrite Ek in I. destruct I.
Qed.
End Start.

Lemma compile_x e env env' root m m' : compile env root = Some m -> compile env' root = Some m' -> extends e env env' ->
  inserted (xtra e env) [] (mc_flat m) (mc_flat m').
Proof.
  unfold compile. intros Hm Hm' He. assert (L : length env' = length env).
  { unfold extends, extends_by in He. clear - He. revert He. generalize (extra env e) as X. induction 1; cbn; congruence. }
  rewrite L in Hm'.
  destruct (flatten (S (length env)) env root) as [fl|] eqn:E; [|discriminate]. destruct (accepted (mkMachine env root fl)); [|discriminate].
  destruct (flatten (S (length env)) env' root) as [fl'|] eqn:E'; [|discriminate]. destruct (accepted (mkMachine env' root fl')); [|discriminate].
  injection Hm as <-. injection Hm' as <-. cbn [mc_flat]. eapply flatten_x; eauto.
Qed.
