(** Removing rows that are never taken. *)

From Coq Require Import List Arith NArith Bool Lia.
From Verif Require Import Types Static Dispatch Runtime ListFacts IndexFacts Spec DispatchFacts FlattenFacts
  Semantics RefineFacts StaticFacts TableFacts ProcessFacts Reorder Dead ReorderFacts ReorderSwap.
Import ListNotations.

(** * Lists *)
Lemma live_decided a b : existsb decisive a = true -> live (a ++ b) = live a.
Proof.
  induction a as [|c a IH]; cbn [existsb app live]; [discriminate|]. destruct (decisive c); [reflexivity|]. intros H. now rewrite IH.
Qed.
Lemma live_defer a b : a <> [] -> (forall c, In c a -> c = CDefer) -> live (a ++ b) = [CDefer].
Proof. destruct a as [|c a]; [congruence|]. intros _ H. rewrite (H c (or_introl eq_refl)). reflexivity. Qed.

Lemma unique_again {A} (dec : forall a b : A, {a = b} + {a <> b}) b d : forall a seen, (forall x, In x b -> In x (a ++ seen)) ->
  unique_acc dec seen (a ++ b ++ d) = unique_acc dec seen (a ++ d).
Proof.
  induction a as [|p a IH]; intros seen H; cbn [app unique_acc].
  - induction b as [|x b IH]; [reflexivity|]. cbn [app unique_acc]. destruct (in_dec dec x seen) as [_|N].
    + apply IH. intros y Hy. apply H. now right.
    + exfalso. apply N, H. now left.
  - destruct (in_dec dec p seen) as [I|I]; [apply IH|f_equal; apply IH]; intros x Hx; apply H in Hx; cbn in Hx; rewrite in_app_iff in *; cbn; intuition congruence.
Qed.
Lemma dedup_places_again a b d : (forall x, In x b -> In x a) -> dedup_places (a ++ b ++ d) = dedup_places (a ++ d).
Proof. intros H. rewrite <- !unique_places. apply unique_again. intros x Hx. rewrite app_nil_r. auto. Qed.
Lemma dedup_again a b d : (forall x, In x b -> In x a) -> dedup (a ++ b ++ d) = dedup (a ++ d).
Proof. intros H. rewrite <- !unique_dedup. apply unique_again. intros x Hx. rewrite app_nil_r. auto. Qed.

Lemma visits_rows env c rs l : visits env c rs l -> forall r, In r rs -> In (row_in c r) l.
Proof.
  induction 1 as [c|c r rs l Hl H IH|c r rs c' sub l Hl Hc Hs _ H IH]; intros r0 [].
  - subst r0. now left.
  - right. now apply IH.
  - subst r0. now left.
  - right. apply in_app_iff. right. now apply IH.
Qed.

(** * Offers depend on the set of the children only *)
Lemma offers_alike env env' x pl : (forall k, is_composite env' k = is_composite env k) -> (forall k s, child env' k s <-> child env k s) ->
  picks x pl (offers (is_composite env') (children env') x) = picks x pl (offers (is_composite env) (children env) x).
Proof.
  intros Hc Hs. unfold offers. rewrite !picks_map. f_equal. cbn [flat_map]. f_equal.
  destruct (x_int x); [reflexivity|]. destruct (x_src x) as [k|? ?|? ? ?|? ? ?|? ? ?|? ?]; try reflexivity.
  rewrite Hc. destruct (is_composite env k); [|reflexivity].
  rewrite !(pick_one (SState k) (fun _ => SState k)) by apply children_NoDup. destruct (Nat.eq_dec (fst pl) k); [|reflexivity].
  destruct (in_dec sref_eq_dec (snd pl) (children env' k)) as [Hi|Hi], (in_dec sref_eq_dec (snd pl) (children env k)) as [Hj|Hj]; try reflexivity;
    exfalso; rewrite children_In in *; rewrite Hs in *; contradiction.
Qed.

Section Removal.
Variable env env' : cenv.
Variables (c : cls) (l1 l2 : list row) (r : row).
Hypothesis Ht : cd_table (lookup env c) = Some (l1 ++ r :: l2).
Hypothesis Ht' : lookup env' c = with_table (lookup env c) (l1 ++ l2).
Hypothesis Hk : forall k, k <> c -> lookup env' k = lookup env k.
Hypothesis Hini : initial_states env' c = initial_states env c.
Hypothesis Hid : idle env c l1 r l2.

(** ** Names *)
Lemma members_w k : same_members (lookup env k) (lookup env' k).
Proof. destruct (Nat.eq_dec k c) as [->|E]; [rewrite Ht'|rewrite (Hk k E)]; constructor; reflexivity. Qed.
Lemma is_composite_w k : is_composite env' k = is_composite env k.
Proof. unfold is_composite. destruct (Nat.eq_dec k c) as [->|E]; [now rewrite Ht', Ht|now rewrite (Hk k E)]. Qed.
Lemma composite_w k : composite env' k <-> composite env k.
Proof. now rewrite !composite_b, is_composite_w. Qed.
Lemma initial_w k : initial_states env' k = initial_states env k.
Proof. destruct (Nat.eq_dec k c) as [->|E]; [exact Hini|]. unfold initial_states, mentioned, table. now rewrite (Hk k E). Qed.
Lemma internals_w k : internals env' k = internals env k.
Proof. unfold internals. now rewrite (sb_internal _ _ (members_w k)). Qed.
Lemma defers_w k : defers env' k = defers env k.
Proof. unfold defers. now rewrite (sb_defer _ _ (members_w k)). Qed.
Lemma table_c : table env c = l1 ++ r :: l2.
Proof. unfold table. now rewrite Ht. Qed.
Lemma table_c' : table env' c = l1 ++ l2.
Proof. unfold table. now rewrite Ht'. Qed.
Lemma table_k k : k <> c -> table env' k = table env k.
Proof. intros E. unfold table. now rewrite (Hk k E). Qed.
Lemma rows_back k r0 : In r0 (table env' k) -> In r0 (table env k).
Proof.
  destruct (Nat.eq_dec k c) as [->|E]; [|now rewrite (table_k k E)]. rewrite table_c, table_c', !in_app_iff. cbn. tauto.
Qed.
Lemma rows_to k r0 : In r0 (table env k) -> In r0 (table env' k) \/ k = c /\ r0 = r.
Proof.
  destruct (Nat.eq_dec k c) as [->|E]; [|rewrite (table_k k E); auto]. rewrite table_c, table_c', !in_app_iff. cbn. intuition.
Qed.
Lemma used_w root k : used env' root k <-> used env root k.
Proof.
  split; induction 1 as [|p r0 k _ IH Hr Hl Hc]; try constructor; eapply used_sub; eauto; try (now apply composite_w); try (now apply rows_back).
  apply rows_to in Hr. destruct Hr as [Hr|[-> ->]]; [exact Hr|]. exfalso. now apply (id_outside _ _ _ _ _ Hid k).
Qed.
Lemma source_again : exists r0, In r0 (table env' c) /\ r_src r0 = r_src r.
Proof. destruct (nm_source _ _ (id_named _ _ _ _ _ Hid)) as (r0 & H & E). exists r0. now rewrite table_c'. Qed.
Lemma child_w k s : child env' k s <-> child env k s.
Proof.
  split; intros (r0 & Hr & E); [exists r0; split; [now apply rows_back|exact E]|].
  apply rows_to in Hr. destruct Hr as [Hr|[-> ->]]; [exists r0; auto|]. destruct E as [->| ->].
  - destruct source_again as (r1 & H1 & E1). exists r1. split; [exact H1|]. left. now rewrite E1.
  - destruct (nm_target _ _ (id_named _ _ _ _ _ Hid)) as (r1 & H1 & E1). exists r1. split; [now rewrite table_c'|exact E1].
Qed.
Lemma occurs_w root p s : occurs env' root p s <-> occurs env root p s.
Proof. split; intros [|p' s' Hu Hc]; constructor; (now apply used_w) || (now apply child_w). Qed.
Lemma declared_back root x : declared env' root x -> declared env root x.
Proof. intros (p & r0 & Hu & Hr & ->). exists p, r0. split; [now apply used_w|]. split; [now apply rows_back|reflexivity]. Qed.
Lemma declared_to' root x : declared env root x -> declared env' root x \/ used env' root c /\ x = row_in c r.
Proof.
  intros (p & r0 & Hu & Hr & ->). apply used_w in Hu. apply rows_to in Hr. destruct Hr as [Hr|[-> ->]]; [left|now right].
  exists p, r0. auto.
Qed.
Lemma written_w k s : internals env k <> [] -> written_in env' k s <-> written_in env k s.
Proof.
  intros N. split; intros (r0 & Hr & E); [exists r0; split; [now apply rows_back|exact E]|].
  apply rows_to in Hr. destruct Hr as [Hr|[-> ->]]; [exists r0; auto|].
  destruct (it_written _ _ _ _ (id_turn _ _ _ _ _ Hid)) as [N'|H]; [contradiction|]. destruct (H s E) as (r1 & H1 & E1). exists r1. split; [|exact E1].
  rewrite table_c'. apply in_app_iff. now left.
Qed.
Lemma declared_internal_w root x : declared_internal env' root x <-> declared_internal env root x.
Proof.
  split; intros [p k i s Ho Hc Hi Hw|p k i Ho Hc Hi].
  - rewrite internals_w in Hi. eapply di_composite; [apply occurs_w; eauto|now apply composite_w|exact Hi|].
    apply written_w; [|exact Hw]. intros E. now rewrite E in Hi.
  - rewrite internals_w in Hi. apply di_leaf; [now apply occurs_w|now rewrite <- composite_w|exact Hi].
  - eapply di_composite; [apply occurs_w; eauto|now apply composite_w|now rewrite internals_w|].
    apply written_w; [|exact Hw]. intros E. now rewrite E in Hi.
  - apply di_leaf; [now apply occurs_w|now rewrite composite_w|now rewrite internals_w].
Qed.
Lemma is_parent_w root p : is_parent env' root p <-> is_parent env root p.
Proof.
  unfold is_parent. rewrite used_w. destruct (Nat.eq_dec p c) as [->|E]; [|now rewrite (table_k p E)].
  destruct source_again as (r0 & H0 & _). pose proof (rows_back _ _ H0).
  split; intros [Hu _]; (split; [exact Hu|]); intros E; rewrite E in *; cbn in *; contradiction.
Qed.
Lemma is_state_w root s : is_state env' root s <-> is_state env root s.
Proof.
  unfold is_state. split; (intros [->|(p & Hu & Hc)]; [now left|right]); exists p; (split; [now apply used_w|now apply child_w]).
Qed.
Lemma is_place_w root pl : is_place env' root pl <-> is_place env root pl.
Proof. unfold is_place. now rewrite is_parent_w, is_state_w. Qed.
Lemma event_w root e : event_of env' root e <-> event_of env root e.
Proof.
  split; intros (x & Hx & E).
  - exists x. split; [|exact E]. destruct Hx as [Hx|Hx]; [left; now apply declared_back|right; now apply declared_internal_w].
  - destruct Hx as [Hx|Hx]; [|exists x; split; [right; now apply declared_internal_w|exact E]].
    apply declared_to' in Hx. destruct Hx as [Hx|[Hu ->]]; [exists x; auto|].
    destruct (nm_event _ _ (id_named _ _ _ _ _ Hid)) as (r0 & H0 & E0). exists (row_in c r0). split; [left|cbn in *; congruence].
    exists c, r0. rewrite table_c'. auto.
Qed.
Lemma deferred_w x : deferred_by env' x = deferred_by env x.
Proof. unfold deferred_by. destruct (unmarked (x_src x)); try reflexivity. apply defers_w. Qed.
Lemma source_w r0 : r_src r0 = r_src r -> source_place (row_in c r0) = source_place (row_in c r).
Proof. intros E. unfold source_place. cbn [row_in x_src x_parent]. now rewrite E. Qed.
Lemma anchored_w root : anchored env' root <-> anchored env root.
Proof.
  split; intros A e pl k Hc.
  - apply is_place_w. destruct source_again as (r0 & H0 & E0).
    assert (D0 : used env' root c -> declared env' root (row_in c r0)) by (intros Hu; exists c, r0; auto).
    destruct Hc as [x Hx He|x k s Hx He Hs Hkc Hch|x Hx He|x k Hx Hs He].
    + apply declared_to' in Hx. destruct Hx as [Hx|[Hu ->]]; [eapply A; now apply cand_source|].
      rewrite <- (source_w r0 E0). eapply A. now apply cand_source; [apply D0|reflexivity].
    + apply declared_to' in Hx. apply composite_w in Hkc. apply child_w in Hch. destruct Hx as [Hx|[Hu ->]]; [eapply A; eapply cand_enclosing; eauto|].
      eapply A. eapply (cand_enclosing env' root _ (row_in c r0)); eauto. cbn in *. congruence.
    + eapply A. apply cand_internal; [now apply declared_internal_w|exact He].
    + rewrite <- defers_w in He. apply declared_to' in Hx. destruct Hx as [Hx|[Hu ->]]; [eapply A; eapply cand_defer; eauto|].
      rewrite <- (source_w r0 E0). eapply A. eapply cand_defer; eauto. cbn in *. now rewrite E0.
  - apply is_place_w. apply (A e pl k). destruct Hc as [x Hx He|x k s Hx He Hs Hkc Hch|x Hx He|x k Hx Hs He].
    + apply cand_source; [now apply declared_back|exact He].
    + apply cand_enclosing; auto; [now apply declared_back|now apply composite_w|now apply child_w].
    + apply cand_internal; [now apply declared_internal_w|exact He].
    + eapply cand_defer; eauto; [now apply declared_back|now rewrite <- defers_w].
Qed.
Lemma target_w x : target_place env' x = target_place env x.
Proof. unfold target_place, first_initial. destruct (x_tgt x); rewrite ?is_composite_w, ?initial_w; reflexivity. Qed.
Lemma frame_w root : compiles env root -> same_frame env env' root.
Proof.
  intros C. destruct source_again as (r0 & H0 & E0). constructor.
  - apply members_w.
  - apply is_composite_w.
  - apply initial_w.
  - apply is_parent_w.
  - apply is_state_w.
  - apply event_w.
  - apply anchored_w.
  - split; intros (x & w & p & Hx & E); exists x, w, p; (split; [|exact E]); [now apply declared_back|].
    pose proof (rf_history _ _ _ (co_rows _ _ C x Hx) w p E) as P.
    apply declared_to' in Hx. destruct Hx as [Hx|[Hu ->]]; [exact Hx|]. exfalso. apply (id_outside _ _ _ _ _ Hid p); [|exact P].
    cbn in E. rewrite E. constructor.
  - split; intros (x & Hx & E).
    + exists x. split; [now apply declared_back|exact E].
    + apply declared_to' in Hx. destruct Hx as [Hx|[Hu ->]]; [exists x; auto|].
      destruct (nm_event _ _ (id_named _ _ _ _ _ Hid)) as (r1 & H1 & E1). exists (row_in c r1). split; [|cbn in *; congruence]. exists c, r1. rewrite table_c'. auto.
  - split; intros (x & k & l & Hx & E & D).
    + exists x, k, l. split; [now apply declared_back|]. split; [exact E|]. rewrite <- D. symmetry. apply (sb_defer _ _ (members_w k)).
    + apply declared_to' in Hx. rewrite <- (sb_defer _ _ (members_w k)) in D. destruct Hx as [Hx|[Hu ->]]; [exists x, k, l; auto|].
      exists (row_in c r0), k, l. split; [exists c, r0; auto|]. split; [cbn in *; now rewrite E0|exact D].
Qed.

(** ** Rows in order of visit *)
Notation x0 := (row_in c r).
Inductive del : list xrow -> list xrow -> Prop :=
| del_refl l : del l l
| del_here a b : (forall r0, In r0 l1 -> In (row_in c r0) a) -> (forall r0, In r0 l2 -> In (row_in c r0) b) ->
    del (a ++ x0 :: b) (a ++ b)
| del_trans l l' l'' : del l l' -> del l' l'' -> del l l''.
Lemma del_app_l k l l' : del l l' -> del (k ++ l) (k ++ l').
Proof.
  induction 1 as [l|a b H1 H2|l l' l'' _ IH1 _ IH2]; [constructor| |eapply del_trans; eauto]. rewrite !app_assoc. constructor; [|exact H2].
  intros. apply in_app_iff. right. auto.
Qed.
Lemma del_app_r k l l' : del l l' -> del (l ++ k) (l' ++ k).
Proof.
  induction 1 as [l|a b H1 H2|l l' l'' _ IH1 _ IH2]; [constructor| |eapply del_trans; eauto]. rewrite <- !app_assoc. cbn [app]. constructor; [exact H1|].
  intros. apply in_app_iff. left. auto.
Qed.
Lemma del_app k k' l l' : del k k' -> del l l' -> del (k ++ l) (k' ++ l').
Proof. intros H1 H2. eapply del_trans; [apply del_app_r; exact H1|now apply del_app_l]. Qed.
Lemma visits_table_w k l : visits env' k (table env k) l -> exists l', visits env' k (table env' k) l' /\ del l l'.
Proof.
  intros H. destruct (Nat.eq_dec k c) as [->|E].
  - rewrite table_c in H. rewrite table_c'. apply visits_split in H. destruct H as (la & lb & Ha & Hb & ->).
    inversion Hb as [|? ? ? l0 Hl H0|? ? ? k' sub l0 Hl Hc Hs H0]; subst.
    + exists (la ++ l0). split; [now apply visits_app|]. constructor; [exact (visits_rows _ _ _ _ Ha)|exact (visits_rows _ _ _ _ H0)].
    + exfalso. apply (id_outside _ _ _ _ _ Hid k' Hl). now apply composite_w.
  - exists l. split; [|constructor]. now rewrite (table_k k E).
Qed.
Lemma visits_w k rs l : visits env k rs l -> exists l', visits env' k rs l' /\ del l l'.
Proof.
  induction 1 as [k|k r0 rs l Hl H (l' & H' & S)|k r0 rs k' sub l Hl Hc Hs (sub' & Hs' & S1) H (l' & H' & S2)].
  - exists []. split; constructor.
  - exists (row_in k r0 :: l'). split; [apply vis_leaf; [|exact H']|now apply (del_app_l [row_in k r0])].
    intros k' Hk' Hc'. apply (Hl k' Hk'). now apply composite_w.
  - apply visits_table_w in Hs'. destruct Hs' as (sub'' & Hs'' & S3).
    exists (row_in k r0 :: sub'' ++ l'). split; [eapply vis_sub; eauto; now apply composite_w|].
    apply (del_app_l [row_in k r0]). apply del_app; [eapply del_trans; eauto|exact S2].
Qed.
Lemma visits_root_w root l : visits env root (table env root) l -> exists l', visits env' root (table env' root) l' /\ del l l'.
Proof.
  intros H. destruct (visits_w _ _ _ H) as (l' & H' & S). destruct (visits_table_w _ _ H') as (l'' & H'' & S').
  exists l''. split; [exact H''|eapply del_trans; eauto].
Qed.

(** ** Internal rows *)
Lemma internal_rows_of_w pl : internal_rows_of env' pl = internal_rows_of env pl.
Proof.
  unfold internal_rows_of. destruct (snd pl) as [k|? ?|? ? ?|? ? ?|? ? ?|? ?]; try reflexivity.
  rewrite internals_w, is_composite_w. destruct (Nat.eq_dec k c) as [->|E].
  - destruct (it_written _ _ _ _ (id_turn _ _ _ _ _ Hid)) as [N|N]; [now rewrite N|]. apply flat_map_ext. intros i. destruct (is_composite env c); [|reflexivity].
    f_equal. f_equal. unfold mentioned. rewrite table_c, table_c', !flat_map_app. cbn [flat_map]. symmetry. apply dedup_again.
    intros s Hs. destruct (N s) as (r0 & H0 & W); [destruct Hs as [<-|[<-|[]]]; unfold writes; auto|].
    apply in_flat_map. exists r0. split; [exact H0|]. destruct W as [->| ->]; cbn; auto.
  - unfold mentioned. now rewrite (table_k k E).
Qed.
Definition loud (pl : place) : bool := match internal_rows_of env pl with [] => false | _ => true end.
Lemma internal_rows_w root l l' : del l l' -> internal_rows env' root l' = internal_rows env root l.
Proof.
  intros D. transitivity (internal_rows env root l'); [unfold internal_rows; apply flat_map_ext; apply internal_rows_of_w|].
  induction D as [l|a b H1 H2|l l' l'' _ IH1 _ IH2]; [reflexivity| |congruence]. unfold internal_rows.
  assert (N : forall pl, loud pl = false -> internal_rows_of env pl = []) by (intros pl; unfold loud; destruct (internal_rows_of env pl); congruence).
  rewrite (flat_map_nonempty _ _ (occurrences root (a ++ b)) N), (flat_map_nonempty _ _ (occurrences root (a ++ x0 :: b)) N). clear N.
  f_equal. unfold occurrences. rewrite !dedup_places_filter. rewrite !flat_map_app. cbn [flat_map].
  rewrite !app_comm_cons. rewrite !filter_app. symmetry. rewrite <- app_assoc || idtac. rewrite dedup_places_again; [reflexivity|].
  intros pl Hp. apply filter_In in Hp. destruct Hp as [Hp L].
  assert (M : exists s, mentions r s /\ pl = (c, s)) by (destruct Hp as [<-|[<-|[]]]; cbn; eexists; (split; [|reflexivity]); unfold mentions; auto).
  destruct M as (s & Ms & ->). apply filter_In. split; [|exact L]. right.
  destruct (it_inner _ _ _ _ (id_turn _ _ _ _ _ Hid) s Ms) as [Q|(r0 & H0 & M0)].
  - exfalso. unfold loud, internal_rows_of in L. cbn [snd] in L. destruct s; try discriminate. rewrite (Q _ eq_refl) in L. discriminate.
  - apply in_flat_map. exists (row_in c r0). split; [now apply H1|]. cbn. destruct M0 as [->| ->]; auto.
Qed.

(** ** Rows and deferrals *)
Notation rows := (rows_at (is_composite env) (children env)).
Lemma rows_at_w e pl l : rows_at (is_composite env') (children env') e pl l = rows e pl l.
Proof.
  unfold rows_at. apply flat_map_ext. intros x. destruct (ev_eq_dec (x_ev x) e); [|reflexivity].
  apply (offers_alike env env' x pl is_composite_w child_w).
Qed.
Lemma defers_at_w e pl l : defers_at (deferred_by env') e pl l = defers_at (deferred_by env) e pl l.
Proof. unfold defers_at. apply flat_map_ext. intros x. now rewrite deferred_w. Qed.
Lemma defers_all e pl l k : In k (defers_at (deferred_by env) e pl l) -> k = CDefer.
Proof.
  unfold defers_at. intros H. apply in_flat_map in H. destruct H as (x & _ & H). destruct (place_eq_dec _ _); [|destruct H].
  apply in_flat_map in H. destruct H as (e' & _ & H). destruct (ev_eq_dec e' e); [|destruct H]. now destruct H as [<-|[]].
Qed.
Lemma defers_In e pl l : In CDefer (defers_at (deferred_by env) e pl l) <->
  exists x, In x l /\ source_place x = pl /\ In e (deferred_by env x).
Proof.
  unfold defers_at. rewrite in_flat_map. split.
  - intros (x & Hx & H). exists x. split; [exact Hx|]. destruct (place_eq_dec _ _) as [E|]; [|destruct H]. split; [exact E|].
    apply in_flat_map in H. destruct H as (e' & He & H). destruct (ev_eq_dec e' e) as [->|]; [exact He|destruct H].
  - intros (x & Hx & E & He). exists x. split; [exact Hx|]. destruct (place_eq_dec _ _); [|contradiction].
    apply in_flat_map. exists e. split; [exact He|]. destruct (ev_eq_dec e e); [now left|contradiction].
Qed.
Lemma defers_some e pl l : defers_at (deferred_by env) e pl l <> [] <-> exists x, In x l /\ source_place x = pl /\ In e (deferred_by env x).
Proof.
  rewrite <- defers_In. destruct (defers_at (deferred_by env) e pl l) as [|k l0] eqn:E; [split; [congruence|intros []]|].
  split; [intros _|discriminate]. left. apply (defers_all e pl l). rewrite E. now left.
Qed.
Definition reached (e : ev) (pl : place) (flat : list xrow) (rest : list cand) : list cand :=
  live (rev (defers_at (deferred_by env) e pl flat) ++ rev (rows e pl flat) ++ rest).
Lemma reached_w e pl rest l l' : del l l' -> reached e pl l' rest = reached e pl l rest.
Proof.
  induction 1 as [l|a b H1 H2|l l' l'' _ IH1 _ IH2]; [reflexivity| |congruence]. unfold reached.
  assert (DD : defers_at (deferred_by env) e pl (a ++ x0 :: b) <> [] -> defers_at (deferred_by env) e pl (a ++ b) <> []).
  { rewrite !defers_some. intros (x & Hx & Ep & He). rewrite in_app_iff in Hx. destruct Hx as [Hx|[<-|Hx]].
    - exists x. rewrite in_app_iff. auto.
    - destruct (nm_source _ _ (id_named _ _ _ _ _ Hid)) as (r0 & H0 & E0). exists (row_in c r0). rewrite in_app_iff in *. split; [destruct H0; auto|].
      split; [now rewrite (source_w r0 E0)|]. unfold deferred_by in *. cbn in *. now rewrite E0.
    - exists x. rewrite in_app_iff. auto. }
  destruct (defers_at (deferred_by env) e pl (a ++ b)) as [|k l] eqn:Eb.
  - destruct (defers_at (deferred_by env) e pl (a ++ x0 :: b)) eqn:Ea; [|exfalso; apply DD; [discriminate|reflexivity]]. cbn [rev app]. clear DD Eb.
    unfold rows_at at 1 2. rewrite !flat_map_app. cbn [flat_map]. rewrite !rev_app_distr. rewrite <- !app_assoc.
    set (A := flat_map _ a). set (B := flat_map _ b). set (X := if ev_eq_dec (x_ev x0) e then _ else _).
    destruct X as [|k X'] eqn:EX; [reflexivity|].
    assert (T : x_ev x0 = e /\ picks x0 pl (offers (is_composite env) (children env) x0) <> []).
    { subst X. destruct (ev_eq_dec (x_ev x0) e); [|discriminate]. split; [assumption|]. unfold picks. rewrite EX. discriminate. }
    destruct T as [Te Tp]. destruct (id_never _ _ _ _ _ Hid) as [(r2 & I2 & S2 & V2 & G2)|[(k0 & U & D) NC]].
    + assert (existsb decisive (rev B) = true) as DB.
      { apply existsb_exists. pose proof (H2 r2 I2) as J.
        assert (P : picks (row_in c r2) pl (offers (is_composite env) (children env) (row_in c r2)) <> []).
        { rewrite picks_map in *. replace (offers (is_composite env) (children env) (row_in c r2)) with (offers (is_composite env) (children env) x0).
          - intros N. apply Tp. apply map_eq_nil in N. now rewrite N.
          - unfold offers, source_place. cbn [row_in x_src x_parent x_int]. now rewrite S2. }
        destruct (picks (row_in c r2) pl (offers (is_composite env) (children env) (row_in c r2))) as [|q l0] eqn:Eq; [congruence|].
        assert (Iq : In q (q :: l0)) by now left. rewrite <- Eq in Iq. exists q. split.
        - apply in_rev. rewrite rev_involutive. subst B. apply in_flat_map. exists (row_in c r2). split; [exact J|].
          cbn [row_in x_ev] in *. rewrite V2. destruct (ev_eq_dec (r_ev r) e); [exact Iq|contradiction].
        - unfold picks in Iq. apply in_flat_map in Iq. destruct Iq as (po & _ & Iq). destruct (place_eq_dec _ _); [|destruct Iq].
          destruct Iq as [<-|[]]. cbn. now rewrite G2. }
      rewrite !live_decided by exact DB. reflexivity.
    + exfalso. assert (P : defers_at (deferred_by env) e pl (a ++ x0 :: b) <> []); [|now rewrite Ea in P].
      apply defers_some. exists x0. split; [apply in_elt|]. split.
      * apply picks_tried in Tp. destruct Tp as [->|(k1 & s & E1 & Hc1 & _)]; [reflexivity|]. exfalso. now apply (NC k1 E1).
      * unfold deferred_by. cbn [row_in x_src] in *. rewrite U. cbn in Te. now rewrite <- Te.
  - assert (NE : defers_at (deferred_by env) e pl (a ++ x0 :: b) <> []).
    { apply defers_some. assert (S : defers_at (deferred_by env) e pl (a ++ b) <> []) by (rewrite Eb; discriminate).
      apply defers_some in S. destruct S as (x & Hx & S). exists x. split; [|exact S]. rewrite in_app_iff in *. cbn. tauto. }
    assert (RV : forall q : list cand, q <> [] -> rev q <> []) by (intros [|z q] Hq; [congruence|]; cbn; destruct (rev q); discriminate).
    rewrite !live_defer; [reflexivity| | | |].
    + now apply RV.
    + intros q Hq. apply in_rev in Hq. now apply defers_all in Hq.
    + apply RV. discriminate.
    + intros q Hq. apply in_rev in Hq. rewrite <- Eb in Hq. now apply defers_all in Hq.
Qed.
Lemma live_w root : same_live env env' root.
Proof.
  intros e pl cs cs' _ (flat & ints & Hv & Hf & ->) (flat' & ints' & Hv' & Hf' & ->).
  destruct (visits_root_w root flat Hv) as (fl & Hv1 & D). pose proof (visits_det _ _ _ _ Hv1 _ Hv') as ->.
  rewrite (internal_rows_w root _ _ D) in Hf'. pose proof (keeps_first_det _ _ _ _ Hf _ Hf') as <-.
  unfold priority. rewrite defers_at_w, !rows_at_w. now apply reached_w.
Qed.

(** ** What the compiler accepts *)
Lemma compiles_w root : compiles env root -> compiles env' root.
Proof.
  intros C. pose proof C as [C1 C2 C3 C4 C5 C6 C7 C8 C9].
  assert (RF : forall x, row_fine env root x -> row_fine env' root x).
  { intros x [F1 F2 F3 F4]. pose proof (target_w x) as ET. constructor.
    - destruct F1 as (pl & E & I). exists pl. split; [congruence|]. now apply is_state_w.
    - now apply is_state_w.
    - intros w p E. apply composite_w. eauto.
    - intros ty b E N. unfold target_state. rewrite ET. specialize (F4 ty b E N). unfold target_state in F4.
      destruct (match target_place env x with Some (_, s) => s | None => x_tgt x end); try exact F4.
      cbn in *. now rewrite (sb_defctor _ _ (members_w _)). }
  constructor.
  - intros E. destruct (proj2 (is_parent_w root root)) as [_ P]; [split; [constructor|exact C1]|contradiction].
  - intros (p & k & Hu & (r0 & Hr & Hl & Hc) & Hu'). apply C2. exists p, k.
    split; [now apply used_w|]. split; [|now apply used_w]. exists r0. split; [now apply rows_back|].
    split; [exact Hl|now apply composite_w].
  - destruct C3 as (p & Hp & Hi). exists p. split; [now apply is_parent_w|now rewrite initial_w].
  - intros k Hi. rewrite initial_w in Hi. destruct (C4 k Hi) as [A B]. split; [now rewrite composite_w|].
    now rewrite (sb_internal _ _ (members_w k)).
  - intros x Hx. apply RF, C5. now apply declared_back.
  - intros flat' ints x Hv Hf Hx. apply RF.
    destruct (proj2 (compile_compiles env root) C) as (m & Hm).
    destruct (compile_comp _ _ _ Hm) as (Hc & Ee & Er).
    pose proof (flat_visits m Hc) as Hv0. rewrite Ee, Er in Hv0. destruct (visits_root_w _ _ Hv0) as (fl & Hv1 & S).
    rewrite (visits_det _ _ _ _ Hv1 _ Hv) in *. rewrite (internal_rows_w _ _ _ S) in Hf. now apply (C6 _ ints x Hv0 Hf).
  - intros x e Hx He. rewrite deferred_w in He. apply declared_back in Hx.
    destruct (C7 x e Hx He) as (y & Hy & Ey). destruct (proj2 (event_w root e) (Logic.ex_intro _ y (conj Hy Ey))) as (z & Hz & Ez). eauto.
  - intros p Hu Hch. apply (C8 p); [now apply used_w|now apply child_w].
  - intros ps ss N1 N2 P1 P2. apply C9; auto; intros; [apply is_parent_w|apply is_state_w]; auto.
Qed.
End Removal.

(** * Any number of rows *)
Lemma frame_trans env env' env'' root : same_frame env env' root -> same_frame env' env'' root -> same_frame env env'' root.
Proof.
  intros [A1 A2 A3 A4 A5 A6 A7 A8 A9 A10] [B1 B2 B3 B4 B5 B6 B7 B8 B9 B10]; constructor.
  - intros c. eapply members_trans; eauto.
  - intros c. now rewrite B2, A2.
  - intros c. now rewrite B3, A3.
  - intros p. now rewrite B4, A4.
  - intros s. now rewrite B5, A5.
  - intros e. now rewrite B6, A6.
  - now rewrite B7.
  - now rewrite B8.
  - now rewrite B9.
  - now rewrite B10.
Qed.
Lemma frame_refl env root : same_frame env env root.
Proof. apply rows_frame, rows_refl. Qed.
Lemma list_exists env root : compiles env root -> forall e pl, exists cs, candidate_list env root e pl cs.
Proof.
  intros C e pl. destruct (proj2 (compile_compiles env root) C) as (m & Hm). destruct (compile_comp _ _ _ Hm) as (Hc & <- & <-).
  exists (cands m e pl). now apply (candidate_list_cands m Hc).
Qed.
Lemma list_det env root e pl cs cs' : compiles env root -> candidate_list env root e pl cs -> candidate_list env root e pl cs' -> cs' = cs.
Proof.
  intros C. destruct (proj2 (compile_compiles env root) C) as (m & Hm). destruct (compile_comp _ _ _ Hm) as (Hc & <- & <-).
  rewrite !(candidate_list_cands m Hc). congruence.
Qed.
Lemma cleaned_all env env' root : cleaned env env' -> compiles env root ->
  compiles env' root /\ same_frame env env' root /\ same_live env env' root.
Proof.
  induction 1 as [env|env env' env'' _ IH H]; intros C.
  - split; [exact C|]. split; [apply frame_refl|]. intros e pl cs cs' _ H1 H2. f_equal. eapply list_det; eauto.
  - destruct (IH C) as (C' & F & L). destruct H as (c & l1 & r & l2 & Ht & Ht' & Hk & Hid & Hini).
    split; [eapply compiles_w; eauto|]. split; [eapply frame_trans; [exact F|eapply frame_w; eauto]|].
    intros e pl cs cs'' Hp H1 H3. destruct (list_exists env' root C' e pl) as (cs' & H2).
    rewrite <- (L e pl cs cs' Hp H1 H2). assert (S : same_live env' env'' root) by (eapply live_w; eauto). apply (S e pl); auto.
    destruct Hp as [P1 P2]. split; [now apply (sf_parent _ _ _ F)|now apply (sf_state _ _ _ F)].
Qed.
Lemma cleaned_compiles env env' root : cleaned env env' -> (exists m, compile env root = Some m) -> exists m', compile env' root = Some m'.
Proof. rewrite !compile_compiles. intros H C. now destruct (cleaned_all _ _ root H C). Qed.
Lemma session_cleaned V W (cb : cbfun V W) vnone env env' root m m' :
  compile env root = Some m -> compile env' root = Some m' -> cleaned env env' -> stays_inside env root ->
  forall fuel d w ks, matching_run m m' (session cb m vnone fuel d w ks) (session cb m' vnone fuel d w ks).
Proof.
  intros Hm Hm' H HI. destruct (cleaned_all _ _ root H) as (_ & F & L); [apply compile_compiles; eauto|].
  now apply (session_live V W cb vnone env env' root).
Qed.
