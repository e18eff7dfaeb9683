(** Programs that differ in the order of rows. *)

From Coq Require Import List Arith NArith Bool Lia.
From Verif Require Import Types Static Dispatch Runtime ListFacts IndexFacts Spec DispatchFacts FlattenFacts
  Semantics RefineFacts StaticFacts Reach ReachFacts ProcessFacts SpellRun Reorder Dead ReorderRun.
Import ListNotations.

(** * The same rows: the same names *)
Lemma members_sym d d' : same_members d d' -> same_members d' d.
Proof. intros []; constructor; congruence. Qed.
Lemma members_trans d d' d'' : same_members d d' -> same_members d' d'' -> same_members d d''.
Proof. intros [] []; constructor; congruence. Qed.
Lemma rows_sym env env' : same_rows env env' -> same_rows env' env.
Proof. intros []; constructor; auto using members_sym. intros c r. now rewrite sw_rows. Qed.
Lemma rows_refl env : same_rows env env.
Proof. constructor; try reflexivity. intros c. constructor; reflexivity. Qed.
Lemma rows_trans env env' env'' : same_rows env env' -> same_rows env' env'' -> same_rows env env''.
Proof.
  intros [A1 A2 A3 A4] [B1 B2 B3 B4]; constructor.
  - intros c. eapply members_trans; eauto.
  - intros c. now rewrite B2, A2.
  - intros c r. now rewrite B3, A3.
  - intros c. now rewrite B4, A4.
Qed.

Lemma composite_b env c : composite env c <-> is_composite env c = true.
Proof. unfold composite, is_composite. destruct (cd_table (lookup env c)); split; congruence. Qed.
Section Names.
Variable env env' : cenv.
Variable root : cls.
Hypothesis H : same_rows env env'.
Lemma composite_to c : composite env c -> composite env' c.
Proof. rewrite !composite_b. now rewrite (sw_composite _ _ H). Qed.
Lemma used_to c : used env root c -> used env' root c.
Proof.
  induction 1 as [|p r c _ IH Hr Hl Hc]; [constructor|]. eapply used_sub; eauto; [now apply (sw_rows _ _ H)|now apply composite_to].
Qed.
Lemma child_to c s : child env c s -> child env' c s.
Proof. intros (r & Hr & E). exists r. split; [now apply (sw_rows _ _ H)|exact E]. Qed.
Lemma written_to c s : written_in env c s -> written_in env' c s.
Proof. intros (r & Hr & E). exists r. split; [now apply (sw_rows _ _ H)|exact E]. Qed.
Lemma occurs_to p s : occurs env root p s -> occurs env' root p s.
Proof. intros [|p' s' Hu Hc]; constructor; [now apply used_to|now apply child_to]. Qed.
Lemma declared_to x : declared env root x -> declared env' root x.
Proof. intros (p & r & Hu & Hr & ->). exists p, r. split; [now apply used_to|]. split; [now apply (sw_rows _ _ H)|reflexivity]. Qed.
Lemma internals_to c : internals env' c = internals env c.
Proof. unfold internals. now rewrite (sb_internal _ _ (sw_members _ _ H c)). Qed.
Lemma defers_to c : defers env' c = defers env c.
Proof. unfold defers. now rewrite (sb_defer _ _ (sw_members _ _ H c)). Qed.
Lemma is_parent_to p : is_parent env root p -> is_parent env' root p.
Proof.
  intros [Hu Ht]. split; [now apply used_to|]. intros E. apply Ht. destruct (table env p) as [|r l] eqn:Et; [reflexivity|].
  assert (In r (table env' p)) as I by (apply (sw_rows _ _ H); rewrite Et; now left). rewrite E in I. destruct I.
Qed.
Lemma is_state_to s : is_state env root s -> is_state env' root s.
Proof. intros [->|(p & Hu & Hc)]; [now left|]. right. exists p. split; [now apply used_to|now apply child_to]. Qed.
Lemma is_place_to pl : is_place env root pl -> is_place env' root pl.
Proof. intros [A B]. split; [now apply is_parent_to|now apply is_state_to]. Qed.
End Names.

Section Names2.
Variable env env' : cenv.
Variable root : cls.
Hypothesis H : same_rows env env'.
Lemma composite_r c : composite env' c <-> composite env c.
Proof. split; apply composite_to; auto using rows_sym. Qed.
Lemma declared_r x : declared env' root x <-> declared env root x.
Proof. split; apply declared_to; auto using rows_sym. Qed.
Lemma is_parent_r p : is_parent env' root p <-> is_parent env root p.
Proof. split; apply is_parent_to; auto using rows_sym. Qed.
Lemma is_state_r s : is_state env' root s <-> is_state env root s.
Proof. split; apply is_state_to; auto using rows_sym. Qed.
Lemma is_place_r pl : is_place env' root pl <-> is_place env root pl.
Proof. split; apply is_place_to; auto using rows_sym. Qed.
Lemma declared_internal_to x : declared_internal env root x -> declared_internal env' root x.
Proof.
  intros [p c i s Ho Hc Hi Hw|p c i Ho Hc Hi].
  - eapply di_composite; [eapply occurs_to; eauto|now apply composite_r|now rewrite (internals_to _ _ H)|eapply written_to; eauto].
  - apply di_leaf; [eapply occurs_to; eauto|now rewrite composite_r|now rewrite (internals_to _ _ H)].
Qed.
Lemma candidate_to e pl c : candidate env root e pl c -> candidate env' root e pl c.
Proof.
  intros [x Hx He|x k s Hx He Hs Hk Hch|x Hx He|x k Hx Hs He].
  - apply cand_source; [now apply declared_r|exact He].
  - apply cand_enclosing; auto; [now apply declared_r|now apply composite_r|eapply child_to; eauto].
  - apply cand_internal; [now apply declared_internal_to|exact He].
  - eapply cand_defer; eauto; [now apply declared_r|now rewrite (defers_to _ _ H)].
Qed.
Lemma target_place_r x : target_place env' x = target_place env x.
Proof.
  unfold target_place, first_initial. destruct (x_tgt x); rewrite ?(sw_composite _ _ H), ?(sw_initial _ _ H); reflexivity.
Qed.
End Names2.
Lemma candidate_r env env' root e pl c : same_rows env env' -> candidate env' root e pl c <-> candidate env root e pl c.
Proof. intros H. split; apply candidate_to; auto using rows_sym. Qed.
Lemma event_of_to env env' root e : same_rows env env' -> event_of env root e -> event_of env' root e.
Proof.
  intros H (x & [Hx|Hx] & E); exists x; (split; [|exact E]); [left; now apply (declared_r env env' root H)|right; now apply (declared_internal_to env env')].
Qed.
Lemma anchored_to env env' root : same_rows env env' -> anchored env root -> anchored env' root.
Proof.
  intros H A e pl c Hc. apply (is_place_r env env' root H). apply (A e pl c). now apply (candidate_r env env' root e pl c H).
Qed.

(** * The same candidates reached: the same runs *)
Lemma session_live V W (cb : cbfun V W) vnone env env' root m m' :
  compile env root = Some m -> compile env' root = Some m' ->
  same_frame env env' root -> same_live env env' root -> stays_inside env root ->
  forall fuel d w ks, matching_run m m' (session cb m vnone fuel d w ks) (session cb m' vnone fuel d w ks).
Proof.
  intros Hm Hm' H HC HI fuel d w ks.
  destruct (compile_comp _ _ _ Hm) as (Hc & He & Hr). destruct (compile_comp _ _ _ Hm') as (Hc' & He' & Hr'). subst env env' root.
  apply session_matching; auto.
  - apply (sf_members _ _ _ H).
  - intros [c|w0 c|w0 p c|w0 p c|w0 p c|w0 p]; try reflexivity. pose proof (sf_composite _ _ _ H c) as E. unfold is_composite in E.
    unfold has_table, table_of. exact E.
  - intros c. rewrite !initials_spec. apply (sf_initial _ _ _ H).
  - intros p. rewrite (parent_iff m Hc), (parent_iff m' Hc'), Hr'. apply (sf_parent _ _ _ H).
  - intros s. rewrite (state_iff m Hc), (state_iff m' Hc'), Hr'. apply (sf_state _ _ _ H).
  - intros e. rewrite (events_iff _ _ _ Hm), (events_iff _ _ _ Hm'). apply (sf_event _ _ _ H).
  - intros e p q Hp Hq. apply (HC e (p, q)).
    + split; [now apply (parent_iff m Hc)|now apply (state_iff m Hc)].
    + now apply (candidate_list_cands m Hc).
    + rewrite <- Hr'. now apply (candidate_list_cands m' Hc').
  - apply bool_iff. rewrite (history_iff _ _ _ Hm), (history_iff _ _ _ Hm'). apply (sf_history _ _ _ H).
  - apply bool_iff. rewrite (anonymous_iff _ _ _ Hm), (anonymous_iff _ _ _ Hm'). apply (sf_anonymous _ _ _ H).
  - apply bool_iff. rewrite (deferred_iff _ _ _ Hm), (deferred_iff _ _ _ Hm'). apply (sf_deferred _ _ _ H).
  - rewrite (regs_anchored m Hc), (regs_anchored m' Hc'), Hr'. symmetry. apply (sf_anchored _ _ _ H).
  - intros x Hx. pose proof (cp_rows m Hc x (proj2 (in_app_iff _ _ _) (or_introl Hx))) as Ha.
    destruct (dst_of_target m x (row_accepted_dst m x Ha)) as [_ Et].
    apply (parent_iff m Hc). apply (HI x (resolve_dst_parent (mc_env m) x, dst_of m x)); [now apply (flat_declared m Hc)|exact Et].
Qed.
Lemma rows_frame env env' root : same_rows env env' -> same_frame env env' root.
Proof.
  intros H. pose proof (rows_sym _ _ H) as H'. constructor; try (intros; apply H).
  - intros. now apply is_parent_r.
  - intros. now apply is_state_r.
  - intros. split; now apply event_of_to.
  - split; now apply anchored_to.
  - split; intros (x & w & p & Hx & E); exists x, w, p; (split; [|exact E]); revert Hx; now apply declared_to.
  - split; intros (x & Hx & E); exists x; (split; [|exact E]); revert Hx; now apply declared_to.
  - split; intros (x & c & l & Hx & E & D); exists x, c, l; (split; [revert Hx; now apply declared_to|]); (split; [exact E|]);
      rewrite <- D; [symmetry|]; apply (sb_defer _ _ (sw_members _ _ H c)).
Qed.
Lemma session_reordered V W (cb : cbfun V W) vnone env env' root m m' :
  compile env root = Some m -> compile env' root = Some m' ->
  same_rows env env' -> same_candidates env env' root -> stays_inside env root ->
  forall fuel d w ks, matching_run m m' (session cb m vnone fuel d w ks) (session cb m' vnone fuel d w ks).
Proof.
  intros Hm Hm' H HC HI. apply (session_live V W cb vnone env env' root); auto; [now apply rows_frame|].
  intros e pl cs cs' Hp H1 H2. apply HC in H1; [|exact Hp]. f_equal.
  destruct (compile_comp _ _ _ Hm') as (Hc' & <- & <-). apply (candidate_list_cands m' Hc') in H1, H2. congruence.
Qed.
