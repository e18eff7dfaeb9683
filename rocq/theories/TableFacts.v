(** Proofs of the statements of PropsStatic.v. *)

From Coq Require Import List Arith NArith Bool Lia.
From Verif Require Import Types Static Dispatch Runtime ListFacts IndexFacts Spec DispatchFacts
  FlattenFacts Semantics RefineFacts StaticFacts Reach ReachFacts.
Import ListNotations.

Ltac compiled H := let Hc := fresh "Hc" in let He := fresh in let Hr := fresh in
  destruct (compile_comp _ _ _ H) as (Hc & He & Hr); subst.

Lemma few_max_compiled env root m : compile env root = Some m -> few_regions env root -> max_initials m <= 255.
Proof. intros H F. compiled H. exact (few_max m Hc F). Qed.

Lemma max_few env root m : compile env root = Some m -> max_initials m <= 255 -> few_regions env root.
Proof.
  intros H Hm p Hp. compiled H. rewrite <- initials_spec. apply (parent_iff m Hc) in Hp.
  pose proof (initials_le_max m p Hp). lia.
Qed.

Lemma bentry_describes m b (Hc : comp m) :
  (forall x o, snd b = CRow x o -> row_accepted m x = true) -> describes m b (bentry m b).
Proof.
  intros Ha. destruct b as [d [|x o]]; unfold describes; cbn [snd fst]; [reflexivity|].
  specialize (Ha x o eq_refl). pose proof (row_accepted_dst m x Ha) as Hd.
  destruct (dst_of_target m x Hd) as [Et Ep].
  split; [reflexivity|]. split; [reflexivity|]. split; [reflexivity|]. split.
  { exists (resolve_dst_parent (mc_env m) x, dst_of m x). split; [exact Ep|].
    rewrite (code_combined m Hc). reflexivity. }
  exists (btrans m d x o). split; [reflexivity|]. split; [reflexivity|]. split; [reflexivity|].
  split; [exact Et|]. split; [reflexivity|]. split; [reflexivity|]. split.
  { cbn [t_ptr btrans]. rewrite Et. unfold defctor, default_constructible. destruct (target_state (mc_env m) x); reflexivity. }
  rewrite effects_steps. cbn [t_act btrans]. destruct (resolve_action (mc_env m) x); reflexivity.
Qed.

Section Reachable.
Context {V W : Type}.
Variable cb : cbfun V W.
Variables (env : cenv) (root : cls) (m : machine) (vnone : V).
Hypothesis Hm : compile env root = Some m.
Hypothesis Hfew : few_regions env root.

Lemma rows_tried ds d0 (s : rt V W) e p q : reachable cb m vnone ds d0 s ->
  In e (events m) -> is_place env root (p, q) ->
  exists cs l, candidate_list env root e (p, q) cs /\
    tget (rt_tabs s) e (combined_idx m p q) = Some l /\
    Forall2 (describes m) (flat_map (fun d => map (pair d) cs) ds) l.
Proof.
  intros R He Hp. pose proof (few_max_compiled _ _ _ Hm Hfew) as Hmax. compiled Hm.
  pose proof (reachable_rinvs cb m Hc vnone Hmax _ _ _ R) as [[T _ _ _] _ _].
  apply (place_iff m Hc) in Hp. destruct Hp as [Hp Hs]. cbn [fst snd] in Hp, Hs.
  exists (cands m e (p, q)), (map (bentry m) (bound m ds e (p, q))). split; [apply candidate_list_cands; [exact Hc|reflexivity]|]. split.
  - rewrite (filled_get m Hc ds _ e p q T He Hp Hs). f_equal. unfold bound.
    clear. induction ds as [|d ds IH]; [reflexivity|]. cbn [flat_map]. rewrite map_app, IH. f_equal.
    rewrite map_map. reflexivity.
  - change (flat_map (fun d => map (pair d) (cands m e (p, q))) ds) with (bound m ds e (p, q)).
    assert (G : forall l, (forall d x o, In (d, CRow x o) l -> row_accepted m x = true) ->
       Forall2 (describes m) l (map (bentry m) l)).
    { induction l as [|b l IH]; intros H; cbn [map]; constructor.
      - apply bentry_describes; [exact Hc|]. intros x o E. destruct b as [d c]. cbn in E. subst c.
        eapply H. left. reflexivity.
      - apply IH. intros d x o Hi. eapply H. right. exact Hi. }
    apply G. intros d x o Hi. exact (bound_accepted m Hc _ _ _ _ _ _ Hi).
Qed.
End Reachable.

Section Static.
Variables (env : cenv) (root : cls) (m : machine).
Hypothesis Hm : compile env root = Some m.

Lemma list_exists e pl : exists cs, candidate_list env root e pl cs.
Proof. compiled Hm. exists (cands m e pl). apply candidate_list_cands; [exact Hc|reflexivity]. Qed.
Lemma list_unique e pl cs cs' : candidate_list env root e pl cs -> candidate_list env root e pl cs' -> cs' = cs.
Proof. compiled Hm. intros H H'. apply (candidate_list_cands m Hc) in H. apply (candidate_list_cands m Hc) in H'. congruence. Qed.

Lemma list_sound e pl cs c : candidate_list env root e pl cs -> In c cs -> candidate env root e pl c.
Proof. compiled Hm. intros H Hi. apply (candidate_list_cands m Hc) in H. subst. exact (cands_sound m Hc _ _ _ Hi). Qed.

Lemma list_complete e pl cs c : candidate_list env root e pl cs -> candidate env root e pl c ->
  In c cs \/ exists x y o, c = CRow x o /\ x_int x = true /\ same_cpp_type y x /\ In (CRow y o) cs.
Proof.
  compiled Hm. intros H Hi. apply (candidate_list_cands m Hc) in H. subst.
  pose proof (cands_complete m Hc _ _ _ Hi) as G. destruct c as [|x o]; [auto|].
  destruct (x_int x) eqn:Ei; [|auto]. right. destruct G as (y & Hy & Hk & _).
  apply xrow_key_same in Hk. exists x, y, o. auto.
Qed.

Lemma list_ranked e pl cs c1 c2 : candidate_list env root e pl cs -> before c1 c2 cs -> cand_rank c1 <= cand_rank c2.
Proof. compiled Hm. intros H Hb. apply (candidate_list_cands m Hc) in H. subst. exact (cands_ranked m Hc _ _ _ _ Hb). Qed.

Lemma list_composite_source e pl cs x c o : candidate_list env root e pl cs ->
  declared env root x -> x_ev x = e -> x_src x = SState c -> composite env c ->
  (In (CRow x o) cs <-> (pl = (x_parent x, SState c) \/ exists s, child env c s /\ pl = (c, s)) /\ o = SState c).
Proof.
  compiled Hm. intros H Hd He Hs Hcc. apply (candidate_list_cands m Hc) in H. subst cs.
  assert (Hi : x_int x = false) by (destruct Hd as (p & r & _ & _ & ->); reflexivity).
  rewrite (candidate_external m Hc _ _ _ _ Hi), (offers_iff m).
  unfold source_place. rewrite Hs. cbn [snd]. split.
  - intros (_ & _ & [[-> ->]|(_ & c' & s & E & _ & Hch & -> & ->)]); [auto|].
    inversion E; subst c'. split; eauto.
  - intros ([-> |(s & Hch & ->)] & ->); (split; [exact Hd|]); (split; [exact He|]); [auto|].
    right. split; [exact Hi|]. exists c, s. auto.
Qed.

Lemma list_named_source e pl cs x p s o : candidate_list env root e pl cs ->
  declared env root x -> x_ev x = e ->
  ((exists w, x_src x = SExit w p s) \/ (exists w, x_src x = SDirect w p s)) ->
  (In (CRow x o) cs <-> pl = (p, SState s) /\ o = SState s).
Proof.
  compiled Hm. intros H Hd He Hs. apply (candidate_list_cands m Hc) in H. subst cs.
  assert (Hi : x_int x = false) by (destruct Hd as (p' & r & _ & _ & ->); reflexivity).
  rewrite (candidate_external m Hc _ _ _ _ Hi), (offers_iff m). unfold source_place.
  destruct Hs as [[w Hs]|[w Hs]]; rewrite Hs; cbn [snd].
  - split; [|intros [-> ->]; auto]. intros (_ & _ & [[-> ->]|(_ & c' & t & E & _)]); [auto|discriminate].
  - split; [|intros [-> ->]; auto]. intros (_ & _ & [[-> ->]|(_ & c' & t & E & _)]); [auto|discriminate].
Qed.

(** Sources written as plain or initial leaf states. *)
Lemma list_leaf_source e pl cs x c o : candidate_list env root e pl cs ->
  declared env root x -> x_ev x = e -> unmarked (x_src x) = SState c ->
  (marked (x_src x) = true \/ ~ composite env c) ->
  (In (CRow x o) cs <-> pl = (x_parent x, SState c) /\ o = SState c).
Proof.
  compiled Hm. intros H Hd He Hs Hn. apply (candidate_list_cands m Hc) in H. subst cs.
  assert (Hi : x_int x = false) by (destruct Hd as (p' & r & _ & _ & ->); reflexivity).
  rewrite (candidate_external m Hc _ _ _ _ Hi), (offers_iff m). unfold source_place.
  destruct (x_src x) as [c'|w c'| | | |]; cbn [unmarked] in Hs; try discriminate; inversion Hs; subst c'; cbn [snd].
  - split; [|intros [-> ->]; auto]. intros (_ & _ & [[-> ->]|(_ & c' & t & E & Hcc & _)]); [auto|].
    inversion E; subst. destruct Hn; [discriminate|contradiction].
  - split; [|intros [-> ->]; auto]. intros (_ & _ & [[-> ->]|(_ & c' & t & E & _)]); [auto|discriminate].
Qed.

Lemma index_facts p s : is_parent env root p -> is_state env root s ->
  combined_idx m p s = (parent_idx m p * n_states m + state_idx m s)%N /\
  calc_combined_idx (n_states m) (parent_idx m p) (state_idx m s) = combined_idx m p s /\
  calc_parent_idx (n_states m) (combined_idx m p s) = parent_idx m p /\
  calc_state_idx (n_states m) (combined_idx m p s) = state_idx m s /\
  (combined_idx m p s < N.of_nat (n_parents m) * n_states m)%N.
Proof.
  compiled Hm. intros Hp Hs. apply (parent_iff m Hc) in Hp. apply (state_iff m Hc) in Hs.
  split; [now apply combined_idx_formula|]. split; [now apply calc_combined_ok|].
  split; [now apply calc_parent_combined|]. split; [now apply calc_state_combined|].
  now apply combined_idx_lt.
Qed.
Lemma index_inj p s q t : is_place env root (p, s) ->
  combined_idx m p s = combined_idx m q t -> p = q /\ s = t.
Proof.
  compiled Hm. intros [Hp Hs] E. apply (parent_iff m Hc) in Hp. apply (state_iff m Hc) in Hs.
  apply (combined_idx_inj m Hc) in E; auto. inversion E; auto.
Qed.
Lemma index_onto k : (k < N.of_nat (n_parents m) * n_states m)%N ->
  exists p s, is_place env root (p, s) /\ combined_idx m p s = k.
Proof.
  compiled Hm. intros H. rewrite <- (places_length m) in H.
  destruct (nth_error (places m) (N.to_nat k)) as [[p s]|] eqn:E.
  - apply (places_at_inv m Hc) in E. destruct E as (Hp & Hs & ->). exists p, s. split; [|reflexivity].
    split; [now apply (parent_iff m Hc)|now apply (state_iff m Hc)].
  - apply nth_error_None in E. lia.
Qed.
Lemma index_absent p s : ~ is_place env root (p, s) ->
  combined_idx m p s = (N.of_nat (n_parents m) * n_states m)%N.
Proof.
  compiled Hm. intros H. apply (combined_idx_absent m Hc). intros [Hp Hs]. apply H.
  split; [now apply (parent_iff m Hc)|now apply (state_iff m Hc)].
Qed.
Lemma index_sizes : exists ps ss, NoDup ps /\ NoDup ss /\
  (forall p, In p ps <-> is_parent env root p) /\ (forall s, In s ss <-> is_state env root s) /\
  n_parents m = length ps /\ n_states m = N.of_nat (length ss) /\
  (N.of_nat (length ps) * N.of_nat (length ss) < two64)%N.
Proof.
  compiled Hm. exists (parents m), (states m). split; [apply parents_NoDup|]. split; [now apply states_NoDup|].
  split; [intros; exact (parent_iff m Hc p)|]. split; [intros; exact (state_iff m Hc s)|].
  split; [reflexivity|]. split; [reflexivity|]. exact (cp_size m Hc).
Qed.
End Static.

(** * Order *)
Lemma before_rev {A} (a b : A) l : before a b (rev l) -> before b a l.
Proof.
  intros (x & y & z & E). exists (rev z), (rev y), (rev x).
  rewrite <- (rev_involutive l), E. rewrite rev_app_distr. cbn [rev]. rewrite rev_app_distr. cbn [rev].
  rewrite <- !app_assoc. reflexivity.
Qed.

Lemma before_flat_map {A B} (f : A -> list B) a b l : before a b (flat_map f l) ->
  (exists c, In c l /\ before a b (f c)) \/
  (exists c d, before c d l /\ In a (f c) /\ In b (f d)).
Proof.
  induction l as [|c l IH]; cbn [flat_map].
  - intros (x & y & z & E). destruct x; discriminate.
  - intros H. apply before_app in H. destruct H as [H|[H|[Ha Hb]]].
    + left. exists c. split; [now left|exact H].
    + destruct (IH H) as [(d & Hd & Hb)|(d & d' & (x & y & z & ->) & H1 & H2)].
      * left. exists d. split; [now right|exact Hb].
      * right. exists d, d'. split; [|auto]. exists (c :: x), y, z. reflexivity.
    + right. apply in_flat_map in Hb. destruct Hb as (d & Hd & Hb). exists c, d. split; [|auto].
      apply in_split in Hd. destruct Hd as (x & y & ->). exists [], x, y. reflexivity.
Qed.

Lemma rows_at_of cb ch pl x y o :
  In (CRow y o) (flat_map (fun po => if place_eq_dec (fst po) pl then [CRow x (snd po)] else []) (offers cb ch x)) ->
  y = x.
Proof.
  intros H. apply in_flat_map in H. destruct H as ([q o'] & _ & H). cbn [fst snd] in H.
  destruct (place_eq_dec q pl); [|destruct H]. destruct H as [H|[]]. congruence.
Qed.

Lemma rows_at_before cb ch e pl x o y o' l :
  before (CRow x o) (CRow y o') (rows_at cb ch e pl l) -> x = y \/ before x y l.
Proof.
  unfold rows_at. intros H. apply before_flat_map in H. destruct H as [(z & Hz & H)|(z & z' & H & H1 & H2)].
  - left. apply before_In in H. destruct H as [H1 H2].
    destruct (ev_eq_dec (x_ev z) e); [|destruct H1].
    rewrite (rows_at_of cb ch pl z x o H1), (rows_at_of cb ch pl z y o' H2). reflexivity.
  - right. destruct (ev_eq_dec (x_ev z) e); [|destruct H1]. destruct (ev_eq_dec (x_ev z') e); [|destruct H2].
    rewrite (rows_at_of cb ch pl z x o H1), (rows_at_of cb ch pl z' y o' H2). exact H.
Qed.

Section Order.
Variables (env : cenv) (root : cls) (m : machine).
Hypothesis Hm : compile env root = Some m.

Lemma list_last_first e pl cs flat ints x o y o' :
  candidate_list env root e pl cs ->
  visits env root (table env root) flat ->
  keeps_first same_cpp_type [] (internal_rows env root flat) ints ->
  before (CRow x o) (CRow y o') cs -> x_int x = x_int y ->
  x = y \/ before y x (if x_int x then ints else flat).
Proof.
  compiled Hm. intros H Hv Hk Hb Hi. pose proof (cands_ranked m Hc) as Hrk.
  apply (candidate_list_cands m Hc) in H. subst cs. rewrite (cands_priority m) in Hb.
  rewrite (visits_det _ _ _ _ (flat_visits m Hc) _ Hv) in *.
  rewrite (keeps_first_det _ _ _ _ (internal_keeps m) _ Hk). clear Hv Hk Hrk.
  assert (D : forall x o, In (CRow x o) (rev (defers_at (deferred_by (mc_env m)) e pl (mc_flat m))) -> False).
  { intros z oz Hin. apply in_rev in Hin. apply defers_at_defer in Hin. discriminate. }
  assert (X : forall x o, In (CRow x o) (rev (rows_at (is_composite (mc_env m)) (children (mc_env m)) e pl (mc_flat m))) -> x_int x = false).
  { intros z oz Hin. apply in_rev in Hin. apply rows_at_rows in Hin. destruct Hin as (z' & o2 & E & Hx & _).
    inversion E; subst. exact (flat_external m Hc z' Hx). }
  assert (I : forall x o, In (CRow x o) (rev (rows_at (is_composite (mc_env m)) (children (mc_env m)) e pl (internal_flat m))) -> x_int x = true).
  { intros z oz Hin. apply in_rev in Hin. apply rows_at_rows in Hin. destruct Hin as (z' & o2 & E & Hx & _).
    inversion E; subst. exact (internal_flat_int m Hc z' Hx). }
  unfold priority in Hb. apply before_app in Hb. destruct Hb as [Hb|[Hb|[H1 H2]]].
  - apply before_In in Hb. destruct Hb as [H1 _]. destruct (D _ _ H1).
  - apply before_app in Hb. destruct Hb as [Hb|[Hb|[H1 H2]]].
    + pose proof (before_In _ _ _ Hb) as [H1 _]. rewrite (X _ _ H1).
      apply before_rev in Hb. apply rows_at_before in Hb. destruct Hb; auto.
    + pose proof (before_In _ _ _ Hb) as [H1 _]. rewrite (I _ _ H1).
      apply before_rev in Hb. apply rows_at_before in Hb. destruct Hb; auto.
    + rewrite (X _ _ H1), (I _ _ H2) in Hi. discriminate.
  - destruct (D _ _ H1).
Qed.
End Order.

(** * Internal rows *)
Lemma keeps_sub {A} (same : A -> A -> Prop) pre l k : keeps_first same pre l k -> forall x, In x k -> In x l.
Proof. intros H. induction H; intros x Hx; [exact Hx| |]; cbn in *; intuition. Qed.

Lemma keeps_fresh {A} (same : A -> A -> Prop) pre l k : keeps_first same pre l k ->
  forall x b, In x k -> In b pre -> ~ same b x.
Proof.
  intros H. induction H as [pre|pre a l k Hn H IH|pre a l k Hs H IH]; intros x b Hx Hb; [destruct Hx| |].
  - destruct Hx as [<-|Hx]; [auto|]. apply IH; [exact Hx|]. apply in_or_app. now left.
  - apply IH; [exact Hx|]. apply in_or_app. now left.
Qed.

Lemma keeps_distinct {A} (same : A -> A -> Prop) pre l k : keeps_first same pre l k ->
  forall x y, before x y k -> ~ same x y.
Proof.
  intros H. induction H as [pre|pre a l k Hn H IH|pre a l k Hs H IH]; intros x y Hb.
  - destruct Hb as ([|? ?] & ? & ? & E); discriminate.
  - destruct Hb as ([|c p] & q & r & E); cbn in E; inversion E; subst.
    + eapply keeps_fresh; [exact H| |apply in_or_app; right; now left]. apply in_or_app. right. now left.
    + apply IH. exists p, q, r. reflexivity.
  - apply IH. exact Hb.
Qed.

Section Internals.
Variables (env : cenv) (root : cls) (m : machine).
Hypothesis Hm : compile env root = Some m.

Lemma internal_merge : exists flat kept,
  visits env root (table env root) flat /\
  (forall x, In x (internal_rows env root flat) <-> declared_internal env root x) /\
  keeps_first same_cpp_type [] (internal_rows env root flat) kept /\
  (forall x y, before x y kept -> ~ same_cpp_type x y) /\
  (forall x, declared_internal env root x -> exists y, In y kept /\ same_cpp_type y x) /\
  (forall e pl cs, candidate_list env root e pl cs -> forall x o, x_int x = true ->
     (In (CRow x o) cs <-> In x kept /\ x_ev x = e /\ pl = source_place x /\ o = snd (source_place x))).
Proof.
  compiled Hm. exists (mc_flat m), (internal_flat m).
  split; [exact (flat_visits m Hc)|]. split.
  { intros x. rewrite <- (internal_rows_eq m). apply (internal_all_iff m Hc). }
  split; [apply internal_keeps|]. split; [apply (keeps_distinct _ _ _ _ (internal_keeps m))|]. split.
  { intros x Hx. destruct (internal_flat_cover m Hc x Hx) as (y & Hy & Hk). exists y. split; [exact Hy|].
    now apply xrow_key_same. }
  intros e pl cs H x o Hi. apply (candidate_list_cands m Hc) in H. subst cs. unfold cands, priority.
  rewrite !in_app_iff, <- !in_rev, !(rows_at_iff m). split.
  - intros [H|[(z & oz & Hz & _ & _ & E)|(z & oz & Hz & He & Ho & E)]].
    + apply (defers_at_iff m) in H. destruct H; discriminate.
    + inversion E; subst. rewrite (flat_external m Hc z Hz) in Hi. discriminate.
    + inversion E; subst. apply (offers_iff m) in Ho. destruct Ho as [[-> ->]|[Hn _]]; [auto|congruence].
  - intros (Hx & He & -> & ->). right. right. exists x, (snd (source_place x)).
    split; [exact Hx|]. split; [exact He|]. split; [|reflexivity]. apply (offers_iff m). auto.
Qed.
End Internals.
