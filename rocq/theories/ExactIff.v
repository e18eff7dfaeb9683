(** The conditions of Exact.v on a compiled machine, and that the check decides
    them. *)

From Coq Require Import List Arith NArith Bool Lia.
From Verif Require Import Types Static Dispatch Runtime ListFacts IndexFacts Spec
  DispatchFacts FlattenFacts Semantics RefineFacts StaticFacts TermFacts Reach ReachFacts TableFacts
  QueryFacts ProcessFacts Safe SafeFacts SafeObjects Exact ExactFacts ExactNeed.
Import ListNotations.

Section Iff.
Variable m : machine.
Notation env := (mc_env m).
Notation root := (mc_root m).
Hypothesis Hm : compile env root = Some m.
Let Hc : comp m := proj1 (compile_comp _ _ _ Hm).
Hypothesis Hfew : max_initials m <= 255.

Lemma possible_iff e pl c : possible env root e pl c <-> reached m e pl c.
Proof.
  unfold possible, reached. split; intros (l1 & l2 & H & G); exists l1, l2; split; auto.
  - apply (candidate_list_cands m Hc) in H. now rewrite H.
  - apply (candidate_list_cands m Hc). now rewrite H.
Qed.

Lemma place_is pl : is_place env root pl <-> In pl (places m).
Proof.
  destruct pl as [p q]. rewrite (in_places m). unfold is_place. cbn.
  now rewrite (parent_iff m Hc), (state_iff m Hc).
Qed.

Lemma reached_target e pl x o : reached m e pl (CRow x o) ->
  target_place env x = Some (resolve_dst_parent env x, dst_of m x) /\ dst_of m x = target_state env x.
Proof.
  intros H. destruct (dst_of_target m x) as [H1 H2]; [|now split].
  eapply row_accepted_dst, (cands_accepted m Hc), reached_in, H.
Qed.

Lemma rests_iff e p0 : rests_in env root e p0 <-> rests m e p0.
Proof.
  split.
  - intros [q cs Hp Hl Hg|q x o H Hi|pl x o q H Hi Ht].
    + apply (candidate_list_cands m Hc) in Hl. subst cs. eapply rs_refused; [apply place_is; exact Hp|exact Hg].
    + apply possible_iff in H. eapply rs_internal; eauto.
    + apply possible_iff in H. destruct (reached_target _ _ _ _ H) as [E _]. rewrite E in Ht. inversion Ht; subst.
      eapply rs_external; eauto.
  - intros [q Hp Hg|q x o H Hi|pl x o H Hi Hp].
    + eapply ri_refused; [apply place_is; exact Hp|apply (candidate_list_cands m Hc); reflexivity|exact Hg].
    + apply possible_iff in H. eapply ri_internal; eauto.
    + destruct (reached_target _ _ _ _ H) as [E _]. rewrite Hp in E. apply possible_iff in H. eapply ri_external; eauto.
Qed.

Lemma sleepy_iff : length (initials env root) = max_initials m -> (can_sleep env root <-> sleepy m).
Proof.
  intros Er. unfold can_sleep, sleepy, parallel. rewrite Nat.ltb_lt, <- initials_spec, Er.
  split; intros [H (e & pl & x & o & p0 & H1 & H2 & H3 & H4)]; (split; [exact H|]); exists e, pl, x, o, p0;
    apply possible_iff in H1; apply rests_iff in H3; rewrite initials_spec in *; auto.
Qed.

Lemma xpm_iff : xpm m <-> exactly_safe env root.
Proof.
  assert (PI : forall p, is_parent env root p <-> In p (parents m)) by (intros; now rewrite (parent_iff m Hc)).
  split.
  - intros [[B1 B2 B3] H1 H2 H3 H4]. split.
    + now apply (regs_anchored m Hc).
    + intros p Hp. rewrite <- !initials_spec, B3. apply initials_le_max. now apply PI.
    + intros e pl x o pl' H Hi Ht. apply possible_iff in H. destruct (reached_target _ _ _ _ H) as [E _].
      rewrite E in Ht. inversion Ht; subst. cbn. apply PI. eapply H1; eauto.
    + intros Hh e pl x o H Hi. apply (history_iff _ _ _ Hm) in Hh. apply possible_iff in H.
      destruct (H2 Hh e pl x o H Hi) as [G1 G2]. rewrite <- initials_spec. split; [exact G1|].
      intros r p0 Hr Hp. rewrite <- initials_spec in *. apply G2; [lia|now apply rests_iff].
    + intros e pl x o ty val H Eg. apply possible_iff in H. destruct (H3 e pl x o H) as (G & _ & _).
      destruct (reached_target _ _ _ _ H) as [_ <-]. exact (G ty val Eg).
    + intros e pl x o H Ht. apply possible_iff in H. destruct (H3 e pl x o H) as (_ & G & _). apply G.
      now apply has_action_touches.
    + intros e pl x o ty b H Ea. apply possible_iff in H. destruct (H3 e pl x o H) as (_ & _ & G). eapply G; eauto.
    + intros Hu e pl He Hp D. apply (H4 Hu e pl); [now apply (events_iff _ _ _ Hm)|now apply place_is|].
      destruct D as [D|D]; [left; symmetry; now apply (candidate_list_cands m Hc)|right; now apply sleepy_iff].
  - intros [X1 X2 X3 X4 X5 X6 X7 X8].
    assert (Er : length (initials env root) = max_initials m).
    { pose proof (initials_le_max m root (root_parent m Hc)).
      assert (max_initials m <= length (initials env root)); [|lia].
      apply max_initials_bound. intros p Hp. rewrite !initials_spec. apply X2. now apply PI. }
    split.
    + split; [now apply (regs_anchored m Hc)|exact Hfew|exact Er].
    + intros e pl x o H Hi. destruct (reached_target _ _ _ _ H) as [E _]. apply possible_iff in H.
      apply PI. exact (X3 e pl x o _ H Hi E).
    + intros Hh e pl x o H Hi. apply (history_iff _ _ _ Hm) in Hh. apply possible_iff in H.
      destruct (X4 Hh e pl x o H Hi) as [G1 G2]. rewrite initials_spec. split; [exact G1|].
      intros r p0 Hr Hp. rewrite initials_spec. apply G2; [rewrite <- initials_spec; lia|now apply rests_iff].
    + intros e pl x o H. destruct (reached_target _ _ _ _ H) as [_ E]. apply possible_iff in H. split; [|split].
      * intros ty val Eg. rewrite E. eapply X5; eauto.
      * intros Ha. eapply X6; eauto. now apply has_action_touches.
      * intros ty b Ea. eapply X7; eauto.
    + intros Hu e pl He Hp D. apply (X8 Hu e pl); [now apply (events_iff _ _ _ Hm)|now apply place_is|].
      destruct D as [D|D]; [left; apply (candidate_list_cands m Hc); now symmetry|right; now apply sleepy_iff].
Qed.

(** ** Machines that are well formed *)
Lemma wpm_xpm : wpm m -> objm m -> xpm m.
Proof.
  intros Hw Ho. destruct Hw as [W1 W2 W3 W4 W5]. split.
  - now split.
  - intros e pl x o H Hi. apply W2. eapply (cands_flat m); eauto. eapply reached_in; eauto.
  - intros Hh e pl x o H Hi. destruct (cands_support m Hm _ _ _ W1 (reached_in m _ _ _ H)) as [_ Hp].
    destruct pl as [p q]. apply (in_places m) in Hp. destruct Hp as [Hp _]. cbn [fst].
    assert (Pos : 0 < max_initials m) by apply (max_pos m Hc). split.
    + pose proof (W5 Hh p Hp) as E. intros E0. rewrite E0 in E. cbn in E. lia.
    + intros r p0 Hr Hrest. rewrite (W5 Hh p0); [lia|]. destruct Hrest as [q0 Hq _|q0 x0 o0 H0 _|pl0 x0 o0 H0 Hi0 <-].
      * apply (in_places m) in Hq. apply Hq.
      * destruct (cands_support m Hm _ _ _ W1 (reached_in m _ _ _ H0)) as [_ Hq]. apply (in_places m) in Hq. apply Hq.
      * apply W2. eapply (cands_flat m); eauto. eapply reached_in; eauto.
  - intros e pl x o H. eapply om_cands; eauto. eapply reached_in; eauto.
  - intros Hu e [p q] He Hp _. apply (in_places m) in Hp. apply (om_handler m Ho Hu). apply Hp.
Qed.

(** ** The check *)
Lemma guarded_b_iff c : guarded_b c = true <-> guarded c.
Proof. destruct c as [|x o]; cbn; [split; [discriminate|tauto]|]. destruct (x_guard x); cbn; split; congruence. Qed.
Lemma reached_of_iff cs c : In c (reached_of cs) <-> exists l1 l2, cs = l1 ++ c :: l2 /\ Forall guarded l1.
Proof.
  induction cs as [|c0 cs IH]; cbn [reached_of].
  - split; [intros []|]. intros ([|? ?] & l2 & E & _); discriminate.
  - split.
    + intros [->|H]; [exists [], cs; split; auto|]. destruct (guarded_b c0) eqn:G; [|destruct H].
      apply IH in H. destruct H as (l1 & l2 & -> & Hg). exists (c0 :: l1), l2. split; [reflexivity|].
      constructor; [now apply guarded_b_iff|exact Hg].
    + intros ([|c1 l1] & l2 & E & Hg); inversion E; subst; [now left|]. right. inversion Hg as [|? ? G1 G2]; subst.
      rewrite (proj2 (guarded_b_iff c1) G1). apply IH. eauto.
Qed.
Lemma reached_at_iff e pl c : In c (reached_at m e pl) <-> reached m e pl c.
Proof. apply reached_of_iff. Qed.

Lemma in_prod_places pl : In pl (list_prod (parents m) (states m)) <-> In pl (places m).
Proof. destruct pl as [p q]. rewrite in_prod_iff, (in_places m). reflexivity. Qed.

Section Supported.
Hypothesis Hr : regs_ok m.
Lemma reached_support e pl c : reached m e pl c -> In e (events m) /\ In pl (places m).
Proof. intros H. apply (cands_support m Hm e pl c Hr). now apply reached_in. Qed.

Lemma rests_check_iff e p0 : In p0 (parents m) -> (rests_check m e p0 = true <-> rests m e p0).
Proof.
  intros Hp0. unfold rests_check. rewrite orb_true_iff, !existsb_exists. split.
  - intros [(q & Hq & H)|(pl & Hp & H)].
    + apply orb_true_iff in H. destruct H as [H|H].
      * apply (rs_refused m e p0 q); [now apply (in_places m)|].
        apply Forall_forall. intros c Hcc. rewrite forallb_forall in H. now apply guarded_b_iff, H.
      * apply existsb_exists in H. destruct H as ([|x o] & H & Hi); [discriminate|].
        apply reached_at_iff in H. eapply rs_internal; eauto.
    + apply existsb_exists in H. destruct H as ([|x o] & H & Hi); [discriminate|].
      apply andb_true_iff in Hi. destruct Hi as [H1 H2]. apply negb_true_iff in H1. apply Nat.eqb_eq in H2.
      apply reached_at_iff in H. eapply rs_external; eauto.
  - intros [q Hq Hg|q x o H Hi|pl x o H Hi Hp].
    + left. apply (in_places m) in Hq. exists q. split; [apply Hq|]. apply orb_true_iff. left. apply forallb_forall.
      intros c Hcc. rewrite Forall_forall in Hg. now apply guarded_b_iff, Hg.
    + left. destruct (reached_support _ _ _ H) as [_ Hq]. apply (in_places m) in Hq. exists q. split; [apply Hq|].
      apply orb_true_iff. right. apply existsb_exists. exists (CRow x o). split; [now apply reached_at_iff|exact Hi].
    + right. destruct (reached_support _ _ _ H) as [_ Hq]. exists pl. split; [now apply in_prod_places|].
      apply existsb_exists. exists (CRow x o). split; [now apply reached_at_iff|]. rewrite Hi. cbn. now apply Nat.eqb_eq.
Qed.

Lemma external_b_iff e pl : existsb external_b (reached_at m e pl) = true <->
  exists x o, reached m e pl (CRow x o) /\ x_int x = false.
Proof.
  rewrite existsb_exists. split.
  - intros ([|x o] & H & Hi); [discriminate|]. apply reached_at_iff in H. apply negb_true_iff in Hi. eauto.
  - intros (x & o & H & Hi). exists (CRow x o). split; [now apply reached_at_iff|]. cbn. now rewrite Hi.
Qed.
Lemma any_external_iff e : any_external m e = true <-> exists pl x o, reached m e pl (CRow x o) /\ x_int x = false.
Proof.
  unfold any_external. rewrite existsb_exists. split.
  - intros (pl & _ & H). apply external_b_iff in H. destruct H as (x & o & H). eauto.
  - intros (pl & x & o & H & Hi). exists pl. split; [apply in_prod_places; eapply reached_support; eauto|].
    apply external_b_iff. eauto.
Qed.

Definition reach_parents : Prop := forall e pl x o, reached m e pl (CRow x o) -> x_int x = false ->
  In (resolve_dst_parent env x) (parents m).
Lemma rests_parent e p0 : reach_parents -> rests m e p0 -> In p0 (parents m).
Proof.
  intros Ht [q Hq _|q x o H _|pl x o H Hi <-].
  - apply (in_places m) in Hq. apply Hq.
  - destruct (reached_support _ _ _ H) as [_ Hq]. apply (in_places m) in Hq. apply Hq.
  - eapply Ht; eauto.
Qed.

Lemma sleep_check_iff : reach_parents -> length (initials env root) = max_initials m ->
  (sleep_check m = true <-> sleepy m).
Proof.
  intros Ht Er. unfold sleep_check, sleepy, parallel. rewrite andb_true_iff, Er, existsb_exists. split.
  - intros [H (e & He & H')]. split; [exact H|]. apply andb_true_iff in H'. destruct H' as [H1 H2].
    apply any_external_iff in H1. destruct H1 as (pl & x & o & H1 & Hi).
    apply existsb_exists in H2. destruct H2 as (p0 & Hp0 & H2). apply andb_true_iff in H2. destruct H2 as [H2 H3].
    apply rests_check_iff in H2; [|exact Hp0]. apply Nat.eqb_eq in H3. apply length_zero_iff_nil in H3.
    exists e, pl, x, o, p0. auto.
  - intros [H (e & pl & x & o & p0 & H1 & Hi & H2 & H3)]. split; [exact H|]. exists e.
    split; [eapply reached_support; eauto|]. apply andb_true_iff. split; [apply any_external_iff; eauto|].
    apply existsb_exists. exists p0. pose proof (rests_parent _ _ Ht H2) as Hp0. split; [exact Hp0|].
    apply andb_true_iff. split; [now apply rests_check_iff|]. rewrite H3. reflexivity.
Qed.

Definition enough_history : Prop := forall e pl x o, reached m e pl (CRow x o) -> x_int x = false ->
  initials env (fst pl) <> [] /\ forall r p0, 0 < r < max_initials m -> rests m e p0 -> r < length (initials env p0).
Lemma history_check_iff : reach_parents -> length (initials env root) = max_initials m ->
  (forallb (history_ok m) (events m) = true <-> enough_history).
Proof.
  intros Ht Er. rewrite forallb_forall. unfold history_ok. split.
  - intros H e pl x o Hre Hi. destruct (reached_support _ _ _ Hre) as [He Hpl]. specialize (H e He).
    apply andb_true_iff in H. destruct H as [H1 H2]. split.
    + rewrite forallb_forall in H1. specialize (H1 pl (proj2 (in_prod_places pl) Hpl)).
      rewrite (proj2 (external_b_iff e pl)) in H1 by eauto. cbn [negb orb] in H1. apply Nat.ltb_lt in H1.
      intros E. rewrite E in H1. cbn in H1. lia.
    + intros r p0 Hr0 Hrest. rewrite (proj2 (any_external_iff e)) in H2 by eauto. cbn [negb orb] in H2.
      rewrite forallb_forall in H2. pose proof (rests_parent _ _ Ht Hrest) as Hp0. specialize (H2 p0 Hp0).
      rewrite (proj2 (rests_check_iff e p0 Hp0) Hrest) in H2. cbn [negb orb] in H2. apply Nat.leb_le in H2. lia.
  - intros H e He. apply andb_true_iff. split.
    + apply forallb_forall. intros pl Hpl. destruct (existsb external_b (reached_at m e pl)) eqn:E; [|reflexivity].
      cbn [negb orb]. apply external_b_iff in E. destruct E as (x & o & H1 & Hi).
      destruct (H e pl x o H1 Hi) as [G _]. apply Nat.ltb_lt. destruct (initials env (fst pl)); [congruence|cbn; lia].
    + destruct (any_external m e) eqn:E; [|reflexivity]. cbn [negb orb]. apply any_external_iff in E.
      destruct E as (pl & x & o & H1 & Hi). destruct (H e pl x o H1 Hi) as [_ G].
      apply forallb_forall. intros p0 Hp0. destruct (rests_check m e p0) eqn:E; [|reflexivity]. cbn [negb orb].
      apply rests_check_iff in E; [|exact Hp0]. apply Nat.leb_le. rewrite Er.
      destruct (Nat.le_gt_cases (max_initials m) 1) as [Hle|Hgt]; [lia|].
      specialize (G (max_initials m - 1) p0 ltac:(lia) E). lia.
Qed.

Definition handled : Prop := forall e pl, In e (events m) -> In pl (places m) ->
  cands m e pl = [] \/ sleepy m -> defctor env (snd pl) = true.
Lemma handler_check_iff : reach_parents -> length (initials env root) = max_initials m ->
  (handler_ok m = true <-> handled).
Proof.
  intros Ht Er. unfold handler_ok. rewrite forallb_forall. split.
  - intros H e pl He Hp D. specialize (H e He). rewrite forallb_forall in H.
    specialize (H pl (proj2 (in_prod_places pl) Hp)). destruct D as [D|D].
    + now rewrite D in H.
    + apply (sleep_check_iff Ht Er) in D. rewrite D in H. destruct (cands m e pl); exact H.
  - intros H e He. apply forallb_forall. intros pl Hp. apply in_prod_places in Hp.
    destruct (cands m e pl) eqn:E; [apply (H e pl); auto|].
    destruct (sleep_check m) eqn:Es; [|reflexivity]. apply (sleep_check_iff Ht Er) in Es. cbn [negb orb]. apply (H e pl); auto.
Qed.
End Supported.

Lemma exact_check_xpm : exact_check m = true <-> xpm m.
Proof.
  unfold exact_check. rewrite !andb_true_iff.
  assert (F : match fill_dispatch m 0 (empty_tables m) with Some _ => true | None => false end = true <-> regs_ok m).
  { rewrite <- (fill_ok_iff m Hc 0 (empty_tables m) (empty_tables_shape m)).
    destruct (fill_dispatch m 0 (empty_tables m)); split; eauto; try discriminate. intros [? ?]; discriminate. }
  rewrite F. split.
  - intros [[[[H1 H2] H3] H4] H5]. rewrite forallb_forall in H2.
    assert (Er : length (initials env root) = max_initials m).
    { pose proof (initials_le_max m root (root_parent m Hc)).
      assert (max_initials m <= length (initials env root)); [|lia].
      apply max_initials_bound. intros p Hp. apply Nat.leb_le. now apply H2. }
    assert (R : forall e pl x o, reached m e pl (CRow x o) -> target_ok m (CRow x o) && cand_check env (CRow x o) = true).
    { intros e pl x o H. destruct (reached_support H1 _ _ _ H) as [He Hp]. rewrite forallb_forall in H3. specialize (H3 e He).
      rewrite forallb_forall in H3. specialize (H3 pl (proj2 (in_prod_places pl) Hp)).
      rewrite forallb_forall in H3. apply H3. now apply reached_at_iff. }
    assert (Ht : reach_parents).
    { intros e pl x o H Hi. specialize (R e pl x o H). apply andb_true_iff in R. destruct R as [R _]. cbn in R.
      rewrite Hi in R. now apply memb_iff in R. }
    split.
    + now split.
    + exact Ht.
    + intros Hh. rewrite Hh in H4. now apply (history_check_iff H1 Ht Er).
    + intros e pl x o H. specialize (R e pl x o H). apply andb_true_iff in R. now apply cand_check_iff.
    + intros Hu. rewrite Hu in H5. now apply (handler_check_iff H1 Ht Er).
  - intros [[B1 B2 B3] X1 X2 X3 X4]. split; [split; [split; [split|]|]|].
    + exact B1.
    + apply forallb_forall. intros p Hp. apply Nat.leb_le. rewrite B3. now apply initials_le_max.
    + apply forallb_forall. intros e He. apply forallb_forall. intros pl Hp. apply forallb_forall. intros [|x o] H; [reflexivity|].
      apply reached_at_iff in H. apply andb_true_iff. split; [|apply cand_check_iff; eauto].
      cbn. destruct (x_int x) eqn:Hi; [reflexivity|]. apply memb_iff. eauto.
    + destruct (has_history m) eqn:Hh; [|reflexivity]. cbn [negb orb]. apply (history_check_iff B1 X1 B3). exact (X2 eq_refl).
    + destruct (cd_unexpected (lookup env root)) eqn:Hu; [|reflexivity]. cbn [negb orb].
      apply (handler_check_iff B1 X1 B3). exact (X4 eq_refl).
Qed.
End Iff.

(** * The theorems *)
Lemma exact_suffices env root m : compile env root = Some m -> few_regions env root ->
  no_anonymous_deferral env root -> exactly_safe env root -> never_undefined env root m.
Proof.
  intros Hm Hf Ha Hx V W cb vnone fuel d w ks Ht u E. pose proof (few_max_compiled _ _ _ Hm Hf) as Hmax.
  apply (typed_all env root m ks Hm) in Ht.
  destruct (compile_comp _ _ _ Hm) as (Hc & He & Hr). subst env root.
  apply (xpm_iff m Hm Hmax) in Hx. apply (anonm_iff m Hm) in Ha.
  pose proof (session_exact m Hm Hx Ha cb vnone fuel d w ks Ht) as P. rewrite E in P. exact P.
Qed.
Lemma exact_needed env root m : compile env root = Some m -> few_regions env root ->
  never_undefined env root m -> exactly_safe env root.
Proof.
  intros Hm Hf Hn. pose proof (few_max_compiled _ _ _ Hm Hf) as Hmax.
  assert (Hn' : forall fuel w ks, Forall (typed m) ks -> forall u, session scripted m tt fuel 0 w ks <> Undef u).
  { intros fuel w ks Ht. apply Hn. eapply Forall_impl; [|exact Ht]. intros k. now apply (typed_iff env root m k Hm). }
  destruct (compile_comp _ _ _ Hm) as (Hc & He & Hr). subst env root.
  apply (xpm_iff m Hm Hmax). now apply need_all.
Qed.
Lemma exact_iff env root m : compile env root = Some m -> few_regions env root ->
  no_anonymous_deferral env root -> (exactly_safe env root <-> never_undefined env root m).
Proof. intros Hm Hf Ha. split; [now apply exact_suffices|now apply exact_needed]. Qed.
Lemma exact_check_decides env root m : compile env root = Some m -> few_regions env root ->
  (exact_check m = true <-> exactly_safe env root).
Proof.
  intros Hm Hf. pose proof (few_max_compiled _ _ _ Hm Hf) as Hmax.
  destruct (compile_comp _ _ _ Hm) as (Hc & He & Hr). subst env root.
  rewrite (exact_check_xpm m Hm Hmax). now apply xpm_iff.
Qed.
Lemma well_formed_exact env root m : compile env root = Some m -> well_formed env root -> exactly_safe env root.
Proof.
  intros Hm [H1 H2 _]. pose proof (few_max_compiled _ _ _ Hm (wp_few _ _ H1)) as Hmax.
  destruct (compile_comp _ _ _ Hm) as (Hc & He & Hr). subst env root.
  apply (xpm_iff m Hm Hmax). apply wpm_xpm; [exact Hm|exact Hmax|now apply wpm_iff|now apply objm_iff].
Qed.
