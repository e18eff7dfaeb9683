(** The conditions of Safe.v: what they mean for a compiled machine, that the check
    decides them, and that they suffice. *)

From Coq Require Import List Arith NArith Bool Lia.
From Verif Require Import Types Static Dispatch Runtime ListFacts IndexFacts Spec
  DispatchFacts FlattenFacts Semantics RefineFacts StaticFacts TermFacts Reach ReachFacts TableFacts
  QueryFacts ProcessFacts Safe SafeFacts.
Import ListNotations.

Lemma max_initials_bound m k : (forall p, In p (parents m) -> length (initials (mc_env m) p) <= k) ->
  max_initials m <= k.
Proof.
  unfold max_initials. induction (parents m) as [|p l IH]; intros H; cbn; [lia|].
  assert (length (initials (mc_env m) p) <= k) by (apply H; now left).
  assert (fold_right Nat.max 0 (map (fun p => length (initials (mc_env m) p)) l) <= k).
  { apply IH. intros q Hq. apply H. now right. }
  lia.
Qed.

(** * Places *)
Section Placed.
Variable m : machine.
Notation env := (mc_env m).
Notation root := (mc_root m).
Hypothesis Hm : compile env root = Some m.
Let Hc : comp m := proj1 (compile_comp _ _ _ Hm).

Lemma target_parent x : In x (mc_flat m) ->
  exists q, target_place env x = Some (resolve_dst_parent env x, q) /\ In q (states m).
Proof.
  intros Hx. pose proof (cp_rows m Hc x (in_or_app _ _ _ (or_introl Hx))) as Ha.
  destruct (dst_of_target m x (row_accepted_dst m x Ha)) as [_ E].
  destruct (row_accepted_states m x Ha) as [Hs _]. eauto.
Qed.

Lemma wpm_iff : wpm m <-> well_placed env root.
Proof.
  split.
  - intros [W1 W2 W3 W4 W5].
    assert (PI : forall p, is_parent (mc_env m) (mc_root m) p <-> In p (parents m)) by (intros; now rewrite (parent_iff m Hc)).
    split.
    + now apply (regs_anchored m Hc).
    + intros x pl Hx Ht. apply (flat_declared m Hc) in Hx.
      destruct (target_parent x Hx) as (q & E & _). rewrite E in Ht. inversion Ht; subst. cbn.
      apply PI. now apply W2.
    + intros p Hp. rewrite <- initials_spec. apply PI in Hp. pose proof (initials_le_max m p Hp). lia.
    + intros p Hp. rewrite <- !initials_spec, W4. apply initials_le_max. now apply PI.
    + intros Hh p Hp. rewrite <- !initials_spec, W4. apply W5; [|now apply PI].
      apply (history_iff _ _ _ Hm). exact Hh.
  - intros [W1 W2 W3 W4 W5].
    assert (PI : forall p, is_parent (mc_env m) (mc_root m) p <-> In p (parents m)) by (intros; now rewrite (parent_iff m Hc)).
    assert (Hroot : length (initials (mc_env m) (mc_root m)) = max_initials m).
    { pose proof (initials_le_max m (mc_root m) (root_parent m Hc)).
      assert (max_initials m <= length (initials (mc_env m) (mc_root m))); [|lia].
      apply max_initials_bound. intros p Hp. rewrite !initials_spec. apply W4. now apply PI. }
    split.
    + now apply (regs_anchored m Hc).
    + intros x Hx. destruct (target_parent x Hx) as (q & E & _).
      apply (flat_declared m Hc) in Hx. specialize (W2 x _ Hx E). now apply PI.
    + apply max_initials_bound. intros p Hp. rewrite initials_spec. apply W3. now apply PI.
    + exact Hroot.
    + intros Hh p Hp. rewrite <- Hroot, !initials_spec. apply W5; [|now apply PI].
      now apply (history_iff _ _ _ Hm).
Qed.

Lemma memb_iff {A} dec (a : A) l : memb dec a l = true <-> In a l.
Proof. unfold memb. destruct (in_dec dec a l); split; auto; discriminate. Qed.

Lemma placed_check_wpm : placed_check m = true <-> wpm m.
Proof.
  unfold placed_check.
  rewrite !andb_true_iff, orb_true_iff, !forallb_forall.
  assert (F : match fill_dispatch m 0 (empty_tables m) with Some _ => true | None => false end = true <-> regs_ok m).
  { rewrite <- (fill_ok_iff m Hc 0 (empty_tables m) (empty_tables_shape m)).
    destruct (fill_dispatch m 0 (empty_tables m)); split; eauto; try discriminate. intros [? ?]; discriminate. }
  rewrite F. split.
  - intros [[[[H1 H2] H3] H4] H5].
    assert (Hroot : length (initials (mc_env m) (mc_root m)) = max_initials m).
    { pose proof (initials_le_max m (mc_root m) (root_parent m Hc)).
      assert (max_initials m <= length (initials (mc_env m) (mc_root m))); [|lia].
      apply max_initials_bound. intros p Hp. apply Nat.leb_le. now apply H4. }
    split; auto.
    + intros x Hx. apply memb_iff with (dec := Nat.eq_dec). now apply H2.
    + apply max_initials_bound. intros p Hp. apply Nat.leb_le. now apply H3.
    + intros Hh p Hp. rewrite Hh in H5. destruct H5 as [H5|H5]; [discriminate|].
      rewrite <- Hroot. apply Nat.eqb_eq. now apply H5.
  - intros [W1 W2 W3 W4 W5]. split; [split; [split; [split; [exact W1|]|]|]|].
    + intros x Hx. apply memb_iff. now apply W2.
    + intros p Hp. apply Nat.leb_le. pose proof (initials_le_max m p Hp). lia.
    + intros p Hp. apply Nat.leb_le. rewrite W4. now apply initials_le_max.
    + destruct (has_history m); [right|now left]. intros p Hp. apply Nat.eqb_eq.
      rewrite W4. now apply W5.
Qed.

(** * Objects *)
Lemma offered_iff e pl c : offered env root e pl c <-> In c (cands m e pl).
Proof.
  unfold offered. split.
  - intros (cs & H & Hi). apply (candidate_list_cands m Hc) in H. now subst.
  - intros H. exists (cands m e pl). split; [|exact H]. now apply (candidate_list_cands m Hc).
Qed.

Lemma has_action_touches x : has_action env x = true <-> touches env x.
Proof.
  unfold has_action, touches. rewrite !orb_true_iff.
  assert (A : is_some (action_ty (x_act x)) = true <-> x_act x <> NoAction).
  { destruct (x_act x); cbn; split; congruence. }
  assert (B : is_some (entry_of env (x_tgt x)) = true <->
     entry_call env (mkXrow (x_parent x) (x_src x) (x_ev x) (x_guard x) (x_act x) (x_tgt x) false) <> []).
  { unfold entry_call, entry_of, has_entry. cbn [x_int x_tgt]. destruct (x_tgt x); cbn; try (split; congruence).
    destruct (cd_entry (lookup env c)); cbn; split; congruence. }
  assert (C : is_some (initial_entry_of env (x_tgt x)) = true <-> initial_entry_call env x <> []).
  { unfold initial_entry_call, initial_entry_of, entry_of, has_entry, first_initial.
    destruct (x_tgt x) as [c| | | | |]; cbn; try (split; congruence). rewrite initials_spec.
    change (has_table env (SState c)) with (is_composite env c).
    destruct (is_composite env c); [|cbn; split; congruence].
    destruct (hd_error (initial_states env c)) as [[i| | | | |]|]; cbn; try (split; congruence).
    destruct (cd_entry (lookup env i)); cbn; split; congruence. }
  assert (D : (is_some (exit_of env (x_src x)) = true \/ is_some (pseudo_exit_of env x) = true) <->
     exit_call env (mkXrow (x_parent x) (x_src x) (x_ev x) (x_guard x) (x_act x) (x_tgt x) false) <> []).
  { unfold exit_call, exit_of, pseudo_exit_of, has_exit. cbn [x_int x_src].
    destruct (x_src x) as [c| | | |w p q|]; cbn; try (split; [intros [?|?]; congruence|intros H; congruence]).
    - destruct (cd_exit (lookup env c)); cbn; split; auto; try congruence. intros [?|?]; congruence.
    - destruct (cd_exit (lookup env p)); cbn; split; auto; try congruence. intros [?|?]; congruence. }
  rewrite A, B, C. tauto.
Qed.

Lemma reuses_b_iff : forall b, reuses_b b = true <-> reuses b.
Proof.
  induction b as [f|f|f|l IH] using abody_ind2; cbn [reuses_b].
  - split; [discriminate|intros H; inversion H].
  - split; [discriminate|intros H; inversion H].
  - split; [constructor|reflexivity].
  - rewrite Forall_forall in IH. rewrite existsb_exists. split.
    + intros (b & Hb & H). econstructor; [exact Hb|]. now apply IH.
    + intros H. inversion H as [|b l' Hb Hn]; subst. exists b. split; [exact Hb|]. now apply IH.
Qed.

(** What the objects condition says about one candidate. *)
Definition cand_ok (x : xrow) (o : sref) : Prop :=
  (forall ty val, x_guard x = Guard ty val -> defctor env o = true /\
     defctor env (if x_int x then o else dst_of m x) = true) /\
  (has_action env x = true -> defctor env o = true) /\
  (forall ty b, x_act x = Action ty b -> ~ reuses b).

Lemma cand_check_iff x o : cand_check env (CRow x o) = true <-> cand_ok x o.
Proof.
  unfold cand_check, cand_ok, dst_of. rewrite !andb_true_iff. split.
  - intros [[H1 H2] H3]. split; [|split].
    + intros ty val Eg. rewrite Eg in H1. now apply andb_true_iff in H1.
    + intros Ha. rewrite Ha in H2. exact H2.
    + intros ty b Ea. rewrite Ea in H3. rewrite <- reuses_b_iff. destruct (reuses_b b); [discriminate|congruence].
  - intros (H1 & H2 & H3). split; [split|].
    + destruct (x_guard x) as [|ty val]; [reflexivity|]. apply andb_true_iff. exact (H1 ty val eq_refl).
    + destruct (has_action env x); [exact (H2 eq_refl)|reflexivity].
    + destruct (x_act x) as [|ty b]; [reflexivity|]. specialize (H3 ty b eq_refl). rewrite <- reuses_b_iff in H3.
      destruct (reuses_b b); [congruence|reflexivity].
Qed.

Lemma cands_support e pl c : regs_ok m -> In c (cands m e pl) -> In e (events m) /\ In pl (places m).
Proof.
  intros [R1 R2] H. unfold cands, priority in H. rewrite !in_app_iff, <- !in_rev in H.
  assert (P : forall pl, inrange m pl -> In pl (places m)).
  { intros [p q] [Hp Hq]. apply (in_places m). auto. }
  assert (Q : forall l, incl l (internal_flat m ++ mc_flat m) ->
     In c (rows_at (comp_b m) (child_typeids env) e pl l) -> In e (events m) /\ In pl (places m)).
  { intros l Hl Hi. apply (rows_at_iff m) in Hi. destruct Hi as (x & o & Hx & Hev & Ho & _).
    apply Hl in Hx. split; [|apply P; exact (R1 x (pl, o) Hx Ho)].
    apply (events_spec m). exists x. split; [|exact Hev]. rewrite in_app_iff in *. tauto. }
  destruct H as [H|[H|H]].
  - apply (defers_at_iff m) in H. destruct H as [_ (x & Hx & He & ->)]. split.
    + apply (cp_defer m Hc x e Hx He).
    + apply P, (R2 x Hx). intros E. rewrite E in He. destruct He.
  - apply (Q _ (incl_appr _ (incl_refl _)) H).
  - apply (Q _ (incl_appl _ (incl_refl _)) H).
Qed.

(** The source object of a candidate is a state, as is its target. *)
Lemma cand_object e pl x o : In (CRow x o) (cands m e pl) -> In o (states m) /\ In (dst_of m x) (states m).
Proof.
  intros H. destruct (row_accepted_states m x (cands_accepted m Hc _ _ _ _ H)) as [Hd Hs].
  split; [|exact Hd]. apply (cands_sound m Hc) in H.
  assert (E : o = resolve_src x).
  { inversion H; subst; unfold source_place, resolve_src; cbn; try (destruct (x_src x); reflexivity).
    match goal with E : x_src x = _ |- _ => now rewrite E end. }
  now rewrite E.
Qed.

Record objm : Prop := mkObjm {
  om_cands : forall e pl x o, In (CRow x o) (cands m e pl) -> cand_ok x o;
  om_handler : cd_unexpected (lookup env root) = true -> forall s, In s (states m) -> defctor env s = true }.

Lemma objm_iff : objm <-> objects_exist env root.
Proof.
  assert (T : forall e pl x o, In (CRow x o) (cands m e pl) -> dst_of m x = target_state env x).
  { intros e pl x o H. apply (dst_of_target m x). eapply row_accepted_dst, cands_accepted; eauto. }
  split.
  - intros [H1 H2]. split.
    + intros e pl x o ty val Ho Eg. apply offered_iff in Ho. destruct (H1 e pl x o Ho) as (G & _ & _).
      rewrite (T e pl x o Ho) in G. exact (G ty val Eg).
    + intros e pl x o Ho Ht. apply offered_iff in Ho. destruct (H1 e pl x o Ho) as (_ & G & _).
      apply G. now apply has_action_touches.
    + intros e pl x o ty b Ho Ea. apply offered_iff in Ho. destruct (H1 e pl x o Ho) as (_ & _ & G). eapply G; eauto.
    + intros Hu q Hq. apply H2; [exact Hu|]. now apply (state_iff m Hc).
  - intros [O1 O2 O3 O4]. split.
    + intros e pl x o H. pose proof (proj2 (offered_iff e pl (CRow x o)) H) as Ho. split; [|split].
      * intros ty val Eg. rewrite (T e pl x o H). eapply O1; eauto.
      * intros Ha. eapply O2; eauto. now apply has_action_touches.
      * intros ty b Ea. eapply O3; eauto.
    + intros Hu q Hq. apply O4; [exact Hu|]. now apply (state_iff m Hc).
Qed.

Lemma objects_check_iff : wpm m -> (objects_check m = true <-> objm).
Proof.
  intros Hw. unfold objects_check. rewrite andb_true_iff, orb_true_iff, !forallb_forall. split.
  - intros [H1 H2]. split.
    + intros e pl x o H. destruct (cands_support e pl _ (wm_regs m Hw) H) as [He Hp].
      specialize (H1 e He). rewrite forallb_forall in H1. specialize (H1 pl Hp).
      rewrite forallb_forall in H1. now apply cand_check_iff, H1.
    + intros Hu q Hq. rewrite Hu in H2. destruct H2 as [H2|H2]; [discriminate|]. now apply H2.
  - intros [H1 H2]. split.
    + intros e He. apply forallb_forall. intros pl Hp. apply forallb_forall. intros [|x o] H; [reflexivity|].
      apply cand_check_iff. eapply H1; eauto.
    + destruct (cd_unexpected (lookup env root)); [right|now left]. intros q Hq. now apply H2.
Qed.

Definition anonm : Prop := has_anonymous m = true -> forall pl, ~ In CDefer (cands m ENone pl).
Lemma anonm_iff : anonm <-> no_anonymous_deferral env root.
Proof.
  unfold anonm, no_anonymous_deferral. rewrite (anonymous_iff _ _ _ Hm). split.
  - intros H Hx pl Ho. apply offered_iff in Ho. eapply H; eauto.
  - intros H Hx pl Ho. apply offered_iff in Ho. eapply H; eauto.
Qed.
Lemma anonymous_check_iff : wpm m -> (anonymous_check m = true <-> anonm).
Proof.
  intros Hw. unfold anonymous_check, anonm. rewrite orb_true_iff, forallb_forall. split.
  - intros [H|H] Ha pl Hd; [rewrite Ha in H; discriminate|].
    destruct (cands_support ENone pl _ (wm_regs m Hw) Hd) as [_ Hp]. specialize (H pl Hp).
    rewrite forallb_forall in H. specialize (H CDefer Hd). discriminate.
  - intros H. destruct (has_anonymous m); [right|now left]. intros pl Hp. apply forallb_forall.
    intros [|x o] Hc'; [|reflexivity]. exfalso. eapply H; eauto.
Qed.

Lemma check_iff : check m = true <-> well_formed env root.
Proof.
  unfold check. rewrite !andb_true_iff. split.
  - intros [[H1 H2] H3]. apply placed_check_wpm in H1. split.
    + now apply wpm_iff.
    + apply objm_iff. now apply objects_check_iff.
    + apply anonm_iff. now apply anonymous_check_iff.
  - intros [H1 H2 H3]. apply wpm_iff in H1. split; [split|].
    + now apply placed_check_wpm.
    + apply objects_check_iff; [exact H1|]. now apply objm_iff.
    + apply anonymous_check_iff; [exact H1|]. now apply anonm_iff.
Qed.

(** * User code *)
Context {V W : Type}.
Variable cb : cbfun V W.
Notation st := (rt V W).

Definition no_ub {A} (r : res V W A) : Prop := match r with Undef _ => False | _ => True end.
Definition only_null {A} (r : res V W A) : Prop := match r with Undef u => u = UBNull | _ => True end.

Lemma invoke_no_ub c a v (s : st) : no_ub (invoke cb c a v s).
Proof. unfold invoke. destruct (cb c a v (rt_world s)); exact I. Qed.
Lemma bind_no_ub {A B} (r : res V W A) (f : A -> st -> res V W B) :
  no_ub r -> (forall a s, no_ub (f a s)) -> no_ub (bind r f).
Proof. intros H1 H2. destruct r; cbn in *; auto. Qed.
Lemma bind_only_null {A B} (r : res V W A) (f : A -> st -> res V W B) :
  only_null r -> (forall a s, only_null (f a s)) -> only_null (bind r f).
Proof. intros H1 H2. destruct r; cbn in *; auto. Qed.
Lemma no_ub_only {A} (r : res V W A) : no_ub r -> only_null r.
Proof. destruct r; cbn; [auto|auto|intros []|auto]. Qed.

Lemma exec_body_no_ub t e : forall b, ~ reuses b -> forall v s, no_ub (exec_body cb b t e v s).
Proof.
  induction b as [f|f|f|l IH] using abody_ind2; intros Hr v s.
  - apply bind_no_ub; [apply invoke_no_ub|]. intros; exact I.
  - apply bind_no_ub; [apply invoke_no_ub|]. intros; exact I.
  - exfalso. apply Hr. constructor.
  - rewrite exec_body_chain. revert v s. induction IH as [|b l Hb _ IHl]; intros v s; [exact I|].
    cbn [exec_chain]. apply bind_no_ub.
    + apply Hb. intros H. apply Hr. econstructor; [now left|exact H].
    + intros v' s'. apply IHl. intros H. apply Hr. inversion H; subst. econstructor; [right; eassumption|assumption].
Qed.
Lemma exec_body_only_null t e : forall b v s, only_null (exec_body cb b t e v s).
Proof.
  induction b as [f|f|f|l IH] using abody_ind2; intros v s.
  - apply bind_only_null; [apply no_ub_only, invoke_no_ub|]. intros; exact I.
  - apply bind_only_null; [apply no_ub_only, invoke_no_ub|]. intros; exact I.
  - cbn [exec_body]. destruct (alive s (t_tgt t)); [|reflexivity].
    apply bind_only_null; [apply no_ub_only, invoke_no_ub|]. intros; exact I.
  - rewrite exec_body_chain. revert v s. induction IH as [|b l Hb _ IHl]; intros v s; [exact I|].
    cbn [exec_chain]. apply bind_only_null; [apply Hb|]. intros v' s'. apply IHl.
Qed.
Lemma exec_steps_no_ub t e : forall l, (forall b, In (StAct b) l -> ~ reuses b) -> forall v s,
  no_ub (exec_steps cb l t e v s).
Proof.
  induction l as [|a l IH]; intros Hl v s; [exact I|]. cbn [exec_steps]. apply bind_no_ub.
  - destruct a as [c|b|c|c]; cbn [exec_step]; try (apply bind_no_ub; [apply invoke_no_ub|intros; exact I]).
    apply exec_body_no_ub. apply Hl. now left.
  - intros v' s'. apply IH. intros b Hb. apply Hl. now right.
Qed.
Lemma exec_steps_only_null t e : forall l v s, only_null (exec_steps cb l t e v s).
Proof.
  induction l as [|a l IH]; intros v s; [exact I|]. cbn [exec_steps]. apply bind_only_null.
  - destruct a as [c|b|c|c]; cbn [exec_step];
      try (apply bind_only_null; [apply no_ub_only, invoke_no_ub|intros; exact I]).
    apply exec_body_only_null.
  - intros v' s'. apply IH.
Qed.
Lemma execute_action_only_null t e v s : only_null (execute_action cb t e v s).
Proof.
  unfold execute_action. destruct (t_act t); [|exact I].
  destruct (_ && _); [apply exec_steps_only_null|reflexivity].
Qed.
Lemma execute_guard_only_null t e v s : only_null (execute_guard cb t e v s).
Proof.
  unfold execute_guard. destruct (t_guard t); [exact I|].
  destruct (_ && _); [apply no_ub_only, invoke_no_ub|reflexivity].
Qed.

Lemma resolve_action_body x steps b : resolve_action env x = Some steps -> In (StAct b) steps ->
  exists ty, x_act x = Action ty b.
Proof.
  unfold resolve_action. destruct (has_action env x); [|discriminate]. intros H; inversion H; subst; clear H.
  rewrite !in_app_iff. unfold resolve_exit_action, resolve_no_action, resolve_entry_action, resolve_initial_entry_action.
  intros [H|[H|[H|H]]].
  - destruct (x_int x); [destruct H|]. destruct (exit_of env (x_src x)); [destruct H as [H|[]]; discriminate|].
    destruct (pseudo_exit_of env x); [destruct H as [H|[]]; discriminate|destruct H].
  - destruct (x_act x); [destruct H|]. destruct H as [H|[]]. inversion H. eauto.
  - destruct (x_int x); [destruct H|]. destruct (entry_of env (x_tgt x)); [destruct H as [H|[]]; discriminate|destruct H].
  - destruct (initial_entry_of env (x_tgt x)); [destruct H as [H|[]]; discriminate|destruct H].
Qed.

(** Objects of default-constructible states never disappear. *)
Definition stocked (s : st) : Prop := forall q, In q (states m) -> defctor env q = true -> In q (rt_live s).

Lemma assign_keeps live t b q : In q live -> q <> t -> In q (assign live t b).
Proof.
  intros H Hn. unfold assign. destruct b.
  - destruct (in_dec sref_eq_dec t live); [exact H|now right].
  - apply filter_In. split; [exact H|]. now destruct (sref_eq_dec q t).
Qed.
Lemma perform_keeps e d o ps v live w ks n v' live' w' q :
  perform cb e d o ps v live w ks n v' live' w' ->
  (forall p t, In p ps -> p_makes p = Some t -> t <> q) -> In q live -> In q live'.
Proof.
  intros H. induction H as [| p ps v live w b v1 w1 ks n v' live' w' Hcb H IH|]; intros Hp Hq; auto.
  apply IH; [intros p' t Hi; apply Hp; now right|].
  destruct (p_makes p) as [t|] eqn:E; [|exact Hq]. apply assign_keeps; [exact Hq|].
  intros ->. eapply Hp; [now left|exact E|reflexivity].
Qed.
Lemma body_makes at_ t p t' : forall b, In p (body_calls at_ t b) -> p_makes p = Some t' -> t' = t /\ needs_pointer b.
Proof.
  induction b as [f|f|f|l IH] using abody_ind2; cbn [body_calls].
  - intros [<-|[]]; discriminate.
  - intros [<-|[]] H. inversion H. split; [reflexivity|constructor].
  - intros [<-|[]]; discriminate.
  - rewrite in_flat_map. intros (b & Hb & Hp) H. rewrite Forall_forall in IH.
    destruct (IH b Hb Hp H) as [-> Hn]. split; [reflexivity|]. econstructor; eauto.
Qed.
Lemma effects_make x o p t : row_accepted m x = true -> In p (effects env x o) -> p_makes p = Some t ->
  defctor env t = false.
Proof.
  intros Ha H Hp. unfold effects in H. rewrite !in_app_iff in H.
  assert (P : forall l, In p (map (fun c => mkPrim c (action_target env x o) true None) l) -> False).
  { intros l Hi. apply in_map_iff in Hi. destruct Hi as (c & <- & _). discriminate. }
  destruct H as [H|[H|[H|H]]]; try (exfalso; eapply P; exact H).
  destruct (x_act x) as [|ty b] eqn:Ea; [destruct H|].
  destruct (body_makes _ _ _ _ b H Hp) as [-> Hn].
  apply (row_accepted_fine m x (cp_fl m Hc)) in Ha. exact (rf_pointer _ _ _ Ha ty b Ea Hn).
Qed.

Lemma stocked_alive (s : st) q : stocked s -> In q (states m) -> defctor env q = true -> alive s q = true.
Proof. intros H Hq Hd. unfold alive. destruct (in_dec sref_eq_dec q (rt_live s)) as [|Hn]; [reflexivity|]. exfalso. apply Hn. auto. Qed.

Lemma execute_action_stocked d x o e v (s : st) pl : In (CRow x o) (cands m e pl) -> stocked s ->
  match execute_action cb (btrans m d x o) e v s with
  | Done _ s' => stocked s'
  | Threw _ s' => stocked s'
  | _ => True
  end.
Proof.
  intros Hin Hs. pose proof (cands_accepted m Hc _ _ _ _ Hin) as Ha.
  pose proof (execute_action_sound cb m d x o e v s (row_accepted_dst m x Ha)) as P.
  assert (G : forall ks n v' l' w', perform cb e d o (effects env x o) v (rt_live s) (rt_world s) ks n v' l' w' ->
     stocked (with_live (after s w' ks) l')).
  { intros ks n v' l' w' Hp q Hq Hd. cbn. eapply perform_keeps; [exact Hp| |now apply Hs].
    intros p t Hpi Hmk ->. pose proof (effects_make x o p q Ha Hpi Hmk). congruence. }
  destruct (execute_action cb (btrans m d x o) e v s) as [v' s'|ex s'|u|]; cbn in P; auto.
  - destruct P as (ks & l' & w' & Hp & ->). eauto.
  - destruct P as (n & ks & v' & l' & w' & _ & Hp & ->). eauto.
Qed.

Lemma execute_action_defined d x o e v (s : st) pl : In (CRow x o) (cands m e pl) -> cand_ok x o -> stocked s ->
  no_ub (execute_action cb (btrans m d x o) e v s).
Proof.
  intros Hin (_ & Ho & Hr) Hs. destruct (cand_object _ _ _ _ Hin) as [Ho1 Hd1].
  unfold execute_action. cbn [t_act btrans t_src t_ptr t_int t_tgt].
  destruct (resolve_action env x) as [steps|] eqn:E; [|exact I].
  assert (Hta : has_action env x = true).
  { unfold resolve_action in E. destruct (has_action env x); [reflexivity|discriminate]. }
  rewrite (stocked_alive s o Hs Ho1 (Ho Hta)). cbn [andb].
  replace (negb (defctor env (dst_of m x)) || x_int x || alive s (dst_of m x)) with true.
  - apply exec_steps_no_ub. intros b Hb. destruct (resolve_action_body x steps b E Hb) as [ty Ea]. eapply Hr; eauto.
  - destruct (defctor env (dst_of m x)) eqn:Ed; [|reflexivity].
    rewrite (stocked_alive s _ Hs Hd1 Ed). now rewrite orb_true_r.
Qed.

Lemma execute_guard_defined d x o e v (s : st) pl : In (CRow x o) (cands m e pl) -> cand_ok x o -> stocked s ->
  no_ub (execute_guard cb (btrans m d x o) e v s).
Proof.
  intros Hin (Hg & _ & _) Hs. destruct (cand_object _ _ _ _ Hin) as [Ho1 Hd1].
  unfold execute_guard. cbn [t_guard btrans t_src t_int t_tgt].
  destruct (x_guard x) as [|ty val]; [exact I|]. destruct (Hg ty val eq_refl) as [G1 G2].
  rewrite (stocked_alive s o Hs Ho1 G1). cbn [andb].
  rewrite (stocked_alive s (if x_int x then o else dst_of m x) Hs); [apply invoke_no_ub| |exact G2].
  destruct (x_int x); assumption.
Qed.

Lemma bound_cands ds e pl d x o : In (d, CRow x o) (bound m ds e pl) -> In (CRow x o) (cands m e pl).
Proof.
  unfold bound. intros H. apply in_flat_map in H. destruct H as (d' & _ & H).
  apply in_map_iff in H. destruct H as (c & E & H). now inversion E; subst.
Qed.

(** * The two instances *)
Variable vnone : V.

(** Places only: the only undefined behaviour left is the null dereference. *)
Section Null.
Let U : ub -> Prop := fun u => u = UBNull.
Let O : st -> Prop := fun _ => True.
Let AnyCall0 : call V -> Prop := fun _ => True.
Hypothesis Hw : wpm m.
Lemma nl_same (s s' : st) : rt_cur s' = rt_cur s -> rt_hist s' = rt_hist s -> rt_live s' = rt_live s -> O s -> O s'.
Proof. intros; exact I. Qed.
Lemma nl_guard ds d0 (s : st) r pl e d x o v : sinv m ds d0 O s -> r < max_initials m ->
  at_place m s r = Some pl -> In (d, CRow x o) (bound m ds e pl) ->
  match execute_guard cb (btrans m d x o) e v s with Undef u => U u | _ => True end.
Proof. intros _ _ _ _. apply (execute_guard_only_null (btrans m d x o) e v s). Qed.
Lemma nl_fire ds d0 (s s1 : st) r pl e d x o v : sinv m ds d0 O s -> r < max_initials m ->
  at_place m s r = Some pl -> In (d, CRow x o) (bound m ds e pl) ->
  placed m ds d0 s1 -> moves m r x s s1 ->
  match execute_action cb (btrans m d x o) e v s1 with
  | Done _ s' => O s'
  | Threw _ s' => O s'
  | Undef u => U u
  | Timeout => True
  end.
Proof.
  intros _ _ _ _ _ _. pose proof (execute_action_only_null (btrans m d x o) e v s1) as P.
  destruct (execute_action cb (btrans m d x o) e v s1); try exact I; exact P.
Qed.
Lemma nl_anon pl : has_anonymous m = true -> In CDefer (cands m ENone pl) -> U UBNull.
Proof. reflexivity. Qed.
Lemma nl_handler ds d0 (s : st) pl : sinv m ds d0 O s -> at_place m s 0 = Some pl ->
  cd_unexpected (lookup env root) = true -> alive s (snd pl) = true \/ U UBNull.
Proof. intros _ _ _. now right. Qed.
Lemma nl_set ds d0 r p q (s s' : st) : AnyCall0 (KSet r p q) -> sinv m ds d0 O s ->
  In p (parents m) -> In q (states m) -> placed m ds d0 s' -> rt_live s' = rt_live s -> rt_hist s' = rt_hist s ->
  (forall k, at_place m s' k = if Nat.eq_dec k (to_region r) then Some (p, q) else at_place m s k) -> O s'.
Proof. intros; exact I. Qed.
Lemma nl_new d (s : st) : placed m [d] d s -> rt_live s = filter (defctor env) (states m) ->
  (forall r pl, at_place m s r = Some pl -> fst pl = root /\ In (snd pl) (initials env root)) ->
  rt_hist s = initial_table m -> O s.
Proof. intros; exact I. Qed.

Lemma session_only_null fuel d w ks : Forall (typed m) ks ->
  match session cb m vnone fuel d w ks with
  | Done _ s' => exists ds', placed m ds' d s'
  | Threw _ _ => False
  | Undef u => u = UBNull
  | Timeout => True
  end.
Proof.
  intros Ht.
  pose proof (session_safe cb m Hc Hw vnone U O AnyCall0 nl_same nl_guard nl_fire nl_anon nl_handler nl_set nl_new
    fuel d w ks Ht) as P.
  assert (Hk : Forall AnyCall0 ks) by (apply Forall_forall; intros; exact I). specialize (P Hk).
  destruct (session cb m vnone fuel d w ks) as [os s'|x s'|u|]; auto.
  destruct P as (ds' & P & _). eauto.
Qed.
Lemma reachable_placed ds d0 s : reachable cb m vnone ds d0 s -> placed m ds d0 s.
Proof.
  intros R.
  apply (reachable_safe cb m Hc Hw vnone U O AnyCall0 nl_same nl_guard nl_fire nl_anon nl_handler nl_set nl_new
    ds d0 s); [intros; exact I|exact R].
Qed.
Lemma call_only_null fuel ds d0 s k : reachable cb m vnone ds d0 s -> typed m k ->
  match do_call_catch cb m vnone fuel k s with
  | Done _ s' => placed m (deps_after k ds) d0 s'
  | Threw _ _ => False
  | Undef u => u = UBNull
  | Timeout => True
  end.
Proof.
  intros R Ht. apply reachable_placed in R.
  pose proof (call_safe cb m Hc Hw vnone U O AnyCall0 nl_same nl_guard nl_fire nl_anon nl_handler nl_set
    fuel ds d0 k s (conj R I) Ht I) as P.
  destruct (do_call_catch cb m vnone fuel k s); auto. apply P.
Qed.
End Null.

(** Everything. *)
Section All.
Hypothesis Hw : wpm m.
Hypothesis Ho : objm.
Hypothesis Ha : anonm.
Let NoUB : ub -> Prop := fun _ => False.
Let AnyCall : call V -> Prop := fun _ => True.
Lemma st_same (s s' : st) : rt_cur s' = rt_cur s -> rt_hist s' = rt_hist s -> rt_live s' = rt_live s -> stocked s -> stocked s'.
Proof. unfold stocked. intros _ _ ->. auto. Qed.
Lemma st_guard ds d0 (s : st) r pl e d x o v : sinv m ds d0 stocked s -> r < max_initials m ->
  at_place m s r = Some pl -> In (d, CRow x o) (bound m ds e pl) ->
  match execute_guard cb (btrans m d x o) e v s with Undef u => NoUB u | _ => True end.
Proof.
  intros [_ Hs] _ _ Hin. apply bound_cands in Hin.
  pose proof (execute_guard_defined d x o e v s pl Hin (om_cands Ho _ _ _ _ Hin) Hs) as P.
  destruct (execute_guard cb (btrans m d x o) e v s); auto.
Qed.
Lemma st_fire ds d0 (s s1 : st) r pl e d x o v : sinv m ds d0 stocked s -> r < max_initials m ->
  at_place m s r = Some pl -> In (d, CRow x o) (bound m ds e pl) ->
  placed m ds d0 s1 -> moves m r x s s1 ->
  match execute_action cb (btrans m d x o) e v s1 with
  | Done _ s' => stocked s'
  | Threw _ s' => stocked s'
  | Undef u => NoUB u
  | Timeout => True
  end.
Proof.
  intros [_ Hs] _ _ Hin _ Hmv. apply bound_cands in Hin.
  assert (Hs1 : stocked s1).
  { destruct (moves_rest m _ _ _ _ Hmv) as (_ & El & _). unfold stocked. rewrite El. exact Hs. }
  pose proof (execute_action_defined d x o e v s1 pl Hin (om_cands Ho _ _ _ _ Hin) Hs1) as P.
  pose proof (execute_action_stocked d x o e v s1 pl Hin Hs1) as Q.
  destruct (execute_action cb (btrans m d x o) e v s1); auto.
Qed.
Lemma st_handler ds d0 (s : st) pl : sinv m ds d0 stocked s -> at_place m s 0 = Some pl ->
  cd_unexpected (lookup env root) = true -> alive s (snd pl) = true \/ NoUB UBNull.
Proof.
  intros [P Hs] Hat Hu. left.
  assert (Hq : In (snd pl) (states m)).
  { unfold at_place in Hat. destruct (nth_error (rt_cur s) 0) as [[c|]|]; try discriminate.
    destruct pl as [p q]. apply (places_at_inv m Hc) in Hat. apply Hat. }
  apply stocked_alive; auto. now apply (om_handler Ho).
Qed.
Lemma st_new d (s : st) : placed m [d] d s -> rt_live s = filter (defctor env) (states m) ->
  (forall r pl, at_place m s r = Some pl -> fst pl = root /\ In (snd pl) (initials env root)) ->
  rt_hist s = initial_table m -> stocked s.
Proof. intros _ El _ _ q Hq Hd. rewrite El. now apply filter_In. Qed.

Lemma session_defined fuel d w ks : Forall (typed m) ks ->
  match session cb m vnone fuel d w ks with
  | Done _ s' => exists ds', sinv m ds' d stocked s'
  | Timeout => True
  | _ => False
  end.
Proof.
  intros Ht.
  pose proof (session_safe cb m Hc Hw vnone NoUB stocked AnyCall st_same st_guard st_fire
    (fun pl H1 H2 => Ha H1 pl H2) st_handler) as P.
  specialize (P ltac:(intros ds d0 r p q s s' _ [_ Hs] _ _ _ El _ _; unfold stocked; rewrite El; exact Hs) st_new fuel d w ks Ht).
  assert (Hk : Forall AnyCall ks) by (apply Forall_forall; intros; exact I). specialize (P Hk).
  destruct (session cb m vnone fuel d w ks); auto.
Qed.
Lemma reachable_stocked ds d0 s : reachable cb m vnone ds d0 s -> sinv m ds d0 stocked s.
Proof.
  intros R. apply (reachable_safe cb m Hc Hw vnone NoUB stocked AnyCall st_same st_guard st_fire
    (fun pl H1 H2 => Ha H1 pl H2) st_handler); auto.
  - intros ds' d0' r p q s0 s' _ [_ Hs] _ _ _ El _ _. unfold stocked. rewrite El. exact Hs.
  - exact st_new.
  - intros; exact I.
Qed.
Lemma call_defined fuel ds d0 s k : reachable cb m vnone ds d0 s -> typed m k ->
  match do_call_catch cb m vnone fuel k s with
  | Done _ s' => sinv m (deps_after k ds) d0 stocked s'
  | Timeout => True
  | _ => False
  end.
Proof.
  intros R Ht. apply reachable_stocked in R.
  pose proof (call_safe cb m Hc Hw vnone NoUB stocked AnyCall st_same st_guard st_fire
    (fun pl H1 H2 => Ha H1 pl H2) st_handler) as P.
  specialize (P ltac:(intros ds' d0' r p q s0 s' _ [_ Hs] _ _ _ El _ _; unfold stocked; rewrite El; exact Hs) fuel ds d0 k s R Ht I).
  destruct (do_call_catch cb m vnone fuel k s); auto.
Qed.
Lemma process_defined fuel ds d0 s e v : reachable cb m vnone ds d0 s -> In e (events m) ->
  no_ub (process_event cb m vnone fuel e v s).
Proof.
  intros R He. apply reachable_stocked in R.
  pose proof (process_event_safe cb m Hc Hw vnone ds d0 NoUB stocked st_same (st_guard ds d0) (st_fire ds d0)
    (fun pl H1 H2 => Ha H1 pl H2) (st_handler ds d0) fuel e v s He R) as P.
  destruct (process_event cb m vnone fuel e v s); cbn in *; auto.
Qed.
End All.
End Placed.

(** * In terms of the program *)
Lemma typed_iff {V} env root m (k : call V) : compile env root = Some m ->
  typed m k <-> well_typed env root k.
Proof.
  intros Hm. pose proof (compile_comp _ _ _ Hm) as (Hc & He & Hr).
  destruct k as [e v|r p q|p|r p q|d|]; cbn; try tauto.
  - now rewrite (events_iff _ _ _ Hm).
  - rewrite <- He, <- Hr, (parent_iff m Hc), (state_iff m Hc). tauto.
Qed.
Lemma typed_all {V} env root m (ks : list (call V)) : compile env root = Some m ->
  Forall (well_typed env root) ks -> Forall (typed m) ks.
Proof. intros Hm. apply Forall_impl. intros k. now apply typed_iff. Qed.

Section Program.
Context {V W : Type}.
Variable cb : cbfun V W.
Variables (env : cenv) (root : cls) (m : machine).
Hypothesis Hm : compile env root = Some m.

Lemma compiled_itself : compile (mc_env m) (mc_root m) = Some m /\ mc_env m = env /\ mc_root m = root.
Proof. destruct (compile_comp _ _ _ Hm) as (_ & He & Hr). now rewrite He, Hr. Qed.

Lemma check_decides : check m = true <-> well_formed env root.
Proof. destruct compiled_itself as (Hm' & He & Hr). rewrite (check_iff m Hm'). now rewrite He, Hr. Qed.
Lemma placed_check_decides : placed_check m = true <-> well_placed env root.
Proof.
  destruct compiled_itself as (Hm' & He & Hr). rewrite (placed_check_wpm m Hm'), (wpm_iff m Hm'). now rewrite He, Hr.
Qed.
Lemma wpm_placed : well_placed env root -> wpm m.
Proof.
  destruct compiled_itself as (Hm' & He & Hr). intros H. apply (wpm_iff m Hm'). now rewrite He, Hr.
Qed.
Lemma wf_inv : well_formed env root -> wpm m /\ objm m /\ anonm m.
Proof.
  destruct compiled_itself as (Hm' & He & Hr). intros [H1 H2 H3].
  split; [now apply wpm_placed|]. rewrite <- He, <- Hr in H2, H3. split.
  - now apply (objm_iff m Hm').
  - now apply (anonm_iff m Hm').
Qed.

Lemma session_well_formed vnone fuel d w ks : well_formed env root ->
  Forall (well_typed env root) ks ->
  (forall u, session cb m vnone fuel d w ks <> Undef u) /\
  (forall ex s, session cb m vnone fuel d w ks <> Threw ex s).
Proof.
  intros Hw Ht. destruct (wf_inv Hw) as (H1 & H2 & H3). destruct compiled_itself as (Hm' & _).
  pose proof (session_defined m Hm' cb vnone H1 H2 H3 fuel d w ks (typed_all env root m ks Hm Ht)) as P.
  destruct (session cb m vnone fuel d w ks); split; intros; try discriminate; contradiction.
Qed.
Lemma call_well_formed vnone fuel ds d0 s k : well_formed env root ->
  reachable cb m vnone ds d0 s -> well_typed env root k ->
  (forall u, do_call_catch cb m vnone fuel k s <> Undef u) /\
  (forall ex s', do_call_catch cb m vnone fuel k s <> Threw ex s').
Proof.
  intros Hw R Ht. destruct (wf_inv Hw) as (H1 & H2 & H3). destruct compiled_itself as (Hm' & _).
  pose proof (call_defined m Hm' cb vnone H1 H2 H3 fuel ds d0 s k R (proj2 (typed_iff env root m k Hm) Ht)) as P.
  destruct (do_call_catch cb m vnone fuel k s); split; intros; try discriminate; contradiction.
Qed.
Lemma session_well_placed vnone fuel d w ks u : well_placed env root ->
  Forall (well_typed env root) ks -> session cb m vnone fuel d w ks = Undef u -> u = UBNull.
Proof.
  intros Hw Ht E. destruct compiled_itself as (Hm' & _).
  pose proof (session_only_null m Hm' cb vnone (wpm_placed Hw) fuel d w ks (typed_all env root m ks Hm Ht)) as P.
  now rewrite E in P.
Qed.

Lemma placed_sound ds d0 (s : rt V W) : placed m ds d0 s -> sound_state env root m s.
Proof.
  intros P. destruct compiled_itself as (_ & He & Hr).
  pose proof (proj1 (compile_comp _ _ _ Hm)) as Hc.
  assert (RE : forall r, region_exists env root r <-> r < max_initials m).
  { intros r. now apply region_exists_max. }
  assert (PL : forall pl, In pl (places m) -> is_place env root pl).
  { intros pl H. rewrite <- He, <- Hr. now apply (in_places_iff m Hc). }
  assert (PA : forall p, is_parent env root p -> In p (parents m)).
  { intros p H. apply (parent_iff m Hc). now rewrite He, Hr. }
  split.
  - intros r H. apply RE in H. destruct (pd_at _ _ _ _ P r H) as [pl E]. exists pl. split; [exact E|].
    apply PL. unfold at_place in E. destruct (nth_error (rt_cur s) r) as [[c|]|]; try discriminate.
    eapply nth_error_In; eauto.
  - intros p r c Hp E. destruct (pd_hist _ _ _ _ P p r c (PA p Hp) E) as (pl & E' & H0).
    exists pl. split; [|split; [|exact H0]].
    + destruct pl as [p0 q0]. destruct (places_at_inv m Hc _ _ _ E') as (Hp0 & Hq0 & ->). symmetry. now apply code_combined.
    + apply PL. eapply nth_error_In; eauto.
  - intros r. rewrite RE, <- (ti_cur _ _ _ _ (pd_tinv _ _ _ _ P)). apply nth_error_Some.
  - intros p r Hp. apply PA in Hp. destruct (hist_row m Hc ds d0 s p P Hp) as (l & E & El).
    rewrite <- initials_spec, <- He, <- El. unfold history_of. rewrite E. apply nth_error_Some.
  - intros r H. apply RE. pose proof (pd_rinv _ _ _ _ P) as Q.
    pose proof (current_regions_le m Hc ds d0 (fun _ => True) s (conj P I)). lia.
  - intros e v H. apply (events_iff _ _ _ Hm). eapply (pd_queue _ _ _ _ P); eauto.
Qed.
Lemma reachable_sound vnone ds d0 s : well_placed env root -> reachable cb m vnone ds d0 s ->
  sound_state env root m s.
Proof.
  intros Hw R. apply wpm_placed in Hw. destruct compiled_itself as (Hm' & _).
  eapply placed_sound. eapply (reachable_placed m Hm' cb vnone Hw); eauto.
Qed.
End Program.
