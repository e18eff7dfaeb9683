(** The merged program behaves like the program. *)

From Coq Require Import List Arith NArith Bool Lia.
From Verif Require Import Types Static Dispatch Runtime Spec Semantics ListFacts RefineFacts StaticFacts RegionFacts ReorderSwap Flat FlatFacts FlatAccept EquivUse Merge MergeFacts.
Import ListNotations.

Section Merged.
Variables (lab : naming) (env : cenv) (root : cls).
Hypothesis Hf : flat env root.
Notation env' := (merged lab env root).
Notation P := (equals lab env root).
Notation rep := (stand_in env root P).
Notation all_states := (all_states env root).

Lemma merged_lookup c : c <> root -> lookup env' c = lookup env c.
Proof. intros H. unfold merged. cbn [lookup]. destruct (Nat.eq_dec c root); [contradiction|reflexivity]. Qed.
Lemma merged_root : lookup env' root =
  mkCdef (Some (merged_table lab env root)) (cd_internal (lookup env root)) (cd_entry (lookup env root)) (cd_exit (lookup env root)) (cd_unexpected (lookup env root)) (cd_defer (lookup env root)) (cd_defctor (lookup env root)).
Proof. unfold merged. cbn [lookup]. destruct (Nat.eq_dec root root); [reflexivity|contradiction]. Qed.
Lemma merged_flags c : cd_internal (lookup env' c) = cd_internal (lookup env c) /\ cd_entry (lookup env' c) = cd_entry (lookup env c) /\
  cd_exit (lookup env' c) = cd_exit (lookup env c) /\ cd_unexpected (lookup env' c) = cd_unexpected (lookup env c) /\
  cd_defer (lookup env' c) = cd_defer (lookup env c) /\ cd_defctor (lookup env' c) = cd_defctor (lookup env c).
Proof.
  destruct (Nat.eq_dec c root) as [-> | N]; [rewrite merged_root; repeat split|]. rewrite (merged_lookup c N). repeat split.
Qed.
Lemma merged_rows : table env' root = map (merged_row env root P) (filter (keeps_row env root P) (table env root)).
Proof. unfold table at 1. rewrite merged_root. reflexivity. Qed.

Lemma goal_entries r : In r (table env root) -> entries lab env (rep (r_tgt r)) = entries lab env (r_tgt r).
Proof.
  intros H. symmetry. apply (eq_in _ _ _ _ (equals_equivalence lab env root)). apply rep_equal, goal_state, H.
Qed.
Lemma merged_deeds r : In r (table env root) -> map lab (deeds env' (merged_row env root P r)) = map lab (deeds env r).
Proof.
  intros H. pose proof (goal_entries r H) as G. unfold deeds. cbn [merged_row r_src r_act r_tgt]. rewrite !map_app. f_equal; [|f_equal].
  - destruct (r_src r); try reflexivity. now rewrite (proj1 (proj2 (proj2 (merged_flags c)))).
  - assert (X : forall en t, map lab (match t with SState b => if cd_entry (lookup en b) then [CEntry b] else [] | _ => [] end) = entries lab en t).
    { intros en []; try reflexivity. cbn [entries]. destruct (cd_entry (lookup en c)); reflexivity. }
    rewrite !X, <- G. unfold entries. destruct (rep (r_tgt r)); try reflexivity. now rewrite (proj1 (proj2 (merged_flags c))).
Qed.
Lemma merged_rows_for q e : rep q = q -> rows_for env' root q e = map (merged_row env root P) (rows_for env root q e).
Proof.
  intros Hq. unfold rows_for. rewrite merged_rows, map_rev. f_equal. induction (table env root) as [|r l IH]; [reflexivity|].
  cbn [filter]. destruct (keeps_row env root P r) eqn:K; cbn [map filter].
  - replace (row_for q e (merged_row env root P r)) with (row_for q e r) by reflexivity. destruct (row_for q e r); cbn [map]; now rewrite IH.
  - rewrite IH. destruct (row_for q e r) eqn:F; [|reflexivity]. exfalso. unfold row_for in F. destruct (sref_eq_dec (unmarked (r_src r)) q) as [E|]; [|discriminate].
    unfold keeps_row in K. rewrite E, Hq in K. destruct (sref_eq_dec q q); [discriminate|contradiction].
Qed.
Definition led (x : move) : move := (fst x, rep (snd x)).
Lemma cut_led : forall l, cut (map led l) = map led (cut l).
Proof. induction l as [|[[g ds] t] l IH]; [reflexivity|]. cbn [map cut led fst snd]. destruct g; cbn [map]; [now rewrite IH|reflexivity]. Qed.
Lemma merged_moves q e : rep q = q -> moves lab env' root q e = map led (moves lab env root q e).
Proof.
  intros Hq. unfold moves. rewrite (merged_rows_for q e Hq), map_map, <- cut_led. f_equal. rewrite map_map. apply map_ext_in.
  intros r Hr. apply rows_for_In in Hr. unfold move_of at 1, led. rewrite (merged_deeds r (proj1 Hr)). reflexivity.
Qed.
Lemma moved_alike q q' e : In (q, q') P -> rep q' = q' -> Forall2 (alike_move P) (moves lab env root q e) (moves lab env' root q' e).
Proof.
  intros H Hq. rewrite (merged_moves q' e Hq). pose proof (equals_alike lab env root q q' e H) as F.
  induction F as [|x y l l' [E I] F IH]; constructor; [|exact IH]. split; [exact E|]. cbn [led snd].
  apply (eq_trans_ _ _ _ _ (equals_equivalence lab env root) _ _ _ I). apply rep_equal. apply (eq_in _ _ _ _ (equals_equivalence lab env root) _ _ I).
Qed.
Lemma moved_kept q' e x : rep q' = q' -> In x (moves lab env' root q' e) -> rep (snd x) = snd x.
Proof.
  intros Hq H. rewrite (merged_moves q' e Hq) in H. apply in_map_iff in H. destruct H as (y & <- & Hy). cbn [led snd].
  destruct (moves_row lab env root q' e y Hy) as (r & Hr & _ & _ & ->). apply rep_rep, goal_state, Hr.
Qed.
Lemma play_end {V W} (f : code V W) d e : forall ms v w o ks t w', play f d e ms v w = (o, ks, Some t, w') -> exists x, In x ms /\ snd x = t.
Proof.
  induction ms as [|[[[g|] ds] t0] ms IH]; intros v w o ks t w'; cbn [play]; [discriminate| |].
  - destruct (f g e d v w) as [[] v1 w1|n v1 w1]; [| |discriminate].
    + destruct (carry f d e ds v1 w1) as [[n ks1] w2]. intros [= <- <- <- <-]. eexists. split; [now left|reflexivity].
    + destruct (play f d e ms v1 w1) as [[[o1 ks1] t1] w2] eqn:E. intros [= <- <- -> <-]. destruct (IH _ _ _ _ _ _ E) as (x & Hx & Ex). exists x. split; [now right|exact Ex].
  - destruct (carry f d e ds v w) as [[n ks1] w2]. intros [= <- <- <- <-]. eexists. split; [now left|reflexivity].
Qed.
Lemma answer_end {V W} (f : code V W) d e hd ms v w o ks t w' : answer f d e hd ms v w = (o, ks, Some t, w') -> exists x, In x ms /\ snd x = t.
Proof.
  unfold answer. destruct ms as [|x ms]; [|apply play_end]. unfold handled. destruct hd as [c|]; [destruct (f c e d v w)|]; discriminate.
Qed.
Lemma react_merged {V W} (f : code V W) d q q' e v w o ks q1 w1 : In (q, q') P -> rep q' = q' ->
  react (behind lab f) env root d q e v w = (o, ks, q1, w1) ->
  exists ks' q1', react (behind lab f) env' root d q' e v w = (o, ks', q1', w1) /\ map (told lab) ks' = map (told lab) ks /\ In (q1, q1') P /\ rep q1' = q1'.
Proof.
  intros H Hq E. destruct (react (behind lab f) env' root d q' e v w) as [[[o' ks'] q1'] w1'] eqn:E'.
  apply react_told in E, E'. destruct E as (t & A & ->), E' as (t' & A' & ->).
  replace (handler_name lab env' root) with (handler_name lab env root) in A' by (unfold handler_name; now rewrite (proj1 (proj2 (proj2 (proj2 (merged_flags root)))))).
  destruct (answer_alike f d e P (handler_name lab env root) _ _ (moved_alike q q' e H Hq) v w) as (o2 & ks2 & t1 & t2 & w2 & B1 & B2 & L).
  rewrite B1 in A. rewrite B2 in A'. injection A as -> E1 -> ->. injection A' as <- E2 -> <-. exists ks', (match t' with Some t' => t' | None => q' end).
  split; [reflexivity|]. split; [congruence|]. destruct t as [t|], t' as [t'|]; try destruct L.
  - split; [exact L|]. destruct (answer_end _ _ _ _ _ _ _ _ _ _ _ B2) as (x & Hx & <-). exact (moved_kept q' e x Hq Hx).
  - split; assumption.
Qed.
Lemma reacts_merged {V W} (f : code V W) d : forall l q q' w os ks q1 w1, In (q, q') P -> rep q' = q' ->
  reacts (behind lab f) env root d q l w = (os, ks, q1, w1) ->
  exists ks' q1', reacts (behind lab f) env' root d q' l w = (os, ks', q1', w1) /\ map (told lab) ks' = map (told lab) ks /\ In (q1, q1') P /\ rep q1' = q1'.
Proof.
  induction l as [|[e v] l IH]; intros q q' w os ks q1 w1 H Hq; cbn [reacts].
  - intros [= <- <- <- <-]. exists [], q'. repeat split; assumption.
  - destruct (react (behind lab f) env root d q e v w) as [[[o2 ks2] q2] w2] eqn:E. destruct (react_merged f d q q' e v w _ _ _ _ H Hq E) as (ks2' & q2' & -> & T & H2 & Hq2).
    destruct (reacts (behind lab f) env root d q2 l w2) as [[[os3 ks3] q3] w3] eqn:E3. destruct (IH _ _ _ _ _ _ _ H2 Hq2 E3) as (ks3' & q3' & -> & T3 & H3 & Hq3).
    intros [= <- <- <- <-]. exists (ks2' ++ ks3'), q3'. rewrite !map_app, T, T3. repeat split; assumption.
Qed.

(** * The merged program is again a one-table program that compiles *)

Lemma merged_In r' : In r' (table env' root) <-> exists r, In r (table env root) /\ keeps_row env root P r = true /\ r' = merged_row env root P r.
Proof.
  rewrite merged_rows, in_map_iff. split.
  - intros (r & <- & H). apply filter_In in H. exists r. tauto.
  - intros (r & H1 & H2 & ->). exists r. split; [reflexivity|]. apply filter_In. tauto.
Qed.
Lemma state_leaf q : In q all_states -> exists a, q = SState a /\ ~ composite env a.
Proof.
  intros H. apply (child_leaf env root Hf). unfold Merge.all_states in H. destruct (first_initial env root) as [i|] eqn:E.
  - destruct H as [<- | H]; [|now apply children_In]. apply (initial_child env root Hf). unfold first_initial in E.
    destruct (initial_states env root); [discriminate|]. injection E as ->. now left.
  - now apply children_In.
Qed.
Lemma leaf_merged a : ~ composite env a -> ~ composite env' a.
Proof.
  unfold composite. intros H. rewrite merged_lookup; [exact H|]. intros ->. exact (H (root_composite env root Hf)).
Qed.
Lemma merged_initial : initial_states env' root = initial_states env root.
Proof.
  unfold initial_states. do 2 f_equal. unfold mentioned. rewrite merged_rows.
  assert (M : forall r, In r (table env root) -> marked (r_src r) = true -> keeps_row env root P r = true).
  { intros r Hr M. assert (I : In (unmarked (r_src r)) (initial_states env root)).
    { unfold initial_states. apply in_map. rewrite <- unique_dedup, unique_In, filter_In. split; [|exact M]. apply in_flat_map. exists r. split; [exact Hr|now left]. }
    pose proof (fl_one _ _ Hf) as L. destruct (initial_states env root) as [|i [|j l]] eqn:E; try discriminate L.
    destruct I as [I|[]]. unfold keeps_row. rewrite <- I, (rep_initial lab env root i); [|unfold first_initial; now rewrite E].
    destruct (sref_eq_dec i i); [reflexivity|contradiction]. }
  assert (T : forall r, In r (table env root) -> marked (r_tgt r) = false /\ marked (rep (r_tgt r)) = false).
  { intros r Hr. pose proof (goal_state env root r Hr) as G. destruct (state_leaf _ (rep_state lab env root _ G)) as (b & Eb & _).
    rewrite Eb. split; [|reflexivity]. destruct (state_leaf _ G) as (a & -> & _). reflexivity. }
  induction (table env root) as [|r l IH]; [reflexivity|]. assert (IH' := IH (fun r Hr => M r (or_intror Hr)) (fun r Hr => T r (or_intror Hr))).
  destruct (T r (or_introl eq_refl)) as [T1 T2]. specialize (M r (or_introl eq_refl)). cbn [flat_map filter app].
  destruct (keeps_row env root P r) eqn:K; cbn [map flat_map filter app merged_row r_src r_tgt]; rewrite ?T1, ?T2.
  - destruct (marked (r_src r)); now rewrite IH'.
  - destruct (marked (r_src r)); [specialize (M eq_refl); discriminate|exact IH'].
Qed.
Lemma merged_flat : flat env' root.
Proof.
  split.
  - intros r' H. apply merged_In in H. destruct H as (r & Hr & _ & ->). cbn [merged_row r_ev r_src r_tgt]. destruct (fl_rows _ _ Hf r Hr) as (A & (a & Ea & Na) & _).
    split; [exact A|]. split; [exists a; split; [exact Ea|now apply leaf_merged]|].
    destruct (state_leaf _ (rep_state lab env root _ (goal_state env root r Hr))) as (b & Eb & Nb). exists b. split; [exact Eb|now apply leaf_merged].
  - rewrite merged_initial. exact (fl_one _ _ Hf).
  - intros c. destruct (fl_classes _ _ Hf c) as (A & B & C). destruct (merged_flags c) as (F1 & _ & _ & _ & F2 & F3). unfold internals in *. rewrite F1, F2, F3. auto.
Qed.
Lemma merged_children s : In s (children env' root) -> In s (children env root) /\ rep s = s.
Proof.
  rewrite !children_In. intros (r' & H & Hs). apply merged_In in H. destruct H as (r & Hr & K & ->). cbn [merged_row r_src r_tgt] in Hs. destruct Hs as [-> | ->].
  - split; [exists r; auto|]. unfold keeps_row in K. destruct (sref_eq_dec (rep (unmarked (r_src r))) (unmarked (r_src r))); [assumption|discriminate].
  - pose proof (goal_state env root r Hr) as G. split; [|now apply rep_rep]. pose proof (rep_state lab env root _ G) as S. apply children_In.
    unfold Merge.all_states in S. destruct (first_initial env root) as [i|] eqn:E; [|exact S]. destruct S as [<- | S]; [|exact S].
    apply children_In. apply (initial_child env root Hf). unfold first_initial in E. destruct (initial_states env root); [discriminate|]. injection E as ->. now left.
Qed.
Lemma merged_fewer : length (children env' root) <= length (children env root).
Proof. apply NoDup_incl_length; [apply children_NoDup|]. intros s H. apply (merged_children s H). Qed.
Lemma merged_compiles : (exists m, compile env root = Some m) -> exists m, compile env' root = Some m.
Proof.
  rewrite (flat_accepted env root Hf), (flat_accepted env' root merged_flat). intros (H1 & H2 & H3). split; [|split].
  - intros r' ty b H. apply merged_In in H. destruct H as (r & Hr & _ & ->). cbn [merged_row r_act]. now apply H1.
  - intros i E. rewrite (proj1 (merged_flags i)). apply H2. revert E. unfold first_initial. now rewrite merged_initial.
  - apply N.le_lt_trans with (2 := H3). pose proof merged_fewer. lia.
Qed.
Lemma event_row e : event_of env root e <-> exists r, In r (table env root) /\ r_ev r = e.
Proof.
  unfold event_of. split.
  - intros (x & [H|H] & E); [|now apply (flat_no_internal env root Hf) in H]. apply (flat_declared_row env root Hf) in H. destruct H as (r & Hr & ->). exists r. split; [exact Hr|exact E].
  - intros (r & Hr & E). exists (row_in root r). split; [|exact E]. left. apply (flat_declared_row env root Hf). eauto.
Qed.
End Merged.
Lemma merged_events lab env root e : flat env root -> event_of env root e <-> event_of (merged lab env root) root e.
Proof.
  intros Hf. rewrite (event_row env root Hf), (event_row _ root (merged_flat lab env root Hf)). split.
  - intros (r & Hr & He). pose proof (source_state env root r Hr) as S. set (q := unmarked (r_src r)) in *.
    assert (N : moves lab env root q e <> []).
    { intros H. apply cut_nil, map_eq_nil in H. assert (I : In r (rows_for env root q e)).
      { unfold rows_for. rewrite <- in_rev, filter_In. split; [exact Hr|]. unfold row_for. subst e q. destruct (sref_eq_dec _ _); [|contradiction]. now destruct (ev_eq_dec _ _). }
      rewrite H in I. destruct I. }
    pose proof (moved_alike lab env root q _ e (rep_equal lab env root q S) (rep_rep lab env root q S)) as F.
    destruct (moves lab (merged lab env root) root (stand_in env root (equals lab env root) q) e) as [|x l] eqn:E; [inversion F; congruence|].
    destruct (moves_row lab (merged lab env root) root (stand_in env root (equals lab env root) q) e x) as (r' & Hr' & _ & He' & _); [rewrite E; now left|]. eauto.
  - intros (r' & H & He). apply (merged_In lab env root) in H. destruct H as (r & Hr & _ & ->). eauto.
Qed.

(** The same results, the same calls as user code sees them, the same data; the state is
    the one that stands for the state of the program. *)
Lemma merged_session lab env root m m' : compile env root = Some m -> flat env root -> compile (merged lab env root) root = Some m' ->
  exists bound, forall V W (f : code V W) vnone fuel d w l, bound <= fuel -> Forall (fun ev => event_of env root (fst ev)) l ->
  exists outs s s' q,
    session (behind lab f) m vnone fuel d w (map (fun ev => KProcess (fst ev) (snd ev)) l) = Done outs s /\
    session (behind lab f) m' vnone fuel d w (map (fun ev => KProcess (fst ev) (snd ev)) l) = Done outs s' /\
    map (told lab) (rt_trace s') = map (told lab) (rt_trace s) /\ rt_world s' = rt_world s /\
    at_place m s 0 = Some (root, q) /\ at_place m' s' 0 = Some (root, stand_in env root (equals lab env root) q).
Proof.
  intros Hm Hf Hm'. destruct (flat_session env root m Hm Hf) as (b1 & B1). destruct (flat_session _ root m' Hm' (merged_flat lab env root Hf)) as (b2 & B2).
  exists (b1 + b2). intros V W f vnone fuel d w l Hb Hl.
  assert (L' : Forall (fun ev => event_of (merged lab env root) root (fst ev)) l).
  { apply (Forall_impl _ (P := fun ev => event_of env root (fst ev))); [|exact Hl]. intros x. apply (merged_events lab env root (fst x) Hf). }
  destruct (first_initial env root) as [i|] eqn:Ei.
  2:{ pose proof (fl_one _ _ Hf) as L. unfold first_initial in Ei. destruct (initial_states env root); discriminate. }
  destruct (reacts (behind lab f) env root d i l w) as [[[os ks] q] w'] eqn:E.
  assert (Si : In i (all_states env root)) by (unfold all_states; rewrite Ei; now left).
  destruct (reacts_merged lab env root f d l i i w os ks q w' (eq_refl_ _ _ _ _ (equals_equivalence lab env root) i Si) (rep_initial lab env root i Ei) E) as (ks' & q' & E' & T & Hq & Rq).
  destruct (B1 V W (behind lab f) vnone fuel d w l i os ks q w' ltac:(lia) Hl eq_refl E) as (s & S1 & S2 & S3 & S4).
  assert (Ei' : first_initial (merged lab env root) root = Some i) by (unfold first_initial; rewrite (merged_initial lab env root Hf); exact Ei).
  destruct (B2 V W (behind lab f) vnone fuel d w l i os ks' q' w' ltac:(lia) L' Ei' E') as (s' & S1' & S2' & S3' & S4').
  exists os, s, s', q. rewrite S3, S3', S4, S4'. repeat split; try assumption. rewrite (rep_same lab env root _ _ Hq), Rq. exact S2'.
Qed.
Lemma merged_program lab env root : flat env root -> (exists m, compile env root = Some m) ->
  (exists m', compile (merged lab env root) root = Some m') /\ flat (merged lab env root) root /\
  initial_states (merged lab env root) root = initial_states env root /\
  (forall e, event_of env root e <-> event_of (merged lab env root) root e) /\
  (forall s, In s (children (merged lab env root) root) -> In s (children env root)).
Proof.
  intros Hf H. split; [exact (merged_compiles lab env root Hf H)|]. split; [exact (merged_flat lab env root Hf)|]. split; [exact (merged_initial lab env root Hf)|].
  split; [intros e; exact (merged_events lab env root e Hf)|]. intros s Hs. exact (proj1 (merged_children lab env root Hf s Hs)).
Qed.
