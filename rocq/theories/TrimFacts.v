(** The program without the states no row leads to does the same. *)

From Coq Require Import List Arith NArith Bool Lia.
From Verif Require Import Types Static Dispatch Runtime Spec Semantics ListFacts RefineFacts StaticFacts RegionFacts ReorderSwap Flat FlatFacts FlatAccept
  EquivUse Merge MergeFacts MergeRun MergeLeast Trim.
Import ListNotations.

Lemma tried_In r : forall l, In r (tried l) -> In r l.
Proof. induction l as [|x l IH]; cbn [tried]; [intros []|]. destruct (r_guard x); intros [H|H]; [now left|destruct H|now left|right; auto]. Qed.
Lemma cut_tried lab env : forall l, cut (map (move_of lab env) l) = map (move_of lab env) (tried l).
Proof.
  induction l as [|x l IH]; [reflexivity|]. cbn [map cut tried move_of fst]. unfold guard_name. destruct (r_guard x); cbn [map]; [reflexivity|].
  now rewrite IH.
Qed.
Lemma led_gets lab env root q : led_to lab env root q <-> gets_to env root q.
Proof.
  split.
  - induction 1 as [i E|q e x H IH Hx]; [now constructor|]. unfold moves in Hx. rewrite cut_tried in Hx. apply in_map_iff in Hx.
    destruct Hx as (r & <- & Hr). exact (gt_row env root q e r IH Hr).
  - induction 1 as [i E|q e r H IH Hr]; [now constructor|]. apply (led_row lab env root q e (move_of lab env r) IH). unfold moves. rewrite cut_tried.
    now apply in_map.
Qed.

Section Trimmed.
Variables (env : cenv) (root : cls).
Hypothesis Hf : flat env root.
Notation env' := (trimmed env root).
Notation got := (got env root).
Notation all_states := (all_states env root).

Lemma goals_In q t : In t (goals env root q) <-> exists e r, In r (tried (rows_for env root q e)) /\ r_tgt r = t.
Proof.
  unfold goals. rewrite in_flat_map. split.
  - intros (e & _ & H). apply in_map_iff in H. destruct H as (r & E & Hr). eauto.
  - intros (e & r & Hr & E). exists e. split; [|apply in_map_iff; eauto]. apply nodup_In. pose proof (tried_In _ _ Hr) as I.
    apply rows_for_In in I. unfold all_events. apply in_map_iff. exists r. tauto.
Qed.
Lemma round_In l t : In t (round env root l) <-> In t l \/ exists q, In q l /\ In t (goals env root q).
Proof. unfold round. now rewrite nodup_In, in_app_iff, in_flat_map. Qed.
Lemma round_states l : incl l all_states -> incl (round env root l) all_states.
Proof.
  intros I t Ht. apply round_In in Ht. destruct Ht as [Ht|(q & _ & Ht)]; [auto|]. apply goals_In in Ht. destruct Ht as (e & r & Hr & <-).
  apply tried_In, rows_for_In in Hr. now apply goal_state.
Qed.
Lemma grow_spec : forall n l, NoDup l -> incl l all_states -> length all_states < n + length l ->
  incl l (grow env root n l) /\ NoDup (grow env root n l) /\ incl (grow env root n l) all_states /\
  forall q t, In q (grow env root n l) -> In t (goals env root q) -> In t (grow env root n l).
Proof.
  induction n as [|n IH]; intros l N I L; cbn [grow].
  - exfalso. pose proof (NoDup_incl_length N I). cbn in L. lia.
  - assert (I' : incl l (round env root l)) by (intros x Hx; apply round_In; auto).
    assert (N' : NoDup (round env root l)) by apply NoDup_nodup. pose proof (NoDup_incl_length N I') as Le.
    destruct (Nat.eqb_spec (length (round env root l)) (length l)) as [E|E].
    + split; [apply incl_refl|]. split; [exact N|]. split; [exact I|]. intros q t Hq Ht.
      assert (B : incl (round env root l) l) by (apply NoDup_length_incl; [exact N|lia|exact I']). apply B, round_In. right. eauto.
    + destruct (IH (round env root l) N' (round_states l I) ltac:(lia)) as (A & B & C & D). split; [|auto].
      intros x Hx. apply A, I', Hx.
Qed.
Lemma grow_gets : forall n l, Forall (gets_to env root) l -> Forall (gets_to env root) (grow env root n l).
Proof.
  induction n as [|n IH]; intros l F; cbn [grow]; [exact F|]. destruct (Nat.eqb _ _); [exact F|]. apply IH. apply Forall_forall.
  rewrite Forall_forall in F. intros t Ht. apply round_In in Ht. destruct Ht as [Ht|(q & Hq & Ht)]; [auto|]. apply goals_In in Ht.
  destruct Ht as (e & r & Hr & <-). exact (gt_row env root q e r (F q Hq) Hr).
Qed.
Lemma got_closed : (forall i, first_initial env root = Some i -> In i got) /\
  (forall q e r, In q got -> In r (tried (rows_for env root q e)) -> In (r_tgt r) got) /\ incl got all_states.
Proof.
  unfold Trim.got. destruct (first_initial env root) as [i|] eqn:E.
  - assert (I : incl [i] all_states) by (intros x [<-|[]]; unfold Merge.all_states; rewrite E; now left).
    destruct (grow_spec (length all_states) [i]) as (A & _ & C & D); [constructor; [intros []|constructor]|exact I|cbn; lia|].
    split; [|split; [|exact C]].
    + intros j [= <-]. apply A. now left.
    + intros q e r Hq Hr. apply (D q); [exact Hq|]. apply goals_In. eauto.
  - split; [discriminate|]. split; [intros q e r []|intros x []].
Qed.
Lemma got_iff q : In q got <-> gets_to env root q.
Proof.
  split.
  - unfold Trim.got. destruct (first_initial env root) as [i|] eqn:E; [|intros []]. intros H.
    pose proof (grow_gets (length all_states) [i] ltac:(constructor; [now constructor|constructor])) as F. rewrite Forall_forall in F. auto.
  - destruct got_closed as (A & B & _). induction 1; eauto.
Qed.

Lemma trimmed_root : lookup env' root =
  mkCdef (Some (trimmed_table env root)) (cd_internal (lookup env root)) (cd_entry (lookup env root)) (cd_exit (lookup env root)) (cd_unexpected (lookup env root)) (cd_defer (lookup env root)) (cd_defctor (lookup env root)).
Proof. unfold trimmed. cbn [lookup]. destruct (Nat.eq_dec root root); [reflexivity|contradiction]. Qed.
Lemma trimmed_lookup c : c <> root -> lookup env' c = lookup env c.
Proof. intros H. unfold trimmed. cbn [lookup]. destruct (Nat.eq_dec c root); [contradiction|reflexivity]. Qed.
Lemma trimmed_flags c : cd_internal (lookup env' c) = cd_internal (lookup env c) /\ cd_entry (lookup env' c) = cd_entry (lookup env c) /\
  cd_exit (lookup env' c) = cd_exit (lookup env c) /\ cd_unexpected (lookup env' c) = cd_unexpected (lookup env c) /\
  cd_defer (lookup env' c) = cd_defer (lookup env c) /\ cd_defctor (lookup env' c) = cd_defctor (lookup env c).
Proof. destruct (Nat.eq_dec c root) as [-> | N]; [rewrite trimmed_root; repeat split|]. rewrite (trimmed_lookup c N). repeat split. Qed.
Lemma trimmed_rows : table env' root = map (trimmed_row got) (filter (starts_in got) (table env root)).
Proof. unfold table at 1. rewrite trimmed_root. reflexivity. Qed.
Lemma starts_iff r : starts_in got r = true <-> In (unmarked (r_src r)) got.
Proof. unfold starts_in. destruct (in_dec _ _ _); split; auto; discriminate. Qed.
Lemma trimmed_In r' : In r' (table env' root) <-> exists r, In r (table env root) /\ In (unmarked (r_src r)) got /\ r' = trimmed_row got r.
Proof.
  rewrite trimmed_rows, in_map_iff. split.
  - intros (r & <- & H). apply filter_In in H. rewrite starts_iff in H. exists r. tauto.
  - intros (r & H1 & H2 & ->). exists r. split; [reflexivity|]. apply filter_In. rewrite starts_iff. tauto.
Qed.
Lemma trimmed_rows_for q e : In q got -> rows_for env' root q e = map (trimmed_row got) (rows_for env root q e).
Proof.
  intros Hq. unfold rows_for. rewrite trimmed_rows, map_rev. f_equal. induction (table env root) as [|r l IH]; [reflexivity|].
  cbn [filter]. destruct (starts_in got r) eqn:K; cbn [map filter].
  - replace (row_for q e (trimmed_row got r)) with (row_for q e r) by reflexivity. destruct (row_for q e r); cbn [map]; now rewrite IH.
  - rewrite IH. destruct (row_for q e r) eqn:F; [|reflexivity]. exfalso. unfold row_for in F. destruct (sref_eq_dec (unmarked (r_src r)) q) as [E|]; [|discriminate].
    rewrite <- E in Hq. apply starts_iff in Hq. congruence.
Qed.
Lemma trimmed_same r : In (r_tgt r) got -> trimmed_row got r = r.
Proof. intros H. unfold trimmed_row. destruct (in_dec _ _ _); [|contradiction]. now destruct r. Qed.
Lemma choose_trimmed {V W} (cb : cbfun V W) d q e : forall rs v w, (forall r, In r (tried rs) -> In (r_tgt r) got) ->
  choose cb d q e (map (trimmed_row got) rs) v w = choose cb d q e rs v w.
Proof.
  induction rs as [|r rs IH]; intros v w H; [reflexivity|]. cbn [map choose].
  assert (T : trimmed_row got r = r) by (apply trimmed_same, H; cbn [tried]; destruct (r_guard r); now left). rewrite T.
  destruct (r_guard r) as [|ty val] eqn:G; [reflexivity|]. cbn zeta. destruct (cb _ _ v w) as [[] v1 w1|n v1 w1]; [reflexivity| |reflexivity].
  rewrite IH; [reflexivity|]. intros r' Hr. apply H. cbn [tried]. rewrite G. now right.
Qed.
Lemma choose_tried {V W} (cb : cbfun V W) d q e r : forall rs v w ks v1 w1, choose cb d q e rs v w = (Chosen r, ks, v1, w1) -> In r (tried rs).
Proof.
  induction rs as [|x rs IH]; intros v w ks v1 w1; cbn [choose tried]; [discriminate|]. destruct (r_guard x) as [|ty val].
  - intros [= <- _ _ _]. now left.
  - destruct (cb _ _ v w) as [[] v2 w2|n v2 w2]; [intros [= <- _ _ _]; now left| |discriminate].
    destruct (choose cb d q e rs v2 w2) as [[[c ks2] v3] w3] eqn:E. intros [= -> _ _ _]. right. exact (IH _ _ _ _ _ E).
Qed.
Lemma trimmed_deeds r : deeds env' r = deeds env r.
Proof.
  unfold deeds. f_equal; [|f_equal].
  - destruct (r_src r); try reflexivity. now rewrite (proj1 (proj2 (proj2 (trimmed_flags c)))).
  - destruct (r_tgt r); try reflexivity. now rewrite (proj1 (proj2 (trimmed_flags c))).
Qed.
Lemma react_trimmed {V W} (cb : cbfun V W) d q e v w : In q got ->
  react cb env' root d q e v w = react cb env root d q e v w /\ In (snd (fst (react cb env root d q e v w))) got.
Proof.
  intros Hq. unfold react. rewrite (trimmed_rows_for q e Hq), (proj1 (proj2 (proj2 (proj2 (trimmed_flags root))))).
  pose proof (fun r => proj1 (proj2 got_closed) q e r Hq) as T. destruct (rows_for env root q e) as [|r rs] eqn:E.
  - cbn [map]. split; [reflexivity|]. destruct (cd_unexpected (lookup env root)); [destruct (cb _ _ v w)|]; exact Hq.
  - cbn [map]. change (trimmed_row got r :: map (trimmed_row got) rs) with (map (trimmed_row got) (r :: rs)). rewrite (choose_trimmed cb d q e (r :: rs) v w T).
    destruct (choose cb d q e (r :: rs) v w) as [[[[|x|n] ks] v1] w1] eqn:C; try (split; [reflexivity|exact Hq]).
    rewrite trimmed_deeds. split; [reflexivity|]. destruct (carry_out _ _ _ _ _ _ _ _) as [[n ks'] w2]. exact (T x (choose_tried cb d q e x _ _ _ _ _ _ C)).
Qed.
Lemma reacts_trimmed {V W} (cb : cbfun V W) d : forall l q w, In q got -> reacts cb env' root d q l w = reacts cb env root d q l w.
Proof.
  induction l as [|[e v] l IH]; intros q w Hq; [reflexivity|]. cbn [reacts]. destruct (react_trimmed cb d q e v w Hq) as [-> H].
  destruct (react cb env root d q e v w) as [[[o ks] q1] w1]. cbn [fst snd] in H. now rewrite (IH q1 w1 H).
Qed.

(** * It is a one-table program that compiles *)
Lemma leaf_trimmed a : ~ composite env a -> ~ composite env' a.
Proof. unfold composite. intros H. rewrite trimmed_lookup; [exact H|]. intros ->. exact (H (root_composite env root Hf)). Qed.
Lemma trimmed_initial : initial_states env' root = initial_states env root.
Proof.
  unfold initial_states. do 2 f_equal. unfold mentioned. rewrite trimmed_rows.
  assert (M : forall r, In r (table env root) -> marked (r_src r) = true -> starts_in got r = true).
  { intros r Hr M. assert (I : In (unmarked (r_src r)) (initial_states env root)).
    { unfold initial_states. apply in_map. rewrite <- unique_dedup, unique_In, filter_In. split; [|exact M]. apply in_flat_map. exists r. split; [exact Hr|now left]. }
    pose proof (fl_one _ _ Hf) as L. destruct (initial_states env root) as [|i [|j l]] eqn:E; try discriminate L.
    destruct I as [I|[]]. apply starts_iff. rewrite <- I. apply (proj1 got_closed). unfold first_initial. now rewrite E. }
  assert (T : forall r, In r (table env root) -> marked (r_tgt r) = false /\ marked (r_tgt (trimmed_row got r)) = false).
  { intros r Hr. destruct (fl_rows _ _ Hf r Hr) as (_ & (a & Ea & _) & b & Eb & _). cbn [trimmed_row r_tgt]. rewrite Eb. split; [reflexivity|].
    destruct (in_dec _ _ _); [reflexivity|]. now rewrite Ea. }
  induction (table env root) as [|r l IH]; [reflexivity|]. assert (IH' := IH (fun r Hr => M r (or_intror Hr)) (fun r Hr => T r (or_intror Hr))).
  destruct (T r (or_introl eq_refl)) as [T1 T2]. specialize (M r (or_introl eq_refl)). cbn [flat_map filter app].
  destruct (starts_in got r) eqn:K; cbn [map flat_map filter app]; change (r_src (trimmed_row got r)) with (r_src r); rewrite ?T1, ?T2.
  - destruct (marked (r_src r)); now rewrite IH'.
  - destruct (marked (r_src r)); [specialize (M eq_refl); discriminate|exact IH'].
Qed.
Lemma trimmed_flat : flat env' root.
Proof.
  split.
  - intros r' H. apply trimmed_In in H. destruct H as (r & Hr & _ & ->). cbn [trimmed_row r_ev r_src r_tgt]. destruct (fl_rows _ _ Hf r Hr) as (A & (a & Ea & Na) & b & Eb & Nb).
    split; [exact A|]. split; [exists a; split; [exact Ea|now apply leaf_trimmed]|].
    destruct (in_dec _ _ _); [exists b; split; [exact Eb|now apply leaf_trimmed]|exists a; split; [exact Ea|now apply leaf_trimmed]].
  - rewrite trimmed_initial. exact (fl_one _ _ Hf).
  - intros c. destruct (fl_classes _ _ Hf c) as (A & B & C). destruct (trimmed_flags c) as (F1 & _ & _ & _ & F2 & F3). unfold internals in *. rewrite F1, F2, F3. auto.
Qed.
Lemma trimmed_got s : In s (children env' root) -> In s got.
Proof.
  rewrite children_In. intros (r' & H & Hs). apply trimmed_In in H. destruct H as (r & Hr & K & ->). cbn [trimmed_row r_src r_tgt] in Hs.
  destruct Hs as [-> | ->]; [exact K|]. destruct (in_dec _ _ _); assumption.
Qed.
Lemma trimmed_gets s : gets_to env' root s <-> gets_to env root s.
Proof.
  assert (F : first_initial env' root = first_initial env root) by (unfold first_initial; now rewrite trimmed_initial).
  assert (T : forall rs, (forall r, In r (tried rs) -> In (r_tgt r) got) -> tried (map (trimmed_row got) rs) = tried rs).
  { induction rs as [|r rs IH]; intros H; [reflexivity|]. cbn [map tried].
    assert (Er : trimmed_row got r = r) by (apply trimmed_same, H; cbn [tried]; destruct (r_guard r); now left). rewrite Er.
    destruct (r_guard r) eqn:G; [reflexivity|]. rewrite IH; [reflexivity|]. intros x Hx. apply H. cbn [tried]. rewrite G. now right. }
  split.
  - intros H. enough (gets_to env root s /\ In s got) by tauto. induction H as [i E|q e r H [IH1 IH2] Hr].
    + rewrite F in E. split; [now constructor|now apply (proj1 got_closed)].
    + rewrite (trimmed_rows_for q e IH2), T in Hr by (intros x; exact (proj1 (proj2 got_closed) q e x IH2)).
      split; [exact (gt_row env root q e r IH1 Hr)|exact (proj1 (proj2 got_closed) q e r IH2 Hr)].
  - induction 1 as [i E|q e r H IH Hr]; [constructor; now rewrite F|]. apply got_iff in H. apply (gt_row env' root q e r IH).
    rewrite (trimmed_rows_for q e H), T by (intros x; exact (proj1 (proj2 got_closed) q e x H)). exact Hr.
Qed.
Lemma trimmed_children s : In s (children env' root) <-> gets_to env root s.
Proof.
  split; [intros H; now apply got_iff, trimmed_got|]. intros H. apply trimmed_gets in H. destruct H as [i E|q e r H Hr].
  - destruct (flat_initial env' root trimmed_flat) as (j & Ej & Cj & _). congruence.
  - apply tried_In, rows_for_In in Hr. apply children_In. exists r. split; [tauto|now right].
Qed.
Lemma trimmed_fewer : length (children env' root) <= length (children env root).
Proof.
  apply NoDup_incl_length; [apply children_NoDup|]. intros s H. apply (all_children env root s Hf). apply (proj2 (proj2 got_closed)). now apply trimmed_got.
Qed.
Lemma trimmed_compiles : (exists m, compile env root = Some m) -> exists m, compile env' root = Some m.
Proof.
  rewrite (flat_accepted env root Hf), (flat_accepted env' root trimmed_flat). intros (H1 & H2 & H3). split; [|split].
  - intros r' ty b H. apply trimmed_In in H. destruct H as (r & Hr & _ & ->). cbn [trimmed_row r_act]. now apply H1.
  - intros i E. rewrite (proj1 (trimmed_flags i)). apply H2. revert E. unfold first_initial. now rewrite trimmed_initial.
  - apply N.le_lt_trans with (2 := H3). pose proof trimmed_fewer. lia.
Qed.
Lemma trimmed_events e : event_of env' root e <-> exists q r, gets_to env root q /\ In r (rows_for env root q e).
Proof.
  rewrite (event_row env' root trimmed_flat). split.
  - intros (r' & H & E). apply trimmed_In in H. destruct H as (r & Hr & K & ->). exists (unmarked (r_src r)), r. split; [now apply got_iff|].
    unfold rows_for. rewrite <- in_rev, filter_In. split; [exact Hr|]. unfold row_for. cbn [trimmed_row r_ev] in E.
    destruct (sref_eq_dec _ _); [|congruence]. destruct (ev_eq_dec _ _); congruence.
  - intros (q & r & H & Hr). apply rows_for_In in Hr. apply got_iff in H. exists (trimmed_row got r). split; [|tauto].
    apply trimmed_In. exists r. split; [tauto|]. split; [|reflexivity]. replace (unmarked (r_src r)) with q by (symmetry; tauto). exact H.
Qed.
End Trimmed.

Theorem trimmed_program : forall env root, flat env root -> (exists m, compile env root = Some m) ->
  (exists m', compile (trimmed env root) root = Some m') /\ flat (trimmed env root) root /\
  initial_states (trimmed env root) root = initial_states env root /\
  (forall s, In s (children (trimmed env root) root) <-> gets_to env root s) /\
  (forall e, event_of (trimmed env root) root e <-> exists q r, gets_to env root q /\ In r (rows_for env root q e)).
Proof.
  intros env root Hf H. split; [now apply trimmed_compiles|]. split; [now apply trimmed_flat|]. split; [now apply trimmed_initial|].
  split; [intros s; now apply trimmed_children|intros e; now apply trimmed_events].
Qed.
Lemma trimmed_known env root e : flat env root -> event_of (trimmed env root) root e -> event_of env root e.
Proof.
  intros Hf H. apply (trimmed_events env root Hf) in H. destruct H as (q & r & _ & Hr). apply rows_for_In in Hr. apply (event_row env root Hf). exists r. tauto.
Qed.
Theorem trimmed_session : forall env root m m', compile env root = Some m -> flat env root -> compile (trimmed env root) root = Some m' ->
  exists bound, forall V W (cb : cbfun V W) vnone fuel d w l, bound <= fuel -> Forall (fun ev => event_of (trimmed env root) root (fst ev)) l ->
  exists outs s s' q,
    session cb m vnone fuel d w (map (fun ev => KProcess (fst ev) (snd ev)) l) = Done outs s /\
    session cb m' vnone fuel d w (map (fun ev => KProcess (fst ev) (snd ev)) l) = Done outs s' /\
    rt_trace s' = rt_trace s /\ rt_world s' = rt_world s /\
    at_place m s 0 = Some (root, q) /\ at_place m' s' 0 = Some (root, q).
Proof.
  intros env root m m' Hm Hf Hm'. pose proof (trimmed_flat env root Hf) as Hf'.
  destruct (flat_session env root m Hm Hf) as (b1 & B1), (flat_session _ root m' Hm' Hf') as (b2 & B2).
  exists (b1 + b2). intros V W cb vnone fuel d w l Hb Hl.
  assert (L : Forall (fun ev => event_of env root (fst ev)) l) by (revert Hl; apply Forall_impl; intros x; now apply trimmed_known).
  destruct (flat_initial env root Hf) as (i & Ei & _ & _).
  assert (Ei' : first_initial (trimmed env root) root = Some i) by (unfold first_initial; rewrite (trimmed_initial env root Hf); exact Ei).
  destruct (reacts cb env root d i l w) as [[[os ks] q] w'] eqn:E.
  pose proof (reacts_trimmed env root cb d l i w (proj1 (got_closed env root) i Ei)) as E'. rewrite E in E'.
  destruct (B1 V W cb vnone fuel d w l i os ks q w' ltac:(lia) L Ei E) as (s & S1 & S2 & S3 & S4).
  destruct (B2 V W cb vnone fuel d w l i os ks q w' ltac:(lia) Hl Ei' E') as (s' & S1' & S2' & S3' & S4').
  exists os, s, s', q. rewrite S3, S3', S4, S4'. repeat split; assumption.
Qed.

(** * The smallest program, without conditions on the states *)
Theorem trimmed_least : forall lab env root m lab2 env2 root2 m2,
  compile env root = Some m -> flat env root -> keeps_kind lab ->
  (forall a b, gets_to env root a -> gets_to env root b -> entries lab env a = entries lab env b) ->
  compile env2 root2 = Some m2 -> flat env2 root2 -> (forall e, event_of env root e -> event_of env2 root2 e) ->
  imitates lab env root m lab2 m2 ->
  length (children (merged lab (trimmed env root) root) root) <= length (children env2 root2).
Proof.
  intros lab env root m lab2 env2 root2 m2 Hm Hf K En Hm2 Hf2 Ev (b & B).
  destruct (trimmed_program env root Hf (Logic.ex_intro _ m Hm)) as ((m' & Hm') & Hf' & _ & Ch & _).
  apply (merged_least lab _ _ m' lab2 env2 root2 m2 Hm' Hf' K).
  - intros a Ha. apply led_gets, (trimmed_gets env root Hf), Ch, Ha.
  - intros a a' Ha Ha'. apply Ch in Ha, Ha'. pose proof (En a a' Ha Ha') as E. unfold entries in *. destruct a; destruct a'; try rewrite (proj1 (proj2 (trimmed_flags env root _))); try rewrite (proj1 (proj2 (trimmed_flags env root _))); exact E.
  - exact Hm2.
  - exact Hf2.
  - intros e He. apply Ev. now apply trimmed_known.
  - destruct (trimmed_session env root m m' Hm Hf Hm') as (b1 & B1). exists (b + b1). intros fuel l Hb Hl.
    destruct (B1 _ _ (behind lab verdicts) [] fuel 0 tt l ltac:(lia) Hl) as (outs & s & s' & q & E & E' & T & _).
    assert (L : Forall (fun ev => event_of env root (fst ev)) l) by (revert Hl; apply Forall_impl; intros x; now apply trimmed_known).
    destruct (B fuel l ltac:(lia) L) as (outs2 & s0 & s2 & F1 & F2 & T2). rewrite E in F1. injection F1 as <- <-.
    exists outs, s', s2. split; [exact E'|]. split; [exact F2|]. congruence.
Qed.
Theorem trimmed_attained : forall lab env root m, compile env root = Some m -> flat env root -> all_events_used env root ->
  exists m', compile (merged lab (trimmed env root) root) root = Some m' /\ flat (merged lab (trimmed env root) root) root /\
  imitates lab env root m lab m'.
Proof.
  intros lab env root m Hm Hf Us. destruct (trimmed_program env root Hf (Logic.ex_intro _ m Hm)) as ((m1 & Hm1) & Hf1 & _ & _ & Ev).
  destruct (merged_program lab _ _ Hf1 (Logic.ex_intro _ m1 Hm1)) as ((m' & Hm') & Hf' & _). exists m'. split; [exact Hm'|]. split; [exact Hf'|].
  destruct (trimmed_session env root m m1 Hm Hf Hm1) as (b1 & B1), (merged_session lab _ _ m1 m' Hm1 Hf1 Hm') as (b2 & B2).
  exists (b1 + b2). intros fuel l Hb Hl.
  assert (L : Forall (fun ev => event_of (trimmed env root) root (fst ev)) l) by (revert Hl; apply Forall_impl; intros x Hx; apply Ev, Us, Hx).
  destruct (B1 _ _ (behind lab verdicts) [] fuel 0 tt l ltac:(lia) L) as (outs & s & s' & q & E & E' & T & _).
  destruct (B2 _ _ verdicts [] fuel 0 tt l ltac:(lia) L) as (outs2 & s1 & s2 & q2 & F1 & F2 & T2 & _). rewrite E' in F1. injection F1 as <- <-.
  exists outs, s, s2. split; [exact E|]. split; [exact F2|]. congruence.
Qed.
