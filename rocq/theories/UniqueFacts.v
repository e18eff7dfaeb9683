(** Programs that answer all clients alike have the same rows; the smallest tables are the
    same up to names. *)

From Coq Require Import List Arith NArith Bool Lia.
From Verif Require Import Types Static Dispatch Runtime Spec Semantics ListFacts RefineFacts StaticFacts RegionFacts ReorderSwap Flat FlatFacts FlatAccept
  EquivUse Merge MergeFacts MergeRun MergeLeast Trim TrimFacts Unique.
Import ListNotations.

(** * From views to rows *)
Lemma pairs_impl {A B} (P Q : A -> B -> Prop) l1 l2 : (forall a b, P a b -> Q a b) -> Forall2 P l1 l2 -> Forall2 Q l1 l2.
Proof. intros H F. induction F; constructor; auto. Qed.
Section Lists.
Variables (d : dep) (e : ev).
Notation play := (play verdicts d e).
Lemma paired_runs : forall l1 l2, all_said l1 -> all_said l2 -> cut l1 = l1 -> cut l2 = l2 -> Forall2 (fun x y : move => fst x = fst y) l1 l2 ->
  Forall2 (fun x y => fst x = fst y /\ exists v o ks, play l1 v tt = (o, ks, Some (snd x), tt) /\ play l2 v tt = (o, ks, Some (snd y), tt)) l1 l2.
Proof.
  intros l1 l2 A B C D F. induction F as [|x y l1 l2 E F IH]; [constructor|].
  destruct (A x (or_introl eq_refl)) as [A1 A2]. destruct x as [[[g|] ds] t], y as [[g' ds'] t']; cbn [fst snd] in *; injection E as <- <-.
  - specialize (A1 g eq_refl). constructor.
    + split; [reflexivity|]. exists [true]. rewrite (play_chosen d e g ds t l1 [] A1 A2), (play_chosen d e g ds t' l2 [] A1 A2). cbn [snd]. eauto.
    + specialize (IH (said_tail _ _ A) (said_tail _ _ B) (cut_tail _ _ g C eq_refl) (cut_tail _ _ g D eq_refl)).
      revert IH. apply pairs_impl. intros x y (En & v & o & ks & P1 & P2). split; [exact En|]. exists (false :: v).
      rewrite !(play_refused d e g _ _ _ v A1), P1, P2. eauto.
  - rewrite (cut_last _ _ C eq_refl), (cut_last _ _ D eq_refl). constructor; [|constructor]. split; [reflexivity|]. exists [].
    rewrite (play_open d e ds t [] [] A2), (play_open d e ds t' [] [] A2). cbn [snd]. eauto.
Qed.
Lemma views_rows hd hd2 l1 l2 : all_said l1 -> all_said l2 -> cut l1 = l1 -> cut l2 = l2 ->
  (forall v, view_of (answer verdicts d e hd l1 v tt) = view_of (answer verdicts d e hd2 l2 v tt)) ->
  Forall2 (fun x y => fst x = fst y /\ exists v o ks, answer verdicts d e hd l1 v tt = (o, ks, Some (snd x), tt) /\ answer verdicts d e hd2 l2 v tt = (o, ks, Some (snd y), tt)) l1 l2.
Proof.
  intros A B C D H.
  assert (T : forall h h' x l, all_said (x :: l) -> view_of (answer verdicts d e h [] [true] tt) <> view_of (answer verdicts d e h' (x :: l) [true] tt)).
  { intros h h' [[[g|] ds] t] l Al; destruct (Al _ (or_introl eq_refl)) as [A1 A2]; cbn [fst snd] in *; unfold answer.
    - rewrite (play_chosen d e g ds t l [] (A1 g eq_refl) A2). unfold handled, verdicts. destruct h as [c|]; [destruct (is_guard c)|]; discriminate.
    - rewrite (play_open d e ds t l _ A2). unfold handled, verdicts. destruct h as [c|]; [destruct (is_guard c)|]; discriminate. }
  destruct l1 as [|x l1], l2 as [|y l2]; [constructor| | |].
  - exfalso. exact (T hd hd2 y l2 B (H [true])).
  - exfalso. exact (T hd2 hd x l1 A (eq_sym (H [true]))).
  - cbn [answer] in *. apply paired_runs; auto. set (L1 := x :: l1) in *. set (L2 := y :: l2) in *.
    set (P := list_prod (map snd L1) (map snd L2)).
    destruct (agree P L1 L2) eqn:G.
    + apply agree_iff in G. revert G. apply pairs_impl. intros a b [E _]. exact E.
    + exfalso. assert (N : ~ Forall2 (alike_move P) L1 L2) by (rewrite <- agree_iff, G; discriminate).
      destruct (play_split d e P L1 L2 A B C D N) as (v & [V|(o & ks & a & b & Ha & Hb & Nab & _)]); [exact (V (H v))|].
      apply Nab. unfold P. apply in_prod_iff. split; now apply in_map.
Qed.
End Lists.

Lemma run_gets : forall lb en ro l q os ks q', gets_to en ro q -> reacts (behind lb verdicts) en ro 0 q l tt = (os, ks, q', tt) -> gets_to en ro q'.
Proof.
  intros lb en ro l. induction l as [|[e v] l IH]; intros q os ks q' Hq; cbn [reacts]; [now intros [= _ _ <-]|].
    destruct (react (behind lb verdicts) en ro 0 q e v tt) as [[[o1 ks1] q1] []] eqn:R. destruct (reacts (behind lb verdicts) en ro 0 q1 l tt) as [[[os2 ks2] q2] []] eqn:R2.
    intros [= _ _ <-]. apply (IH q1 os2 ks2 q2); [|exact R2]. apply react_told in R. destruct R as ([t|] & A & ->); [|exact Hq].
    destruct (answer_end _ _ _ _ _ _ _ _ _ _ _ A) as (x & Hx & <-). unfold moves in Hx. rewrite cut_tried in Hx. apply in_map_iff in Hx.
    destruct Hx as (r & <- & Hr). exact (gt_row en ro q e r Hq Hr).
Qed.

(** * Two programs *)
Section Two.
Variables (lab : naming) (env : cenv) (root : cls) (lab2 : naming) (env2 : cenv) (root2 : cls).
Hypothesis Hk : keeps_kind lab.
Hypothesis Hk2 : keeps_kind lab2.
Variables i i2 : sref.
Hypothesis Ei : first_initial env root = Some i.
Hypothesis Ei2 : first_initial env2 root2 = Some i2.
Notation known l := (Forall (fun ev => In (fst ev) (all_events env root)) l).
Hypothesis Same : forall l, known l -> view lab env root i l = view lab2 env2 root2 i2 l.
Hypothesis Evs : forall e, In e (all_events env root) <-> In e (all_events env2 root2).
Notation run q l := (reacts (behind lab verdicts) env root 0 q l tt).
Notation run2 q l := (reacts (behind lab2 verdicts) env2 root2 0 q l tt).

Definition meets (a b : sref) : Prop := exists l os ks os2 ks2, known l /\ run i l = (os, ks, a, tt) /\ run2 i2 l = (os2, ks2, b, tt).
Lemma meets_start : meets i i2.
Proof. exists [], [], [], [], []. repeat split. constructor. Qed.
Lemma meets_view a b l : meets a b -> known l -> view lab env root a l = view lab2 env2 root2 b l.
Proof.
  intros (l0 & os & ks & os2 & ks2 & Hl & E1 & E2) Hl'. pose proof (Same l0 Hl) as S0. pose proof (Same (l0 ++ l) (proj2 (Forall_app _ _ _) (conj Hl Hl'))) as S1.
  rewrite (view_app _ _ _ _ _ _ _ _ _ _ E1), (view_app _ _ _ _ _ _ _ _ _ _ E2) in S1. unfold view in S0 at 1 2. rewrite E1, E2 in S0. injection S0 as S2 S3. rewrite S2, S3 in S1.
  injection S1 as A B. apply app_inv_head in A, B. destruct (view lab env root a l), (view lab2 env2 root2 b l). cbn [fst snd] in *. now subst.
Qed.
Lemma no_moves lb en ro q e : ~ In e (all_events en ro) -> moves lb en ro q e = [].
Proof.
  intros N. destruct (moves lb en ro q e) as [|x l] eqn:E; [reflexivity|]. exfalso. apply N.
  destruct (moves_row lb en ro q e x) as (r & Hr & _ & He & _); [rewrite E; now left|]. unfold all_events. apply in_map_iff. eauto.
Qed.
Lemma answer_step lb en ro q e v o ks t : answer verdicts 0 e (handler_name lb en ro) (moves lb en ro q e) v tt = (o, ks, Some t, tt) ->
  exists ks', reacts (behind lb verdicts) en ro 0 q [(e, v)] tt = ([o], ks', t, tt).
Proof.
  intros A. cbn [reacts]. destruct (react (behind lb verdicts) en ro 0 q e v tt) as [[[o1 ks1] q1] []] eqn:R. pose proof R as R'. apply react_told in R'.
  destruct R' as (t' & A' & Eq). rewrite A in A'. injection A' as <- _ <-. subst q1. eauto.
Qed.
Lemma meets_rows a b e : meets a b ->
  Forall2 (fun x y => fst x = fst y /\ meets (snd x) (snd y)) (moves lab env root a e) (moves lab2 env2 root2 b e).
Proof.
  intros M. destruct (in_dec ev_eq_dec e (all_events env root)) as [I|I].
  2:{ rewrite (no_moves lab env root a e I), (no_moves lab2 env2 root2 b e); [constructor|]. now rewrite <- Evs. }
  assert (K : forall v : list bool, known [(e, v)]) by (intros v; apply Forall_cons; [exact I|apply Forall_nil]).
  assert (H : forall v, view_of (answer verdicts 0 e (handler_name lab env root) (moves lab env root a e) v tt) =
                        view_of (answer verdicts 0 e (handler_name lab2 env2 root2) (moves lab2 env2 root2 b e) v tt)).
  { intros v. pose proof (meets_view a b [(e, v)] M (K v)) as E.
    destruct (view_cons lab env root a e v []) as (o1 & ks1 & t1 & E1 & F1), (view_cons lab2 env2 root2 b e v []) as (o2 & ks2 & t2 & E2 & F2).
    rewrite F1, F2 in E. unfold view in E. cbn [reacts fst snd map] in E. rewrite !app_nil_r in E. rewrite E1, E2. cbn [view_of fst]. congruence. }
  pose proof (views_rows 0 e _ _ _ _ (moves_said lab env root a e Hk) (moves_said lab2 env2 root2 b e Hk2) (moves_cut lab env root a e) (moves_cut lab2 env2 root2 b e) H) as F.
  revert F. apply pairs_impl. intros x y (E & v & o & ks & A1 & A2). split; [exact E|].
  apply answer_step in A1, A2. destruct A1 as (k1 & A1), A2 as (k2 & A2). destruct M as (l & os & ks0 & os2 & ks2 & Hl & R1 & R2).
  exists (l ++ [(e, v)]), (os ++ [o]), (ks0 ++ k1), (os2 ++ [o]), (ks2 ++ k2). split; [apply Forall_app; split; [exact Hl|apply K]|].
  rewrite !reacts_app, R1, R2, A1, A2. split; reflexivity.
Qed.
Lemma meets_handler a b e : meets a b -> In e (all_events env root) -> moves lab env root a e = [] -> handler_of lab env root = handler_of lab2 env2 root2.
Proof.
  intros M I N. pose proof (meets_rows a b e M) as F. rewrite N in F. assert (N2 : moves lab2 env2 root2 b e = []) by now inversion F.
  assert (K : known [(e, @nil bool)]) by (apply Forall_cons; [exact I|apply Forall_nil]). pose proof (meets_view a b _ M K) as E.
  destruct (view_cons lab env root a e [] []) as (o1 & ks1 & t1 & E1 & F1), (view_cons lab2 env2 root2 b e [] []) as (o2 & ks2 & t2 & E2 & F2).
  rewrite F1, F2 in E. unfold view in E. cbn [reacts fst snd map] in E. rewrite !app_nil_r in E. injection E as _ E.
  rewrite N in E1. rewrite N2 in E2. change (handler_of lab env root) with (handler_name lab env root). change (handler_of lab2 env2 root2) with (handler_name lab2 env2 root2).
  unfold answer, handled, verdicts in E1, E2. destruct (handler_name lab env root) as [c|], (handler_name lab2 env2 root2) as [c2|]; [|..|reflexivity];
    try destruct (is_guard c); try destruct (is_guard c2); congruence.
Qed.
Lemma meets_gets a b : meets a b -> gets_to env root a /\ gets_to env2 root2 b.
Proof.
  intros (l & os & ks & os2 & ks2 & _ & R1 & R2). split; [apply (run_gets _ _ _ _ _ _ _ _ (gt_start env root i Ei) R1)|apply (run_gets _ _ _ _ _ _ _ _ (gt_start env2 root2 i2 Ei2) R2)].
Qed.
Lemma meets_all a : gets_to env root a -> exists b, meets a b.
Proof.
  intros H. apply (led_gets lab) in H. destruct (led_run lab env root Hk i a Ei H) as (l & os & ks & Hl & E).
  destruct (run2 i2 l) as [[[os2 ks2] b] []] eqn:E2. exists b, l, os, ks, os2, ks2. auto.
Qed.
Lemma meets_all2 b : gets_to env2 root2 b -> exists a, meets a b.
Proof.
  intros H. apply (led_gets lab2) in H. destruct (led_run lab2 env2 root2 Hk2 i2 b Ei2 H) as (l & os2 & ks2 & Hl & E2).
  destruct (run i l) as [[[os ks] a] []] eqn:E. exists a, l, os, ks, os2, ks2. split; [|auto]. revert Hl. apply Forall_impl. intros x. apply Evs.
Qed.
Lemma meets_same_rows : same_rows lab env root lab2 env2 root2 meets.
Proof. split; [exists i, i2; split; [exact Ei|]; split; [exact Ei2|exact meets_start]|]. split; [intros a b e; apply meets_rows|intros a b e; apply meets_handler]. Qed.
End Two.

(** * Settled programs *)
Lemma settled_apart lab env root : keeps_kind lab -> flat env root -> settled lab env root -> entered_alike lab env root ->
  forall a a', In a (children env root) -> In a' (children env root) ->
  (forall l, Forall (fun ev => In (fst ev) (all_events env root)) l -> view lab env root a l = view lab env root a' l) -> a = a'.
Proof.
  intros K Hf [S1 S2] En a a' Ha Ha' V. apply (S2 a a' Ha Ha'). destruct (in_dec pair_dec (a, a') (equals lab env root)) as [I|I]; [exact I|]. exfalso.
  assert (En' : forall x y, In x (all_states env root) -> In y (all_states env root) -> entries lab env x = entries lab env y).
  { intros x y Hx Hy. apply En; apply S1, all_children; assumption. }
  destruct (not_equal_apart lab env root K En' a a' (child_state env root a Ha) (child_state env root a' Ha') I) as (l & Hl & D). exact (D (V l Hl)).
Qed.
Definition alike_views (lab : naming) (env : cenv) (root : cls) (lab2 : naming) (env2 : cenv) (root2 : cls) : Prop :=
  exists i i2, first_initial env root = Some i /\ first_initial env2 root2 = Some i2 /\
  (forall l, Forall (fun ev => In (fst ev) (all_events env root)) l -> view lab env root i l = view lab2 env2 root2 i2 l) /\
  forall e, In e (all_events env root) <-> In e (all_events env2 root2).
Lemma alike_rows lab env root lab2 env2 root2 : keeps_kind lab -> keeps_kind lab2 -> alike_views lab env root lab2 env2 root2 ->
  exists R, same_rows lab env root lab2 env2 root2 R /\ (forall a b, R a b -> gets_to env root a /\ gets_to env2 root2 b) /\
  (forall a, gets_to env root a -> exists b, R a b) /\ (forall b, gets_to env2 root2 b -> exists a, R a b) /\
  (forall a b l, R a b -> Forall (fun ev => In (fst ev) (all_events env root)) l -> view lab env root a l = view lab2 env2 root2 b l).
Proof.
  intros K K2 (i & i2 & Ei & Ei2 & V & E). exists (meets lab env root lab2 env2 root2 i i2).
  split; [now apply meets_same_rows|]. split; [intros a b; now apply meets_gets|]. split; [intros a; now apply meets_all|].
  split; [intros b; now apply meets_all2|]. intros a b l. now apply meets_view.
Qed.
Lemma gets_child env root a : flat env root -> gets_to env root a -> In a (children env root).
Proof.
  intros Hf [i E|q e r _ Hr].
  - destruct (flat_initial env root Hf) as (j & Ej & Cj & _). congruence.
  - apply tried_In, rows_for_In in Hr. apply children_In. exists r. split; [tauto|now right].
Qed.
Lemma settled_same lab env root lab2 env2 root2 : keeps_kind lab -> keeps_kind lab2 -> flat env root -> flat env2 root2 ->
  settled lab env root -> settled lab2 env2 root2 -> entered_alike lab env root -> entered_alike lab2 env2 root2 ->
  alike_views lab env root lab2 env2 root2 -> same_table lab env root lab2 env2 root2.
Proof.
  intros K K2 Hf Hf2 S S2 En En2 A. destruct (alike_rows _ _ _ _ _ _ K K2 A) as (R & H1 & H2 & H3 & H4 & H5).
  assert (C : forall a b, R a b -> In a (children env root) /\ In b (children env2 root2)).
  { intros a b H. apply H2 in H. split; apply gets_child; tauto. }
  destruct A as (i & i2 & _ & _ & _ & Ev). exists R. split; [exact H1|]. split; [exact C|]. split; [intros a Ha; apply H3, S, Ha|].
  split; [intros b Hb; apply H4, S2, Hb|]. split.
  - intros a a' b Ra Ra'. apply (settled_apart lab env root K Hf S En); [apply (C a b Ra)|apply (C a' b Ra')|].
    intros l Hl. now rewrite (H5 a b l Ra Hl), (H5 a' b l Ra' Hl).
  - intros a b b' Rb Rb'. apply (settled_apart lab2 env2 root2 K2 Hf2 S2 En2); [apply (C a b Rb)|apply (C a b' Rb')|].
    intros l Hl. assert (Hl' : Forall (fun ev => In (fst ev) (all_events env root)) l) by (revert Hl; apply Forall_impl; intros x; apply Ev).
    now rewrite <- (H5 a b l Rb Hl'), <- (H5 a b' l Rb' Hl').
Qed.

(** * The merged and trimmed program is settled *)
Lemma merged_view lab env root q l : In q (all_states env root) -> stand_in env root (equals lab env root) q = q -> view lab (merged lab env root) root q l = view lab env root q l.
Proof.
  intros S E. unfold view. destruct (reacts (behind lab verdicts) env root 0 q l tt) as [[[os ks] q1] w1] eqn:R.
  destruct (reacts_merged lab env root verdicts 0 l q q tt os ks q1 w1 (eq_refl_ _ _ _ _ (equals_equivalence lab env root) q S) E R) as (ks' & q1' & -> & T & _). now rewrite T.
Qed.
Lemma alike_pair lab env root a b l : In (a, b) (equals lab env root) -> view lab env root a l = view lab env root b l.
Proof.
  intros H. destruct (eq_in _ _ _ _ (equals_equivalence lab env root) _ _ H) as (Ha & Hb & _).
  set (c := stand_in env root (equals lab env root) a).
  assert (Ca : In (a, c) (equals lab env root)) by (apply rep_equal; exact Ha).
  assert (Cb : In (b, c) (equals lab env root)) by (unfold c; rewrite (rep_same lab env root a b H); apply rep_equal; exact Hb).
  assert (Cc : stand_in env root (equals lab env root) c = c) by (apply rep_rep; exact Ha).
  unfold view. destruct (reacts (behind lab verdicts) env root 0 a l tt) as [[[os ks] q1] w1] eqn:R, (reacts (behind lab verdicts) env root 0 b l tt) as [[[os2 ks2] q2] w2] eqn:R2.
  destruct (reacts_merged lab env root verdicts 0 l a c tt _ _ _ _ Ca Cc R) as (ks' & q1' & E1 & T1 & _).
  destruct (reacts_merged lab env root verdicts 0 l b c tt _ _ _ _ Cb Cc R2) as (ks2' & q2' & E2 & T2 & _). rewrite E1 in E2. injection E2 as <- <- _ _. congruence.
Qed.
Lemma merged_initial_one lab env root i : flat env root -> first_initial env root = Some i -> first_initial (merged lab env root) root = Some i.
Proof. intros Hf E. unfold first_initial. rewrite (merged_initial lab env root Hf). exact E. Qed.
Lemma events_rows env root e : flat env root -> In e (all_events env root) <-> event_of env root e.
Proof. intros Hf. rewrite (event_row env root Hf). unfold all_events. rewrite in_map_iff. split; intros (r & A & B); eauto. Qed.
Lemma merged_settled lab env root : keeps_kind lab -> flat env root -> (forall a, In a (children env root) -> gets_to env root a) -> entered_alike lab env root ->
  settled lab (merged lab env root) root /\ entered_alike lab (merged lab env root) root.
Proof.
  intros K Hf G En. pose proof (merged_flat lab env root Hf) as Hf'. destruct (flat_initial env root Hf) as (i & Ei & Ci & Si).
  pose proof (merged_initial_one lab env root i Hf Ei) as Ei'. split; [split|].
  - intros a Ha. apply merged_children in Ha; [|exact Hf]. destruct Ha as [Ha Ra]. pose proof (G a Ha) as Ga. apply (led_gets lab) in Ga.
    destruct (led_run lab env root K i a Ei Ga) as (l & os & ks & Hl & E).
    destruct (reacts_merged lab env root verdicts 0 l i i tt _ _ _ _ (eq_refl_ _ _ _ _ (equals_equivalence lab env root) i Si) (rep_initial lab env root i Ei) E) as (ks' & q & E' & _ & P & Rq).
    apply rep_same in P. rewrite Ra, Rq in P. subst q. exact (run_gets lab _ root l i os ks' a (gt_start _ _ i Ei') E').
  - intros a b Ha Hb P. apply merged_children in Ha, Hb; try exact Hf. destruct Ha as [Ha Ra], Hb as [Hb Rb]. rewrite <- Ra, <- Rb. apply rep_same.
    destruct (in_dec pair_dec (a, b) (equals lab env root)) as [I|I]; [exact I|]. exfalso.
    pose proof (child_state env root a Ha) as Sa. pose proof (child_state env root b Hb) as Sb.
    assert (En' : forall x y, In x (all_states env root) -> In y (all_states env root) -> entries lab env x = entries lab env y).
    { intros x y Hx Hy. apply En; apply G, all_children; assumption. }
    destruct (not_equal_apart lab env root K En' a b Sa Sb I) as (l & Hl & D). apply D.
    rewrite <- (merged_view lab env root a l Sa Ra), <- (merged_view lab env root b l Sb Rb). now apply alike_pair.
  - intros a b Ha Hb. assert (E : forall x, gets_to (merged lab env root) root x -> gets_to env root x).
    { intros x Hx. apply gets_child in Hx; [|exact Hf']. apply merged_children in Hx; [|exact Hf]. apply G, Hx. }
    pose proof (En a b (E a Ha) (E b Hb)) as X. unfold entries in *. destruct a, b; rewrite ?(proj1 (proj2 (merged_flags lab env root _))); exact X.
Qed.
Lemma trimmed_entered lab env root : flat env root -> entered_alike lab env root -> entered_alike lab (trimmed env root) root.
Proof.
  intros Hf En a b Ha Hb. apply (trimmed_gets env root Hf) in Ha, Hb. pose proof (En a b Ha Hb) as X.
  unfold entries in *. destruct a, b; rewrite ?(proj1 (proj2 (trimmed_flags env root _))); exact X.
Qed.
Theorem least_settled : forall lab env root, keeps_kind lab -> flat env root -> entered_alike lab env root ->
  settled lab (merged lab (trimmed env root) root) root /\ entered_alike lab (merged lab (trimmed env root) root) root.
Proof.
  intros lab env root K Hf En. pose proof (trimmed_flat env root Hf) as Hf'. apply merged_settled; auto.
  - intros a Ha. apply (trimmed_gets env root Hf), (trimmed_children env root Hf), Ha.
  - now apply trimmed_entered.
Qed.

(** * From sessions to views *)
Lemma imitates_views lab env root m lab2 env2 root2 m2 : compile env root = Some m -> flat env root -> compile env2 root2 = Some m2 -> flat env2 root2 ->
  same_event_types env root env2 root2 -> imitates lab env root m lab2 m2 -> alike_views lab env root lab2 env2 root2.
Proof.
  intros Hm Hf Hm2 Hf2 Ev (enough & Im). destruct (flat_session env root m Hm Hf) as (b1 & B1), (flat_session env2 root2 m2 Hm2 Hf2) as (b2 & B2).
  destruct (flat_initial env root Hf) as (i & Ei & _ & _), (flat_initial env2 root2 Hf2) as (i2 & Ei2 & _ & _). exists i, i2. split; [exact Ei|]. split; [exact Ei2|].
  split; [|intros e; rewrite (events_rows env root e Hf), (events_rows env2 root2 e Hf2); apply Ev].
  intros l Hl. assert (L1 : Forall (fun ev => event_of env root (fst ev)) l) by (revert Hl; apply Forall_impl; intros x; apply (events_rows env root _ Hf)).
  assert (L2 : Forall (fun ev => event_of env2 root2 (fst ev)) l) by (revert L1; apply Forall_impl; intros x; apply Ev).
  unfold view. destruct (reacts (behind lab verdicts) env root 0 i l tt) as [[[os1 ks1] q1] w1] eqn:E1, (reacts (behind lab2 verdicts) env2 root2 0 i2 l tt) as [[[os2 ks2] q2] w2] eqn:E2.
  destruct (B1 _ _ _ [] (enough + b1 + b2) 0 tt l i os1 ks1 q1 w1 ltac:(lia) L1 Ei E1) as (s1 & S1 & _ & T1 & _).
  destruct (B2 _ _ _ [] (enough + b1 + b2) 0 tt l i2 os2 ks2 q2 w2 ltac:(lia) L2 Ei2 E2) as (s2 & S2 & _ & T2 & _).
  destruct (Im (enough + b1 + b2) l ltac:(lia) L1) as (outs & s & s' & Q1 & Q2 & Q3). rewrite S1 in Q1. rewrite S2 in Q2. injection Q1 as -> ->. injection Q2 as -> ->.
  rewrite T1, T2 in Q3. now rewrite Q3.
Qed.
Lemma least_view lab env root i l : flat env root -> first_initial env root = Some i ->
  view lab (merged lab (trimmed env root) root) root i l = view lab env root i l.
Proof.
  intros Hf Ei. assert (Ei' : first_initial (trimmed env root) root = Some i) by (unfold first_initial; rewrite (trimmed_initial env root Hf); exact Ei).
  rewrite merged_view; [|unfold all_states; rewrite Ei'; now left|now apply rep_initial].
  unfold view. now rewrite (reacts_trimmed env root (behind lab verdicts) 0 l i tt (proj1 (got_closed env root) i Ei)).
Qed.
Lemma least_events lab env root e : flat env root -> all_events_used env root ->
  In e (all_events (merged lab (trimmed env root) root) root) <-> In e (all_events env root).
Proof.
  intros Hf Us. pose proof (trimmed_flat env root Hf) as Hf1. pose proof (merged_flat lab _ root Hf1) as Hf2.
  rewrite (events_rows _ root e Hf2), (events_rows env root e Hf), <- (merged_events lab _ root e Hf1). split; [now apply trimmed_known|].
  intros H. apply (trimmed_events env root Hf), Us, H.
Qed.
Lemma least_views lab env root lab2 env2 root2 : flat env root -> flat env2 root2 -> all_events_used env root -> all_events_used env2 root2 ->
  alike_views lab env root lab2 env2 root2 -> alike_views lab (merged lab (trimmed env root) root) root lab2 (merged lab2 (trimmed env2 root2) root2) root2.
Proof.
  intros Hf Hf2 U U2 (i & i2 & Ei & Ei2 & V & Ev).
  assert (I : forall lb en ro j, flat en ro -> first_initial en ro = Some j -> first_initial (merged lb (trimmed en ro) ro) ro = Some j).
  { intros lb en ro j F E. apply merged_initial_one; [now apply trimmed_flat|]. unfold first_initial. rewrite (trimmed_initial en ro F). exact E. }
  exists i, i2. split; [now apply I|]. split; [now apply I|]. split.
  - intros l Hl. rewrite !least_view by assumption. apply V. revert Hl. apply Forall_impl. intros x. now apply least_events.
  - intros e. rewrite !least_events by assumption. apply Ev.
Qed.

(** * The theorems *)
Theorem rows_alike : forall lab env root m lab2 env2 root2 m2, compile env root = Some m -> flat env root -> compile env2 root2 = Some m2 -> flat env2 root2 ->
  keeps_kind lab -> keeps_kind lab2 -> same_event_types env root env2 root2 -> imitates lab env root m lab2 m2 ->
  exists R, same_rows lab env root lab2 env2 root2 R /\
  (forall a, gets_to env root a -> exists b, gets_to env2 root2 b /\ R a b) /\ (forall b, gets_to env2 root2 b -> exists a, gets_to env root a /\ R a b).
Proof.
  intros lab env root m lab2 env2 root2 m2 Hm Hf Hm2 Hf2 K K2 Ev Im.
  destruct (alike_rows _ _ _ _ _ _ K K2 (imitates_views _ _ _ _ _ _ _ _ Hm Hf Hm2 Hf2 Ev Im)) as (R & H1 & H2 & H3 & H4 & _). exists R. split; [exact H1|]. split.
  - intros a Ha. destruct (H3 a Ha) as (b & Hb). exists b. split; [apply (H2 a b Hb)|exact Hb].
  - intros b Hb. destruct (H4 b Hb) as (a & Ha). exists a. split; [apply (H2 a b Ha)|exact Ha].
Qed.
Theorem settled_unique : forall lab env root m lab2 env2 root2 m2, compile env root = Some m -> flat env root -> compile env2 root2 = Some m2 -> flat env2 root2 ->
  keeps_kind lab -> keeps_kind lab2 -> same_event_types env root env2 root2 ->
  settled lab env root -> settled lab2 env2 root2 -> entered_alike lab env root -> entered_alike lab2 env2 root2 ->
  imitates lab env root m lab2 m2 -> same_table lab env root lab2 env2 root2.
Proof.
  intros lab env root m lab2 env2 root2 m2 Hm Hf Hm2 Hf2 K K2 Ev S S2 En En2 Im. apply settled_same; auto. exact (imitates_views _ _ _ _ _ _ _ _ Hm Hf Hm2 Hf2 Ev Im).
Qed.
Theorem least_unique : forall lab env root m lab2 env2 root2 m2, compile env root = Some m -> flat env root -> compile env2 root2 = Some m2 -> flat env2 root2 ->
  keeps_kind lab -> keeps_kind lab2 -> same_event_types env root env2 root2 -> all_events_used env root -> all_events_used env2 root2 ->
  entered_alike lab env root -> entered_alike lab2 env2 root2 -> imitates lab env root m lab2 m2 ->
  same_table lab (merged lab (trimmed env root) root) root lab2 (merged lab2 (trimmed env2 root2) root2) root2.
Proof.
  intros lab env root m lab2 env2 root2 m2 Hm Hf Hm2 Hf2 K K2 Ev U U2 En En2 Im.
  destruct (least_settled lab env root K Hf En) as [S E], (least_settled lab2 env2 root2 K2 Hf2 En2) as [S2 E2].
  apply settled_same; auto; try (apply merged_flat; now apply trimmed_flat).
  apply least_views; auto. exact (imitates_views _ _ _ _ _ _ _ _ Hm Hf Hm2 Hf2 Ev Im).
Qed.
Lemma one_to_one_length l1 l2 R : NoDup l1 -> NoDup l2 -> one_to_one l1 l2 R -> length l1 = length l2.
Proof.
  intros N1 N2 (C & T1 & T2 & F1 & F2). apply Nat.le_antisymm.
  - apply (injection_length R); [exact N1| |].
    + intros a Ha. destruct (T1 a Ha) as (b & Hb). exists b. split; [apply (C a b Hb)|exact Hb].
    + intros a a' b _ _. apply F1.
  - apply (injection_length (fun b a => R a b)); [exact N2| |].
    + intros b Hb. destruct (T2 b Hb) as (a & Ha). exists a. split; [apply (C a b Ha)|exact Ha].
    + intros b b' a _ _. apply F2.
Qed.
Theorem same_table_count : forall lab env root lab2 env2 root2, same_table lab env root lab2 env2 root2 -> length (children env root) = length (children env2 root2).
Proof. intros lab env root lab2 env2 root2 (R & _ & H). revert H. apply one_to_one_length; apply children_NoDup. Qed.
