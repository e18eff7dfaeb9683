(** Tables that are the same up to names answer alike; the smallest tables of programs with
    composites. *)

From Coq Require Import List Arith NArith Bool Lia.
From Verif Require Import Types Static Dispatch Runtime IndexFacts Spec Semantics Reach Safe SafeObjects Interp Flat FlatFacts EquivUse Unnest UnnestFacts UnnestProgram
  Merge MergeFacts MergeRun MergeLeast UnnestMerge Trim TrimFacts TrimNested Unique UniqueFacts.
Import ListNotations.

(** * The same rows give the same answers *)
Lemma alike_combine (R : sref -> sref -> Prop) : forall l1 l2 : list move, Forall2 (fun x y => fst x = fst y /\ R (snd x) (snd y)) l1 l2 ->
  (forall P, incl (combine (map snd l1) (map snd l2)) P -> Forall2 (alike_move P) l1 l2) /\ (forall a b, In (a, b) (combine (map snd l1) (map snd l2)) -> R a b).
Proof.
  intros l1 l2 F. induction F as [|x y l1 l2 [E H] F [IH1 IH2]]; [split; [constructor|intros a b []]|]. cbn [map combine]. split.
  - intros P HP. constructor; [split; [exact E|apply HP; now left]|]. apply IH1. intros z Hz. apply HP. now right.
  - intros a b [[= <- <-]|Hab]; [exact H|now apply IH2].
Qed.
Section Rows.
Variables (lab : naming) (env : cenv) (root : cls) (lab2 : naming) (env2 : cenv) (root2 : cls) (R : sref -> sref -> Prop).
Hypothesis Rows : forall a b e, R a b -> Forall2 (fun x y => fst x = fst y /\ R (snd x) (snd y)) (moves lab env root a e) (moves lab2 env2 root2 b e).
Hypothesis Hand : forall a b e, R a b -> In e (all_events env root) -> moves lab env root a e = [] -> handler_of lab env root = handler_of lab2 env2 root2.
Lemma rows_react {V W} (f : code V W) d a b e v w o ks a1 w1 : In e (all_events env root) -> R a b -> react (behind lab f) env root d a e v w = (o, ks, a1, w1) ->
  exists ks' b1, react (behind lab2 f) env2 root2 d b e v w = (o, ks', b1, w1) /\ map (told lab2) ks' = map (told lab) ks /\ R a1 b1.
Proof.
  intros I H E. destruct (react (behind lab2 f) env2 root2 d b e v w) as [[[o' ks'] b1] w1'] eqn:E'. apply react_told in E, E'.
  destruct E as (t & A & ->), E' as (t' & A' & ->). destruct (alike_combine R _ _ (Rows a b e H)) as [F G].
  assert (A2 : answer f d e (handler_name lab env root) (moves lab2 env2 root2 b e) v w = answer f d e (handler_name lab2 env2 root2) (moves lab2 env2 root2 b e) v w).
  { destruct (moves lab2 env2 root2 b e) as [|y l] eqn:N; [|reflexivity]. pose proof (Rows a b e H) as F'. rewrite N in F'.
    assert (N1 : moves lab env root a e = []) by now inversion F'. pose proof (Hand a b e H I N1) as Hh. change (handler_name lab env root = handler_name lab2 env2 root2) in Hh. now rewrite Hh. }
  rewrite <- A2 in A'.
  destruct (answer_alike f d e _ (handler_name lab env root) _ _ (F _ (incl_refl _)) v w) as (o2 & ks2 & t1 & t2 & w2 & B1 & B2 & L).
  rewrite B1 in A. rewrite B2 in A'. injection A as -> E1 -> ->. injection A' as <- E2 -> <-. exists ks', (match t' with Some t' => t' | None => b end).
  split; [reflexivity|]. split; [congruence|]. destruct t as [t|], t' as [t'|]; try destruct L; auto.
Qed.
Lemma rows_reacts {V W} (f : code V W) d : forall l a b w os ks a1 w1, Forall (fun ev => In (fst ev) (all_events env root)) l -> R a b -> reacts (behind lab f) env root d a l w = (os, ks, a1, w1) ->
  exists ks' b1, reacts (behind lab2 f) env2 root2 d b l w = (os, ks', b1, w1) /\ map (told lab2) ks' = map (told lab) ks /\ R a1 b1.
Proof.
  induction l as [|[e v] l IH]; intros a b w os ks a1 w1 L H; cbn [reacts]; [intros [= <- <- <- <-]; exists [], b; auto|]. inversion L as [|? ? I L']; subst; cbn [fst] in I.
  destruct (react (behind lab f) env root d a e v w) as [[[o2 ks2] a2] w2] eqn:E. destruct (rows_react f d a b e v w _ _ _ _ I H E) as (ks2' & b2 & -> & T & H2).
  destruct (reacts (behind lab f) env root d a2 l w2) as [[[os3 ks3] a3] w3] eqn:E3. destruct (IH _ _ _ _ _ _ _ L' H2 E3) as (ks3' & b3 & -> & T3 & H3).
  intros [= <- <- <- <-]. exists (ks2' ++ ks3'), b3. rewrite !map_app, T, T3. auto.
Qed.
End Rows.
Theorem rows_session : forall lab env root m lab2 env2 root2 m2 R, compile env root = Some m -> flat env root -> compile env2 root2 = Some m2 -> flat env2 root2 ->
  same_event_types env root env2 root2 -> same_rows lab env root lab2 env2 root2 R ->
  exists bound, forall V W (f : code V W) vnone fuel d w l, bound <= fuel -> Forall (fun ev => event_of env root (fst ev)) l ->
  exists outs s s' a b,
    session (behind lab f) m vnone fuel d w (map (fun ev => KProcess (fst ev) (snd ev)) l) = Done outs s /\
    session (behind lab2 f) m2 vnone fuel d w (map (fun ev => KProcess (fst ev) (snd ev)) l) = Done outs s' /\
    map (told lab2) (rt_trace s') = map (told lab) (rt_trace s) /\ rt_world s' = rt_world s /\
    at_place m s 0 = Some (root, a) /\ at_place m2 s' 0 = Some (root2, b) /\ R a b.
Proof.
  intros lab env root m lab2 env2 root2 m2 R Hm Hf Hm2 Hf2 Ev ((i & i2 & Ei & Ei2 & Ri) & Rows & Hand).
  destruct (flat_session env root m Hm Hf) as (b1 & B1), (flat_session env2 root2 m2 Hm2 Hf2) as (b2 & B2). exists (b1 + b2).
  intros V W f vnone fuel d w l Hb Hl. assert (L2 : Forall (fun ev => event_of env2 root2 (fst ev)) l) by (revert Hl; apply Forall_impl; intros x; apply Ev).
  assert (L0 : Forall (fun ev => In (fst ev) (all_events env root)) l) by (revert Hl; apply Forall_impl; intros x; apply (events_rows env root _ Hf)).
  destruct (reacts (behind lab f) env root d i l w) as [[[os ks] a] w'] eqn:E.
  destruct (rows_reacts lab env root lab2 env2 root2 R Rows Hand f d l i i2 w os ks a w' L0 Ri E) as (ks' & b & E' & T & Rab).
  destruct (B1 V W (behind lab f) vnone fuel d w l i os ks a w' ltac:(lia) Hl Ei E) as (s & S1 & S2 & S3 & S4).
  destruct (B2 V W (behind lab2 f) vnone fuel d w l i2 os ks' b w' ltac:(lia) L2 Ei2 E') as (s' & S1' & S2' & S3' & S4').
  exists os, s, s', a, b. rewrite S3, S3', S4, S4'. repeat split; assumption.
Qed.

(** One client is enough: programs that answer it alike answer all user code alike. *)
Theorem one_client : forall lab env root m lab2 env2 root2 m2, compile env root = Some m -> flat env root -> compile env2 root2 = Some m2 -> flat env2 root2 ->
  keeps_kind lab -> keeps_kind lab2 -> same_event_types env root env2 root2 -> imitates lab env root m lab2 m2 ->
  exists bound, forall V W (f : code V W) vnone fuel d w l, bound <= fuel -> Forall (fun ev => event_of env root (fst ev)) l ->
  exists outs s s',
    session (behind lab f) m vnone fuel d w (map (fun ev => KProcess (fst ev) (snd ev)) l) = Done outs s /\
    session (behind lab2 f) m2 vnone fuel d w (map (fun ev => KProcess (fst ev) (snd ev)) l) = Done outs s' /\
    map (told lab2) (rt_trace s') = map (told lab) (rt_trace s) /\ rt_world s' = rt_world s.
Proof.
  intros lab env root m lab2 env2 root2 m2 Hm Hf Hm2 Hf2 K K2 Ev Im. destruct (rows_alike _ _ _ _ _ _ _ _ Hm Hf Hm2 Hf2 K K2 Ev Im) as (R & H & _).
  destruct (rows_session _ _ _ _ _ _ _ _ R Hm Hf Hm2 Hf2 Ev H) as (b & B). exists b. intros V W f vnone fuel d w l Hb Hl.
  destruct (B V W f vnone fuel d w l Hb Hl) as (outs & s & s' & x & y & H1 & H2 & H3 & H4 & _). exists outs, s, s'. auto.
Qed.

(** * Programs with composites *)
Lemma nested_run lab env root m : compile env root = Some m -> one_region env root -> well_formed env root -> at_once env root ->
  forall m1, compile (unnested env root) (one env root) = Some m1 -> exists bound, forall fuel l, bound <= fuel -> Forall (fun ev => event_of env root (fst ev)) l ->
  exists outs s s', session (behind lab verdicts) m [] fuel 0 tt (map (fun ev => KProcess (fst ev) (snd ev)) l) = Done outs s /\
    session (behind (carried lab env root) verdicts) m1 [] fuel 0 tt (map (fun ev => KProcess (fst ev) (snd ev)) l) = Done outs s' /\
    map (told (carried lab env root)) (rt_trace s') = map (told lab) (rt_trace s).
Proof.
  intros Hm One Wf Now m1 Hm1. destruct (nested_flat env root m Hm One Wf Now) as [Fl Ev].
  destruct (merged_program (carried lab env root) _ _ Fl (Logic.ex_intro _ m1 Hm1)) as ((m' & Hm') & _).
  destruct (merged_session (carried lab env root) _ _ m1 m' Hm1 Fl Hm') as (b1 & B1). exists (256 + b1). intros fuel l Hb Hl.
  assert (Hl1 : Forall (fun ev => event_of (unnested env root) (one env root) (fst ev)) l) by (revert Hl; apply Forall_impl; intros x; apply Ev).
  destruct (B1 _ _ verdicts [] fuel 0 tt l ltac:(lia) Hl1) as (outs & s1 & s' & q & E1 & _).
  destruct (nested_session env root m Hm One Wf Now m1 Hm1 _ _ lab verdicts [] fuel 0 tt l outs s1 ltac:(lia) Hl E1) as (s & E & T1 & _).
  exists outs, s, s1. auto.
Qed.
Theorem nested_unique : forall lab env root m lab2 env2 root2 m2,
  compile env root = Some m -> one_region env root -> well_formed env root -> at_once env root -> (N.of_nat (S (length (spots env root))) < two64)%N ->
  compile env2 root2 = Some m2 -> one_region env2 root2 -> well_formed env2 root2 -> at_once env2 root2 -> (N.of_nat (S (length (spots env2 root2))) < two64)%N ->
  keeps_kind lab -> keeps_kind lab2 -> same_event_types env root env2 root2 ->
  all_events_used (unnested env root) (one env root) -> all_events_used (unnested env2 root2) (one env2 root2) ->
  imitates lab env root m lab2 m2 ->
  same_table (carried lab env root) (least_table lab env root) (one env root) (carried lab2 env2 root2) (least_table lab2 env2 root2) (one env2 root2).
Proof.
  intros lab env root m lab2 env2 root2 m2 Hm One Wf Now Size Hm2 One2 Wf2 Now2 Size2 K K2 Ev U U2 (b & B).
  destruct (nested_flat env root m Hm One Wf Now) as [Fl E1], (nested_flat env2 root2 m2 Hm2 One2 Wf2 Now2) as [Fl2 E2].
  destruct (unnested_accepted env root m Hm One Wf Size) as (m1 & Hm1), (unnested_accepted env2 root2 m2 Hm2 One2 Wf2 Size2) as (m3 & Hm3).
  apply (least_unique _ _ _ m1 _ _ _ m3 Hm1 Fl Hm3 Fl2); auto.
  - now apply carried_kind.
  - now apply carried_kind.
  - intros e. rewrite <- (E1 e), <- (E2 e). apply Ev.
  - intros x y _ _. now rewrite !new_entries.
  - intros x y _ _. now rewrite !new_entries.
  - destruct (nested_run lab env root m Hm One Wf Now m1 Hm1) as (b1 & B1), (nested_run lab2 env2 root2 m2 Hm2 One2 Wf2 Now2 m3 Hm3) as (b2 & B2).
    exists (b + b1 + b2). intros fuel l Hb Hl.
    assert (L : Forall (fun ev => event_of env root (fst ev)) l) by (revert Hl; apply Forall_impl; intros x; apply E1).
    assert (L2 : Forall (fun ev => event_of env2 root2 (fst ev)) l) by (revert L; apply Forall_impl; intros x; apply Ev).
    destruct (B1 fuel l ltac:(lia) L) as (o1 & s1 & s1' & P1 & P2 & P3), (B2 fuel l ltac:(lia) L2) as (o2 & s2 & s2' & Q1 & Q2 & Q3), (B fuel l ltac:(lia) L) as (o & s & s' & R1 & R2 & R3).
    rewrite P1 in R1. injection R1 as <- <-. rewrite Q1 in R2. injection R2 as <- <-. exists o2, s1', s2'. split; [exact P2|]. split; [exact Q2|]. congruence.
Qed.
