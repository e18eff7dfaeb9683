(** Facts about [Decide.v]. *)

From Coq Require Import List Arith NArith Bool Lia.
From Verif Require Import Types Static Dispatch Runtime IndexFacts Spec Semantics Reach Safe SafeObjects Interp Flat FlatFacts EquivUse Unnest UnnestFacts UnnestProgram
  Merge MergeFacts MergeRun MergeLeast UnnestMerge Trim TrimFacts TrimNested Unique UniqueFacts UniqueNested Decide.
Import ListNotations.

Lemma events_alike_iff env root env2 root2 : flat env root -> flat env2 root2 -> events_alike env root env2 root2 = true <-> same_event_types env root env2 root2.
Proof.
  intros Hf Hf2. unfold events_alike, same_event_types. rewrite andb_true_iff, !forallb_forall. split.
  - intros [A B] e. rewrite <- (events_rows env root e Hf), <- (events_rows env2 root2 e Hf2). split; intros H.
    + apply A in H. now destruct (in_dec ev_eq_dec e (all_events env2 root2)).
    + apply B in H. now destruct (in_dec ev_eq_dec e (all_events env root)).
  - intros H. split; intros e He.
    + apply (events_rows env root e Hf), H, (events_rows env2 root2 e Hf2) in He. now destruct (in_dec ev_eq_dec e (all_events env2 root2)).
    + apply (events_rows env2 root2 e Hf2), H, (events_rows env root e Hf) in He. now destruct (in_dec ev_eq_dec e (all_events env root)).
Qed.

Section Decide.
Variables (lab : naming) (env : cenv) (root : cls) (lab2 : naming) (env2 : cenv) (root2 : cls).
Hypothesis Hk : keeps_kind lab.
Hypothesis Hk2 : keeps_kind lab2.
Notation fits := (fits lab env root lab2 env2 root2).
Notation fits_at := (fits_at lab env root lab2 env2 root2).
Notation narrow := (narrow lab env root lab2 env2 root2).
Notation fitting := (fitting lab env root lab2 env2 root2).
Notation all_pairs := (all_pairs env root env2 root2).

Lemma narrow_keeps (Q : list (sref * sref) -> Prop) : (forall P, Q P -> Q (filter (fits P) P)) -> forall n P, Q P -> Q (narrow n P).
Proof. intros H. induction n as [|n IH]; intros P HP; cbn [Decide.narrow]; [exact HP|]. destruct (Nat.eqb _ _); [exact HP|]. apply IH, H, HP. Qed.
Lemma narrow_stable : forall n P, length P <= n -> forall p, In p (narrow n P) -> fits (narrow n P) p = true.
Proof.
  induction n as [|n IH]; intros P L p; cbn [Decide.narrow].
  - destruct P; [intros []|cbn in L; lia].
  - destruct (Nat.eqb_spec (length (filter (fits P) P)) (length P)) as [E|E].
    + intros Hp. exact (filter_all _ _ E p Hp).
    + apply IH. assert (length (filter (fits P) P) <= length P); [|lia]. clear. generalize (fits P). intros f.
      induction P as [|y l IH]; cbn [filter]; [auto|]. destruct (f y); cbn [length]; lia.
Qed.
Lemma handlers_iff : handlers_alike lab env root lab2 env2 root2 = true <-> handler_of lab env root = handler_of lab2 env2 root2.
Proof. unfold handlers_alike, handler_of. destruct (handler_dec _ _); split; congruence. Qed.

(** * Yes *)
Lemma fitting_rows : (forall e, In e (all_events env root) <-> In e (all_events env2 root2)) -> answers_alike lab env root lab2 env2 root2 = true ->
  same_rows lab env root lab2 env2 root2 (fun a b => In (a, b) fitting).
Proof.
  intros Ev H. unfold answers_alike in H.
  assert (F : forall a b e, In (a, b) fitting -> In e (all_events env root) -> fits_at fitting (a, b) e = true).
  { intros a b e Hab. pose proof (narrow_stable _ _ (le_n _) (a, b) Hab) as S. unfold Decide.fits in S. rewrite forallb_forall in S. exact (S e). }
  split; [|split].
  - destruct (first_initial env root) as [i|]; [|discriminate]. destruct (first_initial env2 root2) as [i2|]; [|discriminate].
    exists i, i2. split; [reflexivity|]. split; [reflexivity|]. now destruct (in_dec pair_dec (i, i2) fitting).
  - intros a b e Hab. destruct (in_dec ev_eq_dec e (all_events env root)) as [I|N].
    + specialize (F a b e Hab I). unfold Decide.fits_at in F. apply andb_true_iff in F. cbn [fst snd] in F. exact (proj1 (agree_iff _ _ _) (proj1 F)).
    + rewrite (no_moves lab env root a e N), (no_moves lab2 env2 root2 b e); [constructor|]. now rewrite <- Ev.
  - intros a b e Hab I N. specialize (F a b e Hab I). unfold Decide.fits_at in F. apply andb_true_iff in F. cbn [fst snd] in F. rewrite N in F. now apply handlers_iff.
Qed.

(** * No *)
Definition apart2 (a b : sref) : Prop := exists l, Forall (fun ev => In (fst ev) (all_events env root)) l /\ view lab env root a l <> view lab2 env2 root2 b l.
Lemma answers_split P e a b : In e (all_events env root) -> fits_at P (a, b) e = false ->
  exists v, view_of (answer verdicts 0 e (handler_name lab env root) (moves lab env root a e) v tt) <>
            view_of (answer verdicts 0 e (handler_name lab2 env2 root2) (moves lab2 env2 root2 b e) v tt) \/
  exists o ks x y, In x (moves lab env root a e) /\ In y (moves lab2 env2 root2 b e) /\ ~ In (snd x, snd y) P /\
    answer verdicts 0 e (handler_name lab env root) (moves lab env root a e) v tt = (o, ks, Some (snd x), tt) /\
    answer verdicts 0 e (handler_name lab2 env2 root2) (moves lab2 env2 root2 b e) v tt = (o, ks, Some (snd y), tt).
Proof.
  intros He H. unfold Decide.fits_at in H. cbn [fst snd] in H.
  pose proof (moves_said lab env root a e Hk) as A. pose proof (moves_said lab2 env2 root2 b e Hk2) as B.
  pose proof (moves_cut lab env root a e) as C. pose proof (moves_cut lab2 env2 root2 b e) as D.
  assert (T : forall h h' x l, all_said (x :: l) -> view_of (answer verdicts 0 e h [] [true] tt) <> view_of (answer verdicts 0 e h' (x :: l) [true] tt)).
  { intros h h' [[[g|] ds] t] l Al; destruct (Al _ (or_introl eq_refl)) as [A1 A2]; cbn [fst snd] in *; unfold answer.
    - rewrite (play_chosen 0 e g ds t l [] (A1 g eq_refl) A2). unfold handled, verdicts. destruct h as [c|]; [destruct (is_guard c)|]; discriminate.
    - rewrite (play_open 0 e ds t l _ A2). unfold handled, verdicts. destruct h as [c|]; [destruct (is_guard c)|]; discriminate. }
  destruct (moves lab env root a e) as [|x l1], (moves lab2 env2 root2 b e) as [|y l2].
  - exists [true]. left. cbn [agree] in H. rewrite andb_true_l in H.
    assert (N : handler_name lab env root <> handler_name lab2 env2 root2).
    { intros E. assert (X : handlers_alike lab env root lab2 env2 root2 = true) by (apply handlers_iff; exact E). congruence. }
    unfold answer, handled, verdicts. destruct (handler_name lab env root) as [c|], (handler_name lab2 env2 root2) as [c2|];
      try (destruct (is_guard c)); try (destruct (is_guard c2)); cbn [view_of fst]; congruence.
  - exists [true]. left. exact (T _ _ y l2 B).
  - exists [true]. left. intros E. exact (T _ _ x l1 A (eq_sym E)).
  - rewrite andb_true_r in H. assert (N : ~ Forall2 (alike_move P) (x :: l1) (y :: l2)) by (rewrite <- agree_iff, H; discriminate).
    exact (play_split 0 e P _ _ A B C D N).
Qed.
Lemma removed_apart2 P a b : fits P (a, b) = false ->
  (forall x y, In x (all_states env root) -> In y (all_states env2 root2) -> ~ In (x, y) P -> apart2 x y) -> apart2 a b.
Proof.
  intros H A. assert (X : exists e, In e (all_events env root) /\ fits_at P (a, b) e = false).
  { unfold Decide.fits in H. induction (all_events env root) as [|e l IH]; [discriminate|]. cbn [forallb] in H.
    destruct (fits_at P (a, b) e) eqn:E; [|exists e; split; [now left|exact E]]. destruct (IH H) as (e' & He & E'). exists e'. split; [now right|exact E']. }
  destruct X as (e & He & X). destruct (answers_split P e a b He X) as (v & [D|D]).
  - exists [(e, v)]. split; [constructor; [exact He|constructor]|].
    destruct (view_cons lab env root a e v []) as (o1 & ks1 & t1 & E1 & ->), (view_cons lab2 env2 root2 b e v []) as (o2 & ks2 & t2 & E2 & ->).
    rewrite E1, E2 in D. cbn [view_of fst] in D. unfold view. cbn [reacts fst snd map]. rewrite !app_nil_r. congruence.
  - destruct D as (o & ks & x & y & Hx & Hy & Nxy & E1 & E2).
    destruct (moves_row lab env root a e x Hx) as (r & Hr & _ & _ & Er), (moves_row lab2 env2 root2 b e y Hy) as (r' & Hr' & _ & _ & Er').
    destruct (A (snd x) (snd y)) as (l & Hl & D); [rewrite Er; exact (goal_state env root r Hr)|rewrite Er'; exact (goal_state env2 root2 r' Hr')|exact Nxy|].
    exists ((e, v) :: l). split; [constructor; [exact He|exact Hl]|].
    destruct (view_cons lab env root a e v l) as (o1 & ks1 & t1 & F1 & ->), (view_cons lab2 env2 root2 b e v l) as (o2 & ks2 & t2 & F2 & ->).
    rewrite E1 in F1. rewrite E2 in F2. injection F1 as <- <- <-. injection F2 as <- <- <-. intros E. apply D.
    destruct (view lab env root (snd x) l) as [os1 l1], (view lab2 env2 root2 (snd y) l) as [os2 l2]. cbn [fst snd] in E. injection E as -> E. apply app_inv_head in E. now subst.
Qed.
Lemma not_fitting_apart a b : In a (all_states env root) -> In b (all_states env2 root2) -> ~ In (a, b) fitting -> apart2 a b.
Proof.
  revert a b. unfold Decide.fitting. apply (narrow_keeps (fun P => forall x y, In x (all_states env root) -> In y (all_states env2 root2) -> ~ In (x, y) P -> apart2 x y)).
  - intros P A x y Hx Hy N. destruct (in_dec pair_dec (x, y) P) as [I|I]; [|exact (A x y Hx Hy I)]. apply (removed_apart2 P x y); [|exact A].
    destruct (fits P (x, y)) eqn:E; [|reflexivity]. exfalso. apply N. apply filter_In. auto.
  - intros x y Hx Hy N. exfalso. apply N. apply in_prod; assumption.
Qed.
End Decide.

(** * The theorems *)
Theorem decide_yes : forall lab env root m lab2 env2 root2 m2, compile env root = Some m -> flat env root -> compile env2 root2 = Some m2 -> flat env2 root2 ->
  events_alike env root env2 root2 = true -> answers_alike lab env root lab2 env2 root2 = true ->
  exists bound, forall V W (f : code V W) vnone fuel d w l, bound <= fuel -> Forall (fun ev => event_of env root (fst ev)) l ->
  exists outs s s',
    session (behind lab f) m vnone fuel d w (map (fun ev => KProcess (fst ev) (snd ev)) l) = Done outs s /\
    session (behind lab2 f) m2 vnone fuel d w (map (fun ev => KProcess (fst ev) (snd ev)) l) = Done outs s' /\
    map (told lab2) (rt_trace s') = map (told lab) (rt_trace s) /\ rt_world s' = rt_world s.
Proof.
  intros lab env root m lab2 env2 root2 m2 Hm Hf Hm2 Hf2 E H. apply (events_alike_iff env root env2 root2 Hf Hf2) in E.
  assert (Ev : forall e, In e (all_events env root) <-> In e (all_events env2 root2)) by (intros e; rewrite (events_rows env root e Hf), (events_rows env2 root2 e Hf2); apply E).
  destruct (rows_session _ _ _ _ _ _ _ _ _ Hm Hf Hm2 Hf2 E (fitting_rows lab env root lab2 env2 root2 Ev H)) as (b & B). exists b.
  intros V W f vnone fuel d w l Hb Hl. destruct (B V W f vnone fuel d w l Hb Hl) as (outs & s & s' & x & y & H1 & H2 & H3 & H4 & _). exists outs, s, s'. auto.
Qed.
Theorem decide_no : forall lab env root m lab2 env2 root2 m2, compile env root = Some m -> flat env root -> compile env2 root2 = Some m2 -> flat env2 root2 ->
  keeps_kind lab -> keeps_kind lab2 -> events_alike env root env2 root2 = true -> answers_alike lab env root lab2 env2 root2 = false ->
  exists l bound, Forall (fun ev => event_of env root (fst ev)) l /\ forall fuel, bound <= fuel ->
  exists outs s outs' s',
    session (behind lab verdicts) m [] fuel 0 tt (map (fun ev => KProcess (fst ev) (snd ev)) l) = Done outs s /\
    session (behind lab2 verdicts) m2 [] fuel 0 tt (map (fun ev => KProcess (fst ev) (snd ev)) l) = Done outs' s' /\
    (outs, map (told lab) (rt_trace s)) <> (outs', map (told lab2) (rt_trace s')).
Proof.
  intros lab env root m lab2 env2 root2 m2 Hm Hf Hm2 Hf2 K K2 E H. apply (events_alike_iff env root env2 root2 Hf Hf2) in E.
  destruct (flat_session env root m Hm Hf) as (b1 & B1), (flat_session env2 root2 m2 Hm2 Hf2) as (b2 & B2).
  destruct (flat_initial env root Hf) as (i & Ei & _ & Si), (flat_initial env2 root2 Hf2) as (i2 & Ei2 & _ & Si2).
  unfold answers_alike in H. rewrite Ei, Ei2 in H. destruct (in_dec pair_dec (i, i2) (fitting lab env root lab2 env2 root2)) as [|N]; [discriminate|].
  destruct (not_fitting_apart lab env root lab2 env2 root2 K K2 i i2 Si Si2 N) as (l & Hl & D). exists l, (b1 + b2).
  assert (L1 : Forall (fun ev => event_of env root (fst ev)) l) by (revert Hl; apply Forall_impl; intros x; apply (events_rows env root _ Hf)).
  assert (L2 : Forall (fun ev => event_of env2 root2 (fst ev)) l) by (revert L1; apply Forall_impl; intros x; apply E). split; [exact L1|]. intros fuel Hb.
  unfold view in D. destruct (reacts (behind lab verdicts) env root 0 i l tt) as [[[os1 ks1] q1] w1] eqn:E1, (reacts (behind lab2 verdicts) env2 root2 0 i2 l tt) as [[[os2 ks2] q2] w2] eqn:E2.
  destruct (B1 _ _ _ [] fuel 0 tt l i os1 ks1 q1 w1 ltac:(lia) L1 Ei E1) as (s1 & S1 & _ & T1 & _).
  destruct (B2 _ _ _ [] fuel 0 tt l i2 os2 ks2 q2 w2 ltac:(lia) L2 Ei2 E2) as (s2 & S2 & _ & T2 & _).
  exists os1, s1, os2, s2. rewrite T1, T2. auto.
Qed.

(** * Programs with composites *)
Definition nested_events_alike (env : cenv) (root : cls) (env2 : cenv) (root2 : cls) : bool :=
  events_alike (unnested env root) (one env root) (unnested env2 root2) (one env2 root2).
Definition nested_answers_alike (lab : naming) (env : cenv) (root : cls) (lab2 : naming) (env2 : cenv) (root2 : cls) : bool :=
  answers_alike (carried lab env root) (unnested env root) (one env root) (carried lab2 env2 root2) (unnested env2 root2) (one env2 root2).
Section Nested.
Variables (lab : naming) (env : cenv) (root : cls) (m : machine) (lab2 : naming) (env2 : cenv) (root2 : cls) (m2 : machine).
Hypothesis Hm : compile env root = Some m.
Hypothesis One : one_region env root.
Hypothesis Wf : well_formed env root.
Hypothesis Now : at_once env root.
Hypothesis Size : (N.of_nat (S (length (spots env root))) < two64)%N.
Hypothesis Hm2 : compile env2 root2 = Some m2.
Hypothesis One2 : one_region env2 root2.
Hypothesis Wf2 : well_formed env2 root2.
Hypothesis Now2 : at_once env2 root2.
Hypothesis Size2 : (N.of_nat (S (length (spots env2 root2))) < two64)%N.
Hypothesis Ev : nested_events_alike env root env2 root2 = true.
Lemma nested_events_iff : same_event_types env root env2 root2.
Proof.
  destruct (nested_flat env root m Hm One Wf Now) as [Fl E1], (nested_flat env2 root2 m2 Hm2 One2 Wf2 Now2) as [Fl2 E2].
  intros e. rewrite (E1 e), (E2 e). revert e. exact (proj1 (events_alike_iff _ _ _ _ Fl Fl2) Ev).
Qed.
Lemma nested_yes : nested_answers_alike lab env root lab2 env2 root2 = true ->
  exists bound, forall V W (f : code V W) vnone fuel d w l, bound <= fuel -> Forall (fun ev => event_of env root (fst ev)) l ->
  exists outs s s',
    session (behind lab f) m vnone fuel d w (map (fun ev => KProcess (fst ev) (snd ev)) l) = Done outs s /\
    session (behind lab2 f) m2 vnone fuel d w (map (fun ev => KProcess (fst ev) (snd ev)) l) = Done outs s' /\
    map (told lab2) (rt_trace s') = map (told lab) (rt_trace s) /\ rt_world s' = rt_world s.
Proof.
  intros H. destruct (nested_flat env root m Hm One Wf Now) as [Fl E1], (nested_flat env2 root2 m2 Hm2 One2 Wf2 Now2) as [Fl2 E2].
  destruct (unnested_accepted env root m Hm One Wf Size) as (m1 & Hm1), (unnested_accepted env2 root2 m2 Hm2 One2 Wf2 Size2) as (m3 & Hm3).
  destruct (decide_yes _ _ _ m1 _ _ _ m3 Hm1 Fl Hm3 Fl2 Ev H) as (b & B). exists (256 + b). intros V W f vnone fuel d w l Hb Hl.
  assert (L1 : Forall (fun ev => event_of (unnested env root) (one env root) (fst ev)) l) by (revert Hl; apply Forall_impl; intros x; apply E1).
  assert (L2 : Forall (fun ev => event_of env2 root2 (fst ev)) l) by (revert Hl; apply Forall_impl; intros x; apply nested_events_iff).
  destruct (B V W f vnone fuel d w l ltac:(lia) L1) as (outs & s & s' & F1 & F2 & T & Ww).
  destruct (nested_session env root m Hm One Wf Now m1 Hm1 V W lab f vnone fuel d w l outs s ltac:(lia) Hl F1) as (s0 & G & T1 & W1 & _).
  destruct (nested_session env2 root2 m2 Hm2 One2 Wf2 Now2 m3 Hm3 V W lab2 f vnone fuel d w l outs s' ltac:(lia) L2 F2) as (s0' & G' & T1' & W1' & _).
  exists outs, s0, s0'. rewrite T1, T1', W1, W1'. auto.
Qed.
Lemma nested_no : keeps_kind lab -> keeps_kind lab2 -> nested_answers_alike lab env root lab2 env2 root2 = false ->
  exists l bound, Forall (fun ev => event_of env root (fst ev)) l /\ forall fuel, bound <= fuel ->
  exists outs s outs' s',
    session (behind lab verdicts) m [] fuel 0 tt (map (fun ev => KProcess (fst ev) (snd ev)) l) = Done outs s /\
    session (behind lab2 verdicts) m2 [] fuel 0 tt (map (fun ev => KProcess (fst ev) (snd ev)) l) = Done outs' s' /\
    (outs, map (told lab) (rt_trace s)) <> (outs', map (told lab2) (rt_trace s')).
Proof.
  intros K K2 H. destruct (nested_flat env root m Hm One Wf Now) as [Fl E1], (nested_flat env2 root2 m2 Hm2 One2 Wf2 Now2) as [Fl2 E2].
  destruct (unnested_accepted env root m Hm One Wf Size) as (m1 & Hm1), (unnested_accepted env2 root2 m2 Hm2 One2 Wf2 Size2) as (m3 & Hm3).
  assert (C1 : keeps_kind (carried lab env root)) by (apply carried_kind; exact K).
  assert (C2 : keeps_kind (carried lab2 env2 root2)) by (apply carried_kind; exact K2).
  destruct (decide_no (carried lab env root) (unnested env root) (one env root) m1 (carried lab2 env2 root2) (unnested env2 root2) (one env2 root2) m3 Hm1 Fl Hm3 Fl2 C1 C2 Ev H) as (l & b & L1 & B).
  assert (L : Forall (fun ev => event_of env root (fst ev)) l) by (revert L1; apply Forall_impl; intros x; apply E1).
  assert (L2 : Forall (fun ev => event_of env2 root2 (fst ev)) l) by (revert L; apply Forall_impl; intros x; apply nested_events_iff).
  exists l, (256 + b). split; [exact L|]. intros fuel Hb. destruct (B fuel ltac:(lia)) as (outs & s & outs' & s' & F1 & F2 & D).
  destruct (nested_session env root m Hm One Wf Now m1 Hm1 _ _ lab verdicts [] fuel 0 tt l outs s ltac:(lia) L F1) as (s0 & G & T1 & _).
  destruct (nested_session env2 root2 m2 Hm2 One2 Wf2 Now2 m3 Hm3 _ _ lab2 verdicts [] fuel 0 tt l outs' s' ltac:(lia) L2 F2) as (s0' & G' & T1' & _).
  exists outs, s0, outs', s0'. rewrite T1, T1'. auto.
Qed.
End Nested.

(** * One client is enough *)
Theorem decide_iff : forall lab env root m lab2 env2 root2 m2, compile env root = Some m -> flat env root -> compile env2 root2 = Some m2 -> flat env2 root2 ->
  keeps_kind lab -> keeps_kind lab2 -> events_alike env root env2 root2 = true ->
  answers_alike lab env root lab2 env2 root2 = true <-> imitates lab env root m lab2 m2.
Proof.
  intros lab env root m lab2 env2 root2 m2 Hm Hf Hm2 Hf2 K K2 E. split.
  - intros H. destruct (decide_yes _ _ _ _ _ _ _ _ Hm Hf Hm2 Hf2 E H) as (b & B). exists b. intros fuel l Hb Hl.
    destruct (B _ _ verdicts [] fuel 0 tt l Hb Hl) as (outs & s & s' & H1 & H2 & H3 & _). exists outs, s, s'. auto.
  - intros (b & B). destruct (answers_alike lab env root lab2 env2 root2) eqn:A; [reflexivity|]. exfalso.
    destruct (decide_no _ _ _ _ _ _ _ _ Hm Hf Hm2 Hf2 K K2 E A) as (l & b' & Hl & B').
    destruct (B' (b + b') ltac:(lia)) as (outs & s & outs' & s' & H1 & H2 & D), (B (b + b') l ltac:(lia) Hl) as (o & t & t' & G1 & G2 & G3).
    rewrite H1 in G1. rewrite H2 in G2. injection G1 as -> ->. injection G2 as -> ->. apply D. now rewrite G3.
Qed.
Theorem nested_iff : forall lab env root m lab2 env2 root2 m2,
  compile env root = Some m -> one_region env root -> well_formed env root -> at_once env root -> (N.of_nat (S (length (spots env root))) < two64)%N ->
  compile env2 root2 = Some m2 -> one_region env2 root2 -> well_formed env2 root2 -> at_once env2 root2 -> (N.of_nat (S (length (spots env2 root2))) < two64)%N ->
  nested_events_alike env root env2 root2 = true -> keeps_kind lab -> keeps_kind lab2 ->
  nested_answers_alike lab env root lab2 env2 root2 = true <-> imitates lab env root m lab2 m2.
Proof.
  intros lab env root m lab2 env2 root2 m2 Hm One Wf Now Size Hm2 One2 Wf2 Now2 Size2 E K K2. split.
  - intros H. destruct (nested_yes lab env root m lab2 env2 root2 m2 Hm One Wf Now Size Hm2 One2 Wf2 Now2 Size2 E H) as (b & B). exists b. intros fuel l Hb Hl.
    destruct (B _ _ verdicts [] fuel 0 tt l Hb Hl) as (outs & s & s' & H1 & H2 & H3 & _). exists outs, s, s'. auto.
  - intros (b & B). destruct (nested_answers_alike lab env root lab2 env2 root2) eqn:A; [reflexivity|]. exfalso.
    destruct (nested_no lab env root m lab2 env2 root2 m2 Hm One Wf Now Size Hm2 One2 Wf2 Now2 Size2 E K K2 A) as (l & b' & Hl & B').
    destruct (B' (b + b') ltac:(lia)) as (outs & s & outs' & s' & H1 & H2 & D), (B (b + b') l ltac:(lia) Hl) as (o & t & t' & G1 & G2 & G3).
    rewrite H1 in G1. rewrite H2 in G2. injection G1 as -> ->. injection G2 as -> ->. apply D. now rewrite G3.
Qed.
Theorem nested_one_client : forall lab env root m lab2 env2 root2 m2,
  compile env root = Some m -> one_region env root -> well_formed env root -> at_once env root -> (N.of_nat (S (length (spots env root))) < two64)%N ->
  compile env2 root2 = Some m2 -> one_region env2 root2 -> well_formed env2 root2 -> at_once env2 root2 -> (N.of_nat (S (length (spots env2 root2))) < two64)%N ->
  nested_events_alike env root env2 root2 = true -> keeps_kind lab -> keeps_kind lab2 -> imitates lab env root m lab2 m2 ->
  exists bound, forall V W (f : code V W) vnone fuel d w l, bound <= fuel -> Forall (fun ev => event_of env root (fst ev)) l ->
  exists outs s s',
    session (behind lab f) m vnone fuel d w (map (fun ev => KProcess (fst ev) (snd ev)) l) = Done outs s /\
    session (behind lab2 f) m2 vnone fuel d w (map (fun ev => KProcess (fst ev) (snd ev)) l) = Done outs s' /\
    map (told lab2) (rt_trace s') = map (told lab) (rt_trace s) /\ rt_world s' = rt_world s.
Proof.
  intros lab env root m lab2 env2 root2 m2 Hm One Wf Now Size Hm2 One2 Wf2 Now2 Size2 E K K2 Im.
  apply (nested_iff lab env root m lab2 env2 root2 m2 Hm One Wf Now Size Hm2 One2 Wf2 Now2 Size2 E K K2) in Im.
  exact (nested_yes lab env root m lab2 env2 root2 m2 Hm One Wf Now Size Hm2 One2 Wf2 Now2 Size2 E Im).
Qed.
