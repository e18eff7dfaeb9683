(** The smallest table for a program with composites. *)

From Coq Require Import List Arith NArith Bool Lia.
From Verif Require Import Types Static Dispatch Runtime IndexFacts Spec Semantics Reach Safe SafeObjects Interp Flat FlatFacts EquivUse Unnest UnnestFacts UnnestProgram
  Merge MergeFacts MergeRun MergeLeast UnnestMerge Trim TrimFacts.
Import ListNotations.

Definition least_table (lab : naming) (env : cenv) (root : cls) : cenv :=
  merged (carried lab env root) (trimmed (unnested env root) (one env root)) (one env root).

Theorem nested_trimmed : forall lab env root m, compile env root = Some m -> one_region env root -> well_formed env root -> at_once env root ->
  (N.of_nat (S (length (spots env root))) < two64)%N ->
  flat (least_table lab env root) (one env root) /\
  exists m' bound, compile (least_table lab env root) (one env root) = Some m' /\
  forall V W (f : code V W) vnone fuel d w l, bound <= fuel ->
  Forall (fun ev => event_of (trimmed (unnested env root) (one env root)) (one env root) (fst ev)) l ->
  exists outs s s' pl,
    session (behind lab f) m vnone fuel d w (map (fun ev => KProcess (fst ev) (snd ev)) l) = Done outs s /\
    session (behind (carried lab env root) f) m' vnone fuel d w (map (fun ev => KProcess (fst ev) (snd ev)) l) = Done outs s' /\
    map (told (carried lab env root)) (rt_trace s') = map (told lab) (rt_trace s) /\ rt_world s' = rt_world s /\
    is_place env root pl /\ at_place m s 0 = Some pl /\
    at_place m' s' 0 = Some (one env root, stand_in (trimmed (unnested env root) (one env root)) (one env root)
      (equals (carried lab env root) (trimmed (unnested env root) (one env root)) (one env root)) (SState (alias env root pl))).
Proof.
  intros lab env root m Hm One Wf Now Size. destruct (nested_flat env root m Hm One Wf Now) as [Fl Ev].
  destruct (unnested_accepted env root m Hm One Wf Size) as (m1 & Hm1).
  destruct (trimmed_program _ _ Fl (Logic.ex_intro _ m1 Hm1)) as ((m2 & Hm2) & Fl2 & _).
  destruct (merged_program (carried lab env root) _ _ Fl2 (Logic.ex_intro _ m2 Hm2)) as ((m' & Hm') & Fl' & _). split; [exact Fl'|].
  destruct (trimmed_session _ _ m1 m2 Hm1 Fl Hm2) as (b1 & B1), (merged_session (carried lab env root) _ _ m2 m' Hm2 Fl2 Hm') as (b2 & B2).
  exists m', (256 + b1 + b2). split; [exact Hm'|]. intros V W f vnone fuel d w l Hb Hl.
  assert (Hl0 : Forall (fun ev => event_of env root (fst ev)) l).
  { revert Hl. apply Forall_impl. intros x Hx. apply Ev. now apply trimmed_known. }
  destruct (B1 V W (behind (carried lab env root) f) vnone fuel d w l ltac:(lia) Hl) as (outs & s1 & s2 & q & E1 & E2 & T & Ww & A1 & A2).
  destruct (B2 V W f vnone fuel d w l ltac:(lia) Hl) as (outs' & s2' & s' & q' & F1 & F2 & T' & Ww' & A1' & A2').
  rewrite E2 in F1. injection F1 as <- <-.
  destruct (nested_session env root m Hm One Wf Now m1 Hm1 V W lab f vnone fuel d w l outs s1 ltac:(lia) Hl0 E1) as (s & E & T1 & W1 & pl & P1 & P2 & P3).
  rewrite P3 in A1. injection A1 as <-. rewrite A2 in A1'. injection A1' as <-.
  exists outs, s, s', pl. rewrite T', T, Ww', Ww, T1, W1. repeat split; auto; try apply P1.
Qed.
Theorem nested_trimmed_least : forall lab env root m lab2 env2 root2 m2,
  compile env root = Some m -> one_region env root -> well_formed env root -> at_once env root ->
  (N.of_nat (S (length (spots env root))) < two64)%N -> keeps_kind lab ->
  compile env2 root2 = Some m2 -> flat env2 root2 -> (forall e, event_of env root e -> event_of env2 root2 e) ->
  imitates lab env root m lab2 m2 ->
  length (children (least_table lab env root) (one env root)) <= length (children env2 root2).
Proof.
  intros lab env root m lab2 env2 root2 m2 Hm One Wf Now Size K Hm2 Fl2 Ev2 (b & B).
  destruct (nested_flat env root m Hm One Wf Now) as [Fl Ev].
  destruct (unnested_accepted env root m Hm One Wf Size) as (m1 & Hm1).
  apply (trimmed_least (carried lab env root) _ _ m1 lab2 env2 root2 m2 Hm1 Fl); auto.
  - now apply carried_kind.
  - intros. now rewrite !new_entries.
  - intros e He. now apply Ev2, Ev.
  - destruct (merged_program (carried lab env root) _ _ Fl (Logic.ex_intro _ m1 Hm1)) as ((m' & Hm') & _).
    destruct (merged_session (carried lab env root) _ _ m1 m' Hm1 Fl Hm') as (b1 & B1).
    exists (256 + b + b1). intros fuel l Hb Hl.
    destruct (B1 _ _ verdicts [] fuel 0 tt l ltac:(lia) Hl) as (outs & s1 & s' & q & E1 & _).
    assert (Hl0 : Forall (fun ev => event_of env root (fst ev)) l).
    { apply (Forall_impl _ (P := fun ev => event_of (unnested env root) (one env root) (fst ev))); [|exact Hl]. intros x. apply Ev. }
    destruct (nested_session env root m Hm One Wf Now m1 Hm1 _ _ lab verdicts [] fuel 0 tt l outs s1 ltac:(lia) Hl0 E1) as (s & E & T1 & _).
    destruct (B fuel l ltac:(lia) Hl0) as (outs2 & s0 & s2 & F1 & F2 & T2). rewrite E in F1. injection F1 as <- <-.
    exists outs, s1, s2. split; [exact E1|]. split; [exact F2|]. congruence.
Qed.
Theorem nested_trimmed_attained : forall lab env root m, compile env root = Some m -> one_region env root -> well_formed env root -> at_once env root ->
  (N.of_nat (S (length (spots env root))) < two64)%N -> all_events_used (unnested env root) (one env root) ->
  exists m', compile (least_table lab env root) (one env root) = Some m' /\ flat (least_table lab env root) (one env root) /\
  imitates lab env root m (carried lab env root) m'.
Proof.
  intros lab env root m Hm One Wf Now Size Us. destruct (nested_trimmed lab env root m Hm One Wf Now Size) as (Fl & m' & b & Hm' & B).
  exists m'. split; [exact Hm'|]. split; [exact Fl|]. exists b. intros fuel l Hb Hl. destruct (nested_flat env root m Hm One Wf Now) as [Fl1 Ev].
  assert (L : Forall (fun ev => event_of (trimmed (unnested env root) (one env root)) (one env root) (fst ev)) l).
  { revert Hl. apply Forall_impl. intros x Hx. apply (trimmed_events _ _ Fl1), Us, Ev, Hx. }
  destruct (B _ _ verdicts [] fuel 0 tt l Hb L) as (outs & s & s' & pl & E1 & E2 & T & _). exists outs, s, s'. auto.
Qed.
