(** Merging the places of a program with composites: the states of the program with one
    table (Unnest.v) that no client and no user code can tell apart are made one
    (Merge.v). *)

From Coq Require Import List Arith NArith Bool Lia.
From Verif Require Import Types Static Dispatch Runtime ListFacts IndexFacts Spec Semantics EquivUse Interp
  FlattenFacts StaticFacts TableFacts ProcessFacts RefineFacts InterpFacts GraphExact Reach Safe SafeObjects Flat FlatFacts
  Unnest UnnestFacts UnnestRun UnnestProgram Merge MergeFacts MergeRun MergeLeast.
Import ListNotations.

(** No event is deferred, no row is anonymous. *)
Record at_once (env : cenv) (root : cls) : Prop := mkAtOnce {
  ao_event : forall x, declared env root x \/ declared_internal env root x -> x_ev x <> ENone;
  ao_defer : forall x, declared env root x -> deferred_by env x = [] }.
(** The code behind a function of the program with one table is the code behind the
    function it stands for. *)
Definition carried (lab : naming) (env : cenv) (root : cls) : naming :=
  fun c => lab (fst (meant env root c (mkArgs ENone (SState 0) TNone 0))).
Definition smallest (lab : naming) (env : cenv) (root : cls) : cenv :=
  merged (carried lab env root) (unnested env root) (one env root).

Section UnnestMerge.
Variables (env : cenv) (root : cls) (m : machine).
Hypothesis Hm : compile env root = Some m.
Hypothesis One : one_region env root.
Hypothesis Wf : well_formed env root.
Hypothesis Now : at_once env root.
Notation env' := (unnested env root).
Notation one := (one env root).
Notation alias := (alias env root).

Lemma ordered : orderly env root (outer_rows env root) (inner_rows env root) = true.
Proof. apply (well_formed_orderly env root m); auto. now apply few. Qed.
Lemma row_event x : In x (outer_rows env root ++ inner_rows env root) -> x_ev x <> ENone.
Proof.
  intros H. apply in_app_or in H. destruct H as [H|H]; apply (ao_event _ _ Now); [left|right].
  - now apply (outer_declared env root m Hm).
  - now apply (inner_declared env root m Hm).
Qed.
Lemma occasion_user e : In e (occasions env root) -> e <> ENone.
Proof. intros H. apply filter_In in H. destruct H as [H _]. apply nodup_In, in_map_iff in H. destruct H as (x & <- & Hx). now apply row_event. Qed.
Lemma never_put_off e pl : put_off env root e pl = false.
Proof.
  destruct (put_off env root e pl) eqn:P; [|reflexivity]. exfalso. apply tries_head in P. destruct P as (cs & T).
  assert (Hc : In CDefer (tries env root e pl)) by (rewrite T; now left). unfold tries, choices, priority in Hc.
  rewrite !in_app_iff, <- !in_rev, !rows_at_in in Hc. destruct Hc as [Hc|[(y & o' & E' & _)|(y & o' & E' & _)]]; try discriminate.
  unfold defers_at in Hc. apply in_flat_map in Hc. destruct Hc as (x & Hx & Hc). apply (outer_declared env root m Hm) in Hx.
  rewrite (ao_defer _ _ Now x Hx) in Hc. destruct (place_eq_dec _ _); destruct Hc.
Qed.
Lemma never_postponed pl : postponed env root pl = None.
Proof.
  unfold postponed. replace (filter _ _) with (@nil ev); [reflexivity|]. induction (occasions env root) as [|e l IH]; [reflexivity|].
  cbn [filter]. now rewrite never_put_off.
Qed.
Lemma unnested_flat : flat env' one.
Proof.
  split.
  - rewrite table_one. intros r Hr. destruct (row_states env root m Hm One r Hr) as [(q & Hq & E1) (q' & Hq' & E2)]. split; [|split].
    + apply in_rows in Hr. destruct Hr as (pl & e & x & o & _ & He & _ & ->). cbn [r_ev]. now apply occasion_user.
    + exists (alias q). split; [exact E1|]. intros C. apply C, lookup_new. pose proof (alias_lt env root q Hq). lia.
    + exists (alias q'). split; [exact E2|]. intros C. apply C, lookup_new. pose proof (alias_lt env root q' Hq'). lia.
  - now rewrite (new_initial env root m Hm ordered One).
  - intros c. destruct (lookup_members env root c) as (_ & _ & Hd & Hi). split; [unfold internals; now rewrite Hi|]. split; [|exact Hd].
    destruct (Nat.eq_dec c one) as [->|N]; [now rewrite lookup_one|]. destruct (lookup_rest env root c N) as [->|(pl & ->)]; [reflexivity|].
    cbn [spot_def cd_defer]. apply never_postponed.
Qed.
Lemma event_occasion e : event_of env root e <-> In e (occasions env root).
Proof.
  split.
  - intros H. apply occasions_user.
    + apply (events_iff env root m Hm) in H. destruct (rows_compiled env root m Hm) as [-> ->]. now apply an_event_iff.
    + destruct H as (x & Hx & <-). now apply (ao_event _ _ Now).
  - intros H. apply filter_In in H. destruct H as [H _]. apply nodup_In, in_map_iff in H. destruct H as (x & <- & Hx).
    exists x. split; [|reflexivity]. apply in_app_or in Hx. destruct Hx as [Hx|Hx]; [left|right].
    + now apply (outer_declared env root m Hm).
    + now apply (inner_declared env root m Hm).
Qed.
Lemma same_events e : event_of env root e <-> event_of env' one e.
Proof.
  rewrite event_occasion. split.
  - intros He. destruct (occasions_tried env root ordered e He) as (y & pl & o & Hp & Hy).
    exists (new_row env root e pl y o). split; [|reflexivity]. left. exists one. eexists. split; [constructor|]. split; [|reflexivity].
    rewrite table_one. apply in_rows. exists pl, e, y, o. auto.
  - intros (x & [Hx|Hx] & <-).
    + destruct Hx as (p & r & Hu & Hr & ->). apply (used_one env root m Hm One) in Hu. subst p. rewrite table_one in Hr.
      apply in_rows in Hr. destruct Hr as (pl & e & y & o & _ & He & _ & ->). exact He.
    + exfalso. destruct Hx as [p c i s _ _ Hi _|p c i _ _ Hi]; unfold internals in Hi; destruct (lookup_members env root c) as (_ & _ & _ & E);
      rewrite E in Hi; destruct Hi.
Qed.
Lemma event_user e : event_of env root e -> exists n, e = EUser n.
Proof. intros (x & Hx & <-). pose proof (ao_event _ _ Now x Hx) as N. destruct (x_ev x); [congruence|eauto]. Qed.

(** The code is told the same. *)
Lemma meant_any c a a' : fst (meant env root c a) = fst (meant env root c a').
Proof.
  destruct c; cbn [meant]; try reflexivity.
  - destruct (nth_error _ _) as [[[[ty' v'] o] t]|]; reflexivity.
  - destruct (nth_error _ _) as [[[c' o] t]|]; reflexivity.
  - destruct (a_src a); [destruct (nth_error _ _)|..]; (destruct (a_src a'); [destruct (nth_error _ _)|..]); reflexivity.
Qed.
Lemma meant_rest c a : a_ev (snd (meant env root c a)) = a_ev a /\ a_dep (snd (meant env root c a)) = a_dep a.
Proof.
  destruct c; cbn [meant]; try (split; reflexivity).
  - destruct (nth_error _ _) as [[[[ty' v'] o] t]|]; split; reflexivity.
  - destruct (nth_error _ _) as [[[c' o] t]|]; split; reflexivity.
  - destruct (a_src a); try (split; reflexivity). destruct (nth_error _ _); split; reflexivity.
Qed.
Lemma behind_carried {V W} lab (f : code V W) c a v w :
  behind (carried lab env root) f c a v w = translated env root (behind lab f) c a v w.
Proof.
  unfold behind, carried, translated. destruct (meant_rest c a) as [-> ->].
  now rewrite (meant_any c a (mkArgs ENone (SState 0) TNone 0)).
Qed.
Lemma told_carried {V} lab (k : called V) : told lab (in_old_words env root k) = told (carried lab env root) k.
Proof.
  unfold told, carried, in_old_words. cbn [k_callee k_args k_payload]. destruct (meant_rest (k_callee k) (k_args k)) as [-> ->].
  now rewrite (meant_any _ (k_args k) (mkArgs ENone (SState 0) TNone 0)).
Qed.
Lemma carried_kind lab : keeps_kind lab -> keeps_kind (carried lab env root).
Proof.
  intros K c. unfold carried. rewrite K. destruct c; cbn [meant fst]; try reflexivity.
  - destruct (nth_error _ _) as [[[[ty' v'] o] t]|]; reflexivity.
  - destruct (nth_error _ _) as [[[c' o] t]|] eqn:E; [|reflexivity]. cbn [fst is_guard]. apply nth_error_In in E.
    unfold all_called in E. apply in_flat_map in E. destruct E as (xo & _ & E). unfold called_with in E.
    apply in_map_iff in E. destruct E as (p & E & Hp). injection E as <- _ _. revert Hp. generalize (fst xo) (snd xo). intros x s Hp.
    pose proof (effects_no_guard (mkMachine env root []) x s p Hp) as G. destruct (p_callee p); try reflexivity. now destruct (G ty val).
  - cbn [a_src]. destruct (nth_error _ _); reflexivity.
Qed.
Lemma new_entries lab a : entries lab env' a = [].
Proof. destruct a; try reflexivity. cbn [entries]. destruct (lookup_members env root c) as (-> & _). reflexivity. Qed.

Variable m1 : machine.
Hypothesis Hm1 : compile env' one = Some m1.
Lemma plain_events {V} (l : list (ev * V)) : Forall (fun ev => event_of env root (fst ev)) l ->
  forallb plain_call (map (fun ev => KProcess (fst ev) (snd ev)) l) = true.
Proof.
  induction 1 as [|[e v] l He _ IH]; [reflexivity|]. cbn [map forallb fst snd]. rewrite IH. destruct (event_user e He) as (n & ->). reflexivity.
Qed.
Lemma typed_events {V} (l : list (ev * V)) : Forall (fun ev => event_of env root (fst ev)) l ->
  Forall (well_typed env root) (map (fun ev => KProcess (fst ev) (snd ev)) l).
Proof. induction 1; constructor; assumption. Qed.
(** A run of the program with one table is a run of the program. *)
Lemma nested_session V W lab (f : code V W) vnone fuel d w l outs s1 : 255 < fuel -> Forall (fun ev => event_of env root (fst ev)) l ->
  session (behind (carried lab env root) f) m1 vnone fuel d w (map (fun ev => KProcess (fst ev) (snd ev)) l) = Done outs s1 ->
  exists s, session (behind lab f) m vnone fuel d w (map (fun ev => KProcess (fst ev) (snd ev)) l) = Done outs s /\
    map (told lab) (rt_trace s) = map (told (carried lab env root)) (rt_trace s1) /\ rt_world s = rt_world s1 /\
    exists pl, is_place env root pl /\ at_place m s 0 = Some pl /\ at_place m1 s1 0 = Some (one, SState (alias pl)).
Proof.
  intros Fu Hl E.
  pose proof (session_unnested_safe (behind lab f) env root (behind (carried lab env root) f) (behind_carried lab f) One m m1 Hm Hm1
    vnone fuel d w _ Fu (plain_events l Hl) Wf (typed_events l Hl)) as P.
  destruct (session (behind lab f) m vnone fuel d w _) as [outs' s|x s|u|]; [|contradiction|contradiction|congruence].
  destruct P as (s' & E' & [P1 _ P3 P4]). rewrite E in E'. injection E' as <- <-. exists s. split; [reflexivity|].
  split; [rewrite P4, map_map; apply map_ext; intros k; apply told_carried|]. split; [now symmetry|exact P1].
Qed.
End UnnestMerge.

Theorem nested_flat : forall env root m, compile env root = Some m -> one_region env root -> well_formed env root -> at_once env root ->
  flat (unnested env root) (one env root) /\ forall e, event_of env root e <-> event_of (unnested env root) (one env root) e.
Proof. intros env root m Hm One Wf Now. split; [now apply (unnested_flat env root m)|intros e; now apply (same_events env root m)]. Qed.
Theorem nested_merged : forall lab env root m, compile env root = Some m -> one_region env root -> well_formed env root -> at_once env root ->
  (N.of_nat (S (length (spots env root))) < two64)%N ->
  flat (smallest lab env root) (one env root) /\
  exists m' bound, compile (smallest lab env root) (one env root) = Some m' /\
  forall V W (f : code V W) vnone fuel d w l, bound <= fuel -> Forall (fun ev => event_of env root (fst ev)) l ->
  exists outs s s' pl,
    session (behind lab f) m vnone fuel d w (map (fun ev => KProcess (fst ev) (snd ev)) l) = Done outs s /\
    session (behind (carried lab env root) f) m' vnone fuel d w (map (fun ev => KProcess (fst ev) (snd ev)) l) = Done outs s' /\
    map (told (carried lab env root)) (rt_trace s') = map (told lab) (rt_trace s) /\ rt_world s' = rt_world s /\
    is_place env root pl /\ at_place m s 0 = Some pl /\
    at_place m' s' 0 = Some (one env root, stand_in (unnested env root) (one env root)
      (equals (carried lab env root) (unnested env root) (one env root)) (SState (alias env root pl))).
Proof.
  intros lab env root m Hm One Wf Now Size. destruct (nested_flat env root m Hm One Wf Now) as [Fl Ev].
  destruct (unnested_accepted env root m Hm One Wf Size) as (m1 & Hm1).
  destruct (merged_program (carried lab env root) _ _ Fl (Logic.ex_intro _ m1 Hm1)) as ((m' & Hm') & Fl' & _). split; [exact Fl'|].
  destruct (merged_session (carried lab env root) _ _ m1 m' Hm1 Fl Hm') as (b & B). exists m', (256 + b). split; [exact Hm'|].
  intros V W f vnone fuel d w l Hb Hl.
  assert (Hl1 : Forall (fun ev => event_of (unnested env root) (one env root) (fst ev)) l).
  { apply (Forall_impl _ (P := fun ev => event_of env root (fst ev))); [|exact Hl]. intros x. apply Ev. }
  destruct (B V W f vnone fuel d w l ltac:(lia) Hl1) as (outs & s1 & s' & q & E1 & E2 & T & Ww & A1 & A2).
  destruct (nested_session env root m Hm One Wf Now m1 Hm1 V W lab f vnone fuel d w l outs s1 ltac:(lia) Hl E1) as (s & E & T1 & W1 & pl & P1 & P2 & P3).
  exists outs, s, s', pl. rewrite T, Ww. rewrite P3 in A1. injection A1 as <-. repeat split; auto; try apply P1.
Qed.
Theorem nested_least : forall lab env root m lab2 env2 root2 m2,
  compile env root = Some m -> one_region env root -> well_formed env root -> at_once env root ->
  (N.of_nat (S (length (spots env root))) < two64)%N -> keeps_kind lab ->
  (forall a, In a (children (unnested env root) (one env root)) -> led_to (carried lab env root) (unnested env root) (one env root) a) ->
  compile env2 root2 = Some m2 -> flat env2 root2 -> (forall e, event_of env root e -> event_of env2 root2 e) ->
  imitates lab env root m lab2 m2 ->
  length (children (smallest lab env root) (one env root)) <= length (children env2 root2).
Proof.
  intros lab env root m lab2 env2 root2 m2 Hm One Wf Now Size K Led Hm2 Fl2 Ev2 (b & B).
  destruct (nested_flat env root m Hm One Wf Now) as [Fl Ev].
  destruct (unnested_accepted env root m Hm One Wf Size) as (m1 & Hm1).
  apply (merged_least (carried lab env root) _ _ m1 lab2 env2 root2 m2 Hm1 Fl); auto.
  - now apply carried_kind.
  - intros. now rewrite !new_entries.
  - intros e He. now apply Ev2, Ev.
  - destruct (merged_program (carried lab env root) _ _ Fl (Logic.ex_intro _ m1 Hm1)) as ((m' & Hm') & _).
    destruct (merged_session (carried lab env root) _ _ m1 m' Hm1 Fl Hm') as (b1 & B1).
    exists (256 + b + b1). intros fuel l Hb Hl.
    destruct (B1 _ _ verdicts [] fuel 0 tt l ltac:(lia) Hl) as (outs & s1 & s' & q & E1 & _).
    assert (Hl0 : Forall (fun ev => event_of env root (fst ev)) l).
    { apply (Forall_impl _ (P := fun ev => event_of (unnested env root) (one env root) (fst ev))); [|exact Hl]. intros x. apply Ev. }
    destruct (nested_session env root m Hm One Wf Now m1 Hm1 _ _ lab verdicts [] fuel 0 tt l outs s1 ltac:(lia) Hl0 E1) as (s & E & T1 & _).
    destruct (B fuel l ltac:(lia) Hl0) as (outs2 & s0 & s2 & F1 & F2 & T2). rewrite E in F1. injection F1 as <- <-.
    exists outs, s1, s2. split; [exact E1|]. split; [exact F2|]. congruence.
Qed.
Theorem nested_attained : forall lab env root m m', compile env root = Some m -> one_region env root -> well_formed env root -> at_once env root ->
  (N.of_nat (S (length (spots env root))) < two64)%N -> compile (smallest lab env root) (one env root) = Some m' ->
  imitates lab env root m (carried lab env root) m'.
Proof.
  intros lab env root m m' Hm One Wf Now Size Hm'. destruct (nested_merged lab env root m Hm One Wf Now Size) as (_ & m2 & b & E & B).
  rewrite Hm' in E. injection E as <-. exists b. intros fuel l Hb Hl.
  destruct (B _ _ verdicts [] fuel 0 tt l Hb Hl) as (outs & s & s' & pl & E1 & E2 & T & _). exists outs, s, s'. auto.
Qed.
