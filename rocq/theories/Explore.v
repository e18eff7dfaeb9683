(** Exploring all runs of a machine: every answer user code can give, every call of a
    list, from every configuration found. *)

From Coq Require Import List Arith NArith Bool Lia.
From Verif Require Import Types Static Dispatch Runtime Data DataUse Script.
Import ListNotations.

(** What a state machine object remembers, without its tables and without user data. *)
Record config := mkConfig {
  cf_cur : list (option N);
  cf_hist : list (list N);
  cf_queue : list ev;
  cf_regions : nat;
  cf_live : list sref }.
Definition config_of {V W} (s : rt V W) : config :=
  mkConfig (rt_cur s) (rt_hist s) (map fst (rt_queue s)) (rt_regions s) (rt_live s).
Definition config_eq_dec : forall a b : config, {a = b} + {a <> b}.
Proof.
  decide equality.
  - apply list_eq_dec, sref_eq_dec.
  - apply Nat.eq_dec.
  - apply list_eq_dec, ev_eq_dec.
  - apply list_eq_dec, list_eq_dec, N.eq_dec.
  - apply list_eq_dec. decide equality. apply N.eq_dec.
Defined.
Definition node_eq_dec : forall a b : option config, {a = b} + {a <> b}.
Proof. decide equality. apply config_eq_dec. Defined.

(** User code that reads its answers and marks the world when there are none left. *)
Definition reading : cbfun unit (option (list reply)) := fun _ _ _ w =>
  match w with
  | Some (Say b :: l) => Ret b tt (Some l)
  | Some (Fail n :: l) => Raise n tt (Some l)
  | _ => Raise 0 tt None
  end.

Section Explore.
Variable m : machine.
Variable fuel : nat.
Variables (tabs : tables) (htabs : handler_tables).

Definition resume {X} (c : config) (w : X) : rt unit X :=
  mkRt (cf_cur c) (cf_hist c) (map (fun e => (e, tt)) (cf_queue c)) (cf_regions c) (cf_live c) tabs htabs w [].
Definition attempt (c : config) (k : call unit) (p : list reply) : res unit (option (list reply)) out :=
  do_call_catch reading m tt fuel k (resume c (Some p)).

(** Where call [k] can lead from [c] when the answers begin with [p]; [None] in the list
    stands for undefined behaviour. No result if user code is called more than [depth]
    times more. *)
Fixpoint ends (depth : nat) (c : config) (k : call unit) (p : list reply) : option (list (option config)) :=
  match attempt c k p with
  | Done _ s =>
      match rt_world s with
      | Some _ => Some [Some (config_of s)]
      | None =>
          match depth with
          | 0 => None
          | S depth' =>
              match ends depth' c k (p ++ [Say true]), ends depth' c k (p ++ [Say false]), ends depth' c k (p ++ [Fail 0]) with
              | Some a, Some b, Some d => Some (a ++ b ++ d)
              | _, _, _ => None
              end
          end
      end
  | Undef _ => Some [None]
  | _ => None
  end.
Fixpoint steps_by (depth : nat) (c : config) (ks : list (call unit)) : option (list (option config)) :=
  match ks with
  | [] => Some []
  | k :: ks' => match ends depth c k [], steps_by depth c ks' with Some a, Some b => Some (a ++ b) | _, _ => None end
  end.
Definition steps (depth : nat) (ks : list (call unit)) (n : option config) : option (list (option config)) :=
  match n with Some c => steps_by depth c ks | None => Some [] end.
Fixpoint fresh (seen l : list (option config)) : list (option config) :=
  match l with
  | [] => []
  | x :: l' => if in_dec node_eq_dec x seen then fresh seen l' else x :: fresh (x :: seen) l'
  end.
(** [seen]: found so far; [todo]: those of them not tried yet. *)
Fixpoint close (rounds depth : nat) (ks : list (call unit)) (seen todo : list (option config)) : option (list (option config)) :=
  match todo with
  | [] => Some seen
  | n :: todo' =>
      match rounds with
      | 0 => None
      | S rounds' =>
          match steps depth ks n with
          | None => None
          | Some l => let new := fresh seen l in close rounds' depth ks (seen ++ new) (todo' ++ new)
          end
      end
  end.
End Explore.

Definition is_set_dep {V} (k : call V) : bool := match k with KSetDep _ => true | _ => false end.
(** All configurations the calls of [ks] can lead to, in any order and number. *)
Definition explore (m : machine) (fuel depth rounds : nat) (d : dep) (ks : list (call unit)) : option (list (option config)) :=
  if existsb is_set_dep ks then None
  else match construct (V:=unit) m fuel d tt with
  | Done _ s => close m fuel (rt_tabs s) (rt_htabs s) rounds depth ks [Some (config_of s)] [Some (config_of s)]
  | Undef _ => Some [None]
  | _ => None
  end.

(** * One call *)
Section Step.
Variable m : machine.
Variable fuel : nat.
Variables (tabs : tables) (htabs : handler_tables).
Notation resume := (resume tabs htabs).
Notation attempt := (attempt m fuel tabs htabs).
Notation ends := (ends m fuel tabs htabs).

Lemma resume_bare {X Y} c (x : X) (w : Y) : bare_from 0 (resume c x) w = resume c w.
Proof. unfold bare_from, Explore.resume. cbn. now rewrite map_map. Qed.
Lemma resume_of {V W X} (s : rt V W) (w : X) : rt_tabs s = tabs -> rt_htabs s = htabs ->
  bare_from (length (rt_trace s)) s w = resume (config_of s) w.
Proof.
  intros <- <-. unfold bare_from, Explore.resume, config_of. cbn. rewrite map_map.
  rewrite skipn_all2 by now rewrite map_length. reflexivity.
Qed.
Lemma config_bare {V W X} n (s : rt V W) (w : X) : config_of (bare_from n s w) = config_of s.
Proof. unfold config_of. cbn. now rewrite map_map. Qed.

(** Answers that were not needed change nothing. *)
Definition read_up (x y : option (list reply)) (l : list reply) : Prop :=
  match x, y with
  | Some p, Some r => p = l ++ r
  | Some p, None => exists n, In (Fail n) l
  | None, None => l = [] \/ exists n, In (Fail n) l
  | None, Some _ => False
  end.
Definition read_all (x : option (list reply)) (l : list reply) : Prop :=
  all_say l -> match x with Some p => exists r, p = l ++ r | None => l = [] end.
Notation rst := (rt unit (option (list reply))).
Lemma read_app x l y l' z : read_up x y l -> read_up y z l' -> read_up x z (l ++ l').
Proof.
  destruct x as [p|], y as [q|], z as [r|]; cbn; intros H1 H2; try tauto.
  - subst. now rewrite app_assoc.
  - destruct H2 as [n H2]. exists n. apply in_or_app. now right.
  - destruct H1 as [n H1]. exists n. apply in_or_app. now left.
  - destruct H1 as [->|[n H1]]; [exact H2|]. right. exists n. apply in_or_app. now left.
Qed.
Lemma exn_id x : exn_of (fun n => n) x = x. Proof. now destruct x. Qed.
Lemma out_id o : out_of (fun n => n) o = o. Proof. destruct o; cbn; rewrite ?exn_id; reflexivity. Qed.
Lemma with_nothing (k : call unit) : with_payload (fun _ => tt) k = k.
Proof. destruct k; cbn; try reflexivity. now destruct v. Qed.
Lemma trim_call c k p : is_set_dep k = false ->
  match attempt c k p with
  | Done o s => forall r, rt_world s = Some r -> exists l, p = l ++ r /\ forall q, attempt c k (l ++ q) = Done o (bare_from 0 s (Some q))
  | Undef u => forall q, attempt c k (p ++ q) = Undef u
  | Timeout => forall q, attempt c k (p ++ q) = Timeout
  | _ => True
  end.
Proof.
  intros Hk. set (P := fun (s : rst) l (s' : rst) => read_up (rt_world s) (rt_world s') l).
  set (PU := fun (s : rst) l => read_all (rt_world s) l).
  assert (F : follows Some (fun n => n) 0 P PU (resume c (Some p)) (out_of (fun n => n)) (do_call reading m tt fuel k (resume c (Some p)))
    (fun w => do_call reading m tt fuel (with_payload (fun _ => tt) k) (bare_from 0 (resume c (Some p)) w))).
  { apply do_call_s; try reflexivity; unfold P, PU.
    - intros s l s' l' s''. apply read_app.
    - intros s s' (E & _). rewrite E. destruct (rt_world s); cbn; auto.
    - intros c0 a v s b v' w' tr E. unfold reading in E. cbn. destruct (rt_world s) as [[|[b0|n0] l]|]; inversion E; reflexivity.
    - intros s _. destruct (rt_world s); [|reflexivity]. now exists l.
    - intros s l s' l' H Hl H' Ha. assert (Ha' : all_say l') by (intros n I; apply (Ha n), in_or_app; now right). specialize (H' Ha').
      destruct (rt_world s) as [p0|], (rt_world s') as [q0|]; cbn in H.
      + destruct H' as [r ->]. exists r. subst. now rewrite app_assoc.
      + destruct H as [n H]. now destruct (Hl n).
      + destruct H.
      + destruct H as [->|[n H]]; [exact H'|]. now destruct (Hl n).
    - intros c0 a v s n v' w' tr E. unfold reading in E. cbn. destruct (rt_world s) as [[|[b0|n0] l]|]; inversion E; cbn.
      + exists 0. now left.
      + reflexivity.
      + right. exists 0. now left.
    - intros d ->. discriminate. }
  destruct (F (Nat.le_0_l _)) as (l & H & HP). rewrite with_nothing in H. unfold Explore.attempt, do_call_catch in *.
  destruct (do_call reading m tt fuel k (resume c (Some p))) as [o s|x s|u|]; try exact I.
  - destruct HP as (HP & _ & _). intros r E. red in HP. rewrite E in HP. exists l. split; [exact HP|]. intros q.
    rewrite <- (resume_bare c (Some p)), H. now rewrite out_id.
  - destruct HP as (HP & _). intros r E. red in HP. rewrite E in HP. exists l. split; [exact HP|]. intros q.
    rewrite <- (resume_bare c (Some p)), H. now rewrite exn_id.
  - destruct HP as (HP & Ha). intros q. red in HP. destruct (HP Ha) as [r E]. cbn in E. now rewrite E, <- app_assoc, <- (resume_bare c (Some p)), H.
  - destruct HP as (HP & Ha). intros q. red in HP. destruct (HP Ha) as [r E]. cbn in E. now rewrite E, <- app_assoc, <- (resume_bare c (Some p)), H.
Qed.
Lemma mono_call c k p : is_set_dep k = false ->
  match attempt c k p with
  | Done o s => forall r, rt_world s = Some r -> forall q, attempt c k (p ++ q) = Done o (bare_from 0 s (Some (r ++ q)))
  | Undef u => forall q, attempt c k (p ++ q) = Undef u
  | Timeout => forall q, attempt c k (p ++ q) = Timeout
  | _ => True
  end.
Proof.
  intros Hk. pose proof (trim_call c k p Hk) as H. destruct (attempt c k p); auto.
  intros r E q. destruct (H r E) as (l & -> & H'). now rewrite <- app_assoc, H'.
Qed.
(** Every call with any user code is an attempt with the right answers. *)
Definition norm (r : reply) : reply := match r with Fail _ => Fail 0 | _ => r end.
Lemma real_call {V W} (cb : cbfun V W) vnone k (s : rt V W) : rt_tabs s = tabs -> rt_htabs s = htabs -> is_set_dep k = false ->
  exists L,
    match do_call_catch cb m vnone fuel k s with
    | Done o s' => rt_tabs s' = tabs /\ rt_htabs s' = htabs /\
        exists o' s1, attempt (config_of s) (with_payload (fun _ => tt) k) (map norm L) = Done o' s1 /\ rt_world s1 = Some [] /\ config_of s1 = config_of s'
    | Undef u => attempt (config_of s) (with_payload (fun _ => tt) k) (map norm L) = Undef u
    | Timeout => attempt (config_of s) (with_payload (fun _ => tt) k) (map norm L) = Timeout
    | Threw _ _ => False
    end.
Proof.
  intros Ht Hh Hk. set (n := length (rt_trace s)).
  set (P := fun (s : rt V W) (l : list reply) (s' : rt V W) => rt_tabs s' = rt_tabs s /\ rt_htabs s' = rt_htabs s).
  assert (F : tracks (fun l => Some (map norm l)) (fun _ => 0) n P s (out_of (fun _ => 0)) (do_call_catch cb m vnone fuel k s)
    (fun w => do_call_catch reading m tt fuel (with_payload (fun _ => tt) k) (bare_from n s w))).
  { refine (catch_s cb m reading (fun l => Some (map norm l)) (fun _ => 0) _ _ n P _ _ _ (fun _ _ => True) _ _ _ vnone fuel k s _); unfold P; auto; try reflexivity.
    - intros s0 _ s1 _ s2 [A B] [C D]. split; congruence.
    - intros s0 s1 (_ & A & B & _). now split.
    - intros d ->. discriminate. }
  destruct (F (Nat.le_refl _)) as (l & H & HP). exists l. specialize (H []). rewrite app_nil_r in H. unfold n in H. rewrite (resume_of s _ Ht Hh) in H.
  unfold Explore.attempt. rewrite H.
  destruct (do_call_catch cb m vnone fuel k s) as [o s'|x s'|u|] eqn:E; auto.
  - destruct HP as ((A & B) & _). split; [congruence|]. split; [congruence|]. eexists _, _. split; [reflexivity|]. split; [reflexivity|]. apply config_bare.
  - unfold do_call_catch in E. destruct (do_call cb m vnone fuel k s); discriminate.
Qed.
Lemma not_threw {V W} (cb : cbfun V W) vnone k s x s' : do_call_catch cb m vnone fuel k s <> Threw x s'.
Proof. unfold do_call_catch. destruct (do_call cb m vnone fuel k s); discriminate. Qed.

(** What [ends] lists covers every list of answers. *)
Lemma ends_cover depth c k : is_set_dep k = false -> forall p q l, ends depth c k (map norm p) = Some l ->
  match attempt c k (map norm (p ++ q)) with
  | Done _ s => rt_world s = Some [] -> In (Some (config_of s)) l
  | Undef _ => In None l
  | _ => False
  end.
Proof.
  intros Hk. induction depth as [|depth IH]; intros p q l; cbn [Explore.ends];
    pose proof (mono_call c k (map norm p) Hk) as M; destruct (attempt c k (map norm p)) as [o s|x s|u|] eqn:E; try discriminate.
  1,3: destruct (rt_world s) as [r|] eqn:Ew; try discriminate.
  - intros [= <-]. rewrite map_app, (M r eq_refl). intros _. rewrite config_bare. now left.
  - intros [= <-]. rewrite map_app, (M r eq_refl). intros _. rewrite config_bare. now left.
  - destruct (Explore.ends _ _ _ _ depth c k (map norm p ++ [Say true])) as [a|] eqn:E1; [|discriminate].
    destruct (Explore.ends _ _ _ _ depth c k (map norm p ++ [Say false])) as [b|] eqn:E2; [|discriminate].
    destruct (Explore.ends _ _ _ _ depth c k (map norm p ++ [Fail 0])) as [d|] eqn:E3; [|discriminate].
    intros [= <-]. destruct q as [|y q].
    { rewrite app_nil_r, E. congruence. }
    assert (G : forall l', ends depth c k (map norm (p ++ [y])) = Some l' -> (forall z, In z l' -> In z (a ++ b ++ d)) ->
      match attempt c k (map norm (p ++ y :: q)) with
      | Done _ s0 => rt_world s0 = Some [] -> In (Some (config_of s0)) (a ++ b ++ d)
      | Undef _ => In None (a ++ b ++ d)
      | _ => False end).
    { intros l' El I. specialize (IH (p ++ [y]) q l' El). rewrite <- app_assoc in IH. cbn [app] in IH. destruct (attempt c k (map norm (p ++ y :: q))); auto. }
    destruct y as [[|]|n].
    + apply (G a); [now rewrite map_app|]. intros z Hz. apply in_or_app. now left.
    + apply (G b); [now rewrite map_app|]. intros z Hz. apply in_or_app. right. apply in_or_app. now left.
    + apply (G d); [now rewrite map_app|]. intros z Hz. apply in_or_app. right. apply in_or_app. now right.
  - intros [= <-]. rewrite map_app, (M _). now left.
  - intros [= <-]. rewrite map_app, (M _). now left.
Qed.
(** What [ends] lists is the end of an attempt. *)
Lemma ends_real depth c k : forall p l n, ends depth c k p = Some l -> In n l ->
  exists p', match attempt c k p' with
    | Done _ s => n = Some (config_of s) /\ exists r, rt_world s = Some r
    | Undef _ => n = None
    | _ => False
    end.
Proof.
  induction depth as [|depth IH]; intros p l n; cbn [Explore.ends]; destruct (attempt c k p) as [o s|x s|u|] eqn:E; try discriminate.
  1,3: destruct (rt_world s) as [r|] eqn:Ew; try discriminate.
  - intros [= <-] [<-|[]]. exists p. rewrite E. eauto.
  - intros [= <-] [<-|[]]. exists p. rewrite E. eauto.
  - destruct (Explore.ends _ _ _ _ depth c k (p ++ [Say true])) as [a|] eqn:E1; [|discriminate].
    destruct (Explore.ends _ _ _ _ depth c k (p ++ [Say false])) as [b|] eqn:E2; [|discriminate].
    destruct (Explore.ends _ _ _ _ depth c k (p ++ [Fail 0])) as [d|] eqn:E3; [|discriminate].
    intros [= <-] Hn. apply in_app_or in Hn as [Hn|Hn]; [eauto|]. apply in_app_or in Hn as [Hn|Hn]; eauto.
  - intros [= <-] [<-|[]]. exists p. now rewrite E.
  - intros [= <-] [<-|[]]. exists p. now rewrite E.
Qed.
(** An attempt is a call with a script. *)
Lemma script_call k (s : rt unit (list reply)) : rt_tabs s = tabs -> rt_htabs s = htabs -> is_set_dep k = false ->
  match attempt (config_of s) k (rt_world s) with
  | Done _ s1 => forall r, rt_world s1 = Some r ->
      exists o s', do_call_catch scripted m tt fuel k s = Done o s' /\ config_of s' = config_of s1 /\ rt_tabs s' = tabs /\ rt_htabs s' = htabs /\ rt_world s' = r
  | Undef u => do_call_catch scripted m tt fuel k s = Undef u
  | Timeout => do_call_catch scripted m tt fuel k s = Timeout
  | _ => True
  end.
Proof.
  intros Ht Hh Hk. set (n := length (rt_trace s)).
  set (P := fun (s : rt unit (list reply)) (l : list reply) (s' : rt unit (list reply)) =>
    (exists q, rt_world s ++ q = l ++ rt_world s' /\ (q = [] \/ rt_world s' = [])) /\ rt_tabs s' = rt_tabs s /\ rt_htabs s' = rt_htabs s).
  set (PU := fun (s : rt unit (list reply)) (l : list reply) => exists q r, rt_world s ++ q = l ++ r).
  assert (F : follows Some (fun n => n) n P PU s (out_of (fun n => n)) (do_call scripted m tt fuel k s)
    (fun w => do_call reading m tt fuel (with_payload (fun _ => tt) k) (bare_from n s w))).
  { apply do_call_s; try reflexivity; unfold P, PU.
    - intros s0 l s1 l' s2 ((q & A & D) & B & C) ((q' & A' & D') & B' & C'). split; [|split; congruence]. exists (q ++ q').
      split; [rewrite app_assoc, A, <- app_assoc, A'; now rewrite app_assoc|].
      destruct D as [-> | D]; [exact D'|]. right. destruct D' as [-> | D']; [|exact D']. rewrite D in A'. cbn in A'. now destruct l', (rt_world s2).
    - intros s0 s1 (A & B & C & _). rewrite A. split; [|now split]. exists []. split; [now rewrite app_nil_r|now left].
    - intros c a v s0 b v' w' tr E. split; [|split; reflexivity]. unfold scripted in E. cbn. destruct (rt_world s0) as [|[b0|n0] l]; inversion E; subst.
      + exists [Say false]. split; [reflexivity|now right].
      + exists []. split; [now rewrite app_nil_r|now left].
    - intros s0. exists [], (rt_world s0). now rewrite app_nil_r.
    - intros s0 l s1 l' ((q & A & _) & _) _ (q' & r & A'). exists (q ++ q'), r. rewrite app_assoc, A, <- app_assoc, A'. now rewrite app_assoc.
    - intros c a v s0 n0 v' w' tr E. split; [|split; reflexivity]. unfold scripted in E. cbn. destruct (rt_world s0) as [|[b0|n1] l]; inversion E; subst.
      exists []. split; [now rewrite app_nil_r|now left].
    - intros d ->. discriminate. }
  destruct (F (Nat.le_refl _)) as (l & H & HP). rewrite with_nothing in H.
  assert (HA : forall w, attempt (config_of s) k (l ++ w) = match do_call scripted m tt fuel k s with
    | Done o s' => Done o (bare_from n s' (Some w)) | Threw x s' => Done (OExn x) (bare_from n s' (Some w)) | Undef u => Undef u | Timeout => Timeout end).
  { intros w. unfold Explore.attempt, do_call_catch. rewrite <- (resume_of s _ Ht Hh), H.
    destruct (do_call scripted m tt fuel k s); auto; now rewrite ?out_id, ?exn_id. }
  pose proof (mono_call (config_of s) k (rt_world s) Hk) as M.
  destruct (do_call scripted m tt fuel k s) as [o s'|x s'|u|] eqn:E.
  - destruct HP as (((q & A & D) & B & C) & _). destruct (attempt (config_of s) k (rt_world s)) as [o1 s1|x1 s1|u1|]; try exact I.
    + intros r Er. specialize (M r Er q). rewrite A, HA in M. assert (E2 : bare_from n s' (Some (rt_world s')) = bare_from 0 s1 (Some (r ++ q))) by congruence. exists o, s'. unfold do_call_catch. rewrite E.
      split; [reflexivity|]. split; [rewrite <- (config_bare n s' (Some (rt_world s'))), E2; apply config_bare|].
      split; [congruence|]. split; [congruence|]. injection E2 as _ _ _ _ _ _ _ E2 _. rewrite E2 in D |- *. destruct D as [-> | D]; [apply app_nil_r|]. now destruct r.
    + specialize (M q). rewrite A, HA in M. discriminate.
    + specialize (M q). rewrite A, HA in M. discriminate.
  - destruct HP as (((q & A & D) & B & C) & _). destruct (attempt (config_of s) k (rt_world s)) as [o1 s1|x1 s1|u1|]; try exact I.
    + intros r Er. specialize (M r Er q). rewrite A, HA in M. assert (E2 : bare_from n s' (Some (rt_world s')) = bare_from 0 s1 (Some (r ++ q))) by congruence. exists (OExn x), s'. unfold do_call_catch. rewrite E.
      split; [reflexivity|]. split; [rewrite <- (config_bare n s' (Some (rt_world s'))), E2; apply config_bare|].
      split; [congruence|]. split; [congruence|]. injection E2 as _ _ _ _ _ _ _ E2 _. rewrite E2 in D |- *. destruct D as [-> | D]; [apply app_nil_r|]. now destruct r.
    + specialize (M q). rewrite A, HA in M. discriminate.
    + specialize (M q). rewrite A, HA in M. discriminate.
  - destruct HP as ((q & r & A) & _). destruct (attempt (config_of s) k (rt_world s)) as [o1 s1|x1 s1|u1|]; try exact I.
    + intros r0 Er. specialize (M r0 Er q). rewrite A, HA in M. discriminate.
    + specialize (M q). rewrite A, HA in M. unfold do_call_catch. rewrite E. congruence.
    + specialize (M q). rewrite A, HA in M. discriminate.
  - destruct HP as ((q & r & A) & _). destruct (attempt (config_of s) k (rt_world s)) as [o1 s1|x1 s1|u1|]; try exact I.
    + intros r0 Er. specialize (M r0 Er q). rewrite A, HA in M. discriminate.
    + specialize (M q). rewrite A, HA in M. discriminate.
    + unfold do_call_catch. now rewrite E.
Qed.
End Step.

(** * All calls *)
Section Close.
Variable m : machine.
Variable fuel depth : nat.
Variables (tabs : tables) (htabs : handler_tables).
Variable ks : list (call unit).
Notation steps := (steps m fuel tabs htabs depth ks).
Notation close := (close m fuel tabs htabs).

Lemma fresh_in l : forall seen n, In n (fresh seen l) -> In n l.
Proof.
  induction l as [|x l IH]; intros seen n; cbn [fresh]; [tauto|]. destruct (in_dec node_eq_dec x seen); cbn.
  - intros H. right. eapply IH, H.
  - intros [H|H]; [now left|]. right. eapply IH, H.
Qed.
Lemma fresh_all l : forall seen n, In n l -> In n seen \/ In n (fresh seen l).
Proof.
  induction l as [|x l IH]; intros seen n; cbn [fresh]; [intros []|]. intros [->|H]; destruct (in_dec node_eq_dec _ seen) as [i|i]; auto.
  - right. now left.
  - destruct (IH (x :: seen) n H) as [[->|H']|H']; auto; right; [now left|now right].
Qed.
Lemma close_closed rounds : forall seen todo l, close rounds depth ks seen todo = Some l ->
  (forall n, In n seen -> In n todo \/ exists ns, steps n = Some ns /\ incl ns seen) ->
  incl seen l /\ forall n, In n l -> exists ns, steps n = Some ns /\ incl ns l.
Proof.
  induction rounds as [|rounds IH]; intros seen todo l; destruct todo as [|n todo]; cbn [Explore.close]; try discriminate.
  - intros [= <-] H. split; [now intros x|]. intros n Hn. now destruct (H n Hn).
  - intros [= <-] H. split; [now intros x|]. intros n Hn. now destruct (H n Hn).
  - destruct (steps n) as [ns|] eqn:En; [|discriminate]. intros E H. destruct (IH _ _ _ E) as [I C].
    + intros n' Hn'. apply in_app_or in Hn' as [Hn'|Hn'].
      * destruct (H n' Hn') as [[<-|Ht]|(ns' & E' & I')].
        -- right. exists ns. split; [exact En|]. intros x Hx. apply in_or_app. now apply fresh_all.
        -- left. apply in_or_app. now left.
        -- right. exists ns'. split; [exact E'|]. intros x Hx. apply in_or_app. left. now apply I'.
      * left. apply in_or_app. now right.
    + split; [|exact C]. intros x Hx. apply I, in_or_app. now left.
Qed.
Lemma close_reached (R : option config -> Prop) : (forall n ns n', R n -> steps n = Some ns -> In n' ns -> R n') ->
  forall rounds seen todo l, close rounds depth ks seen todo = Some l -> incl todo seen -> (forall n, In n seen -> R n) -> forall n, In n l -> R n.
Proof.
  intros HR. induction rounds as [|rounds IH]; intros seen todo l; destruct todo as [|n todo]; cbn [Explore.close]; try discriminate.
  - intros [= <-] _ H. exact H.
  - intros [= <-] _ H. exact H.
  - destruct (steps n) as [ns|] eqn:En; [|discriminate]. intros E I H. eapply IH; [exact E| |].
    + intros x Hx. apply in_app_or in Hx as [Hx|Hx]; apply in_or_app; [left; apply I; now right|now right].
    + intros x Hx. apply in_app_or in Hx as [Hx|Hx]; [now apply H|]. apply (HR n ns x); [apply H, I; now left|exact En|]. eapply fresh_in, Hx.
Qed.
Lemma steps_ends l c : forall ns k, steps_by m fuel tabs htabs depth c l = Some ns -> In k l ->
  exists a, ends m fuel tabs htabs depth c k [] = Some a /\ incl a ns.
Proof.
  induction l as [|k0 l IH]; intros ns k; cbn [steps_by]; [intros _ []|].
  destruct (ends m fuel tabs htabs depth c k0 []) as [a|] eqn:E1; [|discriminate].
  destruct (steps_by m fuel tabs htabs depth c l) as [b|] eqn:E2; [|discriminate]. intros [= <-] [->|H].
  - exists a. split; [exact E1|]. intros x Hx. apply in_or_app. now left.
  - destruct (IH b k eq_refl H) as (a' & E' & I). exists a'. split; [exact E'|]. intros x Hx. apply in_or_app. right. now apply I.
Qed.
Lemma steps_from l c : forall ns n, steps_by m fuel tabs htabs depth c l = Some ns -> In n ns ->
  exists k a, In k l /\ ends m fuel tabs htabs depth c k [] = Some a /\ In n a.
Proof.
  induction l as [|k0 l IH]; intros ns n; cbn [steps_by]; [intros [= <-] []|].
  destruct (ends m fuel tabs htabs depth c k0 []) as [a|] eqn:E1; [|discriminate].
  destruct (steps_by m fuel tabs htabs depth c l) as [b|] eqn:E2; [|discriminate]. intros [= <-] H. apply in_app_or in H as [H|H].
  - exists k0, a. split; [now left|]. now split.
  - destruct (IH b n eq_refl H) as (k & a' & Hk & E' & I). exists k, a'. split; [now right|]. now split.
Qed.
End Close.

Lemma no_set_dep ks : existsb is_set_dep ks = false -> forall k : call unit, In k ks -> is_set_dep k = false.
Proof.
  intros H k Hk. destruct (is_set_dep k) eqn:E; [|reflexivity]. exfalso. assert (existsb is_set_dep ks = true) by (apply existsb_exists; eauto). congruence.
Qed.
Lemma is_set_dep_bare {V} (k : call V) : is_set_dep (with_payload (fun _ => tt) k) = is_set_dep k.
Proof. now destruct k. Qed.

(** Where a run can end. *)
Definition end_of {V W A} (r : res V W A) : option (option config) :=
  match r with
  | Done _ s | Threw _ s => Some (Some (config_of s))
  | Undef _ => Some None
  | Timeout => None
  end.

Section Exact.
Variable m : machine.
Variables fuel depth rounds : nat.
Variable d : dep.
Variable calls : list (call unit).
Variable l : list (option config).
Hypothesis Hl : explore m fuel depth rounds d calls = Some l.

Lemma run_covered {V W} (cb : cbfun V W) vnone tabs htabs :
  (forall n, In n l -> exists ns, steps m fuel tabs htabs depth calls n = Some ns /\ incl ns l) -> existsb is_set_dep calls = false ->
  forall ks (s : rt V W), (forall k, In k ks -> In (with_payload (fun _ => tt) k) calls) -> rt_tabs s = tabs -> rt_htabs s = htabs ->
  In (Some (config_of s)) l -> exists n, end_of (run cb m vnone fuel ks s) = Some n /\ In n l.
Proof.
  intros Hc Hs. induction ks as [|k ks IH]; intros s Hks Ht Hh Hin; cbn [run]; [exists (Some (config_of s)); now split|].
  assert (Hk : is_set_dep k = false) by (rewrite <- is_set_dep_bare; apply (no_set_dep _ Hs), Hks; now left).
  destruct (Hc _ Hin) as (ns & En & I). cbn [steps] in En. destruct (steps_ends _ _ _ _ _ _ _ _ _ En (Hks k (or_introl eq_refl))) as (a & Ea & Ia).
  destruct (real_call m fuel tabs htabs cb vnone k s Ht Hh Hk) as (L & HL).
  pose proof (ends_cover m fuel tabs htabs depth (config_of s) (with_payload (fun _ => tt) k) ltac:(now rewrite is_set_dep_bare) [] L a Ea) as Cv. cbn [app] in Cv.
  destruct (do_call_catch cb m vnone fuel k s) as [o s'|x s'|u|] eqn:E; cbn [bind].
  - destruct HL as (Ht' & Hh' & o1 & s1 & E1 & Ew & Ec). rewrite E1 in Cv. specialize (Cv Ew). rewrite Ec in Cv.
    destruct (IH s' (fun k' Hk' => Hks k' (or_intror Hk')) Ht' Hh' (I _ (Ia _ Cv))) as (n & En' & Hn). exists n. split; [|exact Hn].
    destruct (run cb m vnone fuel ks s'); exact En'.
  - destruct HL.
  - rewrite HL in Cv. exists None. split; [reflexivity|]. auto.
  - rewrite HL in Cv. destruct Cv.
Qed.
(** Nothing is missing from the list: every session of any user code ends in it. *)
Theorem explore_covers {V W} (cb : cbfun V W) vnone w ks : (forall k, In k ks -> In (with_payload (fun _ => tt) k) calls) ->
  exists n, end_of (session cb m vnone fuel d w ks) = Some n /\ In n l.
Proof.
  intros Hks. unfold explore in Hl. destruct (existsb is_set_dep calls) eqn:Es; [discriminate|].
  unfold session. pose proof (construct_s (V := V) (X := unit) m fuel d w tt) as C. rewrite C in Hl.
  destruct (construct m fuel d w) as [[] s|x s|u|] eqn:E; try discriminate; cbn [bind].
  - cbn [bare_from rt_tabs rt_htabs] in Hl. rewrite config_bare in Hl.
    destruct (close_closed m fuel depth _ _ calls rounds _ _ _ Hl) as [I Cl]; [intros n Hn; now left|].
    apply (run_covered cb vnone _ _ Cl Es); auto. apply I. now left.
  - exists None. split; [reflexivity|]. inversion Hl. now left.
Qed.
End Exact.

(** The configurations in which sessions of scripts end. *)
Section Reached.
Variable m : machine.
Variable fuel : nat.
Variable d : dep.
Variable calls : list (call unit).
Hypothesis Hs : existsb is_set_dep calls = false.
Variables (tabs : tables) (htabs : handler_tables).
Definition reached (n : option config) : Prop := exists ks script, (forall k, In k ks -> In k calls) /\
  match session scripted m tt fuel d script ks with
  | Done _ s => n = Some (config_of s) /\ rt_tabs s = tabs /\ rt_htabs s = htabs
  | Undef _ => n = None
  | _ => False
  end.
(** One more call, with answers of choice. *)
Lemma reached_call c k p : reached (Some c) -> In k calls ->
  exists ks script, (forall k, In k ks -> In k calls) /\
    match attempt m fuel tabs htabs c k p with
    | Done _ s1 => forall r, rt_world s1 = Some r -> exists outs s, session scripted m tt fuel d script ks = Done outs s /\
        config_of s = config_of s1 /\ rt_tabs s = tabs /\ rt_htabs s = htabs
    | Undef u => session scripted m tt fuel d script ks = Undef u
    | Timeout => session scripted m tt fuel d script ks = Timeout
    | _ => True
    end.
Proof.
  intros (ks & script & Hks & Hr) Hk.
  destruct (session scripted m tt fuel d script ks) as [outs s|x s|u|] eqn:Er; try contradiction; [|discriminate].
  destruct Hr as (Ec & Ht & Hh). injection Ec as ->.
  destruct (session_scripted scripted m tt fuel d script ks) as (L & HL). specialize (HL p). rewrite Er, (map_ext _ _ with_nothing), map_id in HL.
  set (sp := bare s p) in *.
  assert (Ecp : config_of sp = config_of s) by (apply (config_bare 0 s p)).
  pose proof (script_call m fuel tabs htabs k sp Ht Hh (no_set_dep _ Hs _ Hk)) as Sc. change (rt_world sp) with p in Sc. rewrite Ecp in Sc.
  exists (ks ++ [k]), (L ++ p). split; [intros k' Hk'; apply in_app_or in Hk' as [Hk'|[<-|[]]]; auto|].
  unfold session in HL |- *. destruct (construct m fuel d (L ++ p)) as [[] sc|x sc|u|]; cbn [bind] in *; try discriminate.
  assert (Ra : run scripted m tt fuel (ks ++ [k]) sc = bind (do_call_catch scripted m tt fuel k sp) (fun o s => Done (outs ++ [o]) s)).
  { clear -HL. revert sc outs HL. induction ks as [|k0 ks IH]; intros sc outs HL; cbn [run app] in *.
    - injection HL as <- <-. destruct (do_call_catch scripted m tt fuel k sc); reflexivity.
    - destruct (do_call_catch scripted m tt fuel k0 sc) as [o0 s1| | |]; cbn [bind] in *; try discriminate.
      destruct (run scripted m tt fuel ks s1) as [os s2| | |] eqn:E2; cbn [bind] in *; try discriminate. injection HL as <- ->.
      rewrite (IH _ _ E2). destruct (do_call_catch scripted m tt fuel k sp); reflexivity. }
  rewrite Ra. destruct (attempt m fuel tabs htabs (config_of s) k p) as [o1 s1|x1 s1|u1|].
  - intros r Er'. destruct (Sc r Er') as (o & s' & E1 & E2 & E3 & E4 & _). exists (outs ++ [o]), s'. rewrite E1. cbn [bind]. auto.
  - exact I.
  - now rewrite Sc.
  - now rewrite Sc.
Qed.
Lemma reached_step depth n ns n' : reached n -> steps m fuel tabs htabs depth calls n = Some ns -> In n' ns -> reached n'.
Proof.
  intros Hr Hst Hin. destruct n as [c|]; cbn [steps] in Hst; [|inversion Hst; subst; destruct Hin].
  destruct (steps_from _ _ _ _ _ _ _ _ _ Hst Hin) as (k & a & Hk & Ea & Ha).
  destruct (ends_real _ _ _ _ _ _ _ _ _ _ Ea Ha) as (p & Hp).
  destruct (reached_call c k p Hr Hk) as (ks & script & Hks & H). exists ks, script. split; [exact Hks|].
  destruct (attempt m fuel tabs htabs c k p) as [o1 s1|x1 s1|u1|]; try contradiction.
  - destruct Hp as (-> & r & Er). destruct (H r Er) as (outs & s & E & E2 & E3 & E4). rewrite E, E2. auto.
  - rewrite H. exact Hp.
Qed.
End Reached.

(** Nothing is in the list but ends of sessions. *)
Theorem explore_reached m fuel depth rounds d calls l : explore m fuel depth rounds d calls = Some l -> forall n, In n l ->
  exists ks script, (forall k, In k ks -> In k calls) /\ end_of (session scripted m tt fuel d script ks) = Some n.
Proof.
  intros Hl n Hn. unfold explore in Hl. destruct (existsb is_set_dep calls) eqn:Es; [discriminate|].
  pose proof (construct_s (V := unit) (W := unit) (X := list reply) m fuel d tt) as C. unfold built in C.
  destruct (construct m fuel d tt) as [[] s0|x s|u|] eqn:E; try discriminate.
  - assert (HR : reached m fuel d calls (rt_tabs s0) (rt_htabs s0) n).
    { eapply (close_reached m fuel depth); [intros n0 ns n1; now apply reached_step|exact Hl|now intros x| |exact Hn].
      intros n0 [<-|[]]. exists [], []. split; [intros k []|]. unfold session. rewrite C. cbn [bind run]. rewrite config_bare. auto. }
    destruct HR as (ks & script & Hks & Hr). exists ks, script. split; [exact Hks|].
    destruct (session scripted m tt fuel d script ks); try contradiction; cbn; [now destruct Hr as [-> _]|now rewrite Hr].
  - injection Hl as <-. destruct Hn as [<-|[]]. exists [], []. split; [intros k []|]. unfold session. rewrite C. reflexivity.
Qed.
