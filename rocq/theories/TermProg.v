(** Termination and divergence of programs: from turns of regions, and with
    conditions that can be computed. *)

From Coq Require Import List Arith NArith Bool Lia.
From Verif Require Import Types Static Dispatch Runtime ListFacts IndexFacts Spec
  DispatchFacts FlattenFacts Semantics RefineFacts StaticFacts TermFacts Reach ReachFacts TableFacts
  QueryFacts ProcessFacts RegionFacts LoopFacts QueueFacts StepFacts Journey HistFacts TermRank TrapFacts
  Safe SafeFacts SafeObjects.
Import ListNotations.

Section Turns.
Context {V W : Type}.
Variable cb : cbfun V W.
Variables (env : cenv) (root : cls) (m : machine) (vnone : V) (ds : list dep) (d0 : dep).
Notation st := (rt V W).

Lemma turns_run e limit r v s r' v' s' : handling cb env root m vnone ds d0 s -> r' <= limit ->
  turns cb m e r v s r' v' s' -> forall vds v2 s2, regions_run cb m ds e limit r' v' s' vds v2 s2 ->
  existsb stops vds = false ->
  exists vds', regions_run cb m ds e limit r v s (vds' ++ vds) v2 s2 /\ existsb stops (vds' ++ vds) = false.
Proof.
  intros H Hl T. induction T as [|r v s o v1 s1 r' v' s' E Ho T IH]; intros vds v2 s2 R Hs.
  - exists []. auto.
  - pose proof (turns_le _ _ _ _ _ _ _ _ _ T).
    assert (H1 : handling cb env root m vnone ds d0 s1).
    { destruct H as (Hm & Hf & H). repeat (split; [assumption|]). eapply du_region; eauto. }
    destruct (IH H1 Hl vds v2 s2 R Hs) as (vds' & R' & Hs').
    pose proof (region_verdict _ _ _ _ _ _ _ _ H r e v) as P. rewrite E in P.
    assert (exists vd, region_step cb m ds r e v s vd v1 s1 /\ stops vd = false) as (vd & S1 & N).
    { destruct o as [[| |]|]; try congruence; eauto. destruct P; eauto. }
    exists (vd :: vds'). split; [eapply rr_next; eauto; lia|]. cbn. now rewrite N, Hs'.
Qed.

Lemma fired_run e limit v s i v1 s1 v2 s2 v3 s3 : handling cb env root m vnone ds d0 s -> i < limit ->
  turns cb m e 0 v s i v1 s1 -> try_region cb m i e v1 s1 = Done (Some Fired, v2) s2 ->
  turns cb m e (S i) v2 s2 limit v3 s3 ->
  exists vds, regions_run cb m ds e limit 0 v s vds v3 s3 /\ existsb stops vds = false /\ existsb fired vds = true.
Proof.
  intros H Hi T1 F T2. pose proof (turns_handling _ _ _ _ _ _ _ _ _ _ _ _ _ _ H T1) as H1.
  pose proof (region_verdict _ _ _ _ _ _ _ _ H1 i e v1) as P. rewrite F in P. destruct P as [x P].
  assert (H2 : handling cb env root m vnone ds d0 s2).
  { destruct H1 as (Hm & Hf & H1). repeat (split; [assumption|]). eapply du_region; eauto. }
  destruct (turns_run e limit (S i) v2 s2 limit v3 s3 H2 (le_n _) T2 [] v3 s3) as (vds2 & R2 & N2).
  { now constructor. } { reflexivity. }
  destruct (turns_run e limit 0 v s i v1 s1 H (Nat.lt_le_incl _ _ Hi) T1 (RFired x :: vds2 ++ []) v3 s3) as (vds1 & R1 & N1).
  { eapply rr_next; eauto. } { exact N2. }
  exists (vds1 ++ RFired x :: vds2 ++ []). split; [exact R1|]. split; [exact N1|].
  rewrite existsb_app. cbn. apply orb_true_r.
Qed.

Variable s : st.
Hypothesis Hs : running cb env root m vnone ds d0 s.
Variables (n : nat) (C : place -> Prop).
Hypothesis HC : trap env root n C.
Hypothesis Ha : exists x, declared env root x /\ x_ev x = ENone.

Lemma trap_never_returns e v i v1 s1 v2 s2 v3 s3 :
  turns cb m e 0 v s i v1 s1 -> i < active m s -> try_region cb m i e v1 s1 = Done (Some Fired, v2) s2 ->
  turns cb m e (S i) v2 s2 (active m s) v3 s3 -> caught m n C s3 ->
  forall fuel b v' s', process_event cb m vnone fuel e v s <> Done (b, v') s'.
Proof.
  intros T1 Hi F T2 K.
  destruct (fired_run e (active m s) v s i v1 s1 v2 s2 v3 s3) as (vds & R & N & Fi); auto.
  { destruct Hs as (Hm & Hf & H). repeat (split; [assumption|]). now apply du_start. }
  eapply trapped_never_returns; eauto.
Qed.
Lemma trap_runs_forever e v i v1 s1 v2 s2 v3 s3 :
  turns cb m e 0 v s i v1 s1 -> i < active m s -> try_region cb m i e v1 s1 = Done (Some Fired, v2) s2 ->
  turns cb m e (S i) v2 s2 (active m s) v3 s3 -> caught m n C s3 ->
  well_formed env root -> never_throws cb -> event_of env root e ->
  forall fuel, process_event cb m vnone fuel e v s = Timeout.
Proof.
  intros T1 Hi F T2 K.
  destruct (fired_run e (active m s) v s i v1 s1 v2 s2 v3 s3) as (vds & R & N & Fi); auto.
  { destruct Hs as (Hm & Hf & H). repeat (split; [assumption|]). now apply du_start. }
  eapply trapped_runs_forever; eauto.
Qed.
End Turns.

(** * Conditions that can be computed *)
Definition leads (m : machine) (x : xrow) : list place :=
  match x_tgt x with
  | SHistory _ p => filter (fun pl : place => Nat.eqb (fst pl) p || parallel m) (places m)
  | _ => match target_place (mc_env m) x with Some pl => [pl] | None => [] end
  end.
Lemma leads_iff env root m x pl : compile env root = Some m -> can_lead env root x pl <-> In pl (leads m x).
Proof.
  intros Hm. pose proof (parallel_iff env root m Hm) as Hp. compiled Hm. unfold can_lead, leads.
  destruct (x_tgt x); try (destruct (target_place (mc_env m) x); cbn; split;
    [intros E; inversion E; auto|intros [->|[]]; reflexivity|discriminate|intros []]).
  rewrite filter_In, orb_true_iff, Nat.eqb_eq. rewrite <- (in_places_iff m Hc). now rewrite Hp.
Qed.

Definition rank_check (m : machine) (rank : place -> nat) : bool :=
  forallb (fun pl => forallb (fun c =>
    match c with
    | CRow x _ => negb (x_int x) && forallb (fun pl' => Nat.ltb (rank pl') (rank pl)) (leads m x)
    | CDefer => true
    end) (cands m ENone pl)) (places m).
Lemma rank_check_sound env root m rank : compile env root = Some m -> well_placed env root ->
  rank_check m rank = true -> ranked env root rank.
Proof.
  intros Hm Hw H pl x o Hx. pose proof (wpm_placed env root m Hm Hw) as Hwp.
  pose proof (fun pl => leads_iff env root m x pl Hm) as HL.
  unfold rank_check in H. rewrite forallb_forall in H. pose proof Hm as Hm0. compiled Hm.
  assert (D : In (CRow x o) (cands m ENone pl) -> x_int x = false /\ forall pl', can_lead (mc_env m) (mc_root m) x pl' -> rank pl' < rank pl).
  { intros Hin. destruct (cands_support m Hm0 _ _ _ (wm_regs m Hwp) Hin) as [_ Hpl]. specialize (H pl Hpl).
    rewrite forallb_forall in H. specialize (H _ Hin). cbn in H. apply andb_true_iff in H. destruct H as [H1 H2].
    split; [now destruct (x_int x)|]. intros pl' Hl. apply HL in Hl. rewrite forallb_forall in H2.
    now apply Nat.ltb_lt, H2. }
  pose proof (cands_complete m Hc _ _ _ Hx) as P. cbn in P. destruct (x_int x) eqn:Ei; [|auto].
  exfalso. destruct P as (y & Hy & _ & Hi). destruct (cands_support m Hm0 _ _ _ (wm_regs m Hwp) Hy) as [_ Hpl].
  specialize (H pl Hpl). rewrite forallb_forall in H. specialize (H _ Hy). cbn in H. now rewrite Hi in H.
Qed.

Definition trap_check (m : machine) (n : nat) (l : list place) : bool :=
  forallb (fun pl : place =>
    (if in_dec place_eq_dec pl (places m) then true else false) &&
    existsb (fun c => match c with CRow x _ => match x_guard x with NoGuard => true | _ => false end | CDefer => false end)
            (cands m ENone pl) &&
    forallb (fun c => match c with
                      | CRow x _ => x_int x || forallb (fun pl' => if in_dec place_eq_dec pl' l then true else false) (leads m x)
                      | CDefer => true
                      end) (cands m ENone pl) &&
    (negb (parallel m) || Nat.eqb (length (initial_states (mc_env m) (fst pl))) n)) l.
Lemma trap_check_sound env root m n l : compile env root = Some m -> trap_check m n l = true ->
  trap env root n (fun pl => In pl l).
Proof.
  intros Hm H. pose proof (fun x pl => leads_iff env root m x pl Hm) as HL.
  pose proof (parallel_iff env root m Hm) as Hp. compiled Hm.
  unfold trap_check in H. rewrite forallb_forall in H.
  assert (D : forall pl, In pl l -> In pl (places m) /\
    (exists x o, In (CRow x o) (cands m ENone pl) /\ x_guard x = NoGuard) /\
    (forall x o, In (CRow x o) (cands m ENone pl) -> x_int x = true \/ forall pl', In pl' (leads m x) -> In pl' l) /\
    (parallel m = true -> length (initial_states (mc_env m) (fst pl)) = n)).
  { intros pl Hpl. specialize (H pl Hpl). rewrite !andb_true_iff in H. destruct H as [[[H1 H2] H3] H4].
    split; [destruct (in_dec place_eq_dec pl (places m)); [assumption|discriminate]|]. split; [|split].
    - apply existsb_exists in H2. destruct H2 as ([|x o] & Hin & Hg); [discriminate|].
      exists x, o. split; [exact Hin|]. destruct (x_guard x); [reflexivity|discriminate].
    - intros x o Hin. rewrite forallb_forall in H3. specialize (H3 _ Hin). cbn in H3.
      apply orb_true_iff in H3. destruct H3 as [H3|H3]; [now left|right]. intros pl' Hl.
      rewrite forallb_forall in H3. specialize (H3 pl' Hl). destruct (in_dec place_eq_dec pl' l); [assumption|discriminate].
    - intros E. rewrite E in H4. now apply Nat.eqb_eq in H4. }
  split; intros pl.
  - intros Hpl. apply (in_places_iff m Hc). now apply D.
  - intros Hpl. destruct (D pl Hpl) as (_ & (x & o & Hin & Hg) & _). exists x, o. split; [|exact Hg].
    now apply (cands_sound m Hc).
  - intros x o Hpl Hx. pose proof (cands_complete m Hc _ _ _ Hx) as P. cbn in P.
    destruct (x_int x) eqn:Ei; [now left|]. destruct (D pl Hpl) as (_ & _ & Q & _).
    destruct (Q x o P) as [Hi|Q']; [congruence|]. right. intros pl' Hl. apply Q'. now apply HL.
  - intros Hpl Hr. apply D; [exact Hpl|]. now apply Hp.
Qed.
