(** Divergence: a set of places no anonymous transition leads out of. *)

From Coq Require Import List Arith NArith Bool Lia.
From Verif Require Import Types Static Dispatch Runtime ListFacts IndexFacts Spec
  DispatchFacts FlattenFacts Semantics RefineFacts StaticFacts TermFacts Reach ReachFacts TableFacts
  QueryFacts ProcessFacts RegionFacts LoopFacts QueueFacts StepFacts Journey HistFacts TermRank Safe SafeFacts SafeObjects.
Import ListNotations.

(** Every place of the set has an anonymous row without guard; anonymous rows are
    internal or stay in the set; all its classes have [n] regions. *)
Record trap (env : cenv) (root : cls) (n : nat) (C : place -> Prop) : Prop := mkTrap {
  tr_place : forall pl, C pl -> is_place env root pl;
  tr_free : forall pl, C pl -> exists x o, candidate env root ENone pl (CRow x o) /\ x_guard x = NoGuard;
  tr_stays : forall pl x o, C pl -> candidate env root ENone pl (CRow x o) ->
     x_int x = true \/ forall pl', can_lead env root x pl' -> C pl';
  tr_regions : forall pl, C pl -> region_exists env root 1 -> length (initial_states env (fst pl)) = n }.

(** All [n] active regions are in the set. *)
Definition caught {V W} (m : machine) (n : nat) (C : place -> Prop) (s : rt V W) : Prop :=
  0 < n /\ active m s = n /\ forall r, r < n -> exists pl, at_place m s r = Some pl /\ C pl.

Definition never_throws {V W} (cb : cbfun V W) : Prop :=
  forall c a v w, exists b v' w', cb c a v w = Ret b v' w'.

Section Trap.
Context {V W : Type}.
Variable cb : cbfun V W.
Variable m : machine.
Hypothesis Hm : compile (mc_env m) (mc_root m) = Some m.
Variable vnone : V.
Notation env := (mc_env m).
Notation root := (mc_root m).
Notation st := (rt V W).
Let Hc : comp m := proj1 (compile_comp _ _ _ Hm).
Hypothesis Hmax : max_initials m <= 255.
Variables (n : nat) (C : place -> Prop).
Hypothesis HC : trap env root n C.

Lemma free_candidate pl : C pl -> exists x o, In (CRow x o) (cands m ENone pl) /\ x_guard x = NoGuard.
Proof.
  intros Hp. destruct (tr_free _ _ _ _ HC pl Hp) as (x & o & Hx & Hg).
  pose proof (cands_complete m Hc _ _ _ Hx) as P. cbn in P. destruct (x_int x); [|eauto].
  destruct P as (y & Hy & Hk & _). exists y, o. split; [exact Hy|]. apply xrow_key_same in Hk.
  destruct Hk as (_ & _ & _ & Hk & _). rewrite Hg in Hk. destruct (x_guard y); [reflexivity|discriminate].
Qed.

Lemma scan_blocked ds pl v w ks v' w' : C pl -> ds <> [] ->
  ~ scan cb m ENone (bound m ds ENone pl) v w ks VNone v' w'.
Proof.
  intros Hp Hd Sc. destruct (free_candidate pl Hp) as (x & o & Hin & Hg).
  apply scan_none_asks in Sc. destruct Sc as [_ Sc].
  destruct ds as [|d ds]; [congruence|].
  destruct (Sc (d, CRow x o)) as (x' & o' & ty & val & E & Hg').
  - unfold bound. apply in_flat_map. exists d. split; [now left|]. now apply in_map.
  - cbn in E. inversion E; subst. congruence.
Qed.
Lemma bound_blocked ds pl : C pl -> ds <> [] -> bound m ds ENone pl <> [].
Proof.
  intros Hp Hd. destruct (free_candidate pl Hp) as (x & o & Hin & _). destruct ds as [|d ds]; [congruence|].
  intros E. assert (H : In (d, CRow x o) (bound m (d :: ds) ENone pl)).
  { unfold bound. apply in_flat_map. exists d. split; [now left|]. now apply in_map. }
  rewrite E in H. destruct H.
Qed.

Lemma relocate_active r c (s : st) p q : parallel m = true -> at_place m (relocate m r c s) 0 = Some (p, q) ->
  rt_regions (relocate m r c s) = length (initial_states env p).
Proof.
  intros Hp. unfold relocate. rewrite Hp.
  destruct (at_place m (with_cur s (set_nth r (Some c) (rt_cur s))) 0) as [[p' q']|] eqn:E.
  - change (at_place m (with_regions (with_cur s (set_nth r (Some c) (rt_cur s))) (length (initial_states env p'))) 0)
      with (at_place m (with_cur s (set_nth r (Some c) (rt_cur s))) 0).
    rewrite E. intros H; inversion H; subst. reflexivity.
  - rewrite E. discriminate.
Qed.

Lemma trap_step ds d0 L r v s vd v' s' : journey cb m ds d0 s L -> ds <> [] -> n <= max_initials m ->
  caught m n C s -> r < n -> region_step cb m ds r ENone v s vd v' s' -> stops vd = false ->
  fired vd = true /\ caught m n C s'.
Proof.
  intros J Hd Hn K0 Hr St Hs.
  destruct (proj2 (proj2 K0) r Hr) as (pl & Hpl & HCp).
  inversion St; subst; try discriminate.
  - exfalso. assert (pl0 = pl) by congruence. subst. eapply bound_blocked; eauto.
  - exfalso. assert (pl0 = pl) by congruence. subst. eapply scan_blocked; eauto.
  - assert (pl0 = pl) by congruence. subst pl0. split; [reflexivity|]. destruct K0 as (Hp & Ha & Hat).
    match goal with A : scan _ _ _ _ _ _ _ (VPick _ _ _) _ _ |- _ => rename A into Sc end.
    match goal with A : executes _ _ _ _ _ _ _ _ _ _ _ _ |- _ => rename A into Ex end.
    assert (Tk : takes cb m ds r ENone v s d x o v1 (after s w1 ks)).
    { exists pl, ks, w1. split; [exact Hpl|]. split; [exact Sc|reflexivity]. }
    assert (Hin : candidate env root ENone pl (CRow x o)).
    { apply (cands_sound m Hc). apply scan_pick in Sc. destruct Sc as (pre & rest & k1 & k2 & va & wa & Eb & _).
      apply (in_bound m ds ENone pl d (CRow x o)). rewrite Eb. apply in_or_app. right. now left. }
    pose proof Ex as Ex0. apply executes_moves in Ex0. destruct Ex0 as (s2 & ks2 & l & w2 & Mv & ->).
    destruct (x_int x) eqn:Ei.
    + destruct (moves_frame2 m r x _ _ Mv) as (_ & _ & _ & _ & _ & _ & E & _). rewrite (E Ei) in *.
      split; [exact Hp|]. split; [exact Ha|exact Hat].
    + destruct (tr_stays _ _ _ _ HC pl x o HCp Hin) as [|Hst]; [congruence|].
      destruct (lands cb m Hm Hmax ds d0 s L r ENone v d x o v1 _ None v' _ J ltac:(lia) Tk Ex Ei) as (_ & (pl' & Hl & Hat') & Ho).
      specialize (Hat' (tr_place _ _ _ _ HC pl' (Hst pl' Hl))).
      assert (K : forall k, k < n -> exists pl, at_place m (with_live (after s2 w2 ks2) l) k = Some pl /\ C pl).
      { intros k Hk. destruct (Nat.eq_dec k r) as [->|Hkr]; [eauto|]. rewrite (Ho k Hkr). auto. }
      split; [exact Hp|]. split; [|exact K].
      unfold active in *. destruct (parallel m) eqn:Epar; [|exact Ha].
      destruct (K 0 Hp) as ([p q] & E0 & C0).
      change (at_place m (with_live (after s2 w2 ks2) l) 0) with (at_place m s2 0) in E0.
      change (rt_regions (with_live (after s2 w2 ks2) l)) with (rt_regions s2).
      rewrite <- (tr_regions _ _ _ _ HC (p, q) C0) by now apply (parallel_iff _ _ m Hm). cbn [fst].
      destruct Mv as [s3 Hi'|s3 pl2 _ _ Ht _|s3 pl2 _ _ _ Ht _|s3 w0 p0 c _ _ Ht _ _]; try congruence;
        eapply relocate_active; eauto.
Qed.

Lemma trap_pass ds d0 r v s vds pe v' s' : anon_pass cb m ds n r v s vds pe v' s' ->
  ds <> [] -> n <= max_initials m -> forall L, journey cb m ds d0 s L -> caught m n C s ->
  (exists k, pe = PeThrew k) \/
  (pe = PeComplete /\ caught m n C s' /\ (exists L', journey cb m ds d0 s' L') /\ (r < n -> existsb fired vds = true)).
Proof.
  intros P Hd Hn. induction P as [r v s Hr|r v s Hr St|r v s vd k v' s' Hr St Ht|r v s vd v1 s1 vds pe v' s' Hr St Hs Hnn P IH];
    intros L J K.
  - right. split; [reflexivity|]. split; [exact K|]. split; [eauto|]. lia.
  - exfalso. destruct (trap_step ds d0 L r v s _ _ _ J Hd Hn K Hr St eq_refl) as [E _]. discriminate.
  - left. eauto.
  - destruct (trap_step ds d0 L r v s vd v1 s1 J Hd Hn K Hr St Hs) as [E K1].
    destruct (IH _ (jo_turn cb m ds d0 s L r ENone v vd v1 s1 J St) K1) as [H|(-> & K' & HJ & _)]; [now left|].
    right. split; [reflexivity|]. split; [exact K'|]. split; [exact HJ|]. intros _. cbn [existsb]. now rewrite E.
Qed.

(** The loop does not come back by itself. *)
Lemma trap_anonymous ds d0 v s vdss k s' : anonymous cb m ds v s vdss k s' -> ds <> [] -> n <= max_initials m ->
  forall L, journey cb m ds d0 s L -> caught m n C s -> k <> None.
Proof.
  intros P Hd Hn. induction P as [v s vds v' s' P|v s vds k v' s' P|v s vds v' s' P Hq|v s vds v1 s1 rest k s' P Hf Q IH];
    intros L J K; pose proof (proj1 (proj2 K)) as Ha; rewrite Ha in P.
  - destruct (trap_pass ds d0 _ _ _ _ _ _ _ P Hd Hn L J K) as [[k E]|(E & _)]; discriminate.
  - discriminate.
  - destruct (trap_pass ds d0 _ _ _ _ _ _ _ P Hd Hn L J K) as [[k E]|(_ & _ & _ & E)]; [discriminate|].
    rewrite E in Hq; [discriminate|]. apply K.
  - destruct (trap_pass ds d0 _ _ _ _ _ _ _ P Hd Hn L J K) as [[k' E]|(_ & K' & (L' & J') & _)]; [discriminate|].
    eapply IH; eauto.
Qed.

Lemma reachable_deps ds d0 s : reachable cb m vnone ds d0 s -> ds <> [].
Proof. intros H. induction H as [|fuel ds d0 s k o s' H IH H1]; [discriminate|]. destruct k; cbn; auto; discriminate. Qed.

Lemma trap_process ds d0 fuel e v s vds v1 s1 b v' s' : reachable cb m vnone ds d0 s ->
  regions_run cb m ds e (active m s) 0 v s vds v1 s1 -> existsb stops vds = false -> existsb fired vds = true ->
  has_anonymous m = true -> caught m n C s1 -> process_event cb m vnone fuel e v s <> Done (b, v') s'.
Proof.
  intros Rb Rr Hs Hf Hha K E. pose proof (reachable_rinvs cb m Hc vnone Hmax ds d0 s Rb) as R.
  destruct (reachable_journey cb m Hc vnone Hmax ds d0 s Rb) as [L J].
  assert (HJ : exists L', journey cb m ds d0 s1 L').
  { eapply (regions_run_keeps cb m Hc ds d0 (fun s => exists L', journey cb m ds d0 s L')); eauto; try apply R.
    - intros r0 e0 v0 s0 vd v0' s0' _ _ _ (L0 & J0) St. eexists. eapply jo_turn; eauto.
    - apply (active_le_max m Hc). apply R. }
  destruct HJ as [L1 J1].
  assert (Hn : n <= max_initials m).
  { destruct K as (_ & Ha & _). rewrite <- Ha. apply (active_le_max m Hc). eapply regions_run_rinv; eauto. apply R. }
  pose proof (process_event_result m Hc cb ds vnone d0 Hmax fuel e v s R) as P. rewrite E in P.
  destruct P as [vds' P].
  assert (D : forall vds2 v2 s2, regions_run cb m ds e (active m s) 0 v s vds2 v2 s2 -> vds2 = vds /\ v2 = v1 /\ s2 = s1).
  { intros vds2 v2 s2 H. eapply regions_run_det in H; [|exact Rr]. intuition congruence. }
  assert (U : unhandled vds = false).
  { clear - Hf. induction vds as [|a l IH]; [discriminate|]. cbn in *. destruct a; cbn in *; auto. }
  assert (F : forall avds oe v2 s2, offer cb m ds vnone e v s vds' avds oe v2 s2 -> exists k, oe = OfThrew k).
  { intros avds oe v2 s2 H. inversion H; subst; eauto;
      match goal with A : regions_run _ _ _ _ _ _ _ _ _ _ _ |- _ => destruct (D _ _ _ A) as (-> & -> & ->) end; try congruence.
    - exfalso. clear - Hs H1. induction vds as [|a l IH]; [discriminate|]. cbn in *. destruct a; cbn in *; auto; discriminate.
    - exfalso. rewrite Hha in *. eapply trap_anonymous; eauto. eapply reachable_deps; eauto. }
  inversion P; subst;
    match goal with A : offer _ _ _ _ _ _ _ _ _ _ _ _ |- _ => destruct (F _ _ _ _ A) as [k Ek] end; try discriminate;
    try (match goal with A : _ \/ _ |- _ => destruct A; congruence end).
Qed.
End Trap.

(** * User code that never throws *)
Section Calm.
Context {V W : Type}.
Variable cb : cbfun V W.
Hypothesis Hcb : never_throws cb.
Variable m : machine.
Variables (ds : list dep) (vnone : V) (d0 : dep).

Lemma calm_scan e bs v w ks vd v' w' : scan cb m e bs v w ks vd v' w' -> forall n, vd <> VRaise n.
Proof.
  intros H. induction H; intros k; try discriminate; auto.
  match goal with A : cb ?c ?a ?v ?w = Raise _ _ _ |- _ => destruct (Hcb c a v w) as (b & x1 & x2 & E); congruence end.
Qed.
Lemma calm_perform e d o ps v l w ks n v' l' w' : perform cb e d o ps v l w ks n v' l' w' -> n = None.
Proof.
  intros H. induction H; auto.
  match goal with A : cb ?c ?a ?v ?w = Raise _ _ _ |- _ => destruct (Hcb c a v w) as (b & x1 & x2 & E); congruence end.
Qed.
Lemma calm_step r e v s vd v' s' : region_step cb m ds r e v s vd v' s' -> threw vd = None.
Proof.
  intros H. destruct H; try reflexivity.
  - exfalso. eapply calm_scan; eauto.
  - exfalso. match goal with A : executes _ _ _ _ _ _ _ _ _ _ _ _ |- _ => inversion A; subst end.
    match goal with A : perform _ _ _ _ _ _ _ _ _ _ _ _ _ |- _ => apply calm_perform in A; discriminate end.
Qed.
Lemma calm_run e limit r v s vds v' s' : regions_run cb m ds e limit r v s vds v' s' ->
  forall vd, In vd vds -> threw vd = None.
Proof.
  intros H. induction H; intros vd' Hin; [destruct Hin| |].
  - destruct Hin as [<-|[]]. eapply calm_step; eauto.
  - destruct Hin as [<-|Hin]; [eapply calm_step; eauto|auto].
Qed.
Lemma calm_pass limit r v s vds pe v' s' : anon_pass cb m ds limit r v s vds pe v' s' -> forall n, pe <> PeThrew n.
Proof. intros H. induction H; intros k; try discriminate; auto. apply calm_step in H0. congruence. Qed.
Lemma calm_anonymous v s vdss n s' : anonymous cb m ds v s vdss n s' -> n = None.
Proof. intros H. induction H; auto. exfalso. eapply calm_pass; eauto. Qed.
Lemma calm_offer e v s vds avds oe v' s' : offer cb m ds vnone e v s vds avds oe v' s' -> forall n, oe <> OfThrew n.
Proof.
  intros H k E. destruct H; try discriminate.
  - pose proof (calm_run _ _ _ _ _ _ _ _ H vd) as T. rewrite T in H0; [discriminate|].
    apply in_or_app. right. now left.
  - apply calm_anonymous in H3. discriminate.
Qed.
Lemma calm_process e v s vds rp s' : process cb m ds vnone d0 e v s vds rp s' -> forall n, rp <> Exception n.
Proof.
  intros H k E. destruct H; try discriminate.
  - destruct n as [n|]; [|discriminate]. inversion H0; subst.
    match goal with A : cb ?c ?a ?v ?w = Raise _ _ _ |- _ => destruct (Hcb c a v w) as (b & x1 & x2 & E1); congruence end.
  - eapply calm_offer; eauto.
  - destruct n as [n|]; [|discriminate]. destruct (has_deferred m); [|destruct H0; discriminate].
    inversion H0; subst. destruct oe; try discriminate. eapply calm_offer; eauto.
Qed.
End Calm.

Section Program.
Context {V W : Type}.
Variable cb : cbfun V W.
Variables (env : cenv) (root : cls) (m : machine) (vnone : V) (ds : list dep) (d0 : dep).
Variable s : rt V W.
Hypothesis Hs : running cb env root m vnone ds d0 s.

Lemma trapped_never_returns n C e v vds v1 s1 : trap env root n C ->
  regions_run cb m ds e (active m s) 0 v s vds v1 s1 -> existsb stops vds = false -> existsb fired vds = true ->
  (exists x, declared env root x /\ x_ev x = ENone) -> caught m n C s1 ->
  forall fuel b v' s', process_event cb m vnone fuel e v s <> Done (b, v') s'.
Proof.
  destruct Hs as (Hm & Hf & R). intros HC Rr H1 H2 Ha K fuel b v' s'.
  apply (anonymous_iff env root m Hm) in Ha. pose proof (few_max_compiled _ _ _ Hm Hf) as HM.
  destruct (compile_comp _ _ _ Hm) as (Hc & He & Hr). subst env root.
  eapply (trap_process cb m Hm vnone HM n C HC); eauto.
Qed.

Lemma trapped_runs_forever n C e v vds v1 s1 : trap env root n C ->
  regions_run cb m ds e (active m s) 0 v s vds v1 s1 -> existsb stops vds = false -> existsb fired vds = true ->
  (exists x, declared env root x /\ x_ev x = ENone) -> caught m n C s1 ->
  well_formed env root -> never_throws cb -> event_of env root e ->
  forall fuel, process_event cb m vnone fuel e v s = Timeout.
Proof.
  intros HC Rr H1 H2 Ha K Hw Hcb Hev fuel.
  pose proof (trapped_never_returns n C e v vds v1 s1 HC Rr H1 H2 Ha K fuel) as N.
  destruct Hs as (Hm & Hf & R). pose proof (few_max_compiled _ _ _ Hm Hf) as HM.
  destruct (call_well_formed cb env root m Hm vnone fuel ds d0 s (KProcess e v) Hw R Hev) as [U _].
  destruct (compile_comp _ _ _ Hm) as (Hc & He & Hr).
  pose proof (reachable_rinvs cb m Hc vnone HM ds d0 s R) as I.
  pose proof (process_event_result m Hc cb ds vnone d0 HM fuel e v s I) as P.
  unfold do_call_catch in U. cbn [do_call] in U.
  destruct (process_event cb m vnone fuel e v s) as [[b v'] s'|ex s'|u|]; cbn [bind] in U.
  - exfalso. eapply N; reflexivity.
  - destruct P as (k & vds' & _ & P). exfalso. eapply (calm_process cb Hcb); eauto.
  - exfalso. eapply U; reflexivity.
  - reflexivity.
Qed.
End Program.

(** * Termination and totality *)
Section Total.
Context {V W : Type}.
Variable cb : cbfun V W.
Variables (env : cenv) (root : cls) (m : machine) (vnone : V).
Hypothesis Hm : compile env root = Some m.
Hypothesis Hf : few_regions env root.
Variable rank : place -> nat.
Hypothesis Hr : ranked env root rank.

Lemma ranked_call fuel ds d0 (s : rt V W) k : enough m rank <= fuel -> reachable cb m vnone ds d0 s ->
  do_call_catch cb m vnone fuel k s <> Timeout.
Proof.
  intros HF R. pose proof (few_max_compiled _ _ _ Hm Hf) as HM.
  destruct (compile_comp _ _ _ Hm) as (Hc & He & Hrr). subst env root.
  eapply (call_terminates cb m Hm vnone rank Hr HM); eauto.
Qed.
Lemma ranked_session fuel d (w : W) ks : enough m rank <= fuel -> session cb m vnone fuel d w ks <> Timeout.
Proof.
  intros HF. pose proof (few_max_compiled _ _ _ Hm Hf) as HM.
  destruct (compile_comp _ _ _ Hm) as (Hc & He & Hrr). subst env root.
  now apply (session_terminates cb m Hm vnone rank Hr HM).
Qed.
Lemma ranked_total fuel d (w : W) ks : enough m rank <= fuel -> well_formed env root ->
  Forall (well_typed env root) ks -> exists os s, session cb m vnone fuel d w ks = Done os s.
Proof.
  intros HF Hw Ht. pose proof (ranked_session fuel d w ks HF) as T.
  destruct (session_well_formed cb env root m Hm vnone fuel d w ks Hw Ht) as [U X].
  destruct (session cb m vnone fuel d w ks) as [os s|ex s|u|]; eauto.
  - exfalso. eapply X; eauto.
  - exfalso. eapply U; eauto.
  - congruence.
Qed.
End Total.
