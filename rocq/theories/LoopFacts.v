(** Handling all regions, anonymous transitions and recalled events. *)

From Coq Require Import List Arith NArith Bool Lia.
From Verif Require Import Types Static Dispatch Runtime ListFacts IndexFacts Spec
  DispatchFacts FlattenFacts Semantics RefineFacts StaticFacts TermFacts Reach ReachFacts TableFacts
  QueryFacts ProcessFacts RegionFacts.
Import ListNotations.

(** * The semantics is a function *)
Section Det.
Context {V W : Type}.
Variable cb : cbfun V W.
Variables (m : machine) (ds : list dep) (vnone : V) (d0 : dep).
Notation st := (rt V W).

Lemma regions_run_det e limit r v s vds v' s' : regions_run cb m ds e limit r v s vds v' s' ->
  forall vds2 v2 s2, regions_run cb m ds e limit r v s vds2 v2 s2 -> vds2 = vds /\ v2 = v' /\ s2 = s'.
Proof.
  intros H. induction H as [r v s L|r v s vd v' s' L R St|r v s vd v1 s1 vds v' s' L R St H IH];
    intros vds2 v2 s2 H2; inversion H2; subst; try lia; auto;
    match goal with A : region_step _ _ _ _ _ _ _ _ _ _ |- _ =>
      destruct (region_step_det _ _ _ _ _ _ _ _ _ _ R _ _ _ A) as (-> & -> & ->) end; auto; try congruence.
  match goal with A : regions_run _ _ _ _ _ (S _) _ _ _ _ _ |- _ => destruct (IH _ _ _ A) as (-> & -> & ->) end. auto.
Qed.

Lemma anon_pass_det limit r v s vds pe v' s' : anon_pass cb m ds limit r v s vds pe v' s' ->
  forall vds2 pe2 v2 s2, anon_pass cb m ds limit r v s vds2 pe2 v2 s2 ->
  vds2 = vds /\ pe2 = pe /\ v2 = v' /\ s2 = s'.
Proof.
  intros H. induction H as [r v s L|r v s L R|r v s vd n v' s' L R St|r v s vd v1 s1 vds pe v' s' L R St Hn H IH];
    intros vds2 pe2 v2 s2 H2; inversion H2; subst; try lia; auto;
    match goal with A : region_step _ _ _ _ _ _ _ _ _ _ |- _ =>
      destruct (region_step_det _ _ _ _ _ _ _ _ _ _ R _ _ _ A) as (E1 & E2 & E3); subst end; auto; try congruence;
    try discriminate.
  - match goal with A : threw ?x = Some _, B : threw ?x = Some _ |- _ => rewrite A in B; inversion B; subst; auto end.
  - match goal with A : threw _ = Some _ |- _ => apply threw_stops in A; congruence end.
  - match goal with A : threw _ = Some _ |- _ => apply threw_stops in A; congruence end.
  - match goal with A : anon_pass _ _ _ _ (S _) _ _ _ _ _ _ |- _ => destruct (IH _ _ _ _ A) as (-> & -> & -> & ->) end. auto.
Qed.

Lemma anonymous_det v s vdss n s' : anonymous cb m ds v s vdss n s' ->
  forall vdss2 n2 s2, anonymous cb m ds v s vdss2 n2 s2 -> vdss2 = vdss /\ n2 = n /\ s2 = s'.
Proof.
  intros H. induction H as [v s vds v' s' P|v s vds n v' s' P|v s vds v' s' P F|v s vds v1 s1 rest n s' P F H IH];
    intros vdss2 n2 s2 H2; inversion H2; subst;
    match goal with A : anon_pass _ _ _ _ _ _ _ _ _ _ _ |- _ =>
      destruct (anon_pass_det _ _ _ _ _ _ _ _ P _ _ _ _ A) as (E1 & E2 & E3 & E4); subst end; auto; try congruence; try discriminate.
  - inversion E2. auto.
  - match goal with A : anonymous _ _ _ _ _ _ _ _ |- _ => destruct (IH _ _ _ A) as (-> & -> & ->) end. auto.
Qed.

Lemma stops_app vds vd n : threw vd = Some n -> existsb stops (vds ++ [vd]) = true.
Proof. intros H. rewrite existsb_app. cbn. rewrite (threw_stops _ _ H). now rewrite orb_true_r. Qed.

Lemma run_stop_last e limit r v s vds v' s' : regions_run cb m ds e limit r v s vds v' s' ->
  existsb stops vds = true -> exists pre vd, vds = pre ++ [vd] /\ stops vd = true /\ existsb stops pre = false.
Proof.
  intros H. induction H as [r v s L|r v s vd v' s' L R St|r v s vd v1 s1 vds v' s' L R St H IH]; intros E.
  - discriminate.
  - exists [], vd. auto.
  - cbn in E. rewrite St in E. destruct (IH E) as (pre & vd' & -> & A & B). exists (vd :: pre), vd'.
    split; [reflexivity|]. split; [exact A|]. cbn. now rewrite St.
Qed.

Lemma deferred_stops vds : existsb deferred vds = true -> existsb stops vds = true.
Proof.
  induction vds as [|vd vds IH]; [discriminate|]. cbn. rewrite !orb_true_iff. intros [H|H]; [left|auto].
  destruct vd; cbn in *; congruence.
Qed.
Lemma unhandled_nothing vds : unhandled vds = true ->
  existsb stops vds = false /\ existsb fired vds = false /\ existsb deferred vds = false.
Proof.
  induction vds as [|vd vds IH]; [auto|]. cbn. rewrite andb_true_iff. intros [H1 H2].
  destruct (IH H2) as (-> & -> & ->). destruct vd; cbn in *; try discriminate. auto.
Qed.

Lemma offer_run e v s vds avds oe v' s' : offer cb m ds vnone e v s vds avds oe v' s' ->
  exists s1, regions_run cb m ds e (active m s) 0 v s vds v' s1 /\
    match oe with
    | OfUnhandled => unhandled vds = true /\ avds = [] /\ s' = s1
    | OfRefused => existsb stops vds = false /\ unhandled vds = false /\ existsb fired vds = false /\ avds = [] /\ s' = s1
    | OfDeferred => existsb deferred vds = true /\ avds = [] /\ s' = s1
    | OfHandled => existsb stops vds = false /\ existsb fired vds = true /\
        (if has_anonymous m then anonymous cb m ds vnone s1 avds None s' else avds = [] /\ s' = s1)
    | OfThrew n =>
        (exists pre vd, vds = pre ++ [vd] /\ threw vd = Some n /\ avds = [] /\ s' = s1) \/
        (existsb stops vds = false /\ existsb fired vds = true /\ has_anonymous m = true /\
         anonymous cb m ds vnone s1 avds (Some n) s')
    end.
Proof.
  intros H. destruct H; try (eexists; split; [eassumption|]; repeat split; auto; fail).
  exists s'. split; [assumption|]. left. exists vds, vd. auto.
Qed.

Lemma offer_det e v s vds avds oe v' s' : offer cb m ds vnone e v s vds avds oe v' s' ->
  forall vds2 avds2 oe2 v2 s2, offer cb m ds vnone e v s vds2 avds2 oe2 v2 s2 ->
  vds2 = vds /\ avds2 = avds /\ oe2 = oe /\ v2 = v' /\ s2 = s'.
Proof.
  intros H vds2 avds2 oe2 v2 s2 H2. apply offer_run in H. apply offer_run in H2.
  destruct H as (s1 & R & H), H2 as (s1' & R2 & H2).
  destruct (regions_run_det _ _ _ _ _ _ _ _ R _ _ _ R2) as (-> & -> & ->).
  assert (A : forall n avds n2 avds2 a b, anonymous cb m ds vnone s1 avds n a -> anonymous cb m ds vnone s1 avds2 n2 b ->
    n2 = n /\ avds2 = avds /\ b = a).
  { intros n x n2 x2 a b Ha Hb. destruct (anonymous_det _ _ _ _ _ Ha _ _ _ Hb) as (-> & -> & ->). auto. }
  assert (L : forall pre vd n, vds = pre ++ [vd] -> threw vd = Some n -> existsb deferred vds = false /\ existsb stops vds = true).
  { intros pre vd n -> Ht. split; [|eapply stops_app; eauto]. rewrite existsb_app. cbn.
    destruct (run_stop_last _ _ _ _ _ _ _ _ R (stops_app _ _ _ Ht)) as (pre' & vd' & E & Hst & Hpre).
    apply app_inj_tail in E. destruct E as [-> ->].
    destruct (existsb deferred pre') eqn:Ed; [apply deferred_stops in Ed; congruence|].
    destruct vd'; cbn in *; congruence. }
  destruct (has_anonymous m) eqn:Ean.
  all: destruct oe as [| | | |n], oe2 as [| | | |n2];
    repeat match goal with
    | B : _ /\ _ |- _ => destruct B
    end;
    repeat match goal with
    | B : unhandled ?x = true, C : unhandled ?x = false |- _ => congruence
    | B : _ /\ _ |- _ => destruct B
    | B : unhandled _ = true |- _ => apply unhandled_nothing in B
    | B : _ \/ _ |- _ => destruct B as [(pre & vd & E & Ht & ? & ?)|(? & ? & ? & ?)];
        [pose proof (L _ _ _ E Ht) as [? ?]|]
    end; subst; auto; try congruence;
    repeat match goal with
    | B : existsb deferred _ = true |- _ => apply deferred_stops in B
    end; try congruence.
  all: try match goal with B : anonymous _ _ _ _ _ _ _ _, C : anonymous _ _ _ _ _ _ _ _ |- _ =>
    destruct (A _ _ _ _ _ _ B C) as (E & ? & ?); try discriminate; inversion E; subst; auto; fail end.
  all: destruct H as [(pre' & vd' & E & Ht' & -> & ->)|(B1 & _)]; [|congruence];
    apply app_inj_tail in E; destruct E as [-> ->]; rewrite Ht in Ht'; inversion Ht'; auto.
Qed.

Lemma recall_det s n s' : recall cb m ds vnone s n s' ->
  forall n2 s2, recall cb m ds vnone s n2 s2 -> n2 = n /\ s2 = s'.
Proof.
  intros H n2 s2 H2. destruct H as [s Q|s e v q vds avds oe v' s' Q O]; inversion H2 as [t Q2|t e' v'' q' vds' avds' oe' v3 s3 Q2 O2]; subst; try congruence; auto.
  rewrite Q in Q2. inversion Q2; subst.
  destruct (offer_det _ _ _ _ _ _ _ _ O _ _ _ _ _ O2) as (_ & _ & -> & _ & ->). auto.
Qed.

Lemma unexpected_det e v s n v' s' : unexpected cb m d0 e v s n v' s' ->
  forall n2 v2 s2, unexpected cb m d0 e v s n2 v2 s2 -> n2 = n /\ v2 = v' /\ s2 = s'.
Proof.
  intros H n2 v2 s2 H2. destruct H; inversion H2; subst; auto; try congruence;
  match goal with A : at_place _ _ 0 = Some _, B : at_place _ _ 0 = Some _ |- _ => rewrite A in B; inversion B; subst; clear B end;
  match goal with A : cb ?c ?a ?v ?w = _, B : cb ?c ?a ?v ?w = _ |- _ => rewrite A in B; inversion B; subst; clear B end; auto.
Qed.

Lemma process_det e v s vds rp s' : process cb m ds vnone d0 e v s vds rp s' ->
  forall vds2 rp2 s2, process cb m ds vnone d0 e v s vds2 rp2 s2 -> vds2 = vds /\ rp2 = rp /\ s2 = s'.
Proof.
  assert (P : forall vds rp s', process cb m ds vnone d0 e v s vds rp s' ->
    exists avds oe v1 s1, offer cb m ds vnone e v s vds avds oe v1 s1 /\
      match oe with
      | OfUnhandled => exists n v', unexpected cb m d0 e v1 s1 n v' s' /\ rp = match n with None => Returned false v' | Some k => Exception k end
      | OfRefused | OfDeferred => rp = Returned false v1 /\ s' = s1
      | OfThrew n => rp = Exception n /\ s' = s1
      | OfHandled => exists n, (if has_deferred m then recall cb m ds vnone s1 n s' else n = None /\ s' = s1) /\
          rp = match n with None => Returned true v1 | Some k => Exception k end
      end).
  { clear. intros vds0 rp0 s0 H.
    destruct H as [va sa vdsa v1 s1 n v' s' O U|va sa vdsa oe v' s' O Ho|va sa vdsa avds n v' s' O|va sa vdsa avds v' s1 n s' O U].
    - exists [], OfUnhandled, v1, s1. split; [exact O|]. eauto.
    - exists [], oe, v', s'. split; [exact O|]. destruct Ho; subst; auto.
    - exists avds, (OfThrew n), v', s'. auto.
    - exists avds, OfHandled, v', s1. split; [exact O|]. eauto. }
  intros H vds2 rp2 s2 H2. apply P in H. apply P in H2. clear P.
  destruct H as (avds & oe & v1 & s1 & O & H), H2 as (avds2 & oe2 & v1' & s1' & O2 & H2).
  destruct (offer_det _ _ _ _ _ _ _ _ O _ _ _ _ _ O2) as (-> & -> & -> & -> & ->).
  destruct oe.
  - destruct H as (n & v' & U & ->), H2 as (n2 & v2' & U2 & ->).
    destruct (unexpected_det _ _ _ _ _ _ U _ _ _ U2) as (-> & -> & ->). auto.
  - destruct H as [-> ->], H2 as [-> ->]; auto.
  - destruct H as (n & U & ->), H2 as (n2 & U2 & ->). destruct (has_deferred m).
    + destruct (recall_det _ _ _ U _ _ U2) as (-> & ->). auto.
    + destruct U as [-> ->], U2 as [-> ->]. auto.
  - destruct H as [-> ->], H2 as [-> ->]; auto.
  - destruct H as [-> ->], H2 as [-> ->]; auto.
Qed.
End Det.

(** * The regions in turn *)
Section Turns.
Context {V W : Type}.
Variable cb : cbfun V W.
Variables (env : cenv) (root : cls) (m : machine) (vnone : V) (ds : list dep) (d0 : dep).
Notation st := (rt V W).

Lemma turns_handling e r v s r' v' s' : handling cb env root m vnone ds d0 s ->
  turns cb m e r v s r' v' s' -> handling cb env root m vnone ds d0 s'.
Proof.
  intros H T. induction T as [|r v s o v1 s1 r' v' s' E Ho T IH]; [exact H|].
  apply IH. destruct H as (Hm & Hf & H). repeat (split; [assumption|]). eapply du_region; eauto.
Qed.

Lemma turns_le e r v s r' v' s' : turns cb m e r v s r' v' s' -> r <= r'.
Proof. intros T. induction T; lia. Qed.

(** A region's turn leaves the places of the others alone. *)
Lemma region_step_cur r e v s vd v' s' : region_step cb m ds r e v s vd v' s' ->
  forall k, k <> r -> nth_error (rt_cur s') k = nth_error (rt_cur s) k.
Proof.
  intros H k Hk. destruct H; auto;
  match goal with A : executes _ _ _ _ _ _ _ _ _ _ _ _ |- _ =>
    apply executes_moves in A; destruct A as (s2 & ks2 & l & w & Hmv & ->) end;
  destruct (moves_frame2 _ _ _ _ _ Hmv) as (_ & _ & _ & _ & Ecur & _); exact (Ecur k Hk).
Qed.

Lemma turns_cur e r v s r' v' s' : handling cb env root m vnone ds d0 s ->
  turns cb m e r v s r' v' s' ->
  forall k, k < r \/ r' <= k -> nth_error (rt_cur s') k = nth_error (rt_cur s) k.
Proof.
  intros H T. induction T as [|r v s o v1 s1 r' v' s' E Ho T IH]; intros k Hk; [reflexivity|].
  pose proof (turns_le _ _ _ _ _ _ _ T).
  assert (H1 : handling cb env root m vnone ds d0 s1).
  { destruct H as (Hm & Hf & H). repeat (split; [assumption|]). eapply du_region; eauto. }
  rewrite (IH H1) by lia.
  pose proof (region_verdict _ _ _ _ _ _ _ _ H r e v) as P. rewrite E in P.
  assert (exists vd, region_step cb m ds r e v s vd v1 s1) as [vd R].
  { destruct o as [[| |]|]; eauto. destruct P; eauto. }
  eapply region_step_cur; eauto. lia.
Qed.

(** Outcome of the loop when some region ends it. *)
Lemma loop_turns fuel limit e v s i v1 s1 agf ati : limit <= 255 ->
  forall r, turns cb m e r v s i v1 s1 -> i <= limit -> i - r < fuel ->
  exists agf' ati', region_loop cb m fuel limit r agf ati e v s =
    region_loop cb m (fuel - (i - r)) limit i agf' ati' e v1 s1.
Proof.
  intros HL r T. revert fuel agf ati. induction T as [r v s|r v s o v1 s1 r' v' s' E Ho T IH]; intros fuel agf ati Hi Hf.
  - exists agf, ati. now rewrite Nat.sub_diag, Nat.sub_0_r.
  - pose proof (turns_le _ _ _ _ _ _ _ T). destruct fuel as [|fuel]; [lia|].
    cbn [region_loop]. destruct (Nat.ltb_spec r limit); [|lia]. rewrite E. cbn [bind fst snd].
    rewrite (next_region_S r limit) by lia.
    replace (S fuel - (r' - r)) with (fuel - (r' - S r)) by lia.
    destruct o as [[| |]|]; try congruence; apply IH; lia.
Qed.

Lemma loop_split limit e : limit <= 255 -> forall fuel r agf ati v s, limit - r < fuel -> r <= limit ->
  (exists v1 s1, turns cb m e r v s limit v1 s1) \/
  (exists i v1 s1, i < limit /\ turns cb m e r v s i v1 s1 /\
     match try_region cb m i e v1 s1 with
     | Done (Some Deferred, v') s' => region_loop cb m fuel limit r agf ati e v s = Done (PDeferred, v') s'
     | Done _ _ => False
     | Threw ex s' => region_loop cb m fuel limit r agf ati e v s = Threw ex s'
     | Undef u => region_loop cb m fuel limit r agf ati e v s = Undef u
     | Timeout => False
     end).
Proof.
  intros HL. induction fuel as [|fuel IH]; intros r agf ati v s Hf Hr; [lia|].
  destruct (Nat.eq_dec r limit) as [->|Hn]; [left; exists v, s; constructor|].
  cbn [region_loop]. destruct (Nat.ltb_spec r limit); [|lia].
  destruct (try_region cb m r e v s) as [[o v1] s1|ex s1|u|] eqn:E; cbn [bind fst snd].
  - rewrite (next_region_S r limit) by lia.
    destruct o as [[| |]|].
    + destruct (IH (S r) agf false v1 s1) as [(v2 & s2 & T)|(i & v2 & s2 & Hi & T & P)]; [lia|lia| |];
        [left; exists v2, s2; eapply tu_turn; eauto; discriminate
        |right; exists i, v2, s2; split; [exact Hi|]; split; [eapply tu_turn; eauto; discriminate|exact P]].
    + destruct (IH (S r) false false v1 s1) as [(v2 & s2 & T)|(i & v2 & s2 & Hi & T & P)]; [lia|lia| |];
        [left; exists v2, s2; eapply tu_turn; eauto; discriminate
        |right; exists i, v2, s2; split; [exact Hi|]; split; [eapply tu_turn; eauto; discriminate|exact P]].
    + right. exists r, v, s. split; [lia|]. split; [constructor|]. rewrite E. reflexivity.
    + destruct (IH (S r) agf ati v1 s1) as [(v2 & s2 & T)|(i & v2 & s2 & Hi & T & P)]; [lia|lia| |];
        [left; exists v2, s2; eapply tu_turn; eauto; discriminate
        |right; exists i, v2, s2; split; [exact Hi|]; split; [eapply tu_turn; eauto; discriminate|exact P]].
  - right. exists r, v, s. split; [lia|]. split; [constructor|]. rewrite E. reflexivity.
  - right. exists r, v, s. split; [lia|]. split; [constructor|]. rewrite E. reflexivity.
  - exfalso. eapply try_region_timeout; eauto.
Qed.

Variable s : st.
Hypothesis Hs : running cb env root m vnone ds d0 s.

Lemma active_255 : active m s <= 255.
Proof.
  pose proof (running_rinvs _ _ _ _ _ _ _ _ Hs) as [_ R _]. destruct Hs as (Hm & Hf & _).
  pose proof (few_max_compiled _ _ _ Hm Hf). unfold rinv in R. unfold active. destruct (parallel m); lia.
Qed.

(** A region that throws or defers ends the event. *)
Lemma turns_stop fuel e v i v1 s1 : event_of env root e -> i < active m s ->
  turns cb m e 0 v s i v1 s1 -> i < fuel ->
  match try_region cb m i e v1 s1 with
  | Done (Some Deferred, v') s' => process_event cb m vnone fuel e v s = Done (false, v') s'
  | Threw ex s' => process_event cb m vnone fuel e v s = Threw ex s'
  | Undef u => process_event cb m vnone fuel e v s = Undef u
  | _ => True
  end.
Proof.
  intros He Hi T Hf. pose proof active_255 as HL. destruct Hs as (Hm & _ & _).
  apply (events_iff _ _ _ Hm) in He.
  unfold process_event. destruct (in_dec ev_eq_dec e (events m)) as [_|]; [|contradiction].
  unfold process_event_internal. change (current_regions m s) with (active m s).
  destruct (loop_turns fuel (active m s) e v s i v1 s1 true true HL 0 T) as (agf & ati & ->); [lia|lia|].
  rewrite Nat.sub_0_r. destruct (fuel - i) as [|f] eqn:Ef; [lia|].
  cbn [region_loop]. destruct (Nat.ltb_spec i (active m s)); [|lia].
  destruct (try_region cb m i e v1 s1) as [[[[| |]|] v'] s'|ex s'|u|]; cbn [bind fst snd]; auto.
Qed.

(** Every region gets its turn, in order, until one throws or defers. *)
Lemma process_turns fuel e v : event_of env root e -> active m s < fuel ->
  (exists v1 s1, turns cb m e 0 v s (active m s) v1 s1) \/
  (exists i v1 s1, i < active m s /\ turns cb m e 0 v s i v1 s1 /\
     match try_region cb m i e v1 s1 with
     | Done (Some Deferred, v') s' => process_event cb m vnone fuel e v s = Done (false, v') s'
     | Done _ _ => False
     | Threw ex s' => process_event cb m vnone fuel e v s = Threw ex s'
     | Undef u => process_event cb m vnone fuel e v s = Undef u
     | Timeout => False
     end).
Proof.
  intros He Hf.
  destruct (loop_split (active m s) e active_255 fuel 0 true true v s) as [H|(i & v1 & s1 & Hi & T & P)]; [lia|lia|now left|].
  right. exists i, v1, s1. split; [exact Hi|]. split; [exact T|].
  pose proof (turns_stop fuel e v i v1 s1 He Hi T) as Q.
  destruct (try_region cb m i e v1 s1) as [[[[| |]|] v'] s'|ex s'|u|]; try contradiction; apply Q; lia.
Qed.

(** ** Unhandled events *)
Lemma loop_nothing e v : event_of env root e ->
  forall fuel limit r agf ati, limit <= 255 -> limit - r < fuel ->
  (forall k, r <= k < limit -> exists pl, at_place m s k = Some pl /\ candidate_list env root e pl []) ->
  region_loop cb m fuel limit r agf ati e v s =
    Done (if ati then PInvalid else if agf then PGuardsFailed else PProcessed, v) s.
Proof.
  intros He. induction fuel as [|fuel IH]; intros limit r agf ati HL Hf Hall; [lia|].
  cbn [region_loop]. destruct (Nat.ltb_spec r limit) as [Hr|Hr]; [|reflexivity].
  destruct (Hall r ltac:(lia)) as (pl & Hp & Hc).
  rewrite (region_nothing _ _ _ _ _ _ _ _ (running_handling _ _ _ _ _ _ _ _ Hs) r e v pl He Hp Hc). cbn [bind fst snd].
  rewrite (next_region_S r limit) by lia. apply IH; [exact HL|lia|]. intros k Hk. apply Hall. lia.
Qed.

Lemma process_unhandled fuel e v : event_of env root e -> active m s < fuel ->
  (forall r, r < active m s -> exists pl, at_place m s r = Some pl /\ candidate_list env root e pl []) ->
  (cd_unexpected (lookup env root) = false -> process_event cb m vnone fuel e v s = Done (false, v) s) /\
  (cd_unexpected (lookup env root) = true -> forall p q, at_place m s 0 = Some (p, q) ->
     process_event cb m vnone fuel e v s =
       if in_dec sref_eq_dec q (rt_live s)
       then match cb CHandler (mkArgs e q TNone d0) v (rt_world s) with
            | Ret _ v' w' => Done (false, v') (after s w' [mkCall CHandler (mkArgs e q TNone d0) v])
            | Raise n _ w' => Threw (XUser n) (after s w' [mkCall CHandler (mkArgs e q TNone d0) v])
            end
       else Undef UBNull).
Proof.
  intros He Hf Hall. pose proof active_255 as HL. pose proof (running_rinvs _ _ _ _ _ _ _ _ Hs) as [T _ _].
  assert (Hm : compile env root = Some m) by apply Hs.
  pose proof He as He'. apply (events_iff _ _ _ Hm) in He'.
  unfold process_event. destruct (in_dec ev_eq_dec e (events m)) as [_|]; [|contradiction].
  unfold process_event_internal. change (current_regions m s) with (active m s).
  rewrite (loop_nothing e v He fuel (active m s) 0 true true HL) by (auto; try lia; intros; apply Hall; lia).
  cbn [bind fst snd]. unfold call_handler.
  assert (Er : mc_env m = env /\ mc_root m = root) by (compiled Hm; auto). destruct Er as [-> ->].
  split; intros Eu; rewrite Eu; [reflexivity|]. intros p q Hp.
  assert (Hmax : max_initials m <= 255) by (destruct Hs as (_ & Hfew & _); exact (few_max_compiled _ _ _ Hm Hfew)).
  unfold at_place in Hp. unfold at_cur. destruct (nth_error (rt_cur s) 0) as [[c|]|]; try discriminate. cbn [bind].
  compiled Hm. destruct (places_at_inv m Hc _ _ _ Hp) as (Hp' & Hq & ->).
  pose proof (ti_htabs _ _ _ _ T Eu) as Hh.
  pose proof (fill_handlers_get m Hc d0 (rt_htabs s) e p q Hh He' Hp' Hq) as G.
  destruct (get_table (rt_htabs s) e) as [arr|]; [|contradiction]. destruct G as [G _].
  rewrite nth_at_nth, G. unfold alive. destruct (in_dec sref_eq_dec q (rt_live s)); [|reflexivity].
  unfold keep_payload, invoke. destruct (cb CHandler _ v (rt_world s)) as [b v' w'|n v' w']; reflexivity.
Qed.
End Turns.
