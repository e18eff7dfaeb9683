(** History of machines with several regions. *)

From Coq Require Import List Arith NArith Bool Lia.
From Verif Require Import Types Static Dispatch Runtime Dsl Examples ListFacts IndexFacts Spec
  DispatchFacts FlattenFacts Semantics RefineFacts StaticFacts TermFacts Reach ReachFacts TableFacts
  QueryFacts ProcessFacts RegionFacts QueueFacts StepFacts Journey HistFacts Demo.
Import ListNotations.

Section Regions.
Context {V W : Type}.
Variable cb : cbfun V W.
Variables (env : cenv) (root : cls) (m : machine) (vnone : V).
Hypothesis Hm : compile env root = Some m.
Hypothesis Hf : few_regions env root.
Notation st := (rt V W).

Lemma find_skip {A} (f : A -> bool) (l1 l2 : list A) : (forall a, In a l1 -> f a = false) ->
  find f (l1 ++ l2) = find f l2.
Proof.
  induction l1 as [|a l1 IH]; intros H; [reflexivity|]. cbn [app find].
  rewrite (H a (or_introl eq_refl)). apply IH. intros b Hb. apply H. now right.
Qed.

Lemma departs_take ds (s : st) r e v d x o v1 s1 p0 q0 : takes cb m ds r e v s d x o v1 s1 ->
  x_int x = false -> at_place m s 0 = Some (p0, q0) ->
  exists pl, at_place m s r = Some pl /\ departs m s r (RFired x) = [mkDeparture p0 r pl].
Proof.
  intros (pl & ks & w1 & Hpl & Sc & ->) Hi H0. exists pl. split; [exact Hpl|].
  unfold departs, took. now rewrite Hi, H0, Hpl.
Qed.

Lemma history_stays ds d0 (s : st) r e v d x o v1 s1 n v' s' w p q : during cb m vnone ds d0 s ->
  at_place m s 0 = Some (p, q) ->
  takes cb m ds r e v s d x o v1 s1 -> executes cb m r e d x o v1 s1 n v' s' ->
  x_int x = false -> x_tgt x = SHistory w p -> at_place m s' r = at_place m s r.
Proof.
  intros D H0 Tk Ex Hi Ht. destruct (program_journey cb env root m vnone Hm Hf ds d0 s D) as [L J].
  destruct (program_history_target cb env root m Hm Hf _ _ _ _ _ _ _ _ _ _ _ _ _ _ _ _ _ J Tk Ex Hi Ht) as [E Hn].
  destruct (departs_take _ _ _ _ _ _ _ _ _ _ _ _ Tk Hi H0) as (pl & Hpl & Ed).
  rewrite Ed in E. cbn [app] in E. rewrite E in Hn |- *. rewrite Hpl. unfold last_left in *.
  destruct (nth_error (initial_states env p) r) as [i|]; [|congruence].
  cbn [find]. unfold left_in at 1. cbn [dp_owner dp_region]. now rewrite !Nat.eqb_refl.
Qed.

Lemma last_left_other p p0 r pl L : p0 <> p -> last_left env p r (mkDeparture p0 r pl :: L) = last_left env p r L.
Proof.
  intros Hn. unfold last_left. cbn [find]. unfold left_in at 1. cbn [dp_owner].
  destruct (Nat.eqb_spec p0 p); [congruence|]. reflexivity.
Qed.
Lemma last_left_skip p r L1 L : (forall a, In a L1 -> ~ (dp_owner a = p /\ dp_region a = r)) ->
  last_left env p r (L1 ++ L) = last_left env p r L.
Proof.
  intros H. unfold last_left. rewrite find_skip; [reflexivity|]. intros a Ha. unfold left_in.
  destruct (Nat.eqb_spec (dp_owner a) p); [|reflexivity]. destruct (Nat.eqb_spec (dp_region a) r); [|reflexivity].
  destruct (H a Ha). auto.
Qed.

Lemma history_lost ds d0 (s : st) L r e v d x o v1 s1 n v' s' p0 q0 p q : journey cb m ds d0 s L ->
  at_place m s 0 = Some (p0, q0) -> at_place m s r = Some (p, q) -> p0 <> p ->
  takes cb m ds r e v s d x o v1 s1 -> executes cb m r e d x o v1 s1 n v' s' -> x_int x = false ->
  journey cb m ds d0 s' (mkDeparture p0 r (p, q) :: L) /\
  forall ds2 (s2 : st) L2 e2 v2 d2 x2 o2 v3 s3 n2 v4 s4 w p1 q1,
    journey cb m ds2 d0 s2 (L2 ++ mkDeparture p0 r (p, q) :: L) ->
    (forall a, In a L2 -> ~ (dp_owner a = p /\ dp_region a = r)) ->
    at_place m s2 0 = Some (p1, q1) -> p1 <> p ->
    takes cb m ds2 r e2 v2 s2 d2 x2 o2 v3 s3 -> executes cb m r e2 d2 x2 o2 v3 s3 n2 v4 s4 ->
    x_int x2 = false -> x_tgt x2 = SHistory w p ->
    at_place m s4 r = last_left env p r L.
Proof.
  intros J H0 Hr Hn Tk Ex Hi. split.
  - pose proof Tk as (pl & ks & w1 & Hpl & Sc & E1).
    assert (St : exists vd, took vd = true /\ region_step cb m ds r e v s vd v' s').
    { subst s1. destruct n as [n|].
      - exists (REffectThrew x n). split; [cbn; now rewrite Hi|]. eapply rs_effect_threw; eauto.
      - exists (RFired x). split; [cbn; now rewrite Hi|]. eapply rs_fired; eauto. }
    destruct St as (vd & Hv & St). pose proof (jo_turn cb m ds d0 s L r e v vd v' s' J St) as J'.
    unfold departs in J'. now rewrite Hv, H0, Hr in J'.
  - intros ds2 s2 L2 e2 v2 d2 x2 o2 v3 s3 n2 v4 s4 w p1 q1 J2 HL H1 Hn1 Tk2 Ex2 Hi2 Ht2.
    destruct (program_history_target cb env root m Hm Hf _ _ _ _ _ _ _ _ _ _ _ _ _ _ _ _ _ J2 Tk2 Ex2 Hi2 Ht2) as [E _].
    destruct (departs_take _ _ _ _ _ _ _ _ _ _ _ _ Tk2 Hi2 H1) as (pl2 & _ & Ed).
    rewrite Ed in E. cbn [app] in E. rewrite last_left_other in E by exact Hn1.
    rewrite last_left_skip in E by exact HL. now rewrite last_left_other in E by exact Hn.
Qed.

Lemma history_kept ds d0 (s : st) L r e v d x o v1 s1 n v' s' w p p0 q0 pl : journey cb m ds d0 s L ->
  takes cb m ds r e v s d x o v1 s1 -> executes cb m r e d x o v1 s1 n v' s' ->
  x_int x = false -> x_tgt x = SHistory w p ->
  at_place m s 0 = Some (p0, q0) -> at_place m s r = Some pl ->
  match find (fun a => Nat.eqb (dp_region a) r && (Nat.eqb (dp_owner a) p || Nat.eqb (fst (dp_place a)) p))
          (mkDeparture p0 r pl :: L) with
  | Some a => dp_owner a = fst (dp_place a) -> at_place m s' r = Some (dp_place a)
  | None => at_place m s' r = option_map (pair p) (nth_error (initial_states env p) r)
  end.
Proof.
  intros J Tk Ex Hi Ht H0 Hr.
  destruct (program_history_target cb env root m Hm Hf _ _ _ _ _ _ _ _ _ _ _ _ _ _ _ _ _ J Tk Ex Hi Ht) as [E Hn].
  destruct (departs_take _ _ _ _ _ _ _ _ _ _ _ _ Tk Hi H0) as (pl2 & Hr2 & Ed).
  rewrite Hr in Hr2. injection Hr2 as <-. rewrite Ed in E. cbn [app] in E. rewrite E in Hn |- *.
  clear E Ed. unfold last_left in *. destruct (nth_error (initial_states env p) r) as [i|]; [|congruence].
  cbn [option_map]. clear Hn Hr H0. generalize (mkDeparture p0 r pl :: L). intros l.
  induction l as [|a l IH]; [reflexivity|]. cbn [find].
  assert (Ea : left_in p r a = Nat.eqb (dp_owner a) p && Nat.eqb (dp_region a) r) by reflexivity. rewrite Ea. clear Ea.
  destruct (Nat.eqb_spec (dp_region a) r) as [Er|Er]; [|rewrite andb_false_r; exact IH]. rewrite andb_true_r.
  destruct (Nat.eqb_spec (dp_owner a) p) as [Eo|Eo]; [intros _; reflexivity|]. cbn [orb andb].
  destruct (Nat.eqb_spec (fst (dp_place a)) p) as [Ep|Ep]; [|exact IH]. intros F. destruct Eo. now rewrite F.
Qed.
End Regions.

(** Regions take turns with events, changing their places every time. *)
Fixpoint tour {W} (cb : cbfun nat W) (m : machine) (es : list (nat * ev)) (s : rt nat W) (L : list departure)
  : option (rt nat W * list departure) :=
  match es with
  | [] => Some (s, L)
  | (r, e) :: es =>
      match at_place m s 0, at_place m s r, try_region cb m r e 0 s with
      | Some (p, _), Some pl, Done (Some Fired, _) s' =>
          match at_place m s' r with
          | Some pl' => if place_eq_dec pl' pl then None else tour cb m es s' (mkDeparture p r pl :: L)
          | None => None
          end
      | _, _, _ => None
      end
  end.
Lemma tour_sound {W} (cb : cbfun nat W) env root m vnone ds d0 es : forall s L s' L',
  handling cb env root m vnone ds d0 s -> journey cb m ds d0 s L -> tour cb m es s L = Some (s', L') ->
  handling cb env root m vnone ds d0 s' /\ journey cb m ds d0 s' L'.
Proof.
  induction es as [|[r e] es IH]; intros s L s' L' H J E; cbn [tour] in E.
  - inversion E; subst. auto.
  - destruct (at_place m s 0) as [[p q]|] eqn:E0; [|discriminate].
    destruct (at_place m s r) as [pl|] eqn:Er; [|discriminate].
    destruct (try_region cb m r e 0 s) as [[[[]|] v'] s1|ex s1|u|] eqn:T; try discriminate.
    destruct (at_place m s1 r) as [pl'|] eqn:E1; [|discriminate].
    destruct (place_eq_dec pl' pl) as [|Hn]; [discriminate|].
    destruct (hop cb env root m vnone ds d0 s L r e 0 v' s1 p q pl H J T E0 Er) as [H1 J1]; [congruence|].
    eapply IH; eauto.
Qed.
Lemma demo_tour cb env root es (P : machine -> rt nat nat -> list departure -> Prop) :
  match compile env root with
  | None => False
  | Some m => match construct m 300 0 0 with
              | Done _ s => Nat.leb (max_initials m) 255 = true /\
                            match tour cb m es s [] with Some (s', L) => P m s' L | None => False end
              | _ => False
              end
  end -> exists m s L, handling cb env root m 0 [0] 0 s /\ journey cb m [0] 0 s L /\ P m s L.
Proof.
  destruct (compile env root) as [m|] eqn:Hm; [|intros []].
  destruct (construct m 300 0 0) as [[] s|ex s|u|] eqn:Hs; try (intros []; fail). intros [Hl H].
  apply Nat.leb_le in Hl. destruct (tour cb m es s []) as [[s' L]|] eqn:E; [|destruct H].
  exists m, s', L.
  assert (Hh : handling cb env root m 0 [0] 0 s).
  { split; [exact Hm|]. split; [eapply max_few; eauto|]. apply du_start. eapply reach_new; eauto. }
  destruct (tour_sound cb env root m 0 [0] 0 es s [] s' L Hh) as [H1 J1]; auto.
  eapply jo_new; eauto.
Qed.

(** A machine with two regions everywhere.  Event 1 enters 11, event 2 moves on inside,
    event 3 leaves, event 4 returns by history. *)
Definition twin_env : cenv :=
 [ (11, tbl [ mkRow (SInitial WState 1) (EUser 2) NoGuard NoAction (SState 2);
              mkRow (SInitial WState 3) (EUser 2) NoGuard NoAction (SState 4) ]);
   (50, tbl [ mkRow (SInitial WState 5) (EUser 1) NoGuard NoAction (SState 11);
              mkRow (SInitial WState 6) (EUser 1) NoGuard NoAction (SDirect WState 11 3);
              mkRow (SState 11) (EUser 3) NoGuard NoAction (SState 5);
              mkRow (SState 5) (EUser 4) NoGuard NoAction (SHistory WState 11);
              mkRow (SState 5) (EUser 5) NoGuard NoAction (SState 6);
              mkRow (SState 11) (EUser 6) NoGuard NoAction (SState 6) ]) ].
(** 12 is entered by region 0 only. *)
Definition alien_env : cenv :=
 [ (11, tbl [ mkRow (SInitial WState 1) (EUser 2) NoGuard NoAction (SState 2);
              mkRow (SInitial WState 3) (EUser 2) NoGuard NoAction (SState 4) ]);
   (12, tbl [ mkRow (SInitial WState 1) (EUser 9) NoGuard NoAction (SState 1);
              mkRow (SInitial WState 3) (EUser 9) NoGuard NoAction (SState 3) ]);
   (50, tbl [ mkRow (SInitial WState 5) (EUser 5) NoGuard NoAction (SState 12);
              mkRow (SInitial WState 6) (EUser 1) NoGuard NoAction (SDirect WState 11 3);
              mkRow (SState 11) (EUser 5) NoGuard NoAction (SState 7);
              mkRow (SState 12) (EUser 3) NoGuard NoAction (SState 5);
              mkRow (SState 7) (EUser 7) NoGuard NoAction (SHistory WState 12) ]) ].
(** Region 1 can leave 11 alone, through an exit. *)
Definition early_env : cenv :=
 [ (11, tbl [ mkRow (SInitial WState 1) (EUser 2) NoGuard NoAction (SState 2);
              mkRow (SInitial WState 3) (EUser 2) NoGuard NoAction (SState 4) ]);
   (50, tbl [ mkRow (SInitial WState 5) (EUser 1) NoGuard NoAction (SState 11);
              mkRow (SInitial WState 6) (EUser 1) NoGuard NoAction (SDirect WState 11 3);
              mkRow (SExit WState 11 4) (EUser 3) NoGuard NoAction (SState 6);
              mkRow (SExit WState 11 2) (EUser 4) NoGuard NoAction (SState 5);
              mkRow (SState 6) (EUser 5) NoGuard NoAction (SHistory WState 11) ]) ].

(** Both regions leave 11 and return. *)
Lemma return_refuted : exists env m s1 s2 s3 x o,
  compile env 50 = Some m /\ few_regions env 50 /\ reachable ex_cb m 0 [0] 0 s1 /\
  at_place m s1 0 = Some (11, SState 2) /\ at_place m s1 1 = Some (11, SState 4) /\
  process_event ex_cb m 0 300 (EUser 3) 0 s1 = Done (true, 0) s2 /\
  at_place m s2 0 = Some (50, SState 5) /\ at_place m s2 1 = Some (50, SState 5) /\
  candidate_list env 50 (EUser 4) (50, SState 5) [CRow x o] /\ x_tgt x = SHistory WState 11 /\
  process_event ex_cb m 0 300 (EUser 4) 0 s2 = Done (true, 0) s3 /\
  at_place m s3 0 = Some (11, SState 2) /\ at_place m s3 1 = Some (50, SState 5).
Proof.
  assert (H : match demo ex_cb twin_env 50 [pe 1; pe 2] with
    | Some (m, _, s1) => Nat.leb (max_initials m) 255 = true /\
        at_place m s1 0 = Some (11, SState 2) /\ at_place m s1 1 = Some (11, SState 4) /\
        match process_event ex_cb m 0 300 (EUser 3) 0 s1 with
        | Done (true, 0) s2 =>
            at_place m s2 0 = Some (50, SState 5) /\ at_place m s2 1 = Some (50, SState 5) /\
            match process_event ex_cb m 0 300 (EUser 4) 0 s2, cands m (EUser 4) (50, SState 5) with
            | Done (true, 0) s3, [CRow x o] => x_tgt x = SHistory WState 11 /\
                at_place m s3 0 = Some (11, SState 2) /\ at_place m s3 1 = Some (50, SState 5)
            | _, _ => False
            end
        | _ => False
        end
    | None => False
    end).
  { vm_compute. repeat (split; [reflexivity|]). reflexivity. }
  destruct (demo ex_cb twin_env 50 [pe 1; pe 2]) as [[[m os] s1]|] eqn:E; [|destruct H].
  destruct H as (F & H1 & H2 & H).
  destruct (process_event ex_cb m 0 300 (EUser 3) 0 s1) as [[[] [|]] s2|ex s2|u|] eqn:E3; try (destruct H; fail).
  destruct H as (H3 & H4 & H).
  destruct (process_event ex_cb m 0 300 (EUser 4) 0 s2) as [[[] [|]] s3|ex s3|u|] eqn:E4; try (destruct H; fail).
  destruct (cands m (EUser 4) (50, SState 5)) as [|[|x o] [|]] eqn:Ec; try (destruct H; fail).
  destruct H as (H5 & H6 & H7).
  destruct (demo_reach _ _ _ _ _ _ _ E F) as (A1 & A2 & A3).
  exists twin_env, m, s1, s2, s3, x, o. repeat (split; [assumption|]).
  split; [eapply demo_candidates; eauto|]. repeat (split; [assumption|]). assumption.
Qed.
Lemma alien_refuted : exists env m s1 s2,
  compile env 50 = Some m /\ few_regions env 50 /\ reachable ex_cb m 0 [0] 0 s1 /\
  at_place m s1 0 = Some (50, SState 5) /\ at_place m s1 1 = Some (50, SState 7) /\
  (exists x o, candidate_list env 50 (EUser 7) (50, SState 7) [CRow x o] /\ x_tgt x = SHistory WState 12) /\
  process_event ex_cb m 0 300 (EUser 7) 0 s1 = Done (true, 0) s2 /\
  at_place m s2 1 = Some (11, SState 4).
Proof.
  assert (H : match demo ex_cb alien_env 50 [pe 1; pe 2; pe 5; pe 3] with
    | Some (m, _, s1) => Nat.leb (max_initials m) 255 = true /\
        at_place m s1 0 = Some (50, SState 5) /\ at_place m s1 1 = Some (50, SState 7) /\
        match process_event ex_cb m 0 300 (EUser 7) 0 s1, cands m (EUser 7) (50, SState 7) with
        | Done (true, 0) s2, [CRow x o] => x_tgt x = SHistory WState 12 /\ at_place m s2 1 = Some (11, SState 4)
        | _, _ => False
        end
    | None => False
    end).
  { vm_compute. repeat (split; [reflexivity|]). reflexivity. }
  destruct (demo ex_cb alien_env 50 [pe 1; pe 2; pe 5; pe 3]) as [[[m os] s1]|] eqn:E; [|destruct H].
  destruct H as (F & H1 & H2 & H).
  destruct (process_event ex_cb m 0 300 (EUser 7) 0 s1) as [[[] [|]] s2|ex s2|u|] eqn:E3; try (destruct H; fail).
  destruct (cands m (EUser 7) (50, SState 7)) as [|[|x o] [|]] eqn:Ec; try (destruct H; fail).
  destruct H as (H3 & H4).
  destruct (demo_reach _ _ _ _ _ _ _ E F) as (A1 & A2 & A3).
  exists alien_env, m, s1, s2. repeat (split; [assumption|]).
  split; [exists x, o; split; [eapply demo_candidates; eauto|assumption]|]. split; assumption.
Qed.
