(** History: what the machine remembers is where it was last left. *)

From Coq Require Import List Arith NArith Bool Lia.
From Verif Require Import Types Static Dispatch Runtime ListFacts IndexFacts Spec
  DispatchFacts FlattenFacts Semantics RefineFacts StaticFacts TermFacts Reach ReachFacts TableFacts
  QueryFacts ProcessFacts RegionFacts QueueFacts StepFacts Journey.
Import ListNotations.

Section Hist.
Context {V W : Type}.
Variable cb : cbfun V W.
Variable m : machine.
Hypothesis Hc : comp m.
Variable vnone : V.
Notation env := (mc_env m).
Notation root := (mc_root m).
Notation st := (rt V W).

Lemma place_code c pl : nth_error (places m) (N.to_nat c) = Some pl -> code m pl = c.
Proof. intros H. unfold code. rewrite (pos_nth place_eq_dec pl _ _ (places_NoDup m Hc) H). apply Nnat.N2Nat.id. Qed.
Lemma at_place_code (s : st) r pl : at_place m s r = Some pl ->
  nth_error (rt_cur s) r = Some (Some (code m pl)) /\ In pl (places m).
Proof.
  unfold at_place. destruct (nth_error (rt_cur s) r) as [[c|]|]; try discriminate. intros H.
  rewrite (place_code _ _ H). split; [reflexivity|]. eapply nth_error_In; eauto.
Qed.
Lemma parent_pos_inj p q : In p (parents m) -> parent_pos m p = parent_pos m q -> p = q.
Proof.
  intros Hp E. unfold parent_pos in E. pose proof (nth_pos Nat.eq_dec p (parents m) Hp) as A.
  rewrite E in A.
  destruct (in_dec Nat.eq_dec q (parents m)) as [Hq|Hq].
  - rewrite nth_pos in A by exact Hq. now inversion A.
  - exfalso. assert (nth_error (parents m) (pos Nat.eq_dec q (parents m)) <> None) by (unfold cls in *; rewrite A; discriminate).
    apply nth_error_Some in H. rewrite pos_absent in H by exact Hq. exact (Nat.lt_irrefl _ H).
Qed.

(** What the move changes in the history. *)
Lemma remember_last (s : st) r L p : In p (parents m) ->
  (forall k, history_of m s p k = option_map (code m) (last_left env p k L)) ->
  forall p0 q0 pl, at_place m s 0 = Some (p0, q0) -> at_place m s r = Some pl ->
  forall k, history_of m (remember m r s) p k =
    option_map (code m) (last_left env p k (mkDeparture p0 r pl :: L)).
Proof.
  intros Hp IH p0 q0 pl H0 Hr k.
  destruct (Nat.eq_dec p0 p) as [->|Hn]; [destruct (Nat.eq_dec k r) as [->|Hk]|].
  - specialize (IH r). unfold last_left in *. cbn [find left_in dp_owner dp_region].
    unfold left_in at 1. cbn [dp_owner dp_region]. rewrite !Nat.eqb_refl. cbn [andb dp_place].
    unfold remember. rewrite H0. destruct (at_place_code s r pl Hr) as [Ec _]. rewrite Ec.
    unfold history_of in *. destruct (nth_error (rt_hist s) (parent_pos m p)) as [l|] eqn:El.
    + cbn [rt_hist with_hist]. rewrite nth_set_same by (apply nth_error_Some; congruence).
      destruct (nth_error (initial_states env p) r) as [i|]; cbn [option_map] in IH |- *.
      * rewrite nth_set_same; [reflexivity|]. apply nth_error_Some. congruence.
      * apply nth_error_None. rewrite set_nth_length. now apply nth_error_None.
    + rewrite El. destruct (nth_error (initial_states env p) r) as [i|]; cbn [option_map] in IH |- *; [discriminate|reflexivity].
  - rewrite remember_history by (intros; right; exact Hk). rewrite IH. unfold last_left. cbn [find].
    unfold left_in at 2. cbn [dp_owner dp_region]. destruct (Nat.eqb_spec r k); [congruence|]. now rewrite andb_false_r.
  - rewrite remember_history.
    2:{ intros p1 q1 E. rewrite H0 in E. inversion E; subst. left. intros E'. apply Hn. symmetry. now apply parent_pos_inj. }
    rewrite IH. unfold last_left. cbn [find]. unfold left_in at 2. cbn [dp_owner].
    destruct (Nat.eqb_spec p0 p); [congruence|]. reflexivity.
Qed.
Lemma remember_none (s : st) r : at_place m s 0 = None -> remember m r s = s.
Proof. intros H. unfold remember. now rewrite H. Qed.

Lemma moves_last (s s' : st) r x L p pl : has_history m = true -> In p (parents m) -> x_int x = false ->
  at_place m s r = Some pl -> moves m r x s s' ->
  (forall k, history_of m s p k = option_map (code m) (last_left env p k L)) ->
  forall k, history_of m (remember m r s) p k =
    option_map (code m) (last_left env p k
      (match at_place m s 0 with Some (p0, _) => [mkDeparture p0 r pl] | None => [] end ++ L)) /\
    history_of m s' p k = history_of m (remember m r s) p k.
Proof.
  intros Hh Hp Hi Hr Mv IH k. split.
  - destruct (at_place m s 0) as [[p0 q0]|] eqn:E0.
    + cbn [app]. eapply remember_last; eauto.
    + cbn [app]. rewrite remember_none by exact E0. apply IH.
  - destruct Mv as [s Hi'|s pl' _ Hh' _ _|s pl' _ _ _ _ _|s w p0 c _ _ _ _ _]; try congruence;
      unfold history_of; match goal with |- context [relocate m r ?c ?s0] => destruct (relocate_rest m r c s0) as (_ & _ & _ & _ & _ & ->) end; reflexivity.
Qed.

Lemma executes_last (s s' : st) r e d x o v w1 ks n v' vd L p k pl : has_history m = true -> In p (parents m) ->
  at_place m s r = Some pl -> executes cb m r e d x o v (after s w1 ks) n v' s' ->
  (forall k, history_of m s p k = option_map (code m) (last_left env p k L)) ->
  took vd = negb (x_int x) ->
  history_of m s' p k = option_map (code m) (last_left env p k (departs m s r vd ++ L)).
Proof.
  intros Hh Hp Hr Ex IH Et. apply executes_moves in Ex. destruct Ex as (s2 & ks2 & l & w & Mv & ->).
  change (history_of m (with_live (after s2 w ks2) l) p k) with (history_of m s2 p k).
  unfold departs. rewrite Et, Hr. destruct (x_int x) eqn:Ei; cbn [negb].
  - destruct (moves_frame2 m r x _ _ Mv) as (_ & _ & _ & _ & _ & _ & E & _). rewrite (E Ei). apply IH.
  - edestruct (moves_last (after s w1 ks) s2 r x L p pl) as [E1 E2]; eauto.
    change (at_place m (after s w1 ks) 0) with (at_place m s 0) in E1. rewrite E2, E1.
    destruct (at_place m s 0) as [[? ?]|]; reflexivity.
Qed.

Hypothesis Hmax : max_initials m <= 255.

Lemma journey_history ds d0 s L : journey cb m ds d0 s L -> has_history m = true ->
  forall p k, In p (parents m) -> history_of m s p k = option_map (code m) (last_left env p k L).
Proof.
  intros J Hh. induction J; intros p0 k Hp; try exact (IHJ p0 k Hp).
  - destruct (construct_sound m Hc _ _ _ _ (root_initials_le m Hc Hmax) H) as [(_ & _ & E & _) _].
    unfold history_of, last_left. rewrite E, (initial_table_nth m Hc p0 Hp), nth_error_map.
    rewrite <- initials_spec. destruct (nth_error (initials env p0) k); reflexivity.
  - inversion H; subst; try exact (IHJ p0 k Hp).
    + eapply (executes_last s); eauto.
    + eapply (executes_last s); eauto.
Qed.

(** The places remembered are places of the machine. *)
Lemma journey_places ds d0 s L : journey cb m ds d0 s L -> forall a, In a L -> In (dp_place a) (places m).
Proof.
  intros J. induction J; intros a Ha; auto; [destruct Ha|].
  apply in_app_or in Ha. destruct Ha as [Ha|Ha]; [|auto]. unfold departs in Ha.
  destruct (took vd); [|destruct Ha]. destruct (at_place m s 0) as [[p q]|]; [|destruct Ha].
  destruct (at_place m s r) as [pl|] eqn:E; [|destruct Ha]. destruct Ha as [<-|[]]. cbn. eapply at_place_code; eauto.
Qed.
Lemma journey_hist_length ds d0 s L : journey cb m ds d0 s L -> length (rt_hist s) = length (parents m).
Proof.
  intros J. induction J; auto.
  - destruct (construct_sound m Hc _ _ _ _ (root_initials_le m Hc Hmax) H) as [(_ & _ & E & _) _].
    rewrite E. unfold initial_table. apply map_length.
  - destruct (region_step_frame _ _ _ _ _ _ _ _ _ _ H) as [_ _ _ E].
    rewrite <- (map_length (@length N)), E, map_length. exact IHJ.
Qed.
Lemma last_left_place p k L : In p (parents m) -> (forall a, In a L -> In (dp_place a) (places m)) ->
  forall pl, last_left env p k L = Some pl -> In pl (places m).
Proof.
  intros Hp HL pl. unfold last_left. destruct (nth_error (initial_states env p) k) as [i|] eqn:Ei; [|discriminate].
  intros H; inversion H; subst. destruct (find (left_in p k) L) as [a|] eqn:Ef.
  - apply HL. eapply find_some; eauto.
  - apply in_places. split; [exact Hp|]. apply (initials_states m Hc p); [exact Hp|].
    rewrite initials_spec. eapply nth_error_In; eauto.
Qed.

Lemma history_target ds d0 s L r e v d x o v1 s1 n v' s' w p :
  journey cb m ds d0 s L -> takes cb m ds r e v s d x o v1 s1 -> executes cb m r e d x o v1 s1 n v' s' ->
  x_int x = false -> x_tgt x = SHistory w p ->
  at_place m s' r = last_left env p r (departs m s r (RFired x) ++ L) /\ at_place m s' r <> None.
Proof.
  intros J (pl & ks & w1 & Hpl & Sc & ->) Ex Hi Ht.
  assert (Hh : has_history m = true).
  { apply scan_pick in Sc. destruct Sc as (pre & rest & k1 & k2 & va & wa & Eb & _).
    assert (Hin : In (d, CRow x o) (bound m ds e pl)) by (rewrite Eb; apply in_or_app; right; now left).
    apply in_bound in Hin. destruct Hin as [_ Hin]. pose proof (cands_flat m Hc _ _ _ _ Hin Hi) as Hf.
    unfold has_history. apply existsb_exists. exists x. split; [exact Hf|]. unfold is_history. now rewrite Ht. }
  apply executes_moves in Ex. destruct Ex as (s2 & ks2 & l & w2 & Mv & ->).
  change (at_place m (with_live (after s2 w2 ks2) l) r) with (at_place m s2 r).
  pose proof (moves_last (after s w1 ks) s2 r x L p pl Hh) as ML.
  assert (HP : forall a, In a (departs m s r (RFired x) ++ L) -> In (dp_place a) (places m)).
  { intros a Ha. apply in_app_or in Ha. destruct Ha as [Ha|Ha]; [|eapply journey_places; eauto].
    unfold departs in Ha. destruct (took _); [|destruct Ha]. destruct (at_place m s 0) as [[? ?]|]; [|destruct Ha].
    rewrite Hpl in Ha. destruct Ha as [<-|[]]. eapply at_place_code; eauto. }
  pose proof Mv as Mv'.
  inversion Mv' as [s0 Hi'|s0 pl' _ Hh' _ _|s0 pl' _ _ Hn _ _|s0 w0 p0 c _ _ Ht' Hc' St]; try congruence.
  { rewrite Ht in Hn. discriminate. }
  rewrite Ht in Ht'. inversion Ht'; subst w0 p0. clear Ht'. subst s0 s2.
  assert (Hp : In p (parents m)).
  { destruct (in_dec Nat.eq_dec p (parents m)) as [|Hn]; [assumption|]. exfalso.
    unfold history_of in Hc'. destruct (nth_error _ (parent_pos m p)) as [l0|] eqn:El; [|discriminate].
    assert (Hlt : parent_pos m p < length (rt_hist (remember m r (after s w1 ks)))) by (apply nth_error_Some; congruence).
    assert (EL : length (rt_hist (remember m r (after s w1 ks))) = length (rt_hist s)).
    { destruct (remember_frame m r (after s w1 ks)) as [_ _ _ E].
      rewrite <- (map_length (@length N)), E, map_length. reflexivity. }
    rewrite EL, (journey_hist_length _ _ _ _ J) in Hlt. unfold parent_pos in Hlt.
    rewrite pos_absent in Hlt by exact Hn. exact (Nat.lt_irrefl _ Hlt). }
  destruct (ML Hp Hi Hpl Mv) with (k := r) as [E _].
  { intros k. exact (journey_history _ _ _ _ J Hh p k Hp). }
  assert (E' : history_of m (remember m r (after s w1 ks)) p r =
    option_map (code m) (last_left env p r (departs m s r (RFired x) ++ L))).
  { rewrite E. unfold departs, took. rewrite Hi, Hpl. cbn [negb].
    change (at_place m (after s w1 ks) 0) with (at_place m s 0). destruct (at_place m s 0) as [[? ?]|]; reflexivity. }
  rewrite Hc' in E'.
  destruct (last_left env p r (departs m s r (RFired x) ++ L)) as [pl2|] eqn:E2; [|discriminate].
  cbn [option_map] in E'. inversion E' as [Ec].
  assert (Hin : In pl2 (places m)) by (eapply last_left_place; eauto).
  assert (Ha : at_place m (relocate m r c (remember m r (after s w1 ks))) r = Some pl2).
  { apply at_place_relocate.
    - destruct (remember_rest m r (after s w1 ks)) as (_ & _ & _ & _ & -> & _). cbn. eapply at_place_lt; eauto.
    - rewrite Ec. destruct pl2 as [p2 q2]. apply in_places in Hin. apply (decode_code m Hc); apply Hin. }
  rewrite <- Ec. rewrite Ha. split; [reflexivity|discriminate].
Qed.

(** Every call continues the journey. *)
Lemma call_journey ds d0 k o s s' L : rinvs m ds d0 s -> journey cb m ds d0 s L ->
  call_effect cb m vnone d0 ds k o s s' -> exists L', journey cb m (deps_after k ds) d0 s' (L' ++ L).
Proof.
  intros R J E.
  apply (call_keeps cb m Hc vnone (fun ds d0 s => exists L', journey cb m ds d0 s (L' ++ L))) with (o := o) (s := s); auto.
  - intros ds1 d1 r e v s1 vd v' s1' _ _ _ (L' & J1) St. exists (departs m s1 r vd ++ L'). rewrite <- app_assoc.
    eapply jo_turn; eauto.
  - intros ds1 d1 s1 q (L' & J1). exists L'. now apply jo_queue.
  - intros ds1 d1 s1 w ks (L' & J1). exists L'. now apply jo_user.
  - intros ds1 d1 s1 r p q (L' & J1) T Hp Hq Hr. exists L'. apply jo_set; auto.
    apply (place_iff m Hc). split; assumption.
  - intros ds1 d1 s1 d t (L' & J1) Ht. exists L'. now apply jo_dep.
  - exists []. exact J.
Qed.
Lemma reachable_journey ds d0 s : reachable cb m vnone ds d0 s -> exists L, journey cb m ds d0 s L.
Proof.
  intros H. induction H as [fuel d w s H|fuel ds d0 s k o s' H IH H1].
  - exists []. eapply jo_new; eauto.
  - destruct IH as [L J]. pose proof (reachable_rinvs cb m Hc vnone Hmax ds d0 s H) as R.
    destruct (call_journey ds d0 k o s s' L R J) as [L' J']; [|eauto]. eapply call_sound; eauto.
Qed.

(** A single region. *)
Lemma journey_cur ds d0 s L : journey cb m ds d0 s L -> length (rt_cur s) = max_initials m.
Proof.
  intros J. induction J; auto.
  - destruct (construct_sound m Hc _ _ _ _ (root_initials_le m Hc Hmax) H) as [(E & _) _]. exact E.
  - destruct (region_step_frame _ _ _ _ _ _ _ _ _ _ H) as [_ _ E _]. congruence.
  - cbn. now rewrite set_nth_length.
Qed.
Lemma journey_single ds d0 s L : journey cb m ds d0 s L -> max_initials m <= 1 ->
  forall a, In a L -> dp_region a = 0 /\ dp_owner a = fst (dp_place a).
Proof.
  intros J H1. induction J; intros a Ha; auto; [destruct Ha|].
  apply in_app_or in Ha. destruct Ha as [Ha|Ha]; [|auto].
  assert (Hr : r = 0).
  { apply region_step_place in H. rewrite (journey_cur _ _ _ _ J) in H. lia. }
  subst r. unfold departs in Ha. destruct (took vd); [|destruct Ha].
  destruct (at_place m s 0) as [[p q]|]; [|destruct Ha]. destruct Ha as [<-|[]]. split; reflexivity.
Qed.
Lemma last_left_single p L : (forall a, In a L -> dp_region a = 0 /\ dp_owner a = fst (dp_place a)) ->
  forall pl, last_left env p 0 L = Some pl ->
  match find (fun pl : place => Nat.eqb (fst pl) p) (map dp_place L) with
  | Some pl' => Some pl'
  | None => option_map (pair p) (first_initial env p)
  end = Some pl.
Proof.
  intros HL pl. unfold last_left, first_initial. destruct (initial_states env p) as [|i il]; [discriminate|].
  cbn [nth_error hd_error option_map]. intros H; inversion H; subst; clear H.
  induction L as [|a L IH]; [reflexivity|]. cbn [map find]. unfold left_in at 1.
  destruct (HL a (or_introl eq_refl)) as [E1 E2]. rewrite E1, E2. cbn [Nat.eqb]. rewrite andb_true_r.
  destruct (Nat.eqb (fst (dp_place a)) p); [reflexivity|]. apply IH. intros b Hb. apply HL. now right.
Qed.
Lemma single_target ds d0 s L e v d x o v1 s1 n v' s' w p : max_initials m <= 1 ->
  journey cb m ds d0 s L -> takes cb m ds 0 e v s d x o v1 s1 -> executes cb m 0 e d x o v1 s1 n v' s' ->
  x_int x = false -> x_tgt x = SHistory w p ->
  exists pl, at_place m s 0 = Some pl /\ at_place m s' 0 =
    match find (fun pl : place => Nat.eqb (fst pl) p) (pl :: map dp_place L) with
    | Some pl' => Some pl'
    | None => option_map (pair p) (first_initial env p)
    end.
Proof.
  intros H1 J Tk Ex Hi Ht. destruct (history_target _ _ _ _ _ _ _ _ _ _ _ _ _ _ _ _ _ J Tk Ex Hi Ht) as [E Hn].
  destruct Tk as (pl & ks & w1 & Hpl & Sc & ->). exists pl. split; [exact Hpl|].
  destruct (at_place m s' 0) as [pl'|] eqn:Ea; [|congruence]. symmetry in E.
  apply last_left_single in E.
  - rewrite <- E. unfold departs, took. rewrite Hi, Hpl. destruct pl as [p0 q0]. reflexivity.
  - intros a Ha. apply in_app_or in Ha. destruct Ha as [Ha|Ha]; [|eapply journey_single; eauto].
    unfold departs in Ha. destruct (took _); [|destruct Ha]. rewrite Hpl in Ha. destruct pl as [p0 q0].
    destruct Ha as [<-|[]]. split; reflexivity.
Qed.

Lemma during_journey ds d0 s : during cb m vnone ds d0 s -> exists L, journey cb m ds d0 s L.
Proof.
  intros D. apply (during_keeps cb m Hc vnone Hmax (fun ds d0 s => exists L, journey cb m ds d0 s L)) in D; [apply D|..].
  - intros ds1 d1 r e v s1 vd v' s1' _ _ _ (L' & J1) St. eexists. eapply jo_turn; eauto.
  - intros ds1 d1 s1 q (L' & J1). exists L'. now apply jo_queue.
  - intros ds1 d1 s1 w ks (L' & J1). exists L'. now apply jo_user.
  - intros fuel d w s1 H _. exists []. eapply jo_new; eauto.
  - intros ds1 d1 s1 r p q (L' & J1) T Hp Hq Hr. exists L'. apply jo_set; auto.
    apply (place_iff m Hc). split; assumption.
  - intros ds1 d1 s1 d t (L' & J1) Ht. exists L'. now apply jo_dep.
Qed.
End Hist.

(** * For programs *)
Section Program.
Context {V W : Type}.
Variable cb : cbfun V W.
Variables (env : cenv) (root : cls) (m : machine) (vnone : V).
Hypothesis Hm : compile env root = Some m.
Hypothesis Hf : few_regions env root.
Notation st := (rt V W).

Let Hmax : max_initials m <= 255 := few_max_compiled env root m Hm Hf.

Lemma program_history ds d0 (s : st) L p r : journey cb m ds d0 s L ->
  (exists x w q, declared env root x /\ x_tgt x = SHistory w q) -> is_parent env root p ->
  history_of m s p r = option_map (code m) (last_left env p r L).
Proof.
  intros J Hh Hp. apply (history_iff env root m Hm) in Hh. pose proof Hmax as HM. compiled Hm.
  apply (journey_history cb m Hc HM ds d0 s L J Hh). now apply (parent_iff m Hc).
Qed.
Lemma program_history_target ds d0 (s : st) L r e v d x o v1 s1 n v' s' w p :
  journey cb m ds d0 s L -> takes cb m ds r e v s d x o v1 s1 -> executes cb m r e d x o v1 s1 n v' s' ->
  x_int x = false -> x_tgt x = SHistory w p ->
  at_place m s' r = last_left env p r (departs m s r (RFired x) ++ L) /\ at_place m s' r <> None.
Proof. pose proof Hmax as HM. compiled Hm. apply (history_target cb m Hc HM). Qed.
Lemma program_single_target ds d0 (s : st) L e v d x o v1 s1 n v' s' w p : ~ region_exists env root 1 ->
  journey cb m ds d0 s L -> takes cb m ds 0 e v s d x o v1 s1 -> executes cb m 0 e d x o v1 s1 n v' s' ->
  x_int x = false -> x_tgt x = SHistory w p ->
  exists pl, at_place m s 0 = Some pl /\ at_place m s' 0 =
    match find (fun pl : place => Nat.eqb (fst pl) p) (pl :: map dp_place L) with
    | Some pl' => Some pl'
    | None => option_map (pair p) (first_initial env p)
    end.
Proof.
  intros Hr. rewrite (region_exists_max env root m Hm) in Hr. pose proof Hmax as HM. compiled Hm.
  apply (single_target cb m Hc HM). lia.
Qed.
Lemma program_journey_call ds d0 (s : st) L fuel k o s' : reachable cb m vnone ds d0 s -> journey cb m ds d0 s L ->
  do_call_catch cb m vnone fuel k s = Done o s' -> exists L', journey cb m (deps_after k ds) d0 s' (L' ++ L).
Proof.
  intros R J E. pose proof Hmax as HM. compiled Hm.
  eapply (call_journey cb m Hc vnone); eauto using reachable_rinvs. eapply call_sound; eauto using reachable_rinvs.
Qed.
Lemma program_journey ds d0 (s : st) : during cb m vnone ds d0 s -> exists L, journey cb m ds d0 s L.
Proof. pose proof Hmax as HM. compiled Hm. apply (during_journey cb m Hc vnone HM). Qed.
End Program.

(** One turn of a region that changes its place is one departure. *)
Lemma hop {V W} (cb : cbfun V W) env root m vnone ds d0 s L r e v v' s' p q pl :
  handling cb env root m vnone ds d0 s -> journey cb m ds d0 s L ->
  try_region cb m r e v s = Done (Some Fired, v') s' ->
  at_place m s 0 = Some (p, q) -> at_place m s r = Some pl -> at_place m s' r <> Some pl ->
  handling cb env root m vnone ds d0 s' /\ journey cb m ds d0 s' (mkDeparture p r pl :: L).
Proof.
  intros H J T H0 Hr Hn. split.
  { destruct H as (Hm & Hf & D). split; [exact Hm|]. split; [exact Hf|]. eapply du_region; eauto. }
  destruct (fired_takes _ _ _ _ _ _ _ _ H _ _ _ _ _ T) as (d & x & o & v1 & s1 & Tk & Ex).
  pose proof Tk as (pl' & ks & w1 & Hpl & Sc & E1).
  assert (St : region_step cb m ds r e v s (RFired x) v' s') by (subst s1; eapply rs_fired; eauto).
  pose proof (jo_turn cb m ds d0 s L r e v (RFired x) v' s' J St) as J'.
  unfold departs in J'. rewrite H0, Hr in J'. unfold took in J'.
  destruct (x_int x) eqn:Ei; [|exact J']. exfalso. apply Hn. rewrite <- Hr.
  apply executes_moves in Ex. destruct Ex as (s2 & ks2 & l & w & Mv & ->).
  inversion Mv; subst; try congruence. reflexivity.
Qed.

(** Region 0 handles these events one after the other, changing its place every time. *)
Fixpoint trip {W} (cb : cbfun nat W) (m : machine) (es : list ev) (s : rt nat W) (L : list departure)
  : option (rt nat W * list departure) :=
  match es with
  | [] => Some (s, L)
  | e :: es =>
      match at_place m s 0, try_region cb m 0 e 0 s with
      | Some (p, q), Done (Some Fired, _) s' =>
          match at_place m s' 0 with
          | Some pl => if place_eq_dec pl (p, q) then None
                       else trip cb m es s' (mkDeparture p 0 (p, q) :: L)
          | None => None
          end
      | _, _ => None
      end
  end.
Lemma trip_sound {W} (cb : cbfun nat W) env root m vnone ds d0 es : forall s L s' L',
  handling cb env root m vnone ds d0 s -> journey cb m ds d0 s L -> trip cb m es s L = Some (s', L') ->
  handling cb env root m vnone ds d0 s' /\ journey cb m ds d0 s' L'.
Proof.
  induction es as [|e es IH]; intros s L s' L' H J E; cbn [trip] in E.
  - inversion E; subst. auto.
  - destruct (at_place m s 0) as [[p q]|] eqn:E0; [|discriminate].
    destruct (try_region cb m 0 e 0 s) as [[[[]|] v'] s1|ex s1|u|] eqn:T; try discriminate.
    destruct (at_place m s1 0) as [pl|] eqn:E1; [|discriminate].
    destruct (place_eq_dec pl (p, q)) as [|Hn]; [discriminate|].
    destruct (hop cb env root m vnone ds d0 s L 0 e 0 v' s1 p q (p, q) H J T E0 E0) as [H1 J1]; [congruence|].
    eapply IH; eauto.
Qed.
Lemma demo_trip cb env root es (P : machine -> rt nat nat -> list departure -> Prop) :
  match compile env root with
  | None => False
  | Some m => match construct m 300 0 0 with
              | Done _ s => Nat.leb (max_initials m) 255 = true /\
                            match trip cb m es s [] with Some (s', L) => P m s' L | None => False end
              | _ => False
              end
  end -> exists m s L, handling cb env root m 0 [0] 0 s /\ journey cb m [0] 0 s L /\ P m s L.
Proof.
  destruct (compile env root) as [m|] eqn:Hm; [|intros []].
  destruct (construct m 300 0 0) as [[] s|ex s|u|] eqn:Hs; try (intros []; fail). intros [Hl H].
  apply Nat.leb_le in Hl. destruct (trip cb m es s []) as [[s' L]|] eqn:E; [|destruct H].
  exists m, s', L.
  assert (Hh : handling cb env root m 0 [0] 0 s).
  { split; [exact Hm|]. split; [eapply max_few; eauto|]. apply du_start. eapply reach_new; eauto. }
  destruct (trip_sound cb env root m 0 [0] 0 es s [] s' L Hh) as [H1 J1]; auto.
  eapply jo_new; eauto.
Qed.
