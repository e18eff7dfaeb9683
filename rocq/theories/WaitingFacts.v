(** Facts for C88: the waiting line of deferred events. *)

From Coq Require Import List Arith NArith Bool Lia.
From Verif Require Import Types Static Dispatch Runtime ListFacts IndexFacts Spec DispatchFacts FlattenFacts Semantics RefineFacts StaticFacts TermFacts Reach ReachFacts TableFacts QueryFacts ProcessFacts RegionFacts LoopFacts OutcomeFacts QueueFacts Waiting.
Import ListNotations.

Section Waiting.
Context {V W : Type}.
Variable cb : cbfun V W.
Variables (env : cenv) (root : cls) (m : machine) (vnone : V).
Hypothesis Hm : compile env root = Some m.
Hypothesis Hfew : few_regions env root.

(** What a call takes from the queue and adds to it, by what it told the client. *)
Definition by_answer (q : list (ev * V)) (a : option told) (rs ps : list (ev * V)) : Prop :=
  match a with
  | Some TTrue => (q = [] /\ rs = [] /\ ps = []) \/ (length rs = 1 /\ length ps <= 1)
  | Some TFalse => rs = [] /\ length ps <= 1
  | Some TExn => length rs <= 1 /\ ps = []
  | None => rs = [] /\ ps = []
  end.

Lemma call_answer ds d0 s fuel k o s' : reachable cb m vnone ds d0 s ->
  do_call_catch cb m vnone fuel k s = Done o s' ->
  exists rs ps, queue_use cb m vnone ds s k rs ps /\ rs ++ rt_queue s' = rt_queue s ++ ps /\
    by_answer (rt_queue s) (answer k o) rs ps.
Proof.
  intros R E. destruct (queue_balance cb m vnone env root Hm Hfew _ _ _ R) as (I0 & _).
  pose proof (few_max_compiled _ _ _ Hm Hfew) as Hmax. pose proof Hm as Hm2.
  assert (Hc : comp m) by (clear - Hm; compiled Hm; exact Hc).
  pose proof (reachable_call cb m Hc vnone Hmax ds d0 s fuel k o s' R E) as P.
  destruct k as [e v| | | | |]; cbn in P;
    [|exists [], []; (split; [constructor; discriminate|rewrite app_nil_r]); cbn [answer by_answer app]; repeat split; auto; try congruence..].
  2:{ destruct P as [(_ & _ & _ & _ & ->)|(_ & ->)]; reflexivity. }
  2:{ destruct P as (_ & t & _ & ->). reflexivity. }
  destruct P as (vds & rp & P & ->).
  apply process_parts in P. destruct P as (avds & oe & v1 & s1 & O & P).
  pose proof (offer_queue _ _ _ _ _ _ _ _ _ _ _ _ O) as Q.
  assert (D : oe = OfHandled \/ oe <> OfHandled) by (destruct oe; auto; right; discriminate).
  destruct D as [->|Hn].
  - destruct P as (n & P & ->). cbn [put_back] in Q. rewrite app_nil_r in Q.
    destruct (rt_queue s1) as [|[e2 v2] q] eqn:Eq1.
    + exists [], []. split; [eapply (qu_offered _ _ _ _ _ _ _ _ _ OfHandled); eauto|].
      assert (X : rt_queue s' = [] /\ n = None).
      { destruct (has_deferred m); [|destruct P as (-> & ->); auto]. inversion P; subst; [auto|congruence]. }
      destruct X as (X & ->). rewrite X, <- Q. split; [reflexivity|]. cbn. auto.
    + destruct (has_deferred m) eqn:Ed; [|rewrite I0 in Q by reflexivity; congruence].
      inversion P; subst; [congruence|].
      match goal with A : rt_queue s1 = _ :: _ |- _ => rewrite Eq1 in A; inversion A; subst end.
      eexists [_], _. split; [eapply qu_recalled; eauto|].
      match goal with A : offer _ _ _ _ _ _ _ _ _ ?oe' _ s' |- _ => apply offer_queue in A; cbn in A; rewrite A; rename oe' into oe end.
      split; [cbn; now rewrite <- Q|]. destruct oe; cbn; auto.
  - exists [], (put_back oe e v1). split; [eapply qu_offered; eauto|]. cbn [app].
    destruct oe; try congruence; cbn [put_back] in *.
    + destruct P as (n & v2 & U & ->). rewrite (unexpected_queue _ _ _ _ _ _ _ _ _ U). split; [exact Q|]. destruct n; cbn; auto.
    + destruct P as (-> & ->). split; [exact Q|]. cbn. auto.
    + destruct P as (-> & ->). split; [exact Q|]. cbn. auto.
    + destruct P as (-> & ->). split; [exact Q|]. cbn. auto.
Qed.

Notation yes := (count_told TTrue).
Notation no := (count_told TFalse).
Notation exn := (count_told TExn).

(** An event in the line either is still there, so many places further to the front as
    events were taken from the queue, or it had its turn. *)
Lemma line_moves d0 fuel : forall ks ds s os s' pre e v post, reachable cb m vnone ds d0 s ->
  run cb m vnone fuel ks s = Done os s' -> rt_queue s = pre ++ (e, v) :: post ->
  (exists gone left more, pre = gone ++ left /\ rt_queue s' = left ++ (e, v) :: post ++ more /\
     yes ks os <= length gone /\ length gone <= yes ks os + exn ks os) \/
  (exists ks1 os1 k1 o1 s1 more, served cb m vnone fuel ks s e v ks1 os1 k1 o1 s1 /\
     rt_queue s1 = (e, v) :: post ++ more /\
     (answer k1 o1 = Some TTrue \/ answer k1 o1 = Some TExn) /\
     yes ks1 os1 <= length pre /\ length pre <= yes ks1 os1 + exn ks1 os1).
Proof.
  induction ks as [|k ks IH]; intros ds s os s' pre e v post R E Q; cbn [run] in E.
  - inversion E; subst. left. exists [], pre, []. rewrite app_nil_r. cbn. auto.
  - apply bind_Done in E. destruct E as (o & s1 & E1 & E). apply bind_Done in E. destruct E as (os' & s2 & E2 & E).
    inversion E; subst; clear E.
    assert (R1 : reachable cb m vnone (deps_after k ds) d0 s1) by (eapply reach_call; eauto).
    destruct (call_answer _ _ _ _ _ _ _ R E1) as (rs & ps & U & B & A). rewrite Q in B.
    assert (X : (rs = [] \/ exists p pre', pre = p :: pre' /\ rs = [p]) \/ (pre = [] /\ rs = [(e, v)])).
    { assert (L : length rs <= 1) by (destruct (answer k o) as [[]|]; cbn in A; intuition subst; cbn; lia).
      destruct rs as [|p [|]]; cbn in L; [auto| |lia]. cbn in B. destruct pre as [|p' pre']; cbn in B; inversion B; subst.
      - right. auto.
      - left. right. exists p', pre'. auto. }
    destruct X as [X|(-> & ->)].
    + assert (Y : exists pre', rt_queue s1 = pre' ++ (e, v) :: post ++ ps /\ pre = rs ++ pre').
      { destruct X as [->|(p & pre' & -> & ->)]; cbn in B.
        - exists pre. cbn. rewrite B, <- app_assoc. auto.
        - inversion B as [B']. exists pre'. rewrite <- app_assoc in B'. auto. }
      destruct Y as (pre' & Q1 & ->).
      destruct (answer k o) as [t|] eqn:Ea.
      * assert (C : (if told_eqb TTrue t then 1 else 0) <= length rs /\
                    length rs <= (if told_eqb TTrue t then 1 else 0) + (if told_eqb TExn t then 1 else 0)).
        { destruct t; cbn in A |- *; [|destruct A as (-> & _); cbn; auto|destruct A; split; [apply Nat.le_0_l|assumption]].
          destruct A as [(A & _)|(A & _)]; [|rewrite A; auto]. rewrite Q in A.
          destruct (rs ++ pre'); discriminate. }
        destruct (IH _ _ _ _ _ _ _ _ R1 E2 Q1) as [(gone & left & more & -> & Q2 & L1 & L2)|H].
        -- left. exists (rs ++ gone), left, (ps ++ more). rewrite <- !app_assoc in *. rewrite app_length.
           cbn [count_told]. rewrite Ea. repeat split; auto; lia.
        -- right. destruct H as (ks1 & os1 & k1 & o1 & s3 & more & ((ks2 & ->) & Rn & H) & Q2 & A1 & L1 & L2).
           exists (k :: ks1), (o :: os1), k1, o1, s3, (ps ++ more). rewrite <- !app_assoc in *. rewrite app_length.
           cbn [count_told]. rewrite Ea. repeat split; auto; try lia.
           ++ exists ks2. reflexivity.
           ++ cbn [run]. rewrite E1. cbn [bind]. rewrite Rn. reflexivity.
      * destruct A as (-> & ->). cbn [app] in *. rewrite app_nil_r in Q1.
        destruct (IH _ _ _ _ _ _ _ _ R1 E2 Q1) as [(gone & left & more & -> & Q2 & L1 & L2)|H].
        -- left. exists gone, left, more. cbn [count_told]. rewrite Ea. auto.
        -- right. destruct H as (ks1 & os1 & k1 & o1 & s3 & more & ((ks2 & ->) & Rn & H) & Q2 & A1 & L1 & L2).
           exists (k :: ks1), (o :: os1), k1, o1, s3, more. cbn [count_told]. rewrite Ea. repeat split; auto.
           ++ exists ks2. reflexivity.
           ++ cbn [run]. rewrite E1. cbn [bind]. rewrite Rn. reflexivity.
    + right. exists [], [], k, o, s, []. rewrite app_nil_r. cbn. repeat split; auto.
      * exists ks. reflexivity.
      * exists ds, ps, s1. auto.
      * destruct (answer k o) as [[]|]; cbn in A; auto; destruct A as (A & _); discriminate.
Qed.

(** The length of the line. *)
Lemma line_length d0 fuel : forall ks ds s os s', reachable cb m vnone ds d0 s ->
  run cb m vnone fuel ks s = Done os s' ->
  length (rt_queue s') <= length (rt_queue s) + no ks os /\
  length (rt_queue s) <= length (rt_queue s') + yes ks os + exn ks os.
Proof.
  induction ks as [|k ks IH]; intros ds s os s' R E; cbn [run] in E.
  - inversion E; subst. cbn. lia.
  - apply bind_Done in E. destruct E as (o & s1 & E1 & E). apply bind_Done in E. destruct E as (os' & s2 & E2 & E).
    inversion E; subst; clear E.
    assert (R1 : reachable cb m vnone (deps_after k ds) d0 s1) by (eapply reach_call; eauto).
    destruct (call_answer _ _ _ _ _ _ _ R E1) as (rs & ps & U & B & A).
    apply (f_equal (@length _)) in B. rewrite !app_length in B.
    destruct (IH _ _ _ _ R1 E2) as (L1 & L2). cbn [count_told].
    destruct (answer k o) as [[]|]; cbn in A |- *.
    + destruct A as [(A1 & -> & ->)|(A1 & A2)]; cbn in *; lia.
    + destruct A as (-> & A). cbn in *; lia.
    + destruct A as (A & ->). cbn in *; lia.
    + destruct A as (-> & ->). cbn in *; lia.
Qed.
End Waiting.

Lemma waiting_line {V W} (cb : cbfun V W) env root m vnone ds d0 s fuel ks os s' pre e v post :
  running cb env root m vnone ds d0 s -> run cb m vnone fuel ks s = Done os s' -> rt_queue s = pre ++ (e, v) :: post ->
  (exists gone left more, pre = gone ++ left /\ rt_queue s' = left ++ (e, v) :: post ++ more /\
     count_told TTrue ks os <= length gone /\ length gone <= count_told TTrue ks os + count_told TExn ks os) \/
  (exists ks1 os1 k1 o1 s1 more, served cb m vnone fuel ks s e v ks1 os1 k1 o1 s1 /\
     rt_queue s1 = (e, v) :: post ++ more /\
     (answer k1 o1 = Some TTrue \/ answer k1 o1 = Some TExn) /\
     count_told TTrue ks1 os1 <= length pre /\ length pre <= count_told TTrue ks1 os1 + count_told TExn ks1 os1).
Proof. intros (Hm & Hfew & R) E Q. eapply line_moves; eauto. Qed.

Lemma turn_comes {V W} (cb : cbfun V W) env root m vnone ds d0 s fuel ks os s' pre e v post :
  running cb env root m vnone ds d0 s -> run cb m vnone fuel ks s = Done os s' -> rt_queue s = pre ++ (e, v) :: post ->
  length pre < count_told TTrue ks os ->
  exists ks1 os1 k1 o1 s1, served cb m vnone fuel ks s e v ks1 os1 k1 o1 s1 /\ count_told TTrue ks1 os1 <= length pre.
Proof.
  intros Hr E Q L. destruct (waiting_line _ _ _ _ _ _ _ _ _ _ _ _ _ _ _ _ Hr E Q)
    as [(gone & left & more & -> & _ & L1 & _)|(ks1 & os1 & k1 & o1 & s1 & more & H & _ & _ & L1 & _)].
  - rewrite app_length in L. lia.
  - exists ks1, os1, k1, o1, s1. auto.
Qed.

Lemma no_turn_early {V W} (cb : cbfun V W) env root m vnone ds d0 s fuel ks os s' pre e v post :
  running cb env root m vnone ds d0 s -> run cb m vnone fuel ks s = Done os s' -> rt_queue s = pre ++ (e, v) :: post ->
  count_told TTrue ks os + count_told TExn ks os <= length pre ->
  exists gone left more, pre = gone ++ left /\ rt_queue s' = left ++ (e, v) :: post ++ more /\
    length gone <= count_told TTrue ks os + count_told TExn ks os.
Proof.
  intros Hr E Q L. destruct (waiting_line _ _ _ _ _ _ _ _ _ _ _ _ _ _ _ _ Hr E Q)
    as [(gone & left & more & -> & Q1 & L1 & L2)|(ks1 & os1 & k1 & o1 & s1 & more & ((ks2 & ->) & H & ds1 & ps & s2 & E1 & _) & _ & A & L1 & L2)];
    [exists gone, left, more; auto|exfalso].
  assert (X : count_told TTrue ks1 os1 + count_told TExn ks1 os1 + 1 <=
              count_told TTrue (ks1 ++ k1 :: ks2) os + count_told TExn (ks1 ++ k1 :: ks2) os); [|lia].
  clear Hr Q L L1 L2. revert s os os1 s1 s2 H E E1 A. induction ks1 as [|k ks1 IH]; intros s os os1 s1 s2 H E E1 A; cbn [run app] in H, E.
  - inversion H; subst. rewrite E1 in E. cbn [bind] in E. apply bind_Done in E. destruct E as (os' & s3 & _ & E). inversion E; subst.
    cbn [count_told app]. destruct A as [-> | ->]; cbn; lia.
  - destruct (do_call_catch cb m vnone fuel k s) as [o sa|x sa|u|]; try discriminate. cbn [bind] in H, E.
    apply bind_Done in E. destruct E as (os' & s3 & E & E'). inversion E'; subst.
    apply bind_Done in H. destruct H as (os1' & s4 & H & H'). inversion H'; subst.
    specialize (IH _ _ _ _ _ H E E1 A). cbn [count_told app]. lia.
Qed.

Lemma waiting_length {V W} (cb : cbfun V W) env root m vnone ds d0 s fuel ks os s' :
  running cb env root m vnone ds d0 s -> run cb m vnone fuel ks s = Done os s' ->
  length (rt_queue s') <= length (rt_queue s) + count_told TFalse ks os /\
  length (rt_queue s) <= length (rt_queue s') + count_told TTrue ks os + count_told TExn ks os.
Proof. intros (Hm & Hfew & R) E. eapply line_length; eauto. Qed.
