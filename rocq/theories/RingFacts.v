(** Facts about rings. *)

From Coq Require Import List Arith NArith Bool Lia.
From Verif Require Import Types Static Dispatch Runtime Dsl Examples Spec Semantics ListFacts RefineFacts
  Graph Flat FlatFacts FlatAccept FlatDemo Ring.
Import ListNotations.

Section Ring.
Variable n : nat.
Hypothesis Hn : 0 < n.
Notation env := (ring n).

Lemma ring_lookup : lookup env n = tbl (ring_table n).
Proof. cbn. destruct (Nat.eq_dec n n); [reflexivity|contradiction]. Qed.
Lemma ring_leaf c : c <> n -> lookup env c = Types.plain.
Proof. intros H. cbn. destruct (Nat.eq_dec c n); [contradiction|reflexivity]. Qed.
Lemma ring_tab : table env n = ring_table n.
Proof. unfold table. now rewrite ring_lookup. Qed.
Lemma ring_row_In r : In r (table env n) <-> exists i, i < n /\ r = ring_row n i.
Proof.
  rewrite ring_tab. unfold ring_table. rewrite in_map_iff. split.
  - intros (i & <- & H). apply in_seq in H. exists i. split; [lia|reflexivity].
  - intros (i & H & ->). exists i. split; [reflexivity|]. apply in_seq. lia.
Qed.
Lemma ring_source i : unmarked (r_src (ring_row n i)) = SState i.
Proof. now destruct i. Qed.
Definition up (i : nat) : nat := if Nat.eq_dec (S i) n then 0 else S i.
Lemma up_lt i : i < n -> up i < n.
Proof. unfold up. destruct (Nat.eq_dec (S i) n); lia. Qed.
Lemma ring_initials : initial_states env n = [SState 0].
Proof.
  unfold initial_states, mentioned. rewrite ring_tab. unfold ring_table. destruct n as [|k] eqn:E; [lia|].
  cbn [seq map flat_map]. cbn [r_src r_tgt ring_row app filter marked].
  assert (H : filter marked (flat_map (fun r => [r_src r; r_tgt r]) (map (ring_row (S k)) (seq 1 k))) = []).
  { assert (G : forall l, (forall i, In i l -> 0 < i) -> filter marked (flat_map (fun r => [r_src r; r_tgt r]) (map (ring_row (S k)) l)) = []).
    { induction l as [|i l IH]; intros Hl; [reflexivity|]. cbn [map flat_map]. rewrite filter_app, IH by (intros; apply Hl; now right).
      assert (0 < i) by (apply Hl; now left). destruct i; [lia|reflexivity]. }
    apply G. intros i Hi. apply in_seq in Hi. lia. }
  rewrite H. reflexivity.
Qed.
Lemma ring_first : first_initial env n = Some (SState 0).
Proof. unfold first_initial. now rewrite ring_initials. Qed.
Lemma ring_flat : flat env n.
Proof.
  split.
  - intros r Hr. apply ring_row_In in Hr. destruct Hr as (i & Hi & ->). split; [discriminate|].
    assert (L : forall j, j < n -> ~ composite env j).
    { intros j Hj. unfold composite. rewrite ring_leaf by lia. cbn. auto. }
    split; [exists i; split; [apply ring_source|now apply L]|]. exists (up i). split; [reflexivity|]. apply L. now apply up_lt.
  - now rewrite ring_initials.
  - intros c. unfold internals. destruct (Nat.eq_dec c n) as [->|H]; [rewrite ring_lookup|rewrite (ring_leaf c H)]; cbn; auto.
Qed.
Lemma ring_rows_for q e : q < n -> rows_for env n (SState q) e = if ev_eq_dec e (EUser (S q)) then [ring_row n q] else [].
Proof.
  intros Hq. unfold rows_for. rewrite ring_tab. unfold ring_table.
  assert (G : forall l, NoDup l -> filter (row_for (SState q) e) (map (ring_row n) l) =
     if in_dec Nat.eq_dec q l then (if ev_eq_dec e (EUser (S q)) then [ring_row n q] else []) else []).
  { induction l as [|i l IH]; intros Hl; [reflexivity|]. inversion Hl; subst. cbn [map filter]. rewrite (IH H2).
    unfold row_for. rewrite ring_source. change (r_ev (ring_row n i)) with (EUser (S i)).
    destruct (sref_eq_dec (SState i) (SState q)) as [E|E].
    - inversion E; subst i. destruct (in_dec Nat.eq_dec q (q :: l)) as [_|F]; [|exfalso; apply F; now left].
      destruct (in_dec Nat.eq_dec q l); [contradiction|].
      destruct (ev_eq_dec (EUser (S q)) e) as [<-|F]; destruct (ev_eq_dec _ _); congruence.
    - destruct (in_dec Nat.eq_dec q l) as [I|I]; destruct (in_dec Nat.eq_dec q (i :: l)) as [J|J]; try reflexivity.
      + exfalso. apply J. now right.
      + exfalso. destruct J as [J|J]; [congruence|contradiction]. }
  rewrite G by apply seq_NoDup. destruct (in_dec Nat.eq_dec q (seq 0 n)) as [_|F]; [|exfalso; apply F, in_seq; lia].
  now destruct (ev_eq_dec e (EUser (S q))).
Qed.
Lemma ring_deeds q : q < n -> deeds env (ring_row n q) = [CAction 0].
Proof.
  intros Hq. unfold deeds. change (r_tgt (ring_row n q)) with (SState (up q)).
  pose proof (up_lt q Hq). cbv beta iota. rewrite (ring_leaf (up q)) by lia. change (r_act (ring_row n q)) with (Action 2 (ACall 0)).
  destruct q as [|q]; [reflexivity|]. change (r_src (ring_row n (S q))) with (SState (S q)).
  cbv iota. rewrite (ring_leaf (S q)) by lia. reflexivity.
Qed.
Lemma ring_event k : 0 < k <= n <-> event_of env n (EUser k).
Proof.
  split.
  - intros H. exists (row_in n (ring_row n (k - 1))). split; [left; apply (flat_declared_row env n ring_flat); exists (ring_row n (k - 1)); split; [|reflexivity]|].
    + apply ring_row_In. exists (k - 1). split; [lia|reflexivity].
    + cbn. f_equal. lia.
  - intros (x & [Hx|Hx] & E); [|contradiction (flat_no_internal env n ring_flat x Hx)].
    apply (flat_declared_row env n ring_flat) in Hx. destruct Hx as (r & Hr & ->). apply ring_row_In in Hr. destruct Hr as (i & Hi & ->).
    cbn in E. inversion E. lia.
Qed.
Lemma ring_compiles : (N.of_nat (S n) < two64)%N -> exists m, compile env n = Some m.
Proof.
  intros H. apply (flat_accepted env n ring_flat). split; [|split].
  - intros r ty b Hr Ha. apply ring_row_In in Hr. destruct Hr as (i & _ & ->). inversion Ha; subst. intros N. inversion N.
  - intros i Hi. rewrite ring_first in Hi. inversion Hi; subst. rewrite ring_leaf by lia. reflexivity.
  - apply N.le_lt_trans with (2 := H). assert (L : length (children env n) <= n).
    { assert (L : length (map SState (seq 0 n)) = n) by (now rewrite map_length, seq_length).
      apply Nat.le_trans with (length (map SState (seq 0 n))); [|lia]. apply NoDup_incl_length.
      - unfold children. rewrite <- unique_dedup. apply unique_NoDup.
      - intros s Hs. apply children_In in Hs. destruct Hs as (r & Hr & Hs). apply ring_row_In in Hr.
        destruct Hr as (i & Hi & ->). rewrite ring_source in Hs. change (r_tgt (ring_row n i)) with (SState (up i)) in Hs.
        pose proof (up_lt i Hi). destruct Hs as [-> | ->]; apply in_map; apply in_seq; lia. }
    lia.
Qed.

Section User.
Context {V W : Type}.
Variable cb : cbfun V W.
Variable d : dep.

Lemma actions_app (a b : list (called V)) : actions (a ++ b) = actions a + actions b.
Proof. unfold actions. now rewrite filter_app, app_length. Qed.
(** One event: either nothing moves and the action is not run, or the state goes up by
    one and the action runs once. *)
Lemma ring_react q e v w o ks q' w' : q < n -> react cb env n d (SState q) e v w = (o, ks, q', w') ->
  (q' = SState q /\ actions ks = 0) \/ (e = EUser (S q) /\ q' = SState (up q) /\ actions ks = 1).
Proof.
  intros Hq H. unfold react in H. rewrite (ring_rows_for q e Hq) in H. destruct (ev_eq_dec e (EUser (S q))) as [->|He].
  - cbn [choose ring_row r_guard r_tgt] in H.
    destruct (cb (CGuard 1 0) _ v w) as [[|] v1 w1|k v1 w1] eqn:K; [|inversion H; subst; left; auto..].
    pose proof (ring_deeds q Hq) as D.
    rewrite D in H. cbn [carry_out] in H. right. split; [reflexivity|].
    destruct (cb (CAction 0) _ v1 w1) as [b2 v2 w2|k v2 w2]; inversion H; subst; split; reflexivity.
  - rewrite ring_lookup in H. cbn in H. inversion H; subst. left. auto.
Qed.
Lemma ring_yes q v w : q < n -> agrees_always cb ->
  exists ks w', react cb env n d (SState q) (EUser (S q)) v w = (OBool true, ks, SState (up q), w') /\ actions ks = 1.
Proof.
  intros Hq Hcb. unfold react. rewrite (ring_rows_for q _ Hq). destruct (ev_eq_dec _ _) as [_|F]; [|contradiction].
  cbn [choose ring_row r_guard r_tgt]. 
  destruct (Hcb (CGuard 1 0) (mkArgs (EUser (S q)) (SState q) (TObj (SState (if Nat.eq_dec (S q) n then 0 else S q))) d) v w) as (b & v1 & w1 & E & Hb).
  rewrite E, (Hb 1 0 eq_refl).
  pose proof (ring_deeds q Hq) as D.
  rewrite D. cbn [carry_out ring_row r_tgt]. 
  destruct (Hcb (CAction 0) (mkArgs (EUser (S q)) (SState q) (TObj (SState (if Nat.eq_dec (S q) n then 0 else S q))) d) v1 w1) as (b2 & v2 & w2 & E2 & _).
  rewrite E2. eexists. eexists. split; reflexivity.
Qed.
Lemma ring_mod : forall l q w outs ks q' w', q < n -> reacts cb env n d (SState q) l w = (outs, ks, q', w') ->
  exists p, q' = SState p /\ p < n /\ (q + actions ks) mod n = p.
Proof.
  induction l as [|[e v] l IH]; intros q w outs ks q' w' Hq H; cbn [reacts] in H.
  - inversion H; subst. exists q. split; [reflexivity|]. split; [exact Hq|]. cbn. rewrite Nat.add_0_r. now apply Nat.mod_small.
  - destruct (react cb env n d (SState q) e v w) as [[[o k1] q1] w1] eqn:E.
    destruct (reacts cb env n d q1 l w1) as [[[os k2] q2] w2] eqn:E2. inversion H; subst.
    destruct (ring_react q e v w o k1 q1 w1 Hq E) as [[-> A]|(-> & -> & A)].
    + destruct (IH _ _ _ _ _ _ Hq E2) as (p & -> & Hp & M). exists p. rewrite actions_app, A. auto.
    + destruct (IH _ _ _ _ _ _ (up_lt q Hq) E2) as (p & -> & Hp & M). exists p. split; [reflexivity|]. split; [exact Hp|].
      rewrite actions_app, A. unfold up in M. destruct (Nat.eq_dec (S q) n) as [Eq|_].
      * cbn [Nat.add] in M. replace (q + (1 + actions k2)) with (actions k2 + 1 * n) by lia. now rewrite Nat.mod_add by lia.
      * now replace (q + (1 + actions k2)) with (S q + actions k2) by lia.
Qed.
(** Without the last event the ring is a line. *)
Lemma ring_line : forall l q w outs ks q' w', q < n -> (forall v, ~ In (EUser n, v) l) ->
  reacts cb env n d (SState q) l w = (outs, ks, q', w') -> exists p, q' = SState p /\ p < n /\ q + actions ks = p.
Proof.
  induction l as [|[e v] l IH]; intros q w outs ks q' w' Hq Hl H; cbn [reacts] in H.
  - inversion H; subst. exists q. cbn. auto.
  - destruct (react cb env n d (SState q) e v w) as [[[o k1] q1] w1] eqn:E.
    destruct (reacts cb env n d q1 l w1) as [[[os k2] q2] w2] eqn:E2. inversion H; subst.
    assert (Hl' : forall v0, ~ In (EUser n, v0) l) by (intros v0 Hv; apply (Hl v0); now right).
    destruct (ring_react q e v w o k1 q1 w1 Hq E) as [[-> A]|(-> & -> & A)].
    + destruct (IH _ _ _ _ _ _ Hq Hl' E2) as (p & -> & Hp & M). exists p. rewrite actions_app, A. auto.
    + assert (S q <> n) by (intros F; apply (Hl v); left; now rewrite F).
      assert (U : up q = S q) by (unfold up; destruct (Nat.eq_dec (S q) n); [contradiction|reflexivity]). rewrite U in E2.
      destruct (IH (S q) _ _ _ _ _ ltac:(lia) Hl' E2) as (p & -> & Hp & M). exists p. split; [reflexivity|]. split; [exact Hp|].
      rewrite actions_app, A. lia.
Qed.
(** In the last state nothing but the last event does anything. *)
Lemma ring_end : forall l w, (forall v, ~ In (EUser n, v) l) ->
  reacts cb env n d (SState (n - 1)) l w = (map (fun _ => OBool false) l, [], SState (n - 1), w).
Proof.
  induction l as [|[e v] l IH]; intros w Hl; [reflexivity|]. cbn [reacts map].
  assert (E : react cb env n d (SState (n - 1)) e v w = (OBool false, [], SState (n - 1), w)).
  { unfold react. rewrite ring_rows_for by lia. destruct (ev_eq_dec e (EUser (S (n - 1)))) as [->|_].
    - exfalso. apply (Hl v). left. do 2 f_equal. lia.
    - rewrite ring_lookup. reflexivity. }
  rewrite E, IH; [reflexivity|]. intros v0 Hv. apply (Hl v0). now right.
Qed.
Lemma reacts_app root' env' : forall l1 l2 q w outs1 ks1 q1 w1 outs2 ks2 q2 w2,
  reacts cb env' root' d q l1 w = (outs1, ks1, q1, w1) -> reacts cb env' root' d q1 l2 w1 = (outs2, ks2, q2, w2) ->
  reacts cb env' root' d q (l1 ++ l2) w = (outs1 ++ outs2, ks1 ++ ks2, q2, w2).
Proof.
  induction l1 as [|[e v] l1 IH]; intros l2 q w outs1 ks1 q1 w1 outs2 ks2 q2 w2 H1 H2; cbn [reacts app] in *.
  - inversion H1; subst. exact H2.
  - destruct (react cb env' root' d q e v w) as [[[o ka] qa] wa]. destruct (reacts cb env' root' d qa l1 wa) as [[[ob kb] qb] wb] eqn:E.
    inversion H1; subst. rewrite (IH _ _ _ _ _ _ _ _ _ _ _ E H2). now rewrite app_assoc.
Qed.
Lemma ring_climb v : agrees_always cb -> forall k q w, q + k < n ->
  exists ks w', reacts cb env n d (SState q) (map (fun i => (EUser i, v)) (seq (S q) k)) w =
    (repeat (OBool true) k, ks, SState (q + k), w') /\ actions ks = k.
Proof.
  intros Hcb. induction k as [|k IH]; intros q w Hq.
  - exists [], w. rewrite Nat.add_0_r. split; reflexivity.
  - cbn [seq map reacts repeat]. destruct (ring_yes q v w ltac:(lia) Hcb) as (k1 & w1 & E & A). rewrite E.
    assert (U : up q = S q) by (unfold up; destruct (Nat.eq_dec (S q) n); [lia|reflexivity]). rewrite U.
    destruct (IH (S q) w1 ltac:(lia)) as (k2 & w2 & E2 & A2). rewrite E2. eexists. eexists. split.
    + replace (q + S k) with (S q + k) by lia. reflexivity.
    + rewrite actions_app, A, A2. reflexivity.
Qed.
Lemma ring_round v w : agrees_always cb -> exists ks w',
  reacts cb env n d (SState 0) (all_events v n) w = (repeat (OBool true) n, ks, SState 0, w') /\ actions ks = n.
Proof.
  intros Hcb. destruct (ring_climb v Hcb (n - 1) 0 w ltac:(lia)) as (k1 & w1 & E1 & A1). cbn [Nat.add] in E1.
  destruct (ring_yes (n - 1) v w1 ltac:(lia) Hcb) as (k2 & w2 & E2 & A2).
  assert (U : up (n - 1) = 0) by (unfold up; destruct (Nat.eq_dec (S (n - 1)) n); [reflexivity|lia]). rewrite U in E2.
  exists (k1 ++ k2), w2. split; [|rewrite actions_app; lia]. unfold all_events.
  replace (seq 1 n) with (seq 1 (n - 1) ++ [n]).
  2:{ replace (seq 1 n) with (seq 1 (n - 1 + 1)) by (f_equal; lia). rewrite seq_app. cbn [seq]. do 2 f_equal. lia. }
  rewrite map_app. replace (repeat (OBool true) n) with (repeat (OBool true) (n - 1) ++ [OBool true]).
  2:{ replace (repeat (OBool true) n) with (repeat (OBool true) (n - 1 + 1)) by (f_equal; lia). now rewrite repeat_app. }
  eapply reacts_app; [exact E1|]. cbn [map reacts]. replace (S (n - 1)) with n in E2 by lia. rewrite E2. now rewrite app_nil_r.
Qed.
Lemma ring_rounds v : agrees_always cb -> forall k w, exists ks w',
  reacts cb env n d (SState 0) (rounds k (all_events v n)) w = (repeat (OBool true) (k * n), ks, SState 0, w') /\ actions ks = k * n.
Proof.
  intros Hcb. induction k as [|k IH]; intros w; [exists [], w; split; reflexivity|].
  destruct (ring_round v w Hcb) as (k1 & w1 & E1 & A1). destruct (IH w1) as (k2 & w2 & E2 & A2).
  exists (k1 ++ k2), w2. split; [|rewrite actions_app; cbn; lia]. cbn [rounds Nat.mul]. rewrite repeat_app. eapply reacts_app; eauto.
Qed.
End User.
End Ring.

(** * Sessions *)
Section Sessions.
Variable n : nat.
Hypothesis Hn : 0 < n.

Lemma ring_sessions m : compile (ring n) n = Some m ->
  exists bound, forall V W (cb : cbfun V W) vnone fuel d w (l : list (ev * V)) outs ks q w', bound <= fuel ->
    Forall (fun ev => exists k, fst ev = EUser k /\ 0 < k <= n) l ->
    reacts cb (ring n) n d (SState 0) l w = (outs, ks, q, w') ->
    exists s, session cb m vnone fuel d w (map (fun ev => KProcess (fst ev) (snd ev)) l) = Done outs s /\
      at_place m s 0 = Some (n, q) /\ rt_trace s = ks /\ rt_world s = w'.
Proof.
  intros Hm. destruct (flat_session (ring n) n m Hm (ring_flat n Hn)) as (b & Hb). exists b.
  intros V W cb vnone fuel d w l outs ks q w' Hle Hl E. eapply Hb; eauto; [|apply (ring_first n Hn)].
  revert Hl. apply Forall_impl. intros [e v] (k & -> & Hk). now apply (ring_event n Hn).
Qed.
Lemma ring_counts m : compile (ring n) n = Some m ->
  exists bound, forall V W (cb : cbfun V W) vnone fuel d w (l : list (ev * V)), bound <= fuel ->
    Forall (fun ev => exists k, fst ev = EUser k /\ 0 < k <= n) l ->
    exists outs s p, session cb m vnone fuel d w (map (fun ev => KProcess (fst ev) (snd ev)) l) = Done outs s /\
      at_place m s 0 = Some (n, SState p) /\ p < n /\ actions (rt_trace s) mod n = p /\
      ((forall v, ~ In (EUser n, v) l) -> actions (rt_trace s) = p).
Proof.
  intros Hm. destruct (ring_sessions m Hm) as (b & Hb). exists b. intros V W cb vnone fuel d w l Hle Hl.
  destruct (reacts cb (ring n) n d (SState 0) l w) as [[[outs ks] q] w'] eqn:E.
  destruct (Hb V W cb vnone fuel d w l outs ks q w' Hle Hl E) as (s & D & P & T & _).
  destruct (ring_mod n Hn cb d l 0 w _ _ _ _ Hn E) as (p & -> & Hp & M). exists outs, s, p.
  rewrite T. repeat (split; [assumption|]). intros Hl'. destruct (ring_line n Hn cb d l 0 w _ _ _ _ Hn Hl' E) as (p' & E' & _ & M').
  injection E' as <-. exact M'.
Qed.
Lemma ring_stuck m : compile (ring n) n = Some m ->
  exists bound, forall V W (cb : cbfun V W) vnone fuel d w (l l' : list (ev * V)) outs s, bound <= fuel ->
    Forall (fun ev => exists k, fst ev = EUser k /\ 0 < k <= n) l ->
    Forall (fun ev => exists k, fst ev = EUser k /\ 0 < k < n) l' ->
    session cb m vnone fuel d w (map (fun ev => KProcess (fst ev) (snd ev)) l) = Done outs s ->
    at_place m s 0 = Some (n, SState (n - 1)) ->
    exists s', session cb m vnone fuel d w (map (fun ev => KProcess (fst ev) (snd ev)) (l ++ l')) =
        Done (outs ++ map (fun _ => OBool false) l') s' /\
      at_place m s' 0 = Some (n, SState (n - 1)) /\ rt_trace s' = rt_trace s /\ rt_world s' = rt_world s.
Proof.
  intros Hm. destruct (ring_sessions m Hm) as (b & Hb). exists b. intros V W cb vnone fuel d w l l' outs s Hle Hl Hl' D P.
  destruct (reacts cb (ring n) n d (SState 0) l w) as [[[outs1 ks] q] w'] eqn:E.
  destruct (Hb V W cb vnone fuel d w l outs1 ks q w' Hle Hl E) as (s1 & D1 & P1 & T1 & W1).
  rewrite D in D1. inversion D1; subst s1 outs1. rewrite P in P1. inversion P1; subst q. clear D1 P1.
  assert (N : forall v, ~ In (EUser n, v) l').
  { intros v Hv. rewrite Forall_forall in Hl'. destruct (Hl' _ Hv) as (k & Ek & Hk). inversion Ek. lia. }
  pose proof (ring_end n Hn cb d l' w' N) as E2. pose proof (reacts_app cb d n (ring n) l l' _ _ _ _ _ _ _ _ _ _ E E2) as E3.
  assert (Fa : Forall (fun ev => exists k, fst ev = EUser k /\ 0 < k <= n) (l ++ l')).
  { apply Forall_app. split; [exact Hl|]. revert Hl'. apply Forall_impl. intros a (k & Ek & Hk). exists k. split; [exact Ek|lia]. }
  destruct (Hb V W cb vnone fuel d w (l ++ l') _ _ _ _ Hle Fa E3) as (s2 & D2 & P2 & T2 & W2).
  exists s2. rewrite app_nil_r in T2. rewrite T2, W2, T1, W1. auto.
Qed.
Lemma ring_goes_round m : compile (ring n) n = Some m ->
  exists bound, forall V W (cb : cbfun V W) vnone fuel d w v k, bound <= fuel -> agrees_always cb ->
    exists s, session cb m vnone fuel d w (map (fun ev => KProcess (fst ev) (snd ev)) (rounds k (all_events v n))) =
        Done (repeat (OBool true) (k * n)) s /\
      at_place m s 0 = Some (n, SState 0) /\ actions (rt_trace s) = k * n.
Proof.
  intros Hm. destruct (ring_sessions m Hm) as (b & Hb). exists b. intros V W cb vnone fuel d w v k Hle Hcb.
  destruct (ring_rounds n Hn cb d v Hcb k w) as (ks & w' & E & A).
  assert (Fa : Forall (fun ev => exists i, fst ev = EUser i /\ 0 < i <= n) (rounds k (all_events v n))).
  { clear. induction k as [|k IH]; cbn [rounds]; [constructor|]. apply Forall_app. split; [|exact IH]. unfold all_events.
    apply Forall_forall. intros a Ha. apply in_map_iff in Ha. destruct Ha as (i & <- & Hi). apply in_seq in Hi. exists i. cbn. split; [reflexivity|lia]. }
  destruct (Hb V W cb vnone fuel d w _ _ _ _ _ Hle Fa E) as (s & D & P & T & _). exists s. rewrite T. auto.
Qed.
Lemma ring_one_pass m : compile (ring n) n = Some m ->
  exists bound, forall V W (cb : cbfun V W) vnone fuel d w v k, bound <= fuel -> agrees_always cb -> 0 < k ->
    exists s, session cb m vnone fuel d w (map (fun ev => KProcess (fst ev) (snd ev)) (rounds k (all_events v (n - 1)))) =
        Done (repeat (OBool true) (n - 1) ++ repeat (OBool false) ((k - 1) * (n - 1))) s /\
      at_place m s 0 = Some (n, SState (n - 1)) /\ actions (rt_trace s) = n - 1.
Proof.
  intros Hm. destruct (ring_sessions m Hm) as (b & Hb). exists b. intros V W cb vnone fuel d w v k Hle Hcb Hk.
  destruct k as [|k]; [lia|]. cbn [rounds].
  destruct (ring_climb n Hn cb d v Hcb (n - 1) 0 w ltac:(lia)) as (k1 & w1 & E1 & A1). cbn [Nat.add] in E1.
  assert (F : forall j, Forall (fun ev : ev * V => exists i, fst ev = EUser i /\ 0 < i <= n - 1) (rounds j (all_events v (n - 1)))).
  { induction j as [|j IH]; cbn [rounds]; [constructor|]. apply Forall_app. split; [|exact IH]. unfold all_events.
    apply Forall_forall. intros a Ha. apply in_map_iff in Ha. destruct Ha as (i & <- & Hi). apply in_seq in Hi. exists i. cbn. split; [reflexivity|lia]. }
  assert (N : forall v0, ~ In (EUser n, v0) (rounds k (all_events v (n - 1)))).
  { intros v0 Hv. pose proof (F k) as Fk. rewrite Forall_forall in Fk. destruct (Fk _ Hv) as (i & Ei & Hi). inversion Ei. lia. }
  pose proof (ring_end n Hn cb d (rounds k (all_events v (n - 1))) w1 N) as E2.
  fold (all_events v (n - 1)) in E1. pose proof (reacts_app cb d n (ring n) _ _ _ _ _ _ _ _ _ _ _ _ E1 E2) as E3.
  assert (Fa : Forall (fun ev => exists i, fst ev = EUser i /\ 0 < i <= n) (rounds (S k) (all_events v (n - 1)))).
  { apply (Forall_impl _ (P := fun ev : ev * V => exists i, fst ev = EUser i /\ 0 < i <= n - 1)).
    - intros a (i & Ei & Hi). exists i. split; [exact Ei|lia].
    - exact (F (S k)). }
  destruct (Hb V W cb vnone fuel d w _ _ _ _ _ Hle Fa E3) as (s & D & P & T & _).
  exists s. rewrite T, app_nil_r. split; [|split; [exact P|exact A1]]. cbn [rounds] in D. rewrite D. do 2 f_equal.
  assert (L : forall l : list (ev * V), map (fun _ => OBool false) l = repeat (OBool false) (length l)).
  { induction l as [|a l IH]; [reflexivity|]. cbn. now rewrite IH. }
  rewrite L. f_equal. clear. cbn [Nat.sub]. rewrite Nat.sub_0_r. induction k as [|k IH]; [reflexivity|]. cbn [rounds]. rewrite app_length, IH.
  unfold all_events. rewrite map_length, seq_length. lia.
Qed.
End Sessions.

(** * The loop of the simple benchmark *)
Lemma automaton_app env root : forall l1 l2 q b1 c1 q1 b2 c2 q2,
  automaton env root q l1 = (b1, c1, q1) -> automaton env root q1 l2 = (b2, c2, q2) ->
  automaton env root q (l1 ++ l2) = (b1 ++ b2, c1 ++ c2, q2).
Proof.
  induction l1 as [|e l1 IH]; intros l2 q b1 c1 q1 b2 c2 q2 H1 H2; cbn [automaton app] in *.
  - inversion H1; subst. exact H2.
  - destruct (match rows_for env root q e with [] => (false, []) | r :: _ => (true, deeds env r) end) as [b cs].
    destruct (automaton env root (next env root q e) l1) as [[ba ca] qa] eqn:A. inversion H1; subst.
    rewrite (IH _ _ _ _ _ _ _ _ A H2). now rewrite app_assoc.
Qed.
Lemma player_compiles : exists m, compile Player.env 50 = Some m.
Proof. eexists. vm_compute. reflexivity. Qed.
Lemma player_flat : flat Player.env 50.
Proof. apply flat_intro. vm_compute. reflexivity. Qed.
Lemma player_free r : In r (table Player.env 50) -> r_guard r = NoGuard.
Proof. cbn. intuition (subst; reflexivity). Qed.
Lemma player_loop : automaton Player.env 50 Player.Empty Player.loop = (repeat true 11, Player.loop_calls, Player.Empty).
Proof. vm_compute. reflexivity. Qed.
Lemma player_loops k : automaton Player.env 50 Player.Empty (rounds k Player.loop) =
  (repeat true (k * 11), rounds k Player.loop_calls, Player.Empty).
Proof.
  induction k as [|k IH]; [reflexivity|]. cbn [rounds Nat.mul]. rewrite repeat_app. eapply automaton_app; [exact player_loop|exact IH].
Qed.
Lemma player_events e : In e Player.loop -> event_of Player.env 50 e.
Proof.
  intros H. assert (G : exists r, In r (table Player.env 50) /\ r_ev r = e).
  { unfold Player.loop in H. cbn [In] in H. 
    assert (X : In e (map r_ev (table Player.env 50))) by (vm_compute; intuition). apply in_map_iff in X. destruct X as (r & A & B). eauto. }
  destruct G as (r & Hr & E). exists (row_in 50 r). split; [left|exact E]. apply (flat_declared_row _ _ player_flat). eauto.
Qed.
Lemma player_runs m : compile Player.env 50 = Some m ->
  exists bound, forall V W (cb : cbfun V W) vnone fuel d w v k, bound <= fuel ->
    (exists outs s, session cb m vnone fuel d w (map (fun e => KProcess e v) (rounds k Player.loop)) = Done outs s /\
       at_place m s 0 = Some (Player.player, Player.Empty)) /\
    (never_throws cb ->
     exists s, session cb m vnone fuel d w (map (fun e => KProcess e v) (rounds k Player.loop)) =
         Done (repeat (OBool true) (k * 11)) s /\
       map (@k_callee V) (rt_trace s) = rounds k Player.loop_calls).
Proof.
  intros Hm. destruct (flat_states _ _ m Hm player_flat player_free) as (b1 & H1).
  destruct (flat_automaton _ _ m Hm player_flat player_free eq_refl) as (b2 & H2). exists (Nat.max b1 b2).
  intros V W cb vnone fuel d w v k Hle.
  assert (El : forall l, map (fun e => KProcess (V:=V) e v) l = map (fun ev => KProcess (fst ev) (snd ev)) (map (fun e => (e, v)) l)).
  { intros l. now rewrite map_map. }
  assert (Ef : forall l, map fst (map (fun e : ev => (e, v)) l) = l) by (intros l; rewrite map_map; apply map_id).
  assert (Fl : Forall (fun ev => event_of Player.env 50 (fst ev)) (map (fun e => (e, v)) (rounds k Player.loop))).
  { apply Forall_forall. intros a Ha. apply in_map_iff in Ha. destruct Ha as (e & <- & He). cbn. apply player_events. clear - He.
    induction k as [|k IH]; [destruct He|]. cbn [rounds] in He. apply in_app_or in He. destruct He; auto. }
  rewrite El. split.
  - destruct (H1 V W cb vnone fuel d w _ Player.Empty ltac:(lia) Fl eq_refl) as (outs & s & D & P). exists outs, s. split; [exact D|].
    rewrite P, Ef. do 2 f_equal. clear. induction k as [|k IH]; [reflexivity|]. cbn [rounds]. rewrite fold_left_app.
    replace (fold_left (next Player.env 50) Player.loop Player.Empty) with Player.Empty by (vm_compute; reflexivity). exact IH.
  - intros Hcb. destruct (H2 V W cb vnone fuel d w (map (fun e => (e, v)) (rounds k Player.loop)) Player.Empty
      (repeat true (k * 11)) (rounds k Player.loop_calls) Player.Empty ltac:(lia) Hcb Fl eq_refl) as (s & D & _ & T).
    { rewrite Ef. apply player_loops. }
    exists s. split; [|exact T]. rewrite D. f_equal. clear. induction (k * 11) as [|j IH]; [reflexivity|]. cbn. now rewrite IH.
Qed.
