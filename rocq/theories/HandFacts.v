(** A table and the program written by hand for it. *)

From Coq Require Import List Arith NArith Bool Lia.
From Verif Require Import Types Static Dispatch Runtime Dsl Examples Spec Semantics ListFacts RefineFacts
  Graph Flat FlatFacts FlatAccept FlatDemo Ring RingFacts Hand.
Import ListNotations.

Section Table.
Variables (env : cenv) (root : cls).

Lemma case_map (f : sref -> stmt) q : forall l, case_of (map (fun q => (q, f q)) l) q = if in_dec sref_eq_dec q l then Some (f q) else None.
Proof.
  induction l as [|a l IH]; [reflexivity|]. cbn [map case_of]. rewrite IH. destruct (sref_eq_dec q a) as [->|N].
  - destruct (in_dec sref_eq_dec a (a :: l)) as [_|H]; [reflexivity|]. exfalso. apply H. now left.
  - destruct (in_dec sref_eq_dec q l) as [H|H], (in_dec sref_eq_dec q (a :: l)) as [G|G]; try reflexivity.
    + exfalso. apply G. now right.
    + exfalso. destruct G as [G|G]; [now symmetry in G|contradiction].
Qed.
Lemma cases_iff q e : In q (cases env root e) <-> rows_for env root q e <> [].
Proof.
  unfold cases, rows_for. rewrite nodup_In, in_map_iff. split.
  - intros (r & E & Hr) H. apply filter_In in Hr. destruct Hr as [Hr He].
    assert (G : In r (rev (filter (row_for q e) (table env root)))).
    { apply -> in_rev. apply filter_In. split; [assumption|]. unfold row_for. rewrite E. destruct (sref_eq_dec q q); [|contradiction]. exact He. }
    rewrite H in G. destruct G.
  - intros H. destruct (rev (filter (row_for q e) (table env root))) as [|r l] eqn:E; [contradiction|].
    assert (G : In r (filter (row_for q e) (table env root))) by (apply in_rev; rewrite E; now left).
    apply filter_In in G. destruct G as [Hr G]. unfold row_for in G. destruct (sref_eq_dec (unmarked (r_src r)) q) as [E1|]; [|discriminate].
    exists r. split; [assumption|]. apply filter_In. split; [assumption|exact G].
Qed.
Lemma by_hand_branch o q e : branch (by_hand env root o e) q =
  match rows_for env root q e with
  | [] => if cd_unexpected (lookup env root) then Call CHandler TNone else Skip
  | rs => chain env o rs
  end.
Proof.
  unfold branch, by_hand. cbn [sw_cases sw_default]. rewrite case_map. pose proof (cases_iff q e) as H.
  destruct (in_dec sref_eq_dec q (cases env root e)) as [i|i]; destruct (rows_for env root q e); try reflexivity.
  - apply H in i. contradiction.
  - exfalso. apply i, H. discriminate.
Qed.

Context {V W : Type}.
Variable cb : cbfun V W.
Variable d : dep.

Lemma exec_calls q0 e t q : forall cs v w n ks w', carry_out cb d q0 e t cs v w = (n, ks, w') ->
  exists v', exec cb d q0 e (calls t cs) q v w = (n, ks, q, v', w').
Proof.
  induction cs as [|c cs IH]; intros v w n ks w' H; cbn [carry_out calls exec] in *.
  - injection H as <- <- <-. now exists v.
  - destruct (cb c (mkArgs e q0 (TObj t) d) v w) as [b v1 w1|x v1 w1].
    + destruct (carry_out cb d q0 e t cs v1 w1) as [[n2 ks2] w2] eqn:E. injection H as <- <- <-.
      destruct (IH _ _ _ _ _ E) as [v' ->]. now exists v'.
    + injection H as <- <- <-. now exists v1.
Qed.
Lemma callees_deed b c : In c (callees b) -> match c with CGuard _ _ => False | CHandler => False | _ => True end.
Proof.
  revert c. induction b as [f|f|f|l IH] using abody_ind2; intros c; cbn [callees]; try (intros [<-|[]]; exact I).
  intros H. apply in_flat_map in H. destruct H as (b & Hb & Hk). rewrite Forall_forall in IH. exact (IH b Hb c Hk).
Qed.
Lemma deeds_deed r c : In c (deeds env r) -> match c with CGuard _ _ => False | CHandler => False | _ => True end.
Proof.
  unfold deeds. rewrite !in_app_iff. intros [H|[H|H]].
  - destruct (r_src r); try destruct H. destruct (cd_exit (lookup env c0)); [destruct H as [<-|[]]; exact I|destruct H].
  - destruct (r_act r); [destruct H|]. now apply callees_deed in H.
  - destruct (r_tgt r); try destruct H. destruct (cd_entry (lookup env c0)); [destruct H as [<-|[]]; exact I|destruct H].
Qed.
Lemma carry_returns : deeds_return cb -> forall q e t cs v w n ks w',
  (forall c, In c cs -> match c with CGuard _ _ => False | CHandler => False | _ => True end) ->
  carry_out cb d q e t cs v w = (n, ks, w') -> n = None.
Proof.
  intros Hr q e t. induction cs as [|c cs IH]; intros v w n ks w' Hc H; cbn [carry_out] in H; [now injection H|].
  assert (X : exists b v' w', cb c (mkArgs e q (TObj t) d) v w = Ret b v' w').
  { specialize (Hr c (mkArgs e q (TObj t) d) v w). specialize (Hc c (or_introl eq_refl)). destruct c; try contradiction; exact Hr. }
  destruct X as (b & v1 & w1 & E). rewrite E in H. destruct (carry_out cb d q e t cs v1 w1) as [[n2 ks2] w2] eqn:E2.
  injection H as <- <- <-. eapply IH; [|exact E2]. intros c' Hc'. apply Hc. now right.
Qed.
Lemma exec_body o r q e v w n ks w' : (o = After -> deeds_return cb) ->
  carry_out cb d q e (r_tgt r) (deeds env r) v w = (n, ks, w') ->
  exists v', exec cb d q e (body env o r) q v w = (n, ks, r_tgt r, v', w').
Proof.
  intros Ho H. destruct o; cbn [body exec].
  - destruct (exec_calls q e (r_tgt r) (r_tgt r) _ _ _ _ _ _ H) as [v' ->]. now exists v'.
  - assert (n = None) as -> by (eapply carry_returns; [now apply Ho|intros c; apply deeds_deed|exact H]).
    destruct (exec_calls q e (r_tgt r) q _ _ _ _ _ _ H) as [v' ->]. exists v'. now rewrite app_nil_r.
Qed.
Lemma exec_chain o q e : (o = After -> deeds_return cb) -> forall rs v w c ks v1 w1,
  choose cb d q e rs v w = (c, ks, v1, w1) ->
  match c with
  | Nobody => exec cb d q e (chain env o rs) q v w = (None, ks, q, v1, w1)
  | Objection n => exists v', exec cb d q e (chain env o rs) q v w = (Some n, ks, q, v', w1)
  | Chosen r => forall n ks' w2, carry_out cb d q e (r_tgt r) (deeds env r) v1 w1 = (n, ks', w2) ->
      exists v', exec cb d q e (chain env o rs) q v w = (n, ks ++ ks', r_tgt r, v', w2)
  end.
Proof.
  intros Ho. induction rs as [|r rs IH]; intros v w c ks v1 w1 H; cbn [choose chain] in *.
  - now injection H as <- <- <- <-.
  - destruct (r_guard r) as [|ty val].
    + injection H as <- <- <- <-. intros n ks' w2 Hc. apply exec_body; assumption.
    + cbn [exec]. destruct (cb (CGuard ty val) (mkArgs e q (TObj (r_tgt r)) d) v w) as [[|] v2 w2|x v2 w2].
      * injection H as <- <- <- <-. intros n ks' w3 Hc. destruct (exec_body o r q e _ _ _ _ _ Ho Hc) as [v' ->]. now exists v'.
      * destruct (choose cb d q e rs v2 w2) as [[[c3 ks3] v3] w3] eqn:E. injection H as <- <- <- <-. specialize (IH _ _ _ _ _ _ E).
        destruct c3.
        -- now rewrite IH.
        -- intros n ks' w4 Hc. destruct (IH _ _ _ Hc) as [v' ->]. now exists v'.
        -- destruct IH as [v' ->]. now exists v'.
      * injection H as <- <- <- <-. now exists v2.
Qed.
Lemma handle_react o q e v w x ks q' w' : (o = After -> deeds_return cb) ->
  react cb env root d q e v w = (x, ks, q', w') -> handle cb d (by_hand env root o) q e v w = (thrown x, ks, q', w').
Proof.
  intros Ho. unfold react, handle. rewrite by_hand_branch. destruct (rows_for env root q e) as [|r rs] eqn:E.
  - destruct (cd_unexpected (lookup env root)); cbn [exec].
    + destruct (cb CHandler (mkArgs e q TNone d) v w) as [b v1 w1|n v1 w1]; intros H; now injection H as <- <- <- <-.
    + intros H; now injection H as <- <- <- <-.
  - destruct (choose cb d q e (r :: rs) v w) as [[[c ks1] v1] w1] eqn:Ec. pose proof (exec_chain o q e Ho _ _ _ _ _ _ _ Ec) as G.
    destruct c as [|r1|n].
    + rewrite G. intros H. now injection H as <- <- <- <-.
    + destruct (carry_out cb d q e (r_tgt r1) (deeds env r1) v1 w1) as [[n ks2] w2] eqn:E2. destruct (G _ _ _ eq_refl) as [v' ->].
      intros H. injection H as <- <- <- <-. now destruct n.
    + destruct G as [v' ->]. intros H. now injection H as <- <- <- <-.
Qed.
Lemma handles_reacts o : (o = After -> deeds_return cb) -> forall l q w xs ks q' w',
  reacts cb env root d q l w = (xs, ks, q', w') -> handles cb d (by_hand env root o) q l w = (map thrown xs, ks, q', w').
Proof.
  intros Ho. induction l as [|[e v] l IH]; intros q w xs ks q' w' H; cbn [reacts handles] in *.
  - now injection H as <- <- <- <-.
  - destruct (react cb env root d q e v w) as [[[x ks1] q1] w1] eqn:E1. rewrite (handle_react o _ _ _ _ _ _ _ _ Ho E1).
    destruct (reacts cb env root d q1 l w1) as [[[xs2 ks2] q2] w2] eqn:E2. rewrite (IH _ _ _ _ _ _ E2).
    now injection H as <- <- <- <-.
Qed.
End Table.

Lemma hand_session env root m : compile env root = Some m -> flat env root -> forall o,
  exists bound, forall V W (cb : cbfun V W) vnone fuel d w l i ns ks q w', bound <= fuel -> (o = After -> deeds_return cb) ->
    Forall (fun ev => event_of env root (fst ev)) l -> first_initial env root = Some i ->
    handles cb d (by_hand env root o) i l w = (ns, ks, q, w') ->
    exists outs s, session cb m vnone fuel d w (map (fun ev => KProcess (fst ev) (snd ev)) l) = Done outs s /\
      map thrown outs = ns /\ at_place m s 0 = Some (root, q) /\ rt_trace s = ks /\ rt_world s = w'.
Proof.
  intros Hm Hf o. destruct (flat_session env root m Hm Hf) as [bound HB]. exists bound. intros V W cb vnone fuel d w l i ns ks q w' Hb Ho Hl Hi H.
  destruct (reacts cb env root d i l w) as [[[xs ks1] q1] w1] eqn:E. rewrite (handles_reacts env root cb d o Ho _ _ _ _ _ _ _ E) in H.
  injection H as <- <- <- <-. destruct (HB V W cb vnone fuel d w l i xs ks1 q1 w1 Hb Hl Hi E) as (s & A & B & C & D).
  exists xs, s. repeat (split; [assumption || reflexivity|]). assumption.
Qed.

(** *** The benchmark programs *)
Section Bench.
Variable n : nat.
Hypothesis Hn : 0 < n.

Lemma bench_cases k : k < n -> cases (ring n) n (EUser (S k)) = [SState k].
Proof.
  intros Hk. assert (A : forall q, In q (cases (ring n) n (EUser (S k))) -> q = SState k).
  { intros q Hq. unfold cases in Hq. apply nodup_In, in_map_iff in Hq. destruct Hq as (r & <- & Hr). apply filter_In in Hr.
    destruct Hr as [Hr He]. apply (ring_row_In n Hn) in Hr. destruct Hr as (i & Hi & ->). rewrite ring_source.
    cbn [ring_row r_ev] in He. destruct (ev_eq_dec (EUser (S i)) (EUser (S k))) as [X|]; [|discriminate]. injection X as ->. reflexivity. }
  assert (B : In (SState k) (cases (ring n) n (EUser (S k)))).
  { apply cases_iff. rewrite (ring_rows_for n Hn) by assumption. destruct (ev_eq_dec (EUser (S k)) (EUser (S k))); [discriminate|contradiction]. }
  assert (C : NoDup (cases (ring n) n (EUser (S k)))) by apply NoDup_nodup.
  destruct (cases (ring n) n (EUser (S k))) as [|a [|b l]]; [destruct B| |].
  - f_equal. apply A. now left.
  - assert (a = SState k) as -> by (apply A; now left). assert (b = SState k) as -> by (apply A; right; now left).
    inversion C as [|x y Hx]. exfalso. apply Hx. now left.
Qed.
Context {V W : Type}.
Variable cb : cbfun V W.
Variable d : dep.

Lemma bench_handle k q v w : k < n ->
  handle cb d (bench_switch n) q (EUser (S k)) v w = handle cb d (by_hand (ring n) n After) q (EUser (S k)) v w.
Proof.
  intros Hk. unfold handle, branch, by_hand. cbn [sw_cases sw_default bench_switch]. rewrite (bench_cases k Hk).
  rewrite (ring_lookup n). cbn [cd_unexpected tbl map case_of]. destruct (sref_eq_dec q (SState k)) as [->|]; [|reflexivity].
  rewrite (ring_rows_for n Hn) by assumption. destruct (ev_eq_dec (EUser (S k)) (EUser (S k))); [|contradiction].
  cbn [chain ring_row r_guard r_tgt body exec]. fold (ring_row n k). rewrite (ring_deeds n Hn k Hk). cbn [calls exec].
  fold (bench_next n (S k)).
  destruct (cb (CGuard 1 0) (mkArgs (EUser (S k)) (SState k) (TObj (bench_next n (S k))) d) v w) as [[|] v1 w1|x v1 w1]; try reflexivity.
  destruct (cb (CAction 0) (mkArgs (EUser (S k)) (SState k) (TObj (bench_next n (S k))) d) v1 w1) as [b v2 w2|x v2 w2]; reflexivity.
Qed.
Lemma bench_handles : forall l q w, Forall (fun ev : ev * V => exists k, fst ev = EUser k /\ 0 < k <= n) l ->
  handles cb d (bench_switch n) q l w = handles cb d (by_hand (ring n) n After) q l w.
Proof.
  induction l as [|[e v] l IH]; intros q w Hl; [reflexivity|]. inversion Hl as [|x y (k & Ek & Hk) Hl']; subst. cbn [fst] in Ek. subst e.
  destruct k as [|k]; [lia|]. cbn [handles]. rewrite bench_handle by lia.
  destruct (handle cb d (by_hand (ring n) n After) q (EUser (S k)) v w) as [[[x ks] q1] w1]. now rewrite IH.
Qed.
Lemma variant_handle q e v w : agrees_always cb -> handle cb d (bench_variant n) q e v w = handle cb d (bench_switch n) q e v w.
Proof.
  intros Ha. destruct e as [|[|k]]; try reflexivity. unfold handle, branch. cbn [sw_cases sw_default bench_switch bench_variant case_of].
  destruct (sref_eq_dec q (SState k)) as [->|]; [|reflexivity]. cbn [exec].
  destruct (Ha (CGuard 1 0) (mkArgs (EUser (S k)) (SState k) (TObj (bench_next n (S k))) d) v w) as (b & v1 & w1 & E & Hb).
  rewrite E, (Hb 1 0 eq_refl).
  destruct (cb (CAction 0) (mkArgs (EUser (S k)) (SState k) (TObj (bench_next n (S k))) d) v1 w1) as [b2 v2 w2|x v2 w2]; [|reflexivity].
  now rewrite !app_nil_r.
Qed.
Lemma variant_handles : agrees_always cb -> forall l q w, handles cb d (bench_variant n) q l w = handles cb d (bench_switch n) q l w.
Proof.
  intros Ha. induction l as [|[e v] l IH]; intros q w; [reflexivity|]. cbn [handles]. rewrite variant_handle by assumption.
  destruct (handle cb d (bench_switch n) q e v w) as [[[x ks] q1] w1]. now rewrite IH.
Qed.
Lemma agrees_returns : agrees_always cb -> deeds_return cb.
Proof.
  intros Ha c a v w. destruct (Ha c a v w) as (b & v' & w' & E & _). destruct c; eauto.
Qed.
End Bench.

Lemma bench_session n : 0 < n -> forall m, compile (ring n) n = Some m ->
  exists bound, forall V W (cb : cbfun V W) vnone fuel d w (l : list (ev * V)) ns ks q w', bound <= fuel -> deeds_return cb ->
    Forall (fun ev => exists k, fst ev = EUser k /\ 0 < k <= n) l ->
    handles cb d (bench_switch n) (SState 0) l w = (ns, ks, q, w') ->
    exists outs s, session cb m vnone fuel d w (map (fun ev => KProcess (fst ev) (snd ev)) l) = Done outs s /\
      map thrown outs = ns /\ at_place m s 0 = Some (n, q) /\ rt_trace s = ks /\ rt_world s = w'.
Proof.
  intros Hn m Hm. destruct (hand_session (ring n) n m Hm (ring_flat n Hn) After) as [b Hb]. exists b.
  intros V W cb vnone fuel d w l ns ks q w' Hle Hr Hl H. rewrite (bench_handles n Hn) in H by assumption.
  eapply Hb; eauto; [|apply (ring_first n Hn)].
  revert Hl. apply Forall_impl. intros [e v] (k & -> & Hk). now apply (ring_event n Hn).
Qed.
Lemma rounds_events {V} (v : V) n k : Forall (fun ev : ev * V => exists i, fst ev = EUser i /\ 0 < i <= n) (rounds k (all_events v n)).
Proof.
  induction k as [|k IH]; cbn [rounds]; [constructor|]. apply Forall_app. split; [|exact IH]. unfold all_events.
  apply Forall_forall. intros a Ha. apply in_map_iff in Ha. destruct Ha as (i & <- & Hi). apply in_seq in Hi. exists i. cbn. split; [reflexivity|lia].
Qed.
Lemma bench_work n : 0 < n -> forall V W (cb : cbfun V W) d w v k, agrees_always cb ->
  exists ns ks w', handles cb d (bench_switch n) (SState 0) (rounds k (all_events v n)) w = (ns, ks, SState 0, w') /\
    actions ks = k * n.
Proof.
  intros Hn V W cb d w v k Ha. destruct (ring_rounds n Hn cb d v Ha k w) as (ks & w' & E & A).
  rewrite (bench_handles n Hn) by apply rounds_events.
  rewrite (handles_reacts (ring n) n cb d After (fun _ => agrees_returns cb Ha) _ _ _ _ _ _ _ E). eauto.
Qed.

Lemma hand_session_before env root m : compile env root = Some m -> flat env root ->
  exists bound, forall V W (cb : cbfun V W) vnone fuel d w l i ns ks q w', bound <= fuel ->
    Forall (fun ev => event_of env root (fst ev)) l -> first_initial env root = Some i ->
    handles cb d (by_hand env root Before) i l w = (ns, ks, q, w') ->
    exists outs s, session cb m vnone fuel d w (map (fun ev => KProcess (fst ev) (snd ev)) l) = Done outs s /\
      map thrown outs = ns /\ at_place m s 0 = Some (root, q) /\ rt_trace s = ks /\ rt_world s = w'.
Proof.
  intros Hm Hf. destruct (hand_session env root m Hm Hf Before) as [b Hb]. exists b. intros. eapply Hb; eauto. discriminate.
Qed.
Lemma hand_session_after env root m : compile env root = Some m -> flat env root ->
  exists bound, forall V W (cb : cbfun V W) vnone fuel d w l i ns ks q w', bound <= fuel -> deeds_return cb ->
    Forall (fun ev => event_of env root (fst ev)) l -> first_initial env root = Some i ->
    handles cb d (by_hand env root After) i l w = (ns, ks, q, w') ->
    exists outs s, session cb m vnone fuel d w (map (fun ev => KProcess (fst ev) (snd ev)) l) = Done outs s /\
      map thrown outs = ns /\ at_place m s 0 = Some (root, q) /\ rt_trace s = ks /\ rt_world s = w'.
Proof.
  intros Hm Hf. destruct (hand_session env root m Hm Hf After) as [b Hb]. exists b. intros. eapply Hb; eauto.
Qed.
Lemma bench_compared n : 0 < n -> forall m, compile (ring (S n)) (S n) = Some m ->
  exists bound, forall V W (cb : cbfun V W) vnone fuel d w v k, bound <= fuel -> agrees_always cb -> 0 < k ->
    (exists ns ks w', handles cb d (bench_switch n) (SState 0) (rounds k (all_events v n)) w = (ns, ks, SState 0, w') /\
       actions ks = k * n) /\
    exists outs s, session cb m vnone fuel d w (map (fun ev => KProcess (fst ev) (snd ev)) (rounds k (all_events v n))) = Done outs s /\
      actions (rt_trace s) = n.
Proof.
  intros Hn m Hm. destruct (ring_one_pass (S n) (Nat.lt_0_succ n) m Hm) as [b Hb]. exists b. intros V W cb vnone fuel d w v k Hle Ha Hk.
  split; [now apply bench_work|]. destruct (Hb V W cb vnone fuel d w v k Hle Ha Hk) as (s & E & _ & A).
  cbn [Nat.sub] in E, A. rewrite Nat.sub_0_r in E, A. eauto.
Qed.
Lemma variant_same n V W (cb : cbfun V W) d l q w : agrees_always cb ->
  handles cb d (bench_variant n) q l w = handles cb d (bench_switch n) q l w.
Proof. intros Ha. now apply variant_handles. Qed.
Lemma after_differs : exists m ns ks outs s, compile (ring 2) 2 = Some m /\ flat (ring 2) 2 /\
  handles (fun c _ v w => match c with CAction _ => Raise 9 v w | _ => Ret true v w end) 0
    (by_hand (ring 2) 2 After) (SState 0) [(EUser 1, 0)] 0 = (ns, ks, SState 0, 0) /\
  session (fun c _ v w => match c with CAction _ => Raise 9 v w | _ => Ret true v w end) m 0 100 0 0
    [KProcess (EUser 1) 0] = Done outs s /\ map thrown outs = ns /\ at_place m s 0 = Some (2, SState 1).
Proof.
  do 5 eexists. split; [vm_compute; reflexivity|]. split; [apply ring_flat; auto|]. split; [vm_compute; reflexivity|].
  split; [vm_compute; reflexivity|]. split; vm_compute; reflexivity.
Qed.
Lemma variant_differs : exists m ns ks outs s, compile (ring 2) 2 = Some m /\
  handles (fun c _ v w => Ret false v w) 0 (bench_variant 2) (SState 0) [(EUser 1, 0)] 0 = (ns, ks, SState 1, 0) /\
  session (fun c _ v w => Ret false v w) m 0 100 0 0 [KProcess (EUser 1) 0] = Done outs s /\
  map thrown outs = ns /\ rt_trace s = ks /\ at_place m s 0 = Some (2, SState 0).
Proof.
  do 5 eexists. split; [vm_compute; reflexivity|]. split; [vm_compute; reflexivity|]. split; [vm_compute; reflexivity|].
  repeat split; vm_compute; reflexivity.
Qed.
