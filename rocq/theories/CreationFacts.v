(** Machines that keep their promises (Creation.v) never run into undefined behaviour. *)

From Coq Require Import List Arith NArith Bool Lia.
From Verif Require Import Types Static Dispatch Runtime ListFacts IndexFacts Spec
  DispatchFacts FlattenFacts Semantics RefineFacts StaticFacts TermFacts Reach ReachFacts TableFacts
  QueryFacts ProcessFacts Safe SafeFacts SafeObjects Creation.
Import ListNotations.

Section Facts.
Variable m : machine.
Notation env := (mc_env m).
Notation root := (mc_root m).
Hypothesis Hm : compile env root = Some m.
Let Hc : comp m := proj1 (compile_comp _ _ _ Hm).
Context {V W : Type}.
Variable cb : cbfun V W.
Variable promise : place -> sref -> Prop.
Variable steady : callee -> Prop.
Hypothesis Hcb : reliable steady cb.
Notation st := (rt V W).

(** * Performing calls *)
Lemma assign_true live t q : In q (assign live t true) <-> q = t \/ In q live.
Proof.
  unfold assign. destruct (in_dec sref_eq_dec t live) as [H|H]; cbn.
  - split; [auto|]. intros [->|]; auto.
  - split; intros [?|?]; auto.
Qed.
Lemma perform_grows e d o ps v live w ks n v' live' w' :
  perform cb e d o ps v live w ks n v' live' w' ->
  (forall p t, In p ps -> p_makes p = Some t -> exists f, p_callee p = CFactory f) ->
  forall q, In q live -> In q live'.
Proof.
  intros H. induction H as [| p ps v live w b v1 w1 ks n v' live' w' E H IH|]; intros Hp q Hq; auto.
  apply IH; [intros p' t Hi; apply Hp; now right|].
  destruct (p_makes p) as [t|] eqn:Em; [|exact Hq].
  destruct (Hp p t (or_introl eq_refl) Em) as [f Ef]. rewrite Ef in E.
  apply (proj2 Hcb) in E. subst b. apply assign_true. now right.
Qed.
(** Without an exception everything is made. *)
Lemma perform_makes e d o ps v live w ks v' live' w' :
  perform cb e d o ps v live w ks None v' live' w' ->
  (forall p t, In p ps -> p_makes p = Some t -> exists f, p_callee p = CFactory f) ->
  forall p t, In p ps -> p_makes p = Some t -> In t live'.
Proof.
  intros H. remember None as n. revert Heqn.
  induction H as [| p ps v live w b v1 w1 ks n v' live' w' E H IH|]; intros Hn Hp p0 t Hi Em.
  - destruct Hi.
  - assert (Hp' : forall p t, In p ps -> p_makes p = Some t -> exists f, p_callee p = CFactory f).
    { intros p' t' Hi'. apply Hp. now right. }
    destruct Hi as [<-|Hi]; [|eapply IH; eauto].
    rewrite Em in H. destruct (Hp p t (or_introl eq_refl) Em) as [f Ef]. rewrite Ef in E.
    apply (proj2 Hcb) in E. subst b. apply (perform_grows _ _ _ _ _ _ _ _ _ _ _ _ H Hp').
    apply assign_true. now left.
  - discriminate.
Qed.
Lemma perform_makes_early e d o before p after q : forall v live w ks n v' live' w',
  perform cb e d o (before ++ p :: after) v live w ks n v' live' w' ->
  (forall p' t, In p' (before ++ p :: after) -> p_makes p' = Some t -> exists f, p_callee p' = CFactory f) ->
  p_makes p = Some q -> (forall p', In p' (before ++ [p]) -> steady (p_callee p')) -> In q live'.
Proof.
  induction before as [|a before IH]; cbn [app]; intros v live w ks n v' live' w' H Hp Em Hst.
  - inversion H as [| p0 ps v0 l0 w0 b v1 w1 ks0 n0 v2 l2 w2 E H1|p0 ps v0 l0 w0 n0 v1 w1 E]; subst.
    + rewrite Em in H1. destruct (Hp p q (or_introl eq_refl) Em) as [f Ef]. rewrite Ef in E.
      apply (proj2 Hcb) in E. subst b.
      apply (perform_grows _ _ _ _ _ _ _ _ _ _ _ _ H1); [intros p' t Hi; apply Hp; now right|].
      apply assign_true. now left.
    + exfalso. revert E. apply (proj1 Hcb). apply Hst. now left.
  - inversion H as [| p0 ps v0 l0 w0 b v1 w1 ks0 n0 v2 l2 w2 E H1|p0 ps v0 l0 w0 n0 v1 w1 E]; subst.
    + eapply IH; [exact H1| |exact Em|].
      * intros p' t Hi. apply Hp. now right.
      * intros p' Hi. apply Hst. now right.
    + exfalso. revert E. apply (proj1 Hcb). apply Hst. now left.
Qed.

Lemma body_makers at_ t p t' : forall b, In p (body_calls at_ t b) -> p_makes p = Some t' ->
  t' = t /\ exists f, p_callee p = CFactory f.
Proof.
  induction b as [f|f|f|l IH] using abody_ind2; cbn [body_calls].
  - intros [<-|[]]; discriminate.
  - intros [<-|[]] H. inversion H. split; [reflexivity|]. exists f. reflexivity.
  - intros [<-|[]]; discriminate.
  - rewrite in_flat_map. intros (b & Hb & Hp) H. rewrite Forall_forall in IH. exact (IH b Hb Hp H).
Qed.
Lemma effects_makers x o p t : In p (effects env x o) -> p_makes p = Some t ->
  t = target_state env x /\ exists f, p_callee p = CFactory f.
Proof.
  unfold effects. rewrite !in_app_iff.
  assert (P : forall l, In p (map (fun c => mkPrim c (action_target env x o) true None) l) -> p_makes p = Some t -> False).
  { intros l Hi. apply in_map_iff in Hi. destruct Hi as (c & <- & _). discriminate. }
  intros [H|[H|[H|H]]] Hp; try (exfalso; eapply P; eauto; fail).
  destruct (x_act x) as [|ty b]; [destruct H|]. eapply body_makers; eauto.
Qed.

(** * Reusing *)
Definition ready (t : sref) (live : list sref) (ps : list prim) : Prop :=
  forall before p after f, ps = before ++ p :: after -> p_callee p = CReuse f ->
  In t live \/ exists p', In p' before /\ p_makes p' = Some t.

Lemma ready_l t live ps1 ps2 : ready t live (ps1 ++ ps2) -> ready t live ps1.
Proof.
  intros H before p after f -> Hf. apply (H before p (after ++ ps2) f); [|exact Hf].
  now rewrite <- app_assoc.
Qed.
Lemma ready_r t live live' ps1 ps2 : ready t live (ps1 ++ ps2) ->
  (forall q, In q live -> In q live') -> (forall p, In p ps1 -> p_makes p = Some t -> In t live') ->
  ready t live' ps2.
Proof.
  intros H G M before p after f -> Hf.
  destruct (H (ps1 ++ before) p after f) as [Hi|(p' & Hi & Em)]; [now rewrite <- app_assoc|exact Hf|auto|].
  apply in_app_iff in Hi. destruct Hi as [Hi|Hi]; [left; eapply M; eauto|eauto].
Qed.

Lemma body_grows t e b v (s : st) v' s' : exec_body cb b t e v s = Done v' s' ->
  (forall q, In q (rt_live s) -> In q (rt_live s')) /\
  forall p, In p (body_calls (a_tgt (action_args t e)) (t_tgt t) b) -> p_makes p = Some (t_tgt t) ->
    In (t_tgt t) (rt_live s').
Proof.
  intros E. pose proof (exec_body_sound cb t e b v s) as P. rewrite E in P.
  destruct P as (ks & l' & w' & P & ->). cbn.
  assert (F : forall p t0, In p (body_calls (a_tgt (action_args t e)) (t_tgt t) b) -> p_makes p = Some t0 ->
     exists f, p_callee p = CFactory f).
  { intros p t0 Hp Ep. exact (proj2 (body_makers _ _ _ _ _ Hp Ep)). }
  split; [eapply perform_grows; eauto|]. intros p. eapply perform_makes; eauto.
Qed.

Lemma exec_body_ready t e : forall b v (s : st),
  ready (t_tgt t) (rt_live s) (body_calls (a_tgt (action_args t e)) (t_tgt t) b) ->
  no_ub (exec_body cb b t e v s).
Proof.
  induction b as [f|f|f|l IH] using abody_ind2; intros v s Hr.
  - apply bind_no_ub; [apply invoke_no_ub|]. intros; exact I.
  - apply bind_no_ub; [apply invoke_no_ub|]. intros; exact I.
  - cbn [exec_body]. destruct (Hr [] _ [] f eq_refl eq_refl) as [Hi|(p' & [] & _)].
    unfold alive. destruct (in_dec sref_eq_dec (t_tgt t) (rt_live s)); [|contradiction].
    apply bind_no_ub; [apply invoke_no_ub|]. intros; exact I.
  - rewrite exec_body_chain. cbn [body_calls] in Hr. revert v s Hr.
    induction IH as [|b l Hb _ IHl]; intros v s Hr; [exact I|].
    cbn [exec_chain flat_map] in *.
    pose proof (Hb v s (ready_l _ _ _ _ Hr)) as N.
    destruct (exec_body cb b t e v s) as [v' s'|ex s'|u|] eqn:E; cbn [bind]; auto.
    apply IHl. destruct (body_grows t e b v s v' s' E) as [G M]. eapply ready_r; eauto.
Qed.
Lemma exec_steps_ready t e : forall l v (s : st),
  ready (t_tgt t) (rt_live s) (flat_map (step_prims (a_tgt (action_args t e)) (t_tgt t)) l) ->
  no_ub (exec_steps cb l t e v s).
Proof.
  induction l as [|a l IH]; intros v s Hr; [exact I|]. cbn [exec_steps flat_map] in *.
  destruct a as [c|b|c|c]; cbn [exec_step step_prims] in *.
  2:{ pose proof (exec_body_ready t e b v s (ready_l _ _ _ _ Hr)) as N.
      destruct (exec_body cb b t e v s) as [v' s'|ex s'|u|] eqn:E; cbn [bind]; auto.
      apply IH. destruct (body_grows t e b v s v' s' E) as [G M]. eapply ready_r; eauto. }
  all: unfold keep_payload, invoke;
    match goal with |- context [cb ?c ?a ?v ?w] => destruct (cb c a v w) as [b v' w'|n v' w'] end; cbn; auto;
    apply IH; eapply ready_r; [exact Hr|auto|]; intros p [<-|[]]; discriminate.
Qed.

(** * The invariant *)
Definition kept (s : st) : Prop :=
  stocked m s /\
  (forall r pl q, at_place m s r = Some pl -> In q (states m) -> promise pl q -> In q (rt_live s)) /\
  (has_history m = true -> forall p r c pl q, In p (parents m) -> history_of m s p r = Some c ->
     nth_error (places m) (N.to_nat c) = Some pl -> In q (states m) -> promise pl q -> In q (rt_live s)).

Hypothesis Hw : wpm m.
Hypothesis Hk : keeps_promises env root promise steady.
Hypothesis Ha : anonm m.

Lemma present_live (s : st) r pl q : kept s -> at_place m s r = Some pl -> In q (states m) ->
  present env promise pl q -> In q (rt_live s).
Proof.
  intros (S & A & _) Hat Hq [Hd|Hp].
  - now apply S.
  - eapply A; eauto.
Qed.
Lemma live_alive (s : st) q : In q (rt_live s) -> alive s q = true.
Proof. intros H. unfold alive. now destruct (in_dec sref_eq_dec q (rt_live s)). Qed.

Lemma kp_same (s s' : st) : rt_cur s' = rt_cur s -> rt_hist s' = rt_hist s -> rt_live s' = rt_live s -> kept s -> kept s'.
Proof. unfold kept, stocked, at_place, history_of. intros -> -> ->. auto. Qed.

Lemma kp_ask ds d0 (s : st) r pl e d x o v : sinv m ds d0 kept s -> r < max_initials m ->
  at_place m s r = Some pl -> In (d, CRow x o) (bound m ds e pl) ->
  match execute_guard cb (btrans m d x o) e v s with Undef u => False | _ => True end.
Proof.
  intros [_ Hs] _ Hat Hin. apply bound_cands in Hin. destruct (cand_object m Hm _ _ _ _ Hin) as [Ho1 Hd1].
  pose proof (proj2 (offered_iff m Hm e pl (CRow x o)) Hin) as Hof.
  assert (Ht : dst_of m x = target_state env x).
  { apply (dst_of_target m x). eapply row_accepted_dst, cands_accepted; eauto. }
  unfold execute_guard. cbn [t_guard btrans t_src t_int t_tgt].
  destruct (x_guard x) as [|ty val] eqn:Eg; [exact I|].
  destruct (kp_guard _ _ _ _ Hk _ _ _ _ _ _ Hof Eg) as [G1 G2]. rewrite Ht in *.
  rewrite (live_alive s o (present_live s r pl o Hs Hat Ho1 G1)). cbn [andb].
  rewrite (live_alive s (if x_int x then o else target_state env x)).
  - match goal with |- match ?t with _ => _ end => change (no_ub t) end. apply invoke_no_ub.
  - eapply present_live; eauto. destruct (x_int x); assumption.
Qed.

Lemma kept_live (s : st) w ks l : kept s -> (forall q, In q (rt_live s) -> In q l) -> kept (with_live (after s w ks) l).
Proof.
  intros (K1 & K2 & K3) H. split; [|split].
  - intros q Hq Hd. cbn. auto.
  - intros r pl q Hat Hq Hp. cbn. apply H. eapply K2; eauto.
  - intros Eh p r c pl q H1 H2 H3 H4 H5. cbn. apply H. eapply K3; eauto.
Qed.

(** Remembering keeps promises: the remembered place is occupied. *)
Lemma remember_kept r (s : st) : kept s -> kept (remember m r s).
Proof.
  intros (K1 & K2 & K3). destruct (remember_rest m r s) as (_ & El & _ & _ & Ec & _).
  split; [|split].
  - unfold stocked. now rewrite El.
  - intros k pl q Hat. unfold at_place in Hat. rewrite Ec in Hat. rewrite El. exact (K2 k pl q Hat).
  - intros Eh p k c pl q Hp. rewrite El. unfold remember.
    destruct (at_place m s 0) as [[p0 q0]|] eqn:E0; [|exact (K3 Eh p k c pl q Hp)].
    destruct (nth_error (rt_cur s) r) as [[c1|]|] eqn:E1; try exact (K3 Eh p k c pl q Hp).
    destruct (nth_error (rt_hist s) (parent_pos m p0)) as [l|] eqn:E2; [|exact (K3 Eh p k c pl q Hp)].
    unfold history_of. cbn [rt_hist with_hist].
    destruct (Nat.eq_dec (parent_pos m p) (parent_pos m p0)) as [E|Hn].
    2:{ rewrite nth_set_other by exact Hn. exact (K3 Eh p k c pl q Hp). }
    rewrite E, nth_set_same by (apply nth_error_Some; congruence).
    destruct (Nat.eq_dec k r) as [->|Hkr].
    + destruct (Nat.lt_ge_cases r (length l)) as [Hl|Hl].
      * rewrite nth_set_same by exact Hl. intros H; inversion H; subst c1; clear H. intros Epl.
        apply (K2 r). unfold at_place. now rewrite E1.
      * intros H. assert (r < length (set_nth r c1 l)) by (apply nth_error_Some; congruence).
        rewrite set_nth_length in H0. lia.
    + rewrite nth_set_other by exact Hkr. intros H. apply (K3 Eh p k c pl q Hp). unfold history_of. now rewrite E, E2.
Qed.

(** Putting a region into a place whose promises are kept. *)
Lemma relocate_kept r c (s : st) pl0 w ks l : stocked m s ->
  (forall k pl q, k <> r -> at_place m s k = Some pl -> In q (states m) -> promise pl q -> In q (rt_live s)) ->
  (has_history m = true -> forall p k c pl q, In p (parents m) -> history_of m s p k = Some c ->
     nth_error (places m) (N.to_nat c) = Some pl -> In q (states m) -> promise pl q -> In q (rt_live s)) ->
  nth_error (places m) (N.to_nat c) = Some pl0 ->
  (forall q, In q (rt_live s) -> In q l) -> (forall q, In q (states m) -> promise pl0 q -> In q l) ->
  kept (with_live (after (relocate m r c s) w ks) l).
Proof.
  intros K1 K2 K3 Hp Hl Hn. destruct (relocate_rest m r c s) as (_ & El & _ & _ & Ec & Eh).
  split; [|split].
  - intros q Hq Hd. cbn. auto.
  - intros k pl q. unfold at_place. cbn [rt_cur rt_live with_live after with_user]. rewrite Ec.
    destruct (Nat.eq_dec k r) as [->|Hkr].
    + destruct (Nat.lt_ge_cases r (length (rt_cur s))) as [Hr|Hr].
      * rewrite nth_set_same by exact Hr. rewrite Hp. intros H; inversion H; subst. auto.
      * rewrite (proj2 (nth_error_None _ _)) by (rewrite set_nth_length; exact Hr). discriminate.
    + rewrite nth_set_other by exact Hkr. intros H Hq Hpr. apply Hl. eapply K2; eauto.
  - intros E p k c0 pl q. unfold history_of. cbn [rt_hist rt_live with_live after with_user]. rewrite Eh.
    intros H1 H2 H3 H4 H5. apply Hl. eapply K3; eauto.
Qed.

Lemma kp_ready e pl x o (s : st) r : kept s -> at_place m s r = Some pl -> In (CRow x o) (cands m e pl) ->
  ready (target_state env x) (rt_live s) (effects env x o).
Proof.
  intros Hs Hat Hin before p after f E Hf.
  destruct (cand_object m Hm _ _ _ _ Hin) as [_ Hd1].
  pose proof (proj2 (offered_iff m Hm e pl (CRow x o)) Hin) as Hof.
  destruct (dst_of_target m x) as [Ht _]; [eapply row_accepted_dst, cands_accepted; eauto|].
  destruct (kp_reuse _ _ _ _ Hk _ _ _ _ _ _ _ _ Hof E Hf) as [H|H]; [left|now right].
  rewrite Ht in Hd1. eapply present_live; eauto.
Qed.

Lemma act_defined e pl d x o v (s s1 : st) r : kept s -> at_place m s r = Some pl ->
  In (CRow x o) (cands m e pl) -> rt_live s1 = rt_live s ->
  no_ub (execute_action cb (btrans m d x o) e v s1).
Proof.
  intros Hs Hat Hin El. destruct (cand_object m Hm _ _ _ _ Hin) as [Ho1 Hd1].
  pose proof (proj2 (offered_iff m Hm e pl (CRow x o)) Hin) as Hof.
  destruct (dst_of_target m x) as [Ht _]; [eapply row_accepted_dst, cands_accepted; eauto|].
  pose proof (kp_ready e pl x o s r Hs Hat Hin) as Hrd.
  rewrite effects_steps in Hrd.
  unfold execute_action. cbn [t_act btrans t_src t_ptr t_int t_tgt].
  destruct (resolve_action env x) as [steps|] eqn:E; [|exact I].
  assert (Hta : has_action env x = true).
  { unfold resolve_action in E. destruct (has_action env x); [reflexivity|discriminate]. }
  apply (has_action_touches m) in Hta.
  rewrite (live_alive s1 o) by (rewrite El; exact (present_live s r pl o Hs Hat Ho1 (kp_action _ _ _ _ Hk _ _ _ _ Hof Hta))).
  cbn [andb].
  replace (negb (defctor env (dst_of m x)) || x_int x || alive s1 (dst_of m x)) with true.
  - apply exec_steps_ready. cbn [t_tgt btrans]. rewrite Ht, El.
    replace (a_tgt (action_args (btrans m d x o) e)) with (action_target env x o); [exact Hrd|].
    unfold action_args, action_target; cbn. rewrite Ht.
    change (defctor env (target_state env x)) with (default_constructible env (target_state env x)).
    destruct (default_constructible env (target_state env x)); cbn; [|reflexivity]. destruct (x_int x); reflexivity.
  - destruct (defctor env (dst_of m x)) eqn:Ed; [|reflexivity].
    rewrite (live_alive s1 (dst_of m x)); [now rewrite orb_true_r|]. rewrite El. now apply Hs.
Qed.

Lemma kp_fire ds d0 (s s1 : st) r pl e d x o v : sinv m ds d0 kept s -> r < max_initials m ->
  at_place m s r = Some pl -> In (d, CRow x o) (bound m ds e pl) ->
  placed m ds d0 s1 -> moves m r x s s1 ->
  match execute_action cb (btrans m d x o) e v s1 with
  | Done _ s' => kept s'
  | Threw _ s' => kept s'
  | Undef u => False
  | Timeout => True
  end.
Proof.
  intros [P Hs] Hr Hat Hin P1 Hmv. destruct (bound_fine m Hc ds e pl d x o Hin) as [_ Hfl].
  apply bound_cands in Hin.
  destruct (moves_rest m _ _ _ _ Hmv) as (_ & El & _).
  pose proof (act_defined e pl d x o v s s1 r Hs Hat Hin El) as N.
  pose proof (proj2 (offered_iff m Hm e pl (CRow x o)) Hin) as Hof.
  pose proof (row_accepted_dst m x (cands_accepted m Hc _ _ _ _ Hin)) as Hdst.
  pose proof (execute_action_sound cb m d x o e v s1 Hdst) as E.
  assert (FM : forall p t, In p (effects env x o) -> p_makes p = Some t -> exists f, p_callee p = CFactory f).
  { intros p t Hp Ep. exact (proj2 (effects_makers x o p t Hp Ep)). }
  assert (G : forall ks n v' l' w', perform cb e d o (effects env x o) v (rt_live s1) (rt_world s1) ks n v' l' w' ->
     kept (with_live (after s1 w' ks) l')).
  { intros ks n v' l' w' Hp.
    pose proof (perform_grows _ _ _ _ _ _ _ _ _ _ _ _ Hp FM) as Gr. rewrite El in Gr.
    assert (Arr : forall pl', x_int x = false -> is_history (x_tgt x) = false ->
       target_place env x = Some pl' -> forall q, In q (states m) -> promise pl' q -> In q l').
    { intros pl' Hi Hh Ht q Hq Hpr.
      destruct (kp_arrive _ _ _ _ Hk e pl x o pl' q Hof Hi) as [H|(before & p & after & Ee & Em & Hst)]; auto.
      - intros w p Hx. rewrite Hx in Hh. discriminate.
      - apply Gr. eapply present_live; eauto.
      - rewrite Ee in Hp, FM. eapply perform_makes_early; eauto. }
    assert (Cod : forall pl', target_place env x = Some pl' -> x_int x = false ->
        nth_error (places m) (N.to_nat (code m pl')) = Some pl').
    { intros [p' q'] Ht Hi. destruct (dst_of_target m x Hdst) as [_ Ht']. rewrite Ht in Ht'. inversion Ht'; subst p' q'.
      pose proof (row_accepted_states m x (cands_accepted m Hc _ _ _ _ Hin)) as [Hds _].
      apply (decode_code m Hc); [|exact Hds]. apply (wm_dst m Hw).
      auto. }
    destruct Hmv as [s0 Hi|s0 pl' Hi Hh Ht Hset|s0 pl' Hi Hh Hx Ht Hset|s0 wk p c Hi Hh Hx Hhis Hset].
    - now apply kept_live.
    - destruct Hs as (K1 & K2 & K3). apply (relocate_kept r _ s0 pl'); eauto.
      intros q. apply (Arr pl'); auto. unfold is_history. destruct (x_tgt x) eqn:Et; auto.
      exfalso. apply not_true_iff_false in Hh. apply Hh. unfold has_history. apply existsb_exists.
      exists x. split; [auto|]. now rewrite Et.
    - pose proof (remember_kept r s0 Hs) as (K1 & K2 & K3).
      destruct (remember_rest m r s0) as (_ & Er & _).
      apply (relocate_kept r _ (remember m r s0) pl'); eauto. now rewrite Er.
    - pose proof (remember_kept r s0 Hs) as (K1 & K2 & K3).
      destruct (remember_rest m r s0) as (_ & Er & _).
      assert (Hpp : In p (parents m)) by (specialize (wm_dst m Hw x (Hfl Hi)); unfold resolve_dst_parent; now rewrite Hx).
      destruct (pd_hist _ _ _ _ (remember_placed m Hc ds d0 r s0 P) p r c Hpp Hhis) as (pl' & Epl & _).
      apply (relocate_kept r c (remember m r s0) pl'); eauto; [now rewrite Er|].
      intros q Hq Hpr. apply Gr. rewrite <- Er. eapply (K3 Hh p r c pl'); eauto. }
  destruct (execute_action cb (btrans m d x o) e v s1) as [v' s'|ex s'|u|]; cbn in *; auto.
  - destruct E as (ks & l' & w' & Hp & ->). eauto.
  - destruct E as (n & ks & v' & l' & w' & _ & Hp & ->). eauto.
Qed.

Lemma kp_unexpected ds d0 (s : st) pl : sinv m ds d0 kept s -> at_place m s 0 = Some pl ->
  cd_unexpected (lookup env root) = true -> alive s (snd pl) = true \/ False.
Proof.
  intros [P Hs] Hat Hu. left. apply live_alive.
  assert (Hq : In pl (places m) /\ In (snd pl) (states m)).
  { unfold at_place in Hat. destruct (nth_error (rt_cur s) 0) as [[c|]|]; try discriminate.
    split; [eapply nth_error_In; eauto|]. destruct pl as [p q]. apply (places_at_inv m Hc) in Hat. apply Hat. }
  destruct Hq as [Hpl Hq]. eapply present_live; eauto. apply (kp_handler _ _ _ _ Hk Hu).
  now apply (in_places_iff m Hc).
Qed.
Lemma kp_set ds d0 r p q (s s' : st) : modest env promise (V := V) (KSet r p q) -> sinv m ds d0 kept s ->
  In p (parents m) -> In q (states m) -> placed m ds d0 s' -> rt_live s' = rt_live s -> rt_hist s' = rt_hist s ->
  (forall k, at_place m s' k = if Nat.eq_dec k (to_region r) then Some (p, q) else at_place m s k) -> kept s'.
Proof.
  intros Hmo [_ (K1 & K2 & K3)] _ _ _ El Eh A. unfold kept, stocked, history_of. rewrite El, Eh.
  split; [exact K1|]. split; [|exact K3]. intros k pl q'. rewrite A.
  destruct (Nat.eq_dec k (to_region r)); [|apply K2].
  intros H Hq Hp. inversion H; subst. apply K1; [exact Hq|]. now apply Hmo.
Qed.
Lemma kp_new d (s : st) : placed m [d] d s -> rt_live s = filter (defctor env) (states m) ->
  (forall r pl, at_place m s r = Some pl -> fst pl = root /\ In (snd pl) (initials env root)) ->
  rt_hist s = initial_table m -> kept s.
Proof.
  intros _ El A Eh.
  assert (L : forall q, In q (states m) -> defctor env q = true -> In q (rt_live s)).
  { intros q Hq Hd. rewrite El. now apply filter_In. }
  split; [exact L|]. split.
  - intros r [p q'] q Hat Hq Hp. apply A in Hat. cbn in Hat. destruct Hat as [-> Hi]. apply L; [exact Hq|].
    rewrite initials_spec in Hi. exact (kp_start _ _ _ _ Hk q' q Hi Hp).
  - intros Hh p r c pl q Hpp Hhi Hpl Hq Hp. apply L; [exact Hq|].
    unfold history_of in Hhi. rewrite Eh, (initial_table_nth m Hc p Hpp), nth_error_map in Hhi.
    destruct (nth_error (initials env p) r) as [i|] eqn:Ei; [|discriminate]. cbn in Hhi. inversion Hhi; subst c.
    apply nth_error_In in Ei.
    rewrite (decode_code m Hc p i Hpp) in Hpl by (apply (initials_states m Hc p); assumption).
    inversion Hpl; subst. rewrite initials_spec in Ei.
    apply (history_iff _ _ _ Hm) in Hh. apply (kp_history _ _ _ _ Hk Hh p i q); auto.
    now apply (parent_iff m Hc).
Qed.

Variable vnone : V.
Lemma session_kept fuel d w ks : Forall (typed m) ks -> Forall (modest env promise) ks ->
  match session cb m vnone fuel d w ks with
  | Done _ s' => exists ds', sinv m ds' d kept s'
  | Timeout => True
  | _ => False
  end.
Proof.
  intros Ht Hmo.
  exact (session_safe cb m Hc Hw vnone (fun _ => False) kept (modest env promise) kp_same kp_ask kp_fire
    (fun pl H1 H2 => Ha H1 pl H2) kp_unexpected kp_set kp_new fuel d w ks Ht Hmo).
Qed.
End Facts.

(** * The check decides the conditions *)
Section Decide.
Variable m : machine.
Notation env := (mc_env m).
Notation root := (mc_root m).
Hypothesis Hm : compile env root = Some m.
Let Hc : comp m := proj1 (compile_comp _ _ _ Hm).
Variable promise : place -> list sref.
Variable steady : callee -> bool.
Let promised (pl : place) (q : sref) : Prop := In q (promise pl).
Let calm (c : callee) : Prop := steady c = true.

Lemma present_b_iff pl q : present_b m promise pl q = true <-> present env promised pl q.
Proof.
  unfold present_b, present, promised. rewrite orb_true_iff, memb_iff.
  change (defctor env q) with (default_constructible env q). tauto.
Qed.
Lemma makes_it_iff t p : makes_it t p = true <-> p_makes p = Some t.
Proof.
  unfold makes_it. destruct (p_makes p) as [q|]; [|split; discriminate].
  destruct (sref_eq_dec q t) as [->|H]; split; congruence.
Qed.
Lemma is_reuse_iff c : is_reuse c = true <-> exists f, c = CReuse f.
Proof. destruct c; cbn; split; try discriminate; try (intros (f' & H); discriminate); eauto. Qed.

Lemma reuse_check_iff t : forall ps have, reuse_check t have ps = true <->
  forall before p after f, ps = before ++ p :: after -> p_callee p = CReuse f ->
    have = true \/ exists p', In p' before /\ p_makes p' = Some t.
Proof.
  induction ps as [|a ps IH]; intros have; cbn [reuse_check].
  - split; [|reflexivity]. intros _ [|b before] p after f; discriminate.
  - rewrite andb_true_iff, orb_true_iff, negb_true_iff, IH. split.
    + intros [H1 H2] [|b before] p after f E Ef; inversion E; subst.
      * left. destruct H1 as [H1|H1]; [exact H1|]. apply not_true_iff_false in H1. exfalso. apply H1.
        apply is_reuse_iff. eauto.
      * destruct (H2 before p after f eq_refl Ef) as [H|(p' & Hi & Em)].
        -- apply orb_true_iff in H. destruct H as [H|H]; [now left|]. right. exists b. split; [now left|]. now apply makes_it_iff.
        -- right. exists p'. split; [now right|exact Em].
    + intros H. split.
      * destruct (is_reuse (p_callee a)) eqn:Er; [|now right]. apply is_reuse_iff in Er. destruct Er as [f Ef].
        destruct (H [] a ps f eq_refl Ef) as [->|(p' & [] & _)]. now left.
      * intros before p after f -> Ef. destruct (H (a :: before) p after f eq_refl Ef) as [->|(p' & [<-|Hi] & Em)].
        -- now left.
        -- left. apply orb_true_iff. right. now apply makes_it_iff.
        -- right. eauto.
Qed.
Lemma makes_check_iff t : forall ps, makes_check steady t ps = true <->
  exists before p after, ps = before ++ p :: after /\ p_makes p = Some t /\
    forall p', In p' (before ++ [p]) -> calm (p_callee p').
Proof.
  induction ps as [|a ps IH]; cbn [makes_check].
  - split; [discriminate|]. intros ([|b before] & p & after & E & _); discriminate.
  - rewrite andb_true_iff, orb_true_iff, IH, makes_it_iff. split.
    + intros [H1 [H2|(before & p & after & -> & Em & Hs)]].
      * exists [], a, ps. split; [reflexivity|]. split; [exact H2|]. intros p' [<-|[]]. exact H1.
      * exists (a :: before), p, after. split; [reflexivity|]. split; [exact Em|]. intros p' [<-|Hi]; auto.
    + intros ([|b before] & p & after & E & Em & Hs); inversion E; subst.
      * split; [apply Hs; now left|]. now left.
      * split; [apply Hs; now left|]. right. exists before, p, after. split; [reflexivity|]. split; [exact Em|].
        intros p' Hi. apply Hs. now right.
Qed.

Lemma creation_check_iff : wpm m -> (creation_check m promise steady = true <-> keeps_promises env root promised calm).
Proof.
  intros Hw. unfold creation_check. rewrite !andb_true_iff, !orb_true_iff, !negb_true_iff, !forallb_forall.
  assert (CK : forall e pl x o, In (CRow x o) (cands m e pl) ->
     promise_check m promise steady pl (CRow x o) = true <->
     (forall ty val, x_guard x = Guard ty val ->
        present env promised pl o /\ present env promised pl (if x_int x then o else target_state env x)) /\
     (touches env x -> present env promised pl o) /\
     (forall before p after f, effects env x o = before ++ p :: after -> p_callee p = CReuse f ->
        present env promised pl (target_state env x) \/ exists p', In p' before /\ p_makes p' = Some (target_state env x)) /\
     (x_int x = false -> (forall w p, x_tgt x <> SHistory w p) -> forall pl' q,
        target_place env x = Some pl' -> promised pl' q -> present env promised pl q \/ makes env calm x o q)).
  { intros e pl x o Hin. unfold promise_check. rewrite !andb_true_iff, !orb_true_iff, negb_true_iff, reuse_check_iff.
    rewrite !present_b_iff, <- (has_action_touches m).
    assert (G : match x_guard x with NoGuard => true | Guard _ _ =>
         present_b m promise pl o && present_b m promise pl (if x_int x then o else target_state env x) end = true <->
       forall ty val, x_guard x = Guard ty val ->
        present env promised pl o /\ present env promised pl (if x_int x then o else target_state env x)).
    { destruct (x_guard x) as [|ty val]; [split; [discriminate|reflexivity]|].
      rewrite andb_true_iff, !present_b_iff. split; [auto|]. intros H. exact (H ty val eq_refl). }
    assert (A : ((x_int x = true \/ is_history (x_tgt x) = true) \/
        match target_place env x with None => true | Some pl' =>
          forallb (fun q => present_b m promise pl q || makes_check steady q (effects env x o)) (promise pl') end = true) <->
       (x_int x = false -> (forall w p, x_tgt x <> SHistory w p) -> forall pl' q,
        target_place env x = Some pl' -> promised pl' q -> present env promised pl q \/ makes env calm x o q)).
    { split.
      - intros [[H|H]|H] Hi Hh pl' q Ht Hp.
        + congruence.
        + exfalso. destruct (x_tgt x) eqn:Et; try discriminate. eapply Hh; reflexivity.
        + rewrite Ht in H. rewrite forallb_forall in H. specialize (H q Hp).
          now rewrite orb_true_iff, present_b_iff, makes_check_iff in H.
      - intros H. destruct (x_int x); [now left; left|]. destruct (is_history (x_tgt x)) eqn:Eh; [now left; right|].
        right. destruct (target_place env x) as [pl'|]; [|reflexivity]. apply forallb_forall. intros q Hq.
        rewrite orb_true_iff, present_b_iff, makes_check_iff. apply (H eq_refl) with pl'; auto.
        intros w p E. rewrite E in Eh. discriminate. }
    rewrite G, A.
    assert (T : has_action env x = false \/ present env promised pl o <-> (has_action env x = true -> present env promised pl o)).
    { destruct (has_action env x); split.
      - intros [H|H] _; [discriminate|exact H].
      - auto.
      - discriminate.
      - now left. }
    assert (R : (forall before p after f, effects env x o = before ++ p :: after -> p_callee p = CReuse f ->
        present_b m promise pl (target_state env x) = true \/ exists p', In p' before /\ p_makes p' = Some (target_state env x)) <->
      (forall before p after f, effects env x o = before ++ p :: after -> p_callee p = CReuse f ->
        present env promised pl (target_state env x) \/ exists p', In p' before /\ p_makes p' = Some (target_state env x))).
    { split; intros H before p after f E Ef; destruct (H before p after f E Ef) as [H'|H']; auto; left; now apply present_b_iff. }
    rewrite T, R. tauto. }
  assert (IP : forall p, In p (parents m) <-> is_parent env root p) by (intros; apply (parent_iff m Hc)).
  split.
  - intros [[[H1 H2] H3] H4].
    assert (C : forall e pl x o, offered env root e pl (CRow x o) -> promise_check m promise steady pl (CRow x o) = true /\
        In (CRow x o) (cands m e pl)).
    { intros e pl x o Ho. apply (offered_iff m Hm) in Ho. split; [|exact Ho].
      destruct (cands_support m Hm e pl _ (wm_regs m Hw) Ho) as [He Hp]. specialize (H3 e He). rewrite forallb_forall in H3.
      specialize (H3 pl Hp). rewrite forallb_forall in H3. auto. }
    split.
    + intros i q Hi Hp. rewrite <- initials_spec in Hi. specialize (H1 i Hi). rewrite forallb_forall in H1. now apply H1.
    + intros Hh p i q Hp Hi Hpr. apply (history_iff _ _ _ Hm) in Hh. rewrite Hh in H2. destruct H2 as [H2|H2]; [discriminate|].
      apply IP in Hp. specialize (H2 p Hp). rewrite forallb_forall in H2.
      rewrite <- initials_spec in Hi. specialize (H2 i Hi). rewrite forallb_forall in H2. now apply H2.
    + intros e pl x o ty val Ho. destruct (C e pl x o Ho) as [H Hin]. apply (CK e pl x o Hin) in H. apply H.
    + intros e pl x o Ho. destruct (C e pl x o Ho) as [H Hin]. apply (CK e pl x o Hin) in H. apply H.
    + intros e pl x o before p after f Ho. destruct (C e pl x o Ho) as [H Hin]. apply (CK e pl x o Hin) in H. apply H.
    + intros e pl x o pl' q Ho. destruct (C e pl x o Ho) as [H Hin]. apply (CK e pl x o Hin) in H.
      destruct H as (_ & _ & _ & H). intros Hi Hh. exact (H Hi Hh pl' q).
    + intros Hu pl Hpl. rewrite Hu in H4. destruct H4 as [H4|H4]; [discriminate|].
      apply present_b_iff, H4. now apply (in_places_iff m Hc).
  - intros [K1 K2 K3 K4 K5 K6 K7]. split; [split; [split|]|].
    + intros i Hi. apply forallb_forall. intros q Hq. rewrite initials_spec in Hi. exact (K1 i q Hi Hq).
    + destruct (has_history m) eqn:Hh; [right|now left]. apply (history_iff _ _ _ Hm) in Hh.
      intros p Hp. apply forallb_forall. intros i Hi. apply forallb_forall. intros q Hq.
      rewrite initials_spec in Hi. apply IP in Hp. exact (K2 Hh p i q Hp Hi Hq).
    + intros e He. apply forallb_forall. intros pl Hpl. apply forallb_forall. intros [|x o] Hin; [reflexivity|].
      pose proof (proj2 (offered_iff m Hm e pl (CRow x o)) Hin) as Ho.
      apply (CK e pl x o Hin). split; [|split; [|split]].
      * intros ty val. eapply K3; eauto.
      * eapply K4; eauto.
      * intros before p after f. eapply K5; eauto.
      * intros Hi Hh pl' q. eapply K6; eauto.
    + destruct (cd_unexpected (lookup env root)) eqn:Hu; [right|now left]. intros pl Hpl.
      apply present_b_iff, (K7 eq_refl). now apply (in_places_iff m Hc).
Qed.
End Decide.

(** * In terms of the program *)
Section Program.
Context {V W : Type}.
Variable cb : cbfun V W.
Variables (env : cenv) (root : cls) (m : machine).
Hypothesis Hm : compile env root = Some m.

Lemma creation_check_decides promise steady : well_placed env root ->
  (creation_check m promise steady = true <->
   keeps_promises env root (fun pl q => In q (promise pl)) (fun c => steady c = true)).
Proof.
  intros Hw. destruct (compiled_itself env root m Hm) as (Hm' & He & Hr).
  rewrite (creation_check_iff m Hm' promise steady (wpm_placed env root m Hm Hw)). now rewrite He, Hr.
Qed.

Variable promise : place -> sref -> Prop.
Variable steady : callee -> Prop.

Lemma session_promises vnone fuel d w ks :
  well_placed env root -> no_anonymous_deferral env root -> keeps_promises env root promise steady ->
  reliable steady cb -> Forall (well_typed env root) ks -> Forall (modest env promise) ks ->
  match session cb m vnone fuel d w ks with
  | Done _ s => forall r pl q, at_place m s r = Some pl -> is_state env root q ->
      present env promise pl q -> In q (rt_live s)
  | Timeout => True
  | _ => False
  end.
Proof.
  intros Hw Ha Hk Hcb Ht Hmo. destruct (compiled_itself env root m Hm) as (Hm' & He & Hr).
  pose proof (proj1 (compile_comp _ _ _ Hm)) as Hc.
  pose proof (wpm_placed env root m Hm Hw) as Hwm.
  assert (Ham : anonm m) by (apply (anonm_iff m Hm'); now rewrite He, Hr).
  assert (Hkm : keeps_promises (mc_env m) (mc_root m) promise steady) by now rewrite He, Hr.
  assert (Hmm : Forall (modest (mc_env m) promise) ks) by now rewrite He.
  pose proof (session_kept m Hm' cb promise steady Hcb Hwm Hkm Ham vnone fuel d w ks
    (typed_all env root m ks Hm Ht) Hmm) as P.
  destruct (session cb m vnone fuel d w ks) as [os s|ex s|u|]; auto.
  destruct P as (ds' & _ & K). intros r pl q Hat Hq Hp. eapply (present_live m promise s r pl q K); eauto.
  - apply (state_iff m Hc). now rewrite He, Hr.
  - now rewrite He.
Qed.
End Program.
