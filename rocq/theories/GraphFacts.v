(** The regions stay within the graph of Graph.v. *)

From Coq Require Import List Arith NArith Bool Lia.
From Verif Require Import Types Static Dispatch Runtime ListFacts IndexFacts Spec
  DispatchFacts FlattenFacts Semantics RefineFacts StaticFacts TermFacts Reach ReachFacts TableFacts
  QueryFacts ProcessFacts Safe SafeFacts SafeObjects StepFacts Exact ExactFacts ExactIff Graph.
Import ListNotations.

Lemma visitable_mono env root r (S S' : place -> Prop) : (forall pl, S pl -> S' pl) -> forall pl,
  visitable env root r S pl -> visitable env root r S' pl.
Proof. intros H pl V. induction V; [apply vi_start; auto|eapply vi_row; eauto]. Qed.
Lemma nth_pos_is {A} (dec : forall a b : A, {a = b} + {a <> b}) a b l : nth_error l (pos dec a l) = Some b -> b = a.
Proof.
  intros H. destruct (in_dec dec a l) as [Hi|Hn].
  - rewrite (nth_pos dec) in H by exact Hi. congruence.
  - rewrite (pos_absent dec) in H by exact Hn. rewrite (proj2 (nth_error_None _ _)) in H by lia. discriminate.
Qed.

Section Facts.
Variable m : machine.
Notation env := (mc_env m).
Notation root := (mc_root m).
Hypothesis Hm : compile env root = Some m.
Let Hc : comp m := proj1 (compile_comp _ _ _ Hm).
Hypothesis Hmax : max_initials m <= 255.
Context {V W : Type}.
Variable cb : cbfun V W.
Variable vnone : V.
Notation st := (rt V W).
Notation decoded c := (nth_error (places m) (N.to_nat c)).

Lemma scan_none_guarded e bs v w ks v' w' : scan cb m e bs v w ks VNone v' w' -> Forall (fun b => guarded (snd b)) bs.
Proof.
  remember VNone as vd. intros H. revert Heqvd. induction H; intros E; try discriminate; constructor; auto.
  cbn. congruence.
Qed.
Lemma scan_reached ds e pl v w ks d x o v' w' : scan cb m e (bound m ds e pl) v w ks (VPick d x o) v' w' ->
  reached m e pl (CRow x o).
Proof.
  intros H. apply scan_pick in H. destruct H as (pre & rest & k1 & k2 & v1 & w1 & E & _ & Hs & _).
  eapply bound_reached; [exact E|]. eapply scan_none_guarded; eauto.
Qed.

Section Inv.
Variable start : nat -> place -> Prop.
Notation vis r := (visitable env root r (start r)).

Definition within (s : st) : Prop :=
  (forall r pl, at_place m s r = Some pl -> vis r pl) /\
  (forall p r c pl, In p (parents m) -> history_of m s p r = Some c -> decoded c = Some pl ->
     vis r pl \/ exists i, nth_error (initial_states env p) r = Some i /\ pl = (p, i)).

Lemma within_same (s s' : st) : rt_cur s' = rt_cur s -> rt_hist s' = rt_hist s -> within s -> within s'.
Proof. unfold within, at_place, history_of. intros -> ->. auto. Qed.

Lemma remember_within r (s : st) : within s -> within (remember m r s).
Proof.
  intros (K2 & K3). destruct (remember_rest m r s) as (_ & _ & _ & _ & Ec & _). split.
  - intros k pl Hat. unfold at_place in Hat. rewrite Ec in Hat. exact (K2 k pl Hat).
  - intros p k c pl Hp. unfold remember.
    destruct (at_place m s 0) as [[p0 q0]|] eqn:E0; [|exact (K3 p k c pl Hp)].
    destruct (nth_error (rt_cur s) r) as [[c1|]|] eqn:E1; try exact (K3 p k c pl Hp).
    destruct (nth_error (rt_hist s) (parent_pos m p0)) as [l|] eqn:E2; [|exact (K3 p k c pl Hp)].
    unfold history_of. cbn [rt_hist with_hist].
    destruct (Nat.eq_dec (parent_pos m p) (parent_pos m p0)) as [E|Hn].
    2:{ rewrite nth_set_other by exact Hn. exact (K3 p k c pl Hp). }
    rewrite E, nth_set_same by (apply nth_error_Some; congruence).
    destruct (Nat.eq_dec k r) as [->|Hkr].
    + destruct (Nat.lt_ge_cases r (length l)) as [Hl|Hl].
      * rewrite nth_set_same by exact Hl. intros H; inversion H; subst c1; clear H. intros Epl.
        left. apply (K2 r). unfold at_place. now rewrite E1.
      * intros H. assert (L : r < length (set_nth r c1 l)) by (apply nth_error_Some; congruence).
        rewrite set_nth_length in L. lia.
    + rewrite nth_set_other by exact Hkr. intros H. apply (K3 p k c pl Hp). unfold history_of. now rewrite E, E2.
Qed.

Lemma relocate_within r c (s : st) : within s -> (forall pl, decoded c = Some pl -> vis r pl) ->
  within (relocate m r c s).
Proof.
  intros (K2 & K3) Hp. destruct (relocate_rest m r c s) as (_ & _ & _ & _ & Ec & Eh). split.
  - intros k pl. unfold at_place. rewrite Ec. destruct (Nat.eq_dec k r) as [->|Hkr].
    + destruct (Nat.lt_ge_cases r (length (rt_cur s))) as [Hr|Hr].
      * rewrite nth_set_same by exact Hr. apply Hp.
      * rewrite (proj2 (nth_error_None _ _)) by (rewrite set_nth_length; exact Hr). discriminate.
    + rewrite nth_set_other by exact Hkr. exact (K2 k pl).
  - intros p k c0 pl. unfold history_of. rewrite Eh. exact (K3 p k c0 pl).
Qed.

Lemma moves_within ds d0 r e pl x o (s s1 : st) : tinv m ds d0 s -> at_place m s r = Some pl ->
  reached m e pl (CRow x o) -> moves m r x s s1 -> within s -> within s1.
Proof.
  intros T Hat Hre Hmv Hw.
  pose proof (cands_flat m Hc e pl x o (reached_in m e pl _ Hre)) as Hfl.
  assert (Hv : vis r pl) by (apply (proj1 Hw); exact Hat).
  assert (P : possible env root e pl (CRow x o)) by (now apply (possible_iff m Hm)).
  assert (G : forall pl' , x_int x = false -> is_history (x_tgt x) = false -> target_place env x = Some pl' ->
     forall pl2, decoded (code m pl') = Some pl2 -> vis r pl2).
  { intros pl' Hi Hh Ht pl2 E. unfold code in E. rewrite Nnat.Nat2N.id in E. apply nth_pos_is in E. subst pl2.
    eapply vi_row; eauto. apply le_target; [|exact Ht]. intros w p Ex. rewrite Ex in Hh. discriminate. }
  destruct Hmv as [s0 Hi|s0 pl' Hi Hh Ht Hset|s0 pl' Hi Hh Hx Ht Hset|s0 wk p c Hi Hh Hx Hhis Hset].
  - exact Hw.
  - apply relocate_within; [exact Hw|]. apply (G pl'); auto. unfold is_history. destruct (x_tgt x) eqn:Et; auto.
    exfalso. apply not_true_iff_false in Hh. apply Hh. unfold has_history. apply existsb_exists.
    exists x. split; [auto|]. now rewrite Et.
  - apply relocate_within; [now apply remember_within|]. now apply (G pl').
  - pose proof (remember_within r s0 Hw) as Hw'. apply relocate_within; [exact Hw'|]. intros pl2 E.
    assert (Hp : In p (parents m)).
    { destruct (in_dec Nat.eq_dec p (parents m)) as [Hp|Hn]; [exact Hp|]. exfalso. unfold history_of in Hhis.
      unfold parent_pos in Hhis. rewrite (pos_absent Nat.eq_dec) in Hhis by exact Hn.
      assert (T' : tinv m ds d0 (remember m r s0)).
      { eapply frame_tinv; [|exact T]. apply remember_frame. }
      pose proof (tinv_hist_length m ds d0 _ T') as L. unfold n_parents in L.
      rewrite (proj2 (nth_error_None _ _)) in Hhis by (unfold cls in *; lia). discriminate. }
    destruct (proj2 Hw' p r c pl2 Hp Hhis E) as [H|(i & Ei & ->)]; [exact H|].
    eapply vi_row; eauto. eapply le_history; eauto.
Qed.

Lemma within_step ds d0 r e v (s : st) vd v' s' : r < max_initials m -> tinv m ds d0 s -> rinv m s -> within s ->
  region_step cb m ds r e v s vd v' s' -> within s'.
Proof.
  intros _ T _ Hw St. destruct St as [v s pl H1 H2|v s pl ks v' w' H1 H2 H3|v s pl ks d x o v1 w1 v' s' H1 H2 H3
    |v s pl ks v' w' H1 H2|v s pl ks n v' w' H1 H2|v s pl ks d x o v1 w1 n v' s' H1 H2 H3]; try exact Hw;
    inversion H3 as [v0 s0 s1 ks' n' v2 l' w' Hmv Hp]; subst.
  all: assert (Hw1 : within s1) by
    (eapply (moves_within ds d0 r e pl x o (after s w1 ks)); eauto;
     [apply (tinv_frame m ds d0 s); auto|eapply scan_reached; eauto]); exact Hw1.
Qed.

Lemma within_new fuel d w (s : st) : (forall r i, nth_error (initial_states env root) r = Some i -> start r (root, i)) ->
  construct m fuel d w = Done tt s -> fresh m d w s -> within s.
Proof.
  intros Hst _ (F1 & F2 & F3 & _). split.
  - intros r pl. unfold at_place. rewrite F2, initials_spec.
    destruct (nth_error (initial_states env root) r) as [i|] eqn:Ei.
    + unfold code. rewrite Nnat.Nat2N.id. intros E. apply nth_pos_is in E. subst pl. apply vi_start. auto.
    + destruct (Nat.ltb r (max_initials m)); discriminate.
  - intros p r c pl Hp. unfold history_of. rewrite F3, (initial_table_nth m Hc p Hp), nth_error_map, initials_spec.
    destruct (nth_error (initial_states env p) r) as [i|] eqn:Ei; [|discriminate].
    cbn [option_map]. intros E E'. inversion E; subst c. unfold code in E'. rewrite Nnat.Nat2N.id in E'.
    apply nth_pos_is in E'. subst pl. right. eauto.
Qed.

Lemma within_set (s : st) r p q : within s -> start r (p, q) ->
  within (with_cur s (set_nth r (Some (code m (p, q))) (rt_cur s))).
Proof.
  intros (K2 & K3) Hst. split; [|exact K3]. intros k pl. unfold at_place. cbn [rt_cur with_cur].
  destruct (Nat.eq_dec k r) as [->|Hkr].
  - destruct (Nat.lt_ge_cases r (length (rt_cur s))) as [Hr|Hr].
    + rewrite nth_set_same by exact Hr. unfold code. rewrite Nnat.Nat2N.id. intros E. apply nth_pos_is in E.
      subst pl. now apply vi_start.
    + rewrite (proj2 (nth_error_None _ _)) by (rewrite set_nth_length; exact Hr). discriminate.
  - rewrite nth_set_other by exact Hkr. exact (K2 k pl).
Qed.
End Inv.

Lemma within_mono (S S' : nat -> place -> Prop) (s : st) : (forall r pl, S r pl -> S' r pl) -> within S s -> within S' s.
Proof.
  intros H (K2 & K3). split.
  - intros r pl Hat. eapply visitable_mono; [apply H|]. exact (K2 r pl Hat).
  - intros p r c pl Hp Hh Hd. destruct (K3 p r c pl Hp Hh Hd) as [Hv|Hi]; [left|now right].
    eapply visitable_mono; [apply H|exact Hv].
Qed.

Lemma client_reachable ks ds d0 (s : st) : client cb m vnone ks ds d0 s -> reachable cb m vnone ds d0 s.
Proof. intros H. induction H; [eapply reach_new; eauto|eapply reach_call; eauto]. Qed.

Lemma client_within ks ds d0 (s : st) : client cb m vnone ks ds d0 s -> within (put env root ks) s.
Proof.
  intros H. induction H as [fuel d w s H|fuel ks ds d0 s k o s' H IH H1].
  - destruct (construct_sound m Hc _ _ _ _ (root_initials_le m Hc Hmax) H) as [F _].
    eapply within_new; eauto. intros r i Hi. now apply pu_initial.
  - pose proof (client_reachable _ _ _ _ H) as Hr.
    pose proof (reachable_rinvs cb m Hc vnone Hmax ds d0 s Hr) as R.
    pose proof (call_sound cb m Hc vnone Hmax d0 ds fuel k s o s' R H1) as E.
    assert (Hw : within (put env root (ks ++ [k])) s).
    { eapply within_mono; [|exact IH]. intros r pl [i Hi|r' p q Hi Hr']; [now apply pu_initial|].
      eapply pu_set; [apply in_or_app; left; exact Hi|exact Hr']. }
    clear IH. destruct k as [e v|r p q|p|r p q|d|]; cbn [call_effect deps_after] in *; try (subst s'; exact Hw).
    + destruct E as (vds & rp & P & _). destruct R as [T R _].
      eapply (process_keeps cb m Hc vnone ds d0 (within (put env root (ks ++ [KProcess e v])))); eauto.
      intros; eapply within_step; eauto.
    + destruct E as [(_ & Hq & Hp & Hrl & ->)|(_ & ->)]; [|exact Hw]. apply within_set; [exact Hw|].
      eapply pu_set; [apply in_or_app; right; left; reflexivity|reflexivity].
    + destruct E as (_ & t & _ & ->). exact Hw.
Qed.

Lemma amid_within ks ds d0 (s : st) : amid cb m vnone ks ds d0 s ->
  tinv m ds d0 s /\ rinv m s /\ within (put env root ks) s.
Proof.
  intros H. induction H as [s H|s r e v tv s' H IH E|s r v bv s' H IH E|s e v q H IH E].
  - pose proof (reachable_rinvs cb m Hc vnone Hmax ds d0 s (client_reachable _ _ _ _ H)) as [T R _].
    split; [exact T|]. split; [exact R|now apply (client_within ks ds d0)].
  - destruct IH as (T & R & Hi).
    assert (P : exists vd v', region_step cb m ds r e v s vd v' s').
    { pose proof (try_region_sound cb m Hc ds d0 r e v s T) as P. rewrite E in P.
      destruct tv as [[[| |]|] v']; try (destruct P as [x P]); eauto. }
    destruct P as (vd & v' & P). pose proof (region_step_place cb m ds r e v s vd v' s' P) as Hr.
    rewrite (ti_cur _ _ _ _ T) in Hr.
    eapply (step_J cb m Hc ds d0 (within (put env root ks))); eauto. intros; eapply within_step; eauto.
  - destruct IH as (T & R & Hi).
    assert (P : exists vd v', region_step cb m ds r ENone v s vd v' s').
    { pose proof (anonymous_region_sound cb m Hc ds d0 r v s T) as P. rewrite E in P.
      destruct bv as [[[|]|] v']; try (destruct P as [x P]); eauto. }
    destruct P as (vd & v' & P). pose proof (region_step_place cb m ds r ENone v s vd v' s' P) as Hr.
    rewrite (ti_cur _ _ _ _ T) in Hr.
    eapply (step_J cb m Hc ds d0 (within (put env root ks))); eauto. intros; eapply within_step; eauto.
  - destruct IH as (T & R & Hi). split; [apply (tinv_frame m ds d0 s); auto|]. split; [exact R|exact Hi].
Qed.

Lemma run_client fuel : forall ks ks0 ds d0 (s : st) outs s', client cb m vnone ks0 ds d0 s ->
  run cb m vnone fuel ks s = Done outs s' -> exists ds', client cb m vnone (ks0 ++ ks) ds' d0 s'.
Proof.
  induction ks as [|k ks IH]; intros ks0 ds d0 s outs s' H E.
  - cbn in E. inversion E; subst. rewrite app_nil_r. eauto.
  - cbn [run] in E. destruct (do_call_catch cb m vnone fuel k s) as [o s1|x s1|u|] eqn:Ek; try discriminate.
    cbn [bind] in E. destruct (run cb m vnone fuel ks s1) as [os s2|x s2|u|] eqn:Er; try discriminate.
    cbn [bind] in E. inversion E; subst. replace (ks0 ++ k :: ks) with ((ks0 ++ [k]) ++ ks) by (now rewrite <- app_assoc).
    eapply IH; [|exact Er]. eapply cl_call; eauto.
Qed.
Lemma session_client fuel d w ks outs (s : st) : session cb m vnone fuel d w ks = Done outs s ->
  exists ds, client cb m vnone ks ds d s.
Proof.
  unfold session. destruct (construct m fuel d w) as [[] s0|x s0|u|] eqn:E; try discriminate. cbn [bind].
  intros H. change ks with ([] ++ ks). eapply run_client; [eapply cl_new; eauto|exact H].
Qed.

(** The check. *)
Lemma closed_check_sound r R : regs_ok m -> closed_check m r R = true -> forall (start : place -> Prop) pl,
  (forall pl, start pl -> In pl R) -> visitable env root r start pl -> In pl R.
Proof.
  intros Hr H start pl Hs Hv. unfold closed_check in H. apply andb_true_iff in H. destruct H as [_ H].
  induction Hv as [pl Hp|e pl x o pl' Hv IH Hp Hi Hl]; [auto|].
  rewrite forallb_forall in H. specialize (H pl IH).
  rewrite forallb_forall in H. apply (possible_iff m Hm) in Hp.
  destruct (reached_support m Hm Hr e pl _ Hp) as [He _]. specialize (H e He). rewrite forallb_forall in H.
  specialize (H (CRow x o) (proj2 (reached_at_iff m e pl _) Hp)). cbn in H. rewrite Hi in H. cbn [orb] in H.
  unfold leads_in in H. destruct Hl as [pl' Hn Ht|w p i Et Ei].
  - rewrite Ht in H. destruct (x_tgt x); try (exfalso; eapply Hn; reflexivity);
      unfold memb in H; destruct (in_dec place_eq_dec pl' R); auto; discriminate.
  - rewrite Et, Ei in H. unfold memb in H. destruct (in_dec place_eq_dec (p, i) R); auto; discriminate.
Qed.
Lemma client_regs ks ds d0 (s : st) : client cb m vnone ks ds d0 s -> regs_ok m.
Proof.
  intros H. induction H as [fuel d w s H|]; [|assumption]. unfold construct in H.
  destruct (if cd_unexpected (lookup env root) then fill_handlers m d else Some []) as [h|]; [|discriminate].
  destruct (fill_dispatch m d (empty_tables m)) as [t|] eqn:E; [|discriminate].
  apply (fill_ok_iff m Hc d (empty_tables m) (empty_tables_shape m)). eauto.
Qed.
End Facts.
