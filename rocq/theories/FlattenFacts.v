(** The flattened tables contain exactly the declared rows. *)

From Coq Require Import List Arith NArith Bool Lia.
From Verif Require Import Types Static Dispatch ListFacts IndexFacts Spec DispatchFacts.
Import ListNotations.

Lemma concat_opt_Some {A} (l : list (option (list A))) r :
  concat_opt l = Some r ->
  (forall o, In o l -> exists a, o = Some a) /\
  forall x, In x r <-> exists a, In (Some a) l /\ In x a.
Proof.
  revert r; induction l as [|o l IH]; cbn; intros r H.
  - injection H as <-. split; [intros ? []|]. intros x. split; [intros []|intros (? & [] & _)].
  - destruct o as [a|]; [|discriminate]. destruct (concat_opt l) as [b|]; [|discriminate].
    injection H as <-. destruct (IH b eq_refl) as [H1 H2]. split.
    + intros o [<-|Ho]; [eauto|auto].
    + intros x. rewrite in_app_iff, H2. split.
      * intros [Hx|(c & Hc & Hx)]; [exists a; auto|exists c; auto].
      * intros (c & [Hc|Hc] & Hx); [left; congruence|right; eauto].
Qed.
Lemma concat_opt_all {A} (l : list (option (list A))) :
  (forall o, In o l -> exists a, o = Some a) -> exists r, concat_opt l = Some r.
Proof.
  induction l as [|o l IH]; cbn; intros H; [eauto|].
  destruct (H o (or_introl eq_refl)) as (a & ->).
  destruct IH as (r & ->); [auto|]. eauto.
Qed.
Lemma concat_opt_None {A} (l : list (option (list A))) :
  In None l -> concat_opt l = None.
Proof.
  induction l as [|o l IH]; cbn; [tauto|]. intros [-> |H]; [reflexivity|].
  rewrite IH by exact H. destruct o; reflexivity.
Qed.

(** What a row contributes to the flattened table. *)
Definition contrib (f : nat) (env : cenv) (c : cls) (r : row) : option (list xrow) :=
  match sub_state_parent (r_tgt r) with
  | SState p =>
      if has_table env (SState p)
      then match flatten f env p with
           | Some sub => Some (extend c r :: sub)
           | None => None
           end
      else Some [extend c r]
  | _ => Some [extend c r]
  end.
Lemma flatten_S f env c :
  flatten (S f) env c =
  match cd_table (lookup env c) with
  | None => None
  | Some rows => concat_opt (map (contrib f env c) rows)
  end.
Proof. reflexivity. Qed.

Lemma leads_into_iff t p : leads_into t p <-> sub_state_parent t = SState p.
Proof.
  split.
  - intros H. destruct H; reflexivity.
  - destruct t; cbn; intros H; inversion H; subst; constructor.
Qed.
Lemma has_table_iff env c : has_table env (SState c) = true <-> composite env c.
Proof.
  unfold has_table, table_of, composite.
  destruct (cd_table (lookup env c)); split; congruence.
Qed.

Lemma flatten_mono env : forall f c l, flatten f env c = Some l -> flatten (S f) env c = Some l.
Proof.
  induction f as [|f IH]; intros c l H; [discriminate|].
  rewrite flatten_S in *. destruct (cd_table (lookup env c)) as [rows|]; [|discriminate].
  rewrite <- H. f_equal. apply map_ext_in. intros r Hr. unfold contrib.
  destruct (sub_state_parent (r_tgt r)) eqn:E; try reflexivity.
  destruct (has_table env (SState c0)) eqn:Ht; [|reflexivity].
  destruct (flatten f env c0) as [sub|] eqn:Ef.
  - rewrite (IH _ _ Ef). reflexivity.
  - exfalso. rewrite concat_opt_None in H; [discriminate|].
    apply in_map_iff. exists r. split; [|exact Hr]. unfold contrib. rewrite E, Ht, Ef. reflexivity.
Qed.
Lemma flatten_mono_le env f g c l : f <= g -> flatten f env c = Some l -> flatten g env c = Some l.
Proof. intros Hle H. induction Hle; [exact H|]. apply flatten_mono. exact IHHle. Qed.
Lemma flatten_det env f g c l l' : flatten f env c = Some l -> flatten g env c = Some l' -> l = l'.
Proof.
  intros H1 H2. apply (flatten_mono_le env f (max f g)) in H1; [|lia].
  apply (flatten_mono_le env g (max f g)) in H2; [|lia]. congruence.
Qed.

(** Membership, one direction at a time. *)
Lemma used_trans env a b c : used env a b -> used env b c -> used env a c.
Proof.
  intros Hab Hbc. induction Hbc as [|p r d Hp IH Hr Hl Hd]; [exact Hab|].
  eapply used_sub; eauto.
Qed.

Lemma flatten_sound env : forall f c l x,
  flatten f env c = Some l -> In x l -> declared env c x.
Proof.
  induction f as [|f IH]; intros c l x H Hx; [discriminate|].
  rewrite flatten_S in H. destruct (cd_table (lookup env c)) as [rows|] eqn:Et; [|discriminate].
  apply concat_opt_Some in H. destruct H as [_ H]. apply H in Hx.
  destruct Hx as (a & Ha & Hx). apply in_map_iff in Ha. destruct Ha as (r & Hcr & Hr).
  assert (Hrt : In r (table env c)) by (unfold table; rewrite Et; exact Hr).
  assert (Hown : declared env c (extend c r)).
  { exists c, r. repeat split; [constructor|exact Hrt]. }
  unfold contrib in Hcr.
  destruct (sub_state_parent (r_tgt r)) eqn:Es;
    try (injection Hcr as <-; destruct Hx as [<-|[]]; exact Hown).
  destruct (has_table env (SState c0)) eqn:Eh;
    [|injection Hcr as <-; destruct Hx as [<-|[]]; exact Hown].
  destruct (flatten f env c0) as [sub|] eqn:Ef; [|discriminate].
  injection Hcr as <-. destruct Hx as [<-|Hx]; [exact Hown|].
  destruct (IH _ _ _ Ef Hx) as (p & r' & Hu & Hr' & ->).
  exists p, r'. split; [|auto]. eapply used_trans; [|exact Hu].
  eapply used_sub; [constructor|exact Hrt|apply leads_into_iff; exact Es|].
  apply has_table_iff. exact Eh.
Qed.

(** [used] seen from the top: first step first. *)
Lemma used_inv env c d : used env c d ->
  d = c \/ exists r c', In r (table env c) /\ leads_into (r_tgt r) c' /\ composite env c' /\ used env c' d.
Proof.
  induction 1 as [|p r d Hp IH Hr Hl Hd]; [auto|]. right.
  destruct IH as [-> |(r0 & c0 & Hr0 & Hl0 & Hc0 & Hu)].
  - exists r, d. repeat split; auto. constructor.
  - exists r0, c0. repeat split; auto. eapply used_sub; eauto.
Qed.

Lemma flatten_complete env : forall f c l x,
  flatten f env c = Some l -> declared env c x -> In x l.
Proof.
  induction f as [|f IH]; intros c l x H Hx; [discriminate|].
  rewrite flatten_S in H. destruct (cd_table (lookup env c)) as [rows|] eqn:Et; [|discriminate].
  apply concat_opt_Some in H. destruct H as [Hall H]. apply H. clear H.
  destruct Hx as (p & r & Hu & Hr & ->).
  apply used_inv in Hu. destruct Hu as [-> |(r0 & c' & Hr0 & Hl0 & Hc0 & Hu)].
  - unfold table in Hr. rewrite Et in Hr.
    destruct (Hall (contrib f env c r)) as (a & Ha); [apply in_map; exact Hr|].
    exists a. split; [rewrite <- Ha; apply in_map; exact Hr|].
    unfold contrib in Ha. destruct (sub_state_parent (r_tgt r)); try (injection Ha as <-; left; reflexivity).
    destruct (has_table env (SState c0)); [|injection Ha as <-; left; reflexivity].
    destruct (flatten f env c0); [|discriminate]. injection Ha as <-; left; reflexivity.
  - unfold table in Hr0. rewrite Et in Hr0.
    destruct (Hall (contrib f env c r0)) as (a & Ha); [apply in_map; exact Hr0|].
    exists a. split; [rewrite <- Ha; apply in_map; exact Hr0|].
    unfold contrib in Ha. apply leads_into_iff in Hl0. rewrite Hl0 in Ha.
    apply has_table_iff in Hc0. rewrite Hc0 in Ha.
    destruct (flatten f env c') as [sub|] eqn:Ef; [|discriminate].
    injection Ha as <-. right. eapply IH; [exact Ef|]. exists p, r. auto.
Qed.

(** Recursive nesting is never accepted; any other nesting is. *)

Inductive path (env : cenv) : cls -> nat -> Prop :=
| path_0 c : path env c 0
| path_S c d n : steps_to env c d -> path env d n -> path env c (S n).

Lemma flatten_path env : forall f c l, flatten f env c = Some l -> ~ path env c f.
Proof.
  induction f as [|f IH]; intros c l H Hp; [discriminate|].
  inversion Hp as [|? d n Hs Hp']; subst.
  destruct Hs as (r & Hr & Hl & Hd).
  rewrite flatten_S in H. unfold table in Hr.
  destruct (cd_table (lookup env c)) as [rows|]; [|discriminate].
  apply concat_opt_Some in H. destruct H as [Hall _].
  destruct (Hall (contrib f env c r)) as (a & Ha); [apply in_map; exact Hr|].
  unfold contrib in Ha. apply leads_into_iff in Hl. rewrite Hl in Ha.
  apply has_table_iff in Hd. rewrite Hd in Ha.
  destruct (flatten f env d) as [sub|] eqn:Ef; [|discriminate].
  eapply IH; eauto.
Qed.

Lemma used_steps env c d : used env c d -> d = c \/ exists c', steps_to env c c' /\ used env c' d.
Proof.
  intros H. apply used_inv in H. destruct H as [-> |(r & c' & Hr & Hl & Hc & Hu)]; [auto|].
  right. exists c'. split; [exists r; auto|exact Hu].
Qed.

Lemma path_shorter env c n : path env c (S n) -> path env c n.
Proof.
  revert c; induction n as [|n IH]; intros c H; [constructor|].
  inversion H as [|? d k Hs Hp]; subst. econstructor; [exact Hs|]. apply IH. exact Hp.
Qed.
Lemma path_prepend env c d n : used env c d -> path env d n -> path env c n.
Proof.
  intros Hu. revert n. induction Hu as [|p r d Hp IH Hr Hl Hd]; intros n H; [exact H|].
  apply path_shorter. apply IH. econstructor; [|exact H]. exists r. auto.
Qed.

Lemma recursive_path env root : recursive env root -> forall n, path env root n.
Proof.
  intros (p & c & Hp & Hs & Hc) n. eapply path_prepend; [exact Hp|].
  induction n as [|n IH]; [constructor|].
  econstructor; [exact Hs|]. eapply path_prepend; [exact Hc|exact IH].
Qed.

Lemma flatten_recursive env root : recursive env root -> forall f, flatten f env root = None.
Proof.
  intros H f. destruct (flatten f env root) as [l|] eqn:E; [|reflexivity].
  exfalso. eapply flatten_path; [exact E|]. apply recursive_path. exact H.
Qed.

(** Without recursion the number of classes bounds the depth. *)
Lemma composite_in_env env c : composite env c -> In c (map fst env).
Proof.
  unfold composite. induction env as [|[c' d] env IH]; cbn.
  - intros H. exfalso. apply H. reflexivity.
  - destruct (Nat.eq_dec c c') as [-> |Hne]; [auto|]. intros H. right. apply IH. exact H.
Qed.

Lemma flatten_total env : forall f seen c,
  composite env c ->
  (forall d, In d seen -> composite env d) -> NoDup seen ->
  (forall d, used env c d -> ~ In d seen) ->
  ~ recursive env c ->
  length (map fst env) < f + length seen ->
  exists l, flatten f env c = Some l.
Proof.
  induction f as [|f IH]; intros seen c Hcc Hseen Hnd Hfresh Hrec Hlen.
  - exfalso. assert (Hincl : incl seen (map fst env)).
    { intros d Hd. apply composite_in_env. auto. }
    pose proof (NoDup_incl_length Hnd Hincl). lia.
  - rewrite flatten_S. pose proof Hcc as Hcc'. unfold composite in Hcc'.
    destruct (cd_table (lookup env c)) as [rows|] eqn:Et; [|congruence].
    apply concat_opt_all. intros o Ho. apply in_map_iff in Ho. destruct Ho as (r & <- & Hr).
    unfold contrib. destruct (sub_state_parent (r_tgt r)) eqn:Es; eauto.
    destruct (has_table env (SState c0)) eqn:Eh; [|eauto].
    assert (Hst : steps_to env c c0).
    { exists r. split; [unfold table; rewrite Et; exact Hr|].
      split; [apply leads_into_iff; exact Es|apply has_table_iff; exact Eh]. }
    assert (Hu0 : used env c c0).
    { destruct Hst as (r' & H1 & H2 & H3). eapply used_sub; [constructor|eauto..]. }
    destruct (IH (c :: seen) c0) as (sub & ->); [| | | | | |eauto].
    + apply has_table_iff. exact Eh.
    + intros d [<-|Hd]; auto.
    + constructor; [|exact Hnd]. apply Hfresh. constructor.
    + intros d Hd [<-|Hin].
      * apply Hrec. exists c, c0. repeat split; auto. constructor.
      * revert Hin. apply Hfresh. eapply used_trans; eauto.
    + intros (p & q & Hp & Hs & Hq). apply Hrec. exists p, q.
      repeat split; auto. eapply used_trans; eauto.
    + cbn. lia.
Qed.

Lemma flatten_acyclic env root :
  composite env root -> ~ recursive env root ->
  exists l, flatten (S (length env)) env root = Some l.
Proof.
  intros Hc Hr. apply (flatten_total env (S (length env)) [] root).
  - exact Hc.
  - intros d [].
  - constructor.
  - intros d _ [].
  - exact Hr.
  - rewrite map_length. cbn. lia.
Qed.

(** ** Membership in the collections of a machine *)
Section Members.
Variable m : machine.
Hypothesis Hc : flattened m.
Notation env := (mc_env m).
Notation root := (mc_root m).

Lemma flat_declared x : In x (mc_flat m) <-> declared env root x.
Proof.
  destruct Hc as (f & Hf). split.
  - apply (flatten_sound _ _ _ _ _ Hf).
  - apply (flatten_complete _ _ _ _ _ Hf).
Qed.

Lemma flat_external x : In x (mc_flat m) -> x_int x = false.
Proof. intros H. apply flat_declared in H. destruct H as (p & r & _ & _ & ->). reflexivity. Qed.

Lemma unwrap_unmarked s : unwrap_initial s = unmarked s.
Proof. destruct s; reflexivity. Qed.

Lemma rows_of_table c : rows_of env c = table env c.
Proof. reflexivity. Qed.

Lemma child_typeids_iff c s : In s (child_typeids env c) <-> child env c s.
Proof.
  unfold child_typeids, child. rewrite unique_In, in_flat_map. cbn. split.
  - intros (r & Hr & [<-|[<-|[]]]); exists r; rewrite ?unwrap_unmarked; auto.
  - intros (r & Hr & [Hz|Hz]); subst s; exists r; rewrite <- ?unwrap_unmarked; auto.
Qed.
Lemma child_states_iff c s : In s (child_states env c) <-> written_in env c s.
Proof.
  unfold child_states, written_in. rewrite unique_In, in_flat_map. cbn. split.
  - intros (r & Hr & [<-|[<-|[]]]); exists r; auto.
  - intros (r & Hr & [Hz|Hz]); subst s; exists r; auto.
Qed.

Lemma parents_iff p : In p (parents m) <-> used env root p /\ table env p <> [].
Proof.
  unfold parents. rewrite unique_In, in_map_iff. split.
  - intros (x & <- & Hx). apply flat_declared in Hx. destruct Hx as (q & r & Hu & Hr & ->).
    cbn. split; [exact Hu|]. intros H. rewrite H in Hr. destruct Hr.
  - intros [Hu Hne]. destruct (table env p) as [|r l] eqn:E; [congruence|].
    exists (row_in p r). split; [reflexivity|]. apply flat_declared. exists p, r.
    rewrite E. cbn. auto.
Qed.

Lemma state_pairs_iff p s : In (p, s) (state_pairs m) <-> occurs env root p s.
Proof.
  unfold state_pairs. rewrite unique_In. cbn [In]. rewrite in_flat_map. split.
  - intros [H|(x & Hx & H)].
    + injection H as <- <-. constructor.
    + apply flat_declared in Hx. destruct Hx as (q & r & Hu & Hr & ->).
      destruct H as [H|[H|[]]]; injection H as <- <-; cbn; apply occ_child; try exact Hu;
        exists r; rewrite ?unwrap_unmarked; auto.
  - intros H. inversion H as [|p' s' Hu Hch]; subst; [auto|]. right.
    destruct Hch as (r & Hr & Hs).
    exists (row_in p r). split; [apply flat_declared; exists p, r; auto|].
    cbn. rewrite unwrap_unmarked. destruct Hs as [-> | ->]; auto.
Qed.

Lemma internals_of_pair_iff p s x :
  In x (internal_of_pair env (p, s)) <->
  exists c i, s = SState c /\ In i (internals env c) /\
    ((composite env c /\ exists ch, written_in env c ch /\
        x = mkXrow c ch (i_ev i) (i_guard i) (i_act i) ch true) \/
     (~ composite env c /\ x = mkXrow p (SState c) (i_ev i) (i_guard i) (i_act i) (SState c) true)).
Proof.
  unfold internal_of_pair. destruct s;
    try (split; [intros []|intros (c' & i & H & _); discriminate]).
  unfold internals.
  destruct (cd_internal (lookup env c)) as [irows|] eqn:Ei.
  2:{ split; [intros []|]. intros (c' & i & H & Hi & _). injection H as <-.
      rewrite Ei in Hi. destruct Hi. }
  rewrite in_flat_map. split.
  - intros (i & Hi & Hx). exists c, i. split; [reflexivity|]. rewrite Ei. split; [exact Hi|].
    destruct (has_table env (SState c)) eqn:Eh.
    + left. split; [apply has_table_iff; exact Eh|]. apply in_map_iff in Hx.
      destruct Hx as (ch & <- & Hch). exists ch. split; [|reflexivity].
      apply child_states_iff. exact Hch.
    + right. split; [intros Hc'; apply has_table_iff in Hc'; congruence|].
      destruct Hx as [<-|[]]. reflexivity.
  - intros (c' & i & H & Hi & Hx). injection H as <-. rewrite Ei in Hi.
    exists i. split; [exact Hi|].
    destruct Hx as [[Hcc (ch & Hch & ->)]|[Hn ->]].
    + apply has_table_iff in Hcc. rewrite Hcc. apply in_map_iff. exists ch.
      split; [reflexivity|]. apply child_states_iff. exact Hch.
    + destruct (has_table env (SState c)) eqn:Eh; [|cbn; auto].
      exfalso. apply Hn. apply has_table_iff. exact Eh.
Qed.

Lemma internal_all_iff x :
  In x (flat_map (internal_of_pair env) (state_pairs m)) <-> declared_internal env root x.
Proof.
  rewrite in_flat_map. split.
  - intros ([p s] & Hp & Hx). apply state_pairs_iff in Hp.
    apply internals_of_pair_iff in Hx. destruct Hx as (c & i & -> & Hi & [[Hcc (ch & Hch & ->)]|[Hn ->]]).
    + eapply di_composite; eauto.
    + eapply di_leaf; eauto.
  - intros H. inversion H as [p c i s Hp Hcc Hi Hs|p c i Hp Hn Hi]; subst.
    + exists (p, SState c). split; [apply state_pairs_iff; exact Hp|].
      apply internals_of_pair_iff. exists c, i. split; [reflexivity|]. split; [exact Hi|]. left. eauto.
    + exists (p, SState c). split; [apply state_pairs_iff; exact Hp|].
      apply internals_of_pair_iff. exists c, i. split; [reflexivity|]. split; [exact Hi|]. auto.
Qed.

Lemma internal_flat_declared x : In x (internal_flat m) -> declared_internal env root x.
Proof. intros H. apply internal_all_iff. eapply unique_by_sub. exact H. Qed.

(** Same place, event and functor types. *)
Definition same_type (x y : xrow) : Prop := xrow_key x = xrow_key y.

Lemma internal_flat_cover x : declared_internal env root x ->
  exists y, In y (internal_flat m) /\ xrow_key y = xrow_key x.
Proof. intros H. apply unique_by_cover. apply internal_all_iff. exact H. Qed.

Lemma internal_flat_int x : In x (internal_flat m) -> x_int x = true.
Proof. intros H. apply internal_flat_declared in H. destruct H; reflexivity. Qed.

Lemma deferring_iff x e : (In x (deferring m) /\ In e (deferred_events m x)) <->
  declared env root x /\ exists c, unmarked (x_src x) = SState c /\ In e (defers env c).
Proof.
  unfold deferring. rewrite filter_In, flat_declared. unfold deferred_events, defer_of, defers.
  rewrite unwrap_unmarked. split.
  - intros [[Hd _] He]. split; [exact Hd|]. destruct (unmarked (x_src x)); try (destruct He).
    exists c. split; [reflexivity|]. destruct (cd_defer (lookup env c)); [exact He|destruct He].
  - intros [Hd (c & Hs & He)]. rewrite Hs. destruct (cd_defer (lookup env c)); [|destruct He].
    cbn. auto.
Qed.

(** ** The candidates of a place *)
Lemma rows_at_iff e pl l c :
  In c (rows_at (comp_b m) (child_typeids env) e pl l) <->
  exists x o, In x l /\ x_ev x = e /\ In (pl, o) (offers_of m x) /\ c = CRow x o.
Proof.
  unfold rows_at. rewrite in_flat_map. split.
  - intros (x & Hx & H). destruct (ev_eq_dec (x_ev x) e) as [He|]; [|destruct H].
    apply in_flat_map in H. destruct H as ([q o] & Ho & H). cbn in H.
    destruct (place_eq_dec q pl) as [-> |]; [|destruct H]. destruct H as [<-|[]].
    exists x, o. auto.
  - intros (x & o & Hx & He & Ho & ->). exists x. split; [exact Hx|].
    destruct (ev_eq_dec (x_ev x) e); [|congruence]. apply in_flat_map.
    exists (pl, o). split; [exact Ho|]. cbn. destruct (place_eq_dec pl pl); [cbn; auto|congruence].
Qed.

Lemma offers_iff x pl o : In (pl, o) (offers_of m x) <->
  (pl = source_place x /\ o = snd (source_place x)) \/
  (x_int x = false /\ exists c s, x_src x = SState c /\ composite env c /\ child env c s /\
     pl = (c, s) /\ o = SState c).
Proof.
  unfold offers_of, offers. cbn [In]. split.
  - intros [H|H]; [injection H as <- <-; auto|]. right.
    destruct (x_int x) eqn:Ei; [destruct H|]. split; [reflexivity|].
    destruct (x_src x) eqn:Es; try (destruct H; fail).
    destruct (comp_b m c) eqn:Eb; [|destruct H]. apply in_map_iff in H.
    destruct H as (s & Heq & Hs). injection Heq as <- <-. exists c, s.
    repeat split; [apply has_table_iff; exact Eb|apply child_typeids_iff; exact Hs].
  - intros [[-> ->]|[Hi (c & s & Hs & Hcc & Hch & -> & ->)]]; [auto|]. right.
    rewrite Hi, Hs. apply has_table_iff in Hcc. unfold comp_b. rewrite Hcc.
    apply in_map_iff. exists s. split; [reflexivity|]. apply child_typeids_iff. exact Hch.
Qed.

Lemma defers_at_iff e pl c :
  In c (defers_at (deferred_events m) e pl (deferring m)) <->
  c = CDefer /\ exists x, In x (deferring m) /\ In e (deferred_events m x) /\ pl = source_place x.
Proof.
  unfold defers_at. rewrite in_flat_map. split.
  - intros (x & Hx & H). destruct (place_eq_dec (source_place x) pl) as [<-|]; [|destruct H].
    apply in_flat_map in H. destruct H as (e' & He & H).
    destruct (ev_eq_dec e' e) as [-> |]; [|destruct H]. destruct H as [<-|[]].
    split; [reflexivity|]. eauto.
  - intros [-> (x & Hx & He & ->)]. exists x. split; [exact Hx|].
    destruct (place_eq_dec _ _); [|congruence]. apply in_flat_map. exists e.
    split; [exact He|]. destruct (ev_eq_dec e e); [cbn; auto|congruence].
Qed.

(** Soundness: only declared candidates. *)
Lemma cands_sound e pl c : In c (cands m e pl) -> candidate env root e pl c.
Proof.
  unfold cands, priority. rewrite !in_app_iff, <- !in_rev. intros [H|[H|H]].
  - apply defers_at_iff in H. destruct H as [-> (x & Hx & He & ->)].
    destruct (proj1 (deferring_iff x e) (conj Hx He)) as [Hd (c & Hs & Hin)].
    eapply cand_defer; eauto.
  - apply rows_at_iff in H. destruct H as (x & o & Hx & He & Ho & ->).
    apply flat_declared in Hx. apply offers_iff in Ho.
    destruct Ho as [[-> ->]|[_ (c & s & Hs & Hcc & Hch & -> & ->)]].
    + apply cand_source; assumption.
    + apply cand_enclosing; assumption.
  - apply rows_at_iff in H. destruct H as (x & o & Hx & He & Ho & ->).
    pose proof (internal_flat_int x Hx) as Hi.
    apply internal_flat_declared in Hx. apply offers_iff in Ho.
    destruct Ho as [[-> ->]|[Hf _]]; [|congruence].
    apply cand_internal; assumption.
Qed.

(** Completeness: every declared candidate is there; an internal row may be
    represented by one of the same types. *)
Lemma cands_complete e pl c : candidate env root e pl c ->
  match c with
  | CDefer => In CDefer (cands m e pl)
  | CRow x o =>
      if x_int x
      then exists y, In (CRow y o) (cands m e pl) /\ xrow_key y = xrow_key x /\ x_int y = true
      else In (CRow x o) (cands m e pl)
  end.
Proof.
  intros H. unfold cands, priority. inversion H as
    [x Hd He|x c0 s Hd He Hs Hcc Hch|x Hd He|x c0 Hd Hs Hdf]; subst.
  - destruct Hd as (p & r & Hu & Hr & ->). cbn.
    rewrite !in_app_iff, <- !in_rev. right; left. apply rows_at_iff.
    exists (row_in p r), (snd (source_place (row_in p r))). repeat split.
    + apply flat_declared. exists p, r. auto.
    + apply offers_iff. auto.
  - destruct Hd as (p & r & Hu & Hr & ->). cbn.
    rewrite !in_app_iff, <- !in_rev. right; left. apply rows_at_iff.
    exists (row_in p r), (SState c0). repeat split.
    + apply flat_declared. exists p, r. auto.
    + apply offers_iff. right. split; [reflexivity|]. exists c0, s. auto.
  - destruct (internal_flat_cover x Hd) as (y & Hy & Hk).
    assert (Hxi : x_int x = true) by (destruct Hd; reflexivity). rewrite Hxi.
    unfold xrow_key in Hk. injection Hk as H1 H2 H3 H4 H5 H6.
    assert (Hsp : source_place y = source_place x) by (unfold source_place; rewrite H1, H2; reflexivity).
    exists y. split; [|split; [|apply internal_flat_int; exact Hy]].
    + rewrite !in_app_iff, <- !in_rev. right; right. apply rows_at_iff.
      exists y, (snd (source_place x)). repeat split; auto.
      apply offers_iff. left. rewrite Hsp. auto.
    + unfold xrow_key. congruence.
  - rewrite !in_app_iff, <- !in_rev. left. apply defers_at_iff. split; [reflexivity|].
    exists x. destruct (proj2 (deferring_iff x e)) as [Hx He]; [split; [exact Hd|eauto]|]. auto.
Qed.
End Members.
