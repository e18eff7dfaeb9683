(** The amalgamated version: internal rows, tables, and agreement with the headers. *)

From Coq Require Import List Arith NArith Bool Lia.
From Verif Require Import Types Static Dispatch Runtime ListFacts IndexFacts Spec DispatchFacts FlattenFacts Amalgam.
Import ListNotations.

(** ** Lists *)
Section Uniq.
Context {A : Type} (dec : forall a b : A, {a = b} + {a <> b}).
Lemma unique_acc_eq l : forall s1 s2, (forall a, In a l -> (In a s1 <-> In a s2)) -> unique_acc dec s1 l = unique_acc dec s2 l.
Proof.
  induction l as [|a l IH]; intros s1 s2 H; [reflexivity|]. cbn [unique_acc].
  pose proof (H a (or_introl eq_refl)).
  destruct (in_dec dec a s1), (in_dec dec a s2); try tauto.
  - apply IH. intros; apply H; now right.
  - f_equal. apply IH. intros b Hb. cbn. rewrite (H b); [tauto|now right].
Qed.
Lemma unique_acc_app l1 : forall seen l2, unique_acc dec seen (l1 ++ l2) = unique_acc dec seen l1 ++ unique_acc dec (l1 ++ seen) l2.
Proof.
  induction l1 as [|a l1 IH]; intros seen l2; [reflexivity|]. cbn [app unique_acc].
  destruct (in_dec dec a seen).
  - rewrite IH. f_equal. apply unique_acc_eq. intros b _. cbn. rewrite !in_app_iff. intuition (subst; auto).
  - cbn [app]. f_equal. rewrite IH. f_equal. apply unique_acc_eq. intros b _. cbn. rewrite !in_app_iff. cbn. tauto.
Qed.
Lemma unique_snoc l a : ~ In a l -> unique dec (l ++ [a]) = unique dec l ++ [a].
Proof.
  intros H. unfold unique. rewrite unique_acc_app, app_nil_r. cbn. destruct (in_dec dec a l); [tauto|reflexivity].
Qed.
Lemma unique_cons l a : ~ In a l -> unique dec (a :: l) = a :: unique dec l.
Proof.
  intros H. unfold unique. cbn [unique_acc in_dec]. destruct (in_dec dec a []) as [[]|_]. f_equal.
  apply unique_acc_eq. intros b Hb. cbn. split; [|tauto]. intros [<-|[]]. tauto.
Qed.
End Uniq.

(** Of a concatenation of blocks, one per element, [unique_by] keeps the first block of
    every element. *)
Section Blocks.
Context {A B K : Type} (da : forall a b : A, {a = b} + {a <> b}) (dk : forall a b : K, {a = b} + {a <> b}).
Variables (key : B -> K) (g : A -> list B).
Lemma unique_by_skip l : forall seen, (forall b, In b l -> In (key b) seen) -> unique_by_acc dk key seen l = [].
Proof.
  induction l as [|b l IH]; intros seen H; [reflexivity|]. cbn. destruct (in_dec dk (key b) seen) as [_|n].
  - apply IH. intros; apply H; now right.
  - exfalso. apply n, H. now left.
Qed.
Lemma unique_by_seen_eq l : forall s1 s2, (forall b, In b l -> (In (key b) s1 <-> In (key b) s2)) ->
  unique_by_acc dk key s1 l = unique_by_acc dk key s2 l.
Proof.
  induction l as [|b l IH]; intros s1 s2 H; [reflexivity|]. cbn.
  pose proof (H b (or_introl eq_refl)).
  destruct (in_dec dk (key b) s1), (in_dec dk (key b) s2); try tauto.
  - apply IH. intros; apply H; now right.
  - f_equal. apply IH. intros c Hc. cbn. rewrite (H c); [tauto|now right].
Qed.
Lemma unique_by_app l1 : forall seen l2,
  unique_by_acc dk key seen (l1 ++ l2) = unique_by_acc dk key seen l1 ++ unique_by_acc dk key (map key l1 ++ seen) l2.
Proof.
  induction l1 as [|b l1 IH]; intros seen l2; [reflexivity|]. cbn [app unique_by_acc map].
  destruct (in_dec dk (key b) seen).
  - rewrite IH. f_equal. apply unique_by_seen_eq. intros c _. cbn. rewrite !in_app_iff. intuition congruence.
  - cbn [app]. f_equal. rewrite IH. f_equal. apply unique_by_seen_eq. intros c _. cbn. rewrite !in_app_iff. cbn. tauto.
Qed.
Lemma unique_by_fresh l : forall seen, NoDup (map key l) -> (forall b, In b l -> ~ In (key b) seen) -> unique_by_acc dk key seen l = l.
Proof.
  induction l as [|b l IH]; intros seen Hn H; [reflexivity|]. cbn in *. inversion_clear Hn as [|? ? Hb Hl].
  destruct (in_dec dk (key b) seen) as [i|_]; [exfalso; eapply H; eauto|]. f_equal. apply IH; [exact Hl|].
  intros c Hc [E|Hs]; [|eapply H; eauto]. apply Hb. rewrite E. now apply in_map.
Qed.
Hypothesis Hdis : forall a a' b b', In b (g a) -> In b' (g a') -> key b = key b' -> a = a'.
Lemma unique_blocks l : (forall a, In a l -> NoDup (map key (g a))) -> forall seen,
  (forall a, In a l -> forall b, In b (g a) -> (In (key b) (map key (flat_map g seen)) <-> In a seen)) ->
  unique_by_acc dk key (map key (flat_map g seen)) (flat_map g l) = flat_map g (unique_acc da seen l).
Proof.
  induction l as [|a l IH]; intros Hn seen Hs; [reflexivity|]. cbn [flat_map unique_acc].
  rewrite unique_by_app, <- map_app.
  assert (IH' := IH (fun a H => Hn a (or_intror H))). clear IH.
  destruct (in_dec da a seen) as [i|n].
  - rewrite unique_by_skip; [|intros b Hb; apply (Hs a); [now left|exact Hb|exact i]]. cbn [app].
    rewrite <- (IH' seen); [|intros a' Ha'; apply Hs; now right].
    apply unique_by_seen_eq. intros b Hb. rewrite map_app, in_app_iff. split; [|tauto]. intros [H|H]; [|exact H].
    apply in_map_iff in H. destruct H as (b' & E & Hb'). rewrite <- E. apply (Hs a); [now left|exact Hb'|exact i].
  - rewrite unique_by_fresh; [|apply Hn; now left|intros b Hb; rewrite (Hs a); [exact n|now left|exact Hb]].
    cbn [flat_map]. f_equal. rewrite <- (IH' (a :: seen)); [reflexivity|].
    intros a' Ha' b Hb. cbn [flat_map]. rewrite map_app, in_app_iff, (Hs a'); [|now right|exact Hb]. cbn [In].
    split; (intros [H|H]; [left|now right]).
    + apply in_map_iff in H. destruct H as (b' & E & Hb'). symmetry. exact (Hdis _ _ _ _ Hb Hb' (eq_sym E)).
    + subst a'. now apply in_map.
Qed.
End Blocks.

(** ** Internal rows *)
Lemma am_internal_of_iff env s x : In x (am_internal_of env s) <->
  exists c i ch, s = SState c /\ composite env c /\ In i (internals env c) /\ written_in env c ch /\
    x = mkXrow c ch (i_ev i) (i_guard i) (i_act i) ch true.
Proof.
  unfold am_internal_of. destruct s; try (split; [intros []|intros (c' & i & ch & H & _); discriminate]).
  unfold internals. destruct (cd_internal (lookup env c)) as [irows|] eqn:Ei.
  2:{ split; [intros []|]. intros (c' & i & ch & H & _ & Hi & _). injection H as <-. rewrite Ei in Hi. destruct Hi. }
  rewrite in_flat_map. unfold has_table, table_of. split.
  - intros (i & Hi & Hx). destruct (cd_table (lookup env c)) eqn:Et; [|destruct Hx].
    apply in_map_iff in Hx. destruct Hx as (ch & <- & Hch). apply (child_states_iff (mkMachine env 0 [])) in Hch. cbn in Hch.
    exists c, i, ch. rewrite Ei. unfold composite. rewrite Et. repeat split; auto. discriminate.
  - intros (c' & i & ch & H & Hcomp & Hi & Hch & ->). injection H as <-. rewrite Ei in Hi. exists i. split; [exact Hi|].
    unfold composite in Hcomp. destruct (cd_table (lookup env c)); [|congruence].
    apply in_map_iff. exists ch. split; [reflexivity|]. now apply (child_states_iff (mkMachine env 0 [])).
Qed.

Section Static.
Variable m : machine.
Hypothesis Hf : flattened m.
Notation env := (mc_env m).
Notation root := (mc_root m).

Lemma am_states_iff s : In s (am_states m) <-> is_state env root s.
Proof.
  unfold am_states, is_state. rewrite unique_In, in_app_iff, in_flat_map. cbn [In]. split.
  - intros [(x & Hx & H)|[<-|[]]]; [|auto]. right. apply (flat_declared m Hf) in Hx.
    destruct Hx as (p & r & Hu & Hr & ->). exists p. split; [exact Hu|]. exists r. split; [exact Hr|].
    destruct H as [<-|[<-|[]]]; [left|now right]. cbn. now rewrite unwrap_unmarked.
  - intros [->|(p & Hu & r & Hr & Hs)]; [right; now left|]. left. exists (row_in p r).
    split; [apply (flat_declared m Hf); exists p, r; auto|]. cbn. rewrite unwrap_unmarked. destruct Hs; subst; auto.
Qed.
Lemma am_internal_iff x : In x (am_internal m) <->
  exists c i ch, is_state env root (SState c) /\ composite env c /\ In i (internals env c) /\ written_in env c ch /\
    x = mkXrow c ch (i_ev i) (i_guard i) (i_act i) ch true.
Proof.
  unfold am_internal. rewrite in_flat_map. split.
  - intros (s & Hs & Hx). apply am_states_iff in Hs. apply am_internal_of_iff in Hx.
    destruct Hx as (c & i & ch & -> & H). exists c, i, ch. tauto.
  - intros (c & i & ch & Hs & H). exists (SState c). split; [now apply am_states_iff|]. apply am_internal_of_iff.
    exists c, i, ch. tauto.
Qed.
End Static.

(** ** Internal rows of machines that are alike *)
Section Alike.
Variable m : machine.
Hypothesis Hc : comp m.
Notation env := (mc_env m).
Notation root := (mc_root m).
Hypothesis Hl : alike env root.

Lemma pair_block p s : is_state env root s -> internal_of_pair env (p, s) = am_internal_of env s.
Proof.
  intros Hs. unfold internal_of_pair, am_internal_of. destruct s; try reflexivity.
  destruct (cd_internal (lookup env c)) as [irows|] eqn:Ei; [|reflexivity].
  unfold has_table, table_of. destruct (cd_table (lookup env c)) eqn:Et; [reflexivity|].
  destruct irows as [|i irows]; [reflexivity|]. exfalso.
  apply (al_leaf _ _ Hl c i Hs); [|exact Et]. unfold internals. rewrite Ei. now left.
Qed.
Lemma block_keys s : is_state env root s -> NoDup (map xrow_key (am_internal_of env s)).
Proof.
  intros Hs. unfold am_internal_of. destruct s; try constructor.
  pose proof (al_types _ _ Hl c Hs) as Hn. unfold internals in Hn.
  destruct (cd_internal (lookup env c)) as [irows|]; [|constructor].
  destruct (has_table env (SState c)).
  2:{ clear Hn. induction irows; cbn; [constructor|assumption]. }
  induction irows as [|i irows IH]; [constructor|]. cbn in *. inversion_clear Hn as [|? ? Hi Hn'].
  rewrite map_app. apply NoDup_app_intro.
  - rewrite map_map. apply (NoDup_map_inv (fun k : xkey => snd k)). rewrite map_map. cbn.
    rewrite map_id. apply unique_NoDup.
  - now apply IH.
  - intros k Hk1 Hk2. apply in_map_iff in Hk1. destruct Hk1 as (x & <- & Hx). apply in_map_iff in Hx. destruct Hx as (ch & <- & _).
    apply in_map_iff in Hk2. destruct Hk2 as (y & E & Hy). apply in_flat_map in Hy. destruct Hy as (j & Hj & Hy).
    apply in_map_iff in Hy. destruct Hy as (ch' & <- & _). unfold xrow_key in E. cbn in E. injection E as _ E1 E2 E3 _.
    apply Hi. apply in_map_iff. exists j. split; [congruence|exact Hj].
Qed.
Lemma block_apart s s' x x' : In x (am_internal_of env s) -> In x' (am_internal_of env s') -> xrow_key x = xrow_key x' -> s = s'.
Proof.
  intros Hx Hx' E. apply am_internal_of_iff in Hx. apply am_internal_of_iff in Hx'.
  destruct Hx as (c & i & ch & -> & _ & _ & _ & ->), Hx' as (c' & i' & ch' & -> & _ & _ & _ & ->).
  unfold xrow_key in E. cbn in E. injection E as -> _ _ _ _. reflexivity.
Qed.

Definition below : list sref := unique sref_eq_dec (flat_map (fun x => [unwrap_initial (x_src x); x_tgt x]) (mc_flat m)).
Lemma root_not_below : ~ In (SState root) (flat_map (fun x => [unwrap_initial (x_src x); x_tgt x]) (mc_flat m)).
Proof. intros H. apply (cp_root m Hc). unfold child_states_rec. now rewrite unique_In. Qed.
Lemma am_states_below : am_states m = below ++ [SState root].
Proof. unfold am_states. apply unique_snoc. exact root_not_below. Qed.

Lemma map_snd_unique (l : list place) : forall seen,
  unique_acc sref_eq_dec (map snd seen) (map snd (unique_acc place_eq_dec seen l)) =
  unique_acc sref_eq_dec (map snd seen) (map snd l).
Proof.
  induction l as [|a l IH]; intros seen; [reflexivity|]. cbn [unique_acc map].
  destruct (in_dec place_eq_dec a seen) as [i|n].
  - rewrite IH. destruct (in_dec sref_eq_dec (snd a) (map snd seen)) as [_|n]; [reflexivity|].
    exfalso. apply n. now apply in_map.
  - cbn [unique_acc map]. specialize (IH (a :: seen)). cbn [map] in IH.
    destruct (in_dec sref_eq_dec (snd a) (map snd seen)) as [i|n'].
    + rewrite (unique_acc_eq _ _ (map snd seen) (snd a :: map snd seen)), IH.
      * apply unique_acc_eq. intros b _. cbn. intuition (subst; auto).
      * intros b _. cbn. intuition (subst; auto).
    + f_equal. exact IH.
Qed.
Lemma snd_pairs : unique sref_eq_dec (map snd (state_pairs m)) = SState root :: below.
Proof.
  unfold state_pairs, unique at 1 2. rewrite (map_snd_unique _ []). cbn [map].
  fold (unique sref_eq_dec (snd (root, SState root) :: map snd
    (flat_map (fun x => [(x_parent x, unwrap_initial (x_src x)); (x_parent x, x_tgt x)]) (mc_flat m)))). cbn [snd].
  assert (E : map snd (flat_map (fun x => [(x_parent x, unwrap_initial (x_src x)); (x_parent x, x_tgt x)]) (mc_flat m))
    = flat_map (fun x => [unwrap_initial (x_src x); x_tgt x]) (mc_flat m)).
  { induction (mc_flat m) as [|x l IH]; [reflexivity|]. cbn. now rewrite IH. }
  rewrite E. apply unique_cons. exact root_not_below.
Qed.
Lemma pair_states p s : In (p, s) (state_pairs m) -> is_state env root s.
Proof.
  intros H. apply (state_pairs_iff m Hc) in H. destruct H as [|p s Hu Hch]; [now left|]. right. eauto.
Qed.
Lemma internal_blocks : internal_flat m = flat_map (am_internal_of env) (SState root :: below).
Proof.
  rewrite <- snd_pairs. unfold internal_flat, unique_by, unique.
  rewrite <- (unique_blocks sref_eq_dec xkey_eq_dec xrow_key (am_internal_of env) block_apart _) with (seen := []).
  - cbn [flat_map map]. f_equal. rewrite (flat_map_concat_map (am_internal_of env)), map_map, <- flat_map_concat_map.
    apply flat_map_ext_in. intros [p s] H. apply pair_block. eapply pair_states; eauto.
  - intros s H. apply in_map_iff in H. destruct H as ([p s'] & <- & H). apply block_keys. eapply pair_states; eauto.
  - intros. cbn. tauto.
Qed.
Lemma am_internal_blocks : am_internal m = flat_map (am_internal_of env) below ++ am_internal_of env (SState root).
Proof. unfold am_internal. rewrite am_states_below, flat_map_app. cbn. now rewrite app_nil_r. Qed.
Lemma internal_split : internal_flat m = am_internal_of env (SState root) ++ flat_map (am_internal_of env) below.
Proof. rewrite internal_blocks. reflexivity. Qed.
Lemma internal_same x : In x (am_internal m) <-> In x (internal_flat m).
Proof. rewrite am_internal_blocks, internal_split, !in_app_iff. tauto. Qed.
Lemma events_same e : In e (am_events m) <-> In e (events m).
Proof.
  unfold am_events, events, events_of. rewrite !unique_In, !in_map_iff.
  split; intros (x & E & H); exists x; (split; [exact E|]); rewrite in_app_iff in *; rewrite ?internal_same in *; tauto.
Qed.
End Alike.

(** ** Tables *)
(** Tables with the same contents. *)
Definition same_map {A} (t t' : list (ev * A)) : Prop := forall e, get_table t' e = get_table t e.

Local Ltac spec H := match type of H with ?A -> _ => let K := fresh in assert (K : A); [|specialize (H K); clear K] end.

Section Pushes.
Lemma same_tget t t' e k : same_map t t' -> tget t' e k = tget t e k.
Proof. intros H. unfold tget. now rewrite H. Qed.
Lemma same_by_cells t t' :
  (forall e, option_map (@length _) (get_table t' e) = option_map (@length _) (get_table t e)) ->
  (forall e k, tget t' e k = tget t e k) -> same_map t t'.
Proof.
  intros Hn Hk e. specialize (Hn e). specialize (Hk e). unfold tget in Hk.
  destruct (get_table t e) as [a|], (get_table t' e) as [a'|]; cbn in Hn; try discriminate; [|reflexivity].
  f_equal. injection Hn as Hn. clear - Hn Hk. revert a Hn Hk.
  induction a' as [|x a' IH]; intros [|y a] Hn Hk; cbn in Hn; try discriminate; [reflexivity|].
  f_equal.
  - specialize (Hk 0%N). cbn in Hk. congruence.
  - apply IH; [lia|]. intros k. specialize (Hk (N.succ k)). rewrite N2Nat.inj_succ in Hk. exact Hk.
Qed.
(** Two sequences of pushes to the same places, in the same order at every place. *)
Lemma pushes_same ops ops' t t' : same_map t t' ->
  (forall o, In o ops' <-> In o ops) ->
  ((forall o, In o ops -> exists l, tget t (fst (fst o)) (snd (fst o)) = Some l) ->
   forall e k, filter (hits e k) ops' = filter (hits e k) ops) ->
  match pushes ops t, pushes ops' t' with
  | Some r, Some r' => same_map r r'
  | None, None => True
  | _, _ => False
  end.
Proof.
  intros Ht Hin Hord. destruct (pushes ops t) as [r|] eqn:E.
  - pose proof (pushes_spec _ _ _ E) as (Hk & Hlen & Hg & Hx). specialize (Hord Hx).
    destruct (pushes_ok ops' t') as (r' & E').
    { intros o Ho. apply Hin in Ho. rewrite (same_tget _ _ _ _ Ht). auto. }
    rewrite E'. pose proof (pushes_spec _ _ _ E') as (_ & Hlen' & Hg' & _). apply same_by_cells.
    + intros e. rewrite Hlen', Hlen, Ht. reflexivity.
    + intros e k. rewrite Hg', Hg, Hord, (same_tget _ _ _ _ Ht). reflexivity.
  - destruct (pushes ops' t') as [r'|] eqn:E'; [|exact I]. exfalso.
    pose proof (pushes_spec _ _ _ E') as (_ & _ & _ & Hx).
    destruct (pushes_ok ops t) as (r & Er); [|congruence].
    intros o Ho. apply Hin in Ho. destruct (Hx o Ho) as (l & Hl'). rewrite (same_tget _ _ _ _ Ht) in Hl'. eauto.
Qed.
End Pushes.

Section Tables.
Variable m : machine.
Hypothesis Hc : comp m.
Notation env := (mc_env m).
Notation root := (mc_root m).
Hypothesis Hl : alike env root.

Lemma no_deferral x e : In x (deferring m) -> ~ In e (deferred_events m x).
Proof.
  unfold deferring, deferred_events. intros Hx He. apply filter_In in Hx. destruct Hx as [Hx _].
  unfold defer_of in He. destruct (unwrap_initial (x_src x)) eqn:Es; try destruct He.
  destruct (cd_defer (lookup env c)) as [l|] eqn:Ed; [|destruct He].
  apply (al_defer _ _ Hl c e); [|unfold defers; now rewrite Ed].
  apply (am_states_iff m Hc). rewrite am_states_below by exact Hc. apply in_or_app. left. unfold below. rewrite unique_In.
  apply in_flat_map. exists x. split; [exact Hx|]. left. exact Es.
Qed.
Lemma fill_deferred_none t : fill_deferred m t = Some t.
Proof.
  rewrite fill_deferred_pushes. rewrite (flat_map_nil (defer_ops m)); [reflexivity|].
  intros x Hx. unfold defer_ops. destruct (deferred_events m x) as [|e l] eqn:E; [reflexivity|]. exfalso.
  apply (no_deferral x e Hx). rewrite E. now left.
Qed.

Definition ev_ops (d : dep) (l : list xrow) : list op := flat_map (fun e => flat_map (row_ops m d) (filter_ev e l)) (events_of l).
Lemma in_ev_ops d l o : In o (ev_ops d l) <-> exists x, In x l /\ In o (row_ops m d x).
Proof.
  unfold ev_ops. rewrite in_flat_map. split.
  - intros (e & _ & H). apply in_flat_map in H. destruct H as (x & Hx & H). apply filter_In in Hx. exists x. tauto.
  - intros (x & Hx & Ho). exists (x_ev x). split; [unfold events_of; rewrite unique_In; now apply in_map|].
    apply in_flat_map. exists x. split; [|exact Ho]. apply filter_In. split; [exact Hx|]. destruct (ev_eq_dec _ _); congruence.
Qed.
Lemma place_in_source c ch i : source_place (mkXrow c ch (i_ev i) (i_guard i) (i_act i) ch true) = place_in c ch.
Proof. destruct ch; reflexivity. Qed.
Lemma internal_ops d c ch i : row_ops m d (mkXrow c ch (i_ev i) (i_guard i) (i_act i) ch true) =
  [(i_ev i, combined_idx m (fst (place_in c ch)) (snd (place_in c ch)),
    centry m d (CRow (mkXrow c ch (i_ev i) (i_guard i) (i_act i) ch true) (snd (place_in c ch))))].
Proof. unfold row_ops, offers_of, offers. cbn [x_int x_ev]. rewrite place_in_source. reflexivity. Qed.
Lemma below_state s : In s (below m) -> is_state env root s /\ s <> SState root.
Proof.
  intros H. split.
  - apply (am_states_iff m Hc). rewrite am_states_below by exact Hc. apply in_or_app. now left.
  - intros ->. apply (root_not_below m Hc). unfold below in H. now rewrite unique_In in H.
Qed.

Lemma pushed_in_range t d x o : shape m t -> In o (row_ops m d x) -> forall l, tget t (fst (fst o)) (snd (fst o)) = Some l ->
  exists p s, snd (fst o) = combined_idx m p s /\ In p (parents m) /\ In s (states m) /\ In (p, s) (map fst (offers_of m x)).
Proof.
  intros Hsh Ho l Hk. unfold row_ops in Ho. apply in_map_iff in Ho. destruct Ho as ([[p s] q] & <- & Hpo). cbn [fst snd] in *.
  apply (shape_tget_inv m Hc) in Hk; [|exact Hsh]. exists p, s. repeat split; try tauto. apply in_map_iff. exists (p, s, q). auto.
Qed.
Lemma internal_order t d : shape m t ->
  (forall o, In o (ev_ops d (internal_flat m)) -> exists l, tget t (fst (fst o)) (snd (fst o)) = Some l) ->
  forall e k, filter (hits e k) (ev_ops d (am_internal m)) = filter (hits e k) (ev_ops d (internal_flat m)).
Proof.
  intros Hsh Hx e k. unfold ev_ops. rewrite !(flat_ev_hits m), am_internal_blocks, internal_split, !flat_map_app by assumption.
  set (F := fun x => if ev_eq_dec (x_ev x) e then filter (hits e k) (row_ops m d x) else []).
  destruct (flat_map F (am_internal_of env (SState root))) as [|o l] eqn:Ea; [now rewrite app_nil_r|].
  destruct (flat_map F (flat_map (am_internal_of env) (below m))) as [|o' l'] eqn:Eb; [now rewrite app_nil_r|]. exfalso.
  assert (Ho : In o (o :: l)) by now left. rewrite <- Ea in Ho.
  assert (Ho' : In o' (o' :: l')) by now left. rewrite <- Eb in Ho'.
  apply in_flat_map in Ho. destruct Ho as (x & Hxa & Ho). apply in_flat_map in Ho'. destruct Ho' as (x' & Hxb & Ho').
  unfold F in Ho, Ho'. destruct (ev_eq_dec (x_ev x) e) as [He|]; [|destruct Ho]. destruct (ev_eq_dec (x_ev x') e) as [He'|]; [|destruct Ho'].
  apply filter_In in Ho. destruct Ho as [Ho Hk]. apply filter_In in Ho'. destruct Ho' as [Ho' Hk'].
  destruct (Hx o) as (c1 & C1).
  { apply in_ev_ops. exists x. split; [|exact Ho]. rewrite internal_split by assumption. apply in_or_app. now left. }
  destruct (Hx o') as (c2 & C2).
  { apply in_ev_ops. exists x'. split; [|exact Ho']. rewrite internal_split by assumption. apply in_or_app. now right. }
  apply am_internal_of_iff in Hxa. destruct Hxa as (c & i & ch & Ec & _ & Hi & Hw & ->). injection Ec as <-.
  apply in_flat_map in Hxb. destruct Hxb as (sb & Hsb & Hxb). apply below_state in Hsb. destruct Hsb as [Hst Hne].
  apply am_internal_of_iff in Hxb. destruct Hxb as (c' & j & ch' & -> & _ & Hj & Hw' & ->).
  rewrite internal_ops in Ho, Ho'. destruct Ho as [<-|[]]. destruct Ho' as [<-|[]]. cbn [fst snd x_ev] in *.
  apply (shape_tget_inv m Hc) in C1; [|exact Hsh]. apply (shape_tget_inv m Hc) in C2; [|exact Hsh].
  unfold hits in Hk, Hk'. cbn [fst snd] in *. apply andb_true_iff in Hk. apply andb_true_iff in Hk'.
  destruct Hk as [_ Hk]. destruct Hk' as [_ Hk']. apply N.eqb_eq in Hk. apply N.eqb_eq in Hk'.
  apply (al_apart _ _ Hl c' i j ch ch' Hst); auto; [exact (eq_trans He (eq_sym He'))|].
  assert (E : combined_idx m (fst (place_in root ch)) (snd (place_in root ch)) =
              combined_idx m (fst (place_in c' ch')) (snd (place_in c' ch'))) by congruence.
  apply combined_idx_inj in E; try tauto.
  destruct (place_in root ch), (place_in c' ch'). exact E.
Qed.
Lemma fill_same d t t' : shape m t -> same_map t t' ->
  match fill_dispatch m d t, am_fill_dispatch m d t' with
  | Some r, Some r' => same_map r r' /\ shape m r
  | None, None => True
  | _, _ => False
  end.
Proof.
  intros Hsh Ht.
  assert (Hrows : forall x, In x (mc_flat m ++ internal_flat m) -> resolve_dst env x <> None)
    by (intros x Hx; apply row_accepted_dst, (cp_rows m Hc), Hx).
  pose proof (fill_shape m Hc d t) as Hshape.
  unfold fill_dispatch, am_fill_dispatch in *.
  rewrite (fill_transitions_pushes m d (internal_flat m)) in * by (intros x Hx; apply Hrows, in_or_app; now right).
  rewrite (fill_transitions_pushes m d (am_internal m))
    by (intros x Hx; apply Hrows, in_or_app; right; now apply (internal_same m Hc Hl)).
  fold (ev_ops d (internal_flat m)) in *. fold (ev_ops d (am_internal m)).
  pose proof (pushes_same (ev_ops d (internal_flat m)) (ev_ops d (am_internal m)) t t' Ht) as P.
  spec P. { intros o. rewrite !in_ev_ops. split; intros (x & Hx & Ho); exists x; (split; [|exact Ho]); now apply (internal_same m Hc Hl). }
  spec P. { intros Hx. now apply (internal_order t). }
  destruct (pushes (ev_ops d (internal_flat m)) t) as [t1|], (pushes (ev_ops d (am_internal m)) t') as [t1'|]; try contradiction; [|exact I].
  rewrite !(fill_transitions_pushes m d (mc_flat m)) in * by (intros x Hx; apply Hrows, in_or_app; now left).
  fold (ev_ops d (mc_flat m)) in *.
  pose proof (pushes_same (ev_ops d (mc_flat m)) (ev_ops d (mc_flat m)) t1 t1' P) as Q.
  spec Q. { tauto. }
  spec Q. { reflexivity. }
  destruct (pushes (ev_ops d (mc_flat m)) t1) as [t2|], (pushes (ev_ops d (mc_flat m)) t1') as [t2'|]; try contradiction; [|exact I].
  rewrite !fill_deferred_none in *. split; [exact Q|]. now apply Hshape.
Qed.
End Tables.

Section Whole.
Variable m : machine.
Hypothesis Hc : comp m.
Notation env := (mc_env m).
Notation root := (mc_root m).
Hypothesis Hl : alike env root.

Lemma get_constant {A} (a : A) l e : get_table (map (fun e => (e, a)) l) e = if in_dec ev_eq_dec e l then Some a else None.
Proof.
  induction l as [|e' l IH]; [reflexivity|]. cbn [map get_table]. destruct (ev_eq_dec e e') as [->|Hne].
  - destruct (in_dec ev_eq_dec e' (e' :: l)) as [_|n]; [reflexivity|]. exfalso. apply n. now left.
  - rewrite IH. destruct (in_dec ev_eq_dec e l), (in_dec ev_eq_dec e (e' :: l)); auto; exfalso; cbn in *; intuition congruence.
Qed.
Lemma same_constant {A} (a : A) : same_map (map (fun e => (e, a)) (events m)) (map (fun e => (e, a)) (am_events m)).
Proof.
  intros e. rewrite !get_constant. pose proof (events_same m Hc Hl e).
  destruct (in_dec ev_eq_dec e (events m)), (in_dec ev_eq_dec e (am_events m)); tauto.
Qed.
Lemma empty_same : same_map (empty_tables m) (am_empty_tables m).
Proof. apply same_constant. Qed.
Lemma fold_constant {A} (a : A) l : forall t, foldM (fun e t => Some (t ++ [(e, a)])) l t = Some (t ++ map (fun e : ev => (e, a)) l).
Proof.
  induction l as [|e l IH]; intros t; cbn [foldM map]; [now rewrite app_nil_r|]. rewrite IH, <- app_assoc. reflexivity.
Qed.
Lemma handlers_same d : match fill_handlers m d, am_fill_handlers m d with
  | Some h, Some h' => same_map h h'
  | None, None => True
  | _, _ => False
  end.
Proof.
  unfold fill_handlers, am_fill_handlers.
  destruct (foldM _ (handler_places m) (repeat None (N.to_nat (n_states m) * n_parents m))) as [arr|].
  - rewrite !fold_constant. cbn [app]. apply same_constant.
  - assert (N : forall l : list ev, l <> [] -> foldM (fun _ (_ : handler_tables) => @None handler_tables) l [] = None)
      by (intros [|e l] H; [congruence|reflexivity]).
    assert (E : events m <> []).
    { pose proof (cp_flat m Hc) as F. destruct (mc_flat m) as [|x l] eqn:Ef; [congruence|]. intros H.
      assert (I : In (x_ev x) (events m)).
      { unfold events, events_of. rewrite unique_In, Ef. now left. }
      rewrite H in I. destruct I. }
    rewrite !N; [exact I|intros H|exact E].
    destruct (events m) as [|e l] eqn:Ee; [congruence|].
    assert (I : In e (am_events m)) by (apply (events_same m Hc Hl); rewrite Ee; now left). rewrite H in I. destruct I.
Qed.
End Whole.

Lemma am_compile_alike env root m : compile env root = Some m -> alike env root -> am_compile env root = Some m.
Proof.
  intros Hm Hl. destruct (compile_comp _ _ _ Hm) as (Hc & He & Hr).
  unfold compile in Hm. unfold am_compile. destruct (flatten (S (length env)) env root) as [fl|]; [|discriminate].
  destruct (accepted (mkMachine env root fl)) eqn:Ha; [|discriminate]. injection Hm as <-.
  cbn [mc_env mc_root] in *. set (m := mkMachine env root fl) in *.
  assert (Hl' : alike (mc_env m) (mc_root m)) by exact Hl.
  replace (am_accepted m) with true; [reflexivity|]. symmetry.
  unfold accepted in Ha. rewrite !andb_true_iff in Ha. destruct Ha as [[[[[[[[H1 H2] H3] H4] H5] H6] H7] H8] H9].
  unfold am_accepted. rewrite !andb_true_iff. repeat split; auto.
  - rewrite forallb_forall in *. intros x Hx. apply H6. rewrite in_app_iff in *. rewrite <- (internal_same m Hc Hl'). exact Hx.
  - rewrite forallb_forall in *. intros x Hx. specialize (H7 x Hx). rewrite forallb_forall in *. intros e Hee. specialize (H7 e Hee).
    pose proof (events_same m Hc Hl' e). destruct (in_dec ev_eq_dec e (events m)); [|discriminate].
    destruct (in_dec ev_eq_dec e (am_events m)); tauto.
Qed.
