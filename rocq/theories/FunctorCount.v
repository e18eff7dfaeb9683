(** How many copies of a functor there are (Functors.v). *)

From Coq Require Import List Arith NArith Bool Lia Permutation.
From Verif Require Import Types Static Dispatch Runtime Functors.
From Verif Require Import Spec ListFacts IndexFacts FlattenFacts StaticFacts DispatchFacts RefineFacts FunctorFacts TableFacts.
Import ListNotations.

Lemma sum_cons a l : list_sum (a :: l) = a + list_sum l.
Proof. reflexivity. Qed.

Section Count.
Variable ty val : nat.
Notation cnt l := (length (filter (owns ty val) l)).

Lemma here_length e c l : length (owners_here ty val e c l) = cnt l.
Proof.
  induction l as [|en l IH]; cbn [owners_here filter]; [reflexivity|].
  rewrite app_length. unfold eid in *. rewrite IH. destruct (owns ty val en); reflexivity.
Qed.
Lemma from_length e arr : forall c, length (owners_from ty val e c arr) = list_sum (map (fun l => cnt l) arr).
Proof.
  induction arr as [|l arr IH]; intros c; [reflexivity|]. cbn [owners_from].
  rewrite app_length. pose proof (here_length e c l) as H1. pose proof (IH (N.succ c)) as H2. unfold eid in *.
  rewrite H1, H2. reflexivity.
Qed.
Lemma owners_length T : length (owners ty val T) =
  list_sum (map (fun ea => list_sum (map (fun l => cnt l) (snd ea))) T).
Proof.
  unfold owners. induction T as [|[e arr] T IH]; [reflexivity|].
  cbn [flat_map fst snd]. rewrite app_length, from_length, IH. reflexivity.
Qed.

Lemma upd_sum en i : forall arr arr', upd_nth i (cons en) arr = Some arr' ->
  list_sum (map (fun l => cnt l) arr') = (if owns ty val en then 1 else 0) + list_sum (map (fun l => cnt l) arr).
Proof.
  induction i as [|i IH]; intros [|l arr] arr' E; try discriminate; cbn [upd_nth] in E.
  - injection E as <-. cbn [map filter]. rewrite !sum_cons. destruct (owns ty val en); cbn [length]; lia.
  - destruct (upd_nth i (cons en) arr) as [a|] eqn:Ea; [|discriminate]. injection E as <-.
    change (list_sum (map (fun l => cnt l) (l :: a))) with (cnt l + list_sum (map (fun l => cnt l) a)).
    change (list_sum (map (fun l => cnt l) (l :: arr))) with (cnt l + list_sum (map (fun l => cnt l) arr)).
    rewrite (IH _ _ Ea). lia.
Qed.
Lemma push_length o T T' : push o T = Some T' ->
  length (owners ty val T') = (if owns ty val (snd o) then 1 else 0) + length (owners ty val T).
Proof.
  rewrite !owners_length. unfold push. destruct o as [[e k] en]. cbn [fst snd].
  revert T'. induction T as [|[e' arr] T IH]; intros T' E; cbn [push_front_at] in E; [discriminate|].
  destruct (ev_eq_dec e e').
  - rewrite upd_at_upd in E. destruct (upd_nth _ _ arr) as [a|] eqn:Ea; [|discriminate]. injection E as <-.
    cbn [map snd]. rewrite !sum_cons, (upd_sum _ _ _ _ Ea). lia.
  - destruct (push_front_at T e k en) as [t|] eqn:Et; [|discriminate]. injection E as <-.
    pose proof (IH _ eq_refl) as X. cbn [map snd] in *. rewrite !sum_cons. lia.
Qed.
Lemma pushes_length l : forall T T', pushes l T = Some T' ->
  length (owners ty val T') = length (filter (fun o : op => owns ty val (snd o)) l) + length (owners ty val T).
Proof.
  induction l as [|o l IH]; intros T T' E; cbn in E.
  - injection E as <-. reflexivity.
  - unfold pushes in *. cbn [foldM] in E. destruct (push o T) as [T1|] eqn:Eo; [|discriminate].
    rewrite (IH _ _ E), (push_length _ _ _ Eo). cbn [filter].
    destruct (owns ty val (snd o)); cbn [length]; lia.
Qed.

Variable m : machine.
Hypothesis Hc : comp m.

Definition count_rows (l : list xrow) : nat :=
  list_sum (map (fun x => length (offers_of m x)) (filter (guarded_by ty val) l)).

Lemma row_ops_count d x : length (filter (fun o : op => owns ty val (snd o)) (row_ops m d x)) =
  if guarded_by ty val x then length (offers_of m x) else 0.
Proof.
  unfold row_ops. induction (offers_of m x) as [|po l IH]; cbn [map filter]; [destruct (guarded_by ty val x); reflexivity|].
  cbn [snd]. change (owns ty val (centry m d (CRow x (snd po)))) with (guarded_by ty val x).
  destruct (guarded_by ty val x); cbn [length]; rewrite IH; reflexivity.
Qed.
Lemma count_rows_app l1 l2 : count_rows (l1 ++ l2) = count_rows l1 + count_rows l2.
Proof. unfold count_rows. rewrite filter_app, map_app, list_sum_app. reflexivity. Qed.
Lemma flat_rows_count d l : length (filter (fun o : op => owns ty val (snd o)) (flat_map (row_ops m d) l)) = count_rows l.
Proof.
  induction l as [|x l IH]; [reflexivity|]. cbn [flat_map]. rewrite filter_app, app_length, row_ops_count, IH.
  unfold count_rows. cbn [filter]. destruct (guarded_by ty val x); reflexivity.
Qed.

Lemma count_perm l l' : Permutation l l' -> count_rows l = count_rows l'.
Proof.
  unfold count_rows. induction 1 as [|x l l' H IH|x y l|l1 l2 l3 H1 IH1 H2 IH2]; cbn [filter].
  - reflexivity.
  - destruct (guarded_by ty val x); cbn [map]; rewrite ?sum_cons; lia.
  - destruct (guarded_by ty val x), (guarded_by ty val y); cbn [map]; rewrite ?sum_cons; lia.
  - congruence.
Qed.
(** Rows grouped by event. *)
Lemma group_perm l : forall es, NoDup es -> (forall x, In x l -> In (x_ev x) es) ->
  Permutation (flat_map (fun e => filter_ev e l) es) l.
Proof.
  induction l as [|x l IH]; intros es Hn Hin.
  - rewrite flat_map_nil; [constructor|]. reflexivity.
  - assert (Hx : In (x_ev x) es) by (apply Hin; left; reflexivity).
    apply in_split in Hx. destruct Hx as (e1 & e2 & ->).
    rewrite flat_map_app. cbn [flat_map].
    assert (Hne : forall e, In e e1 \/ In e e2 -> filter_ev e (x :: l) = filter_ev e l).
    { intros e He. unfold filter_ev. cbn [filter]. destruct (ev_eq_dec (x_ev x) e) as [<-|]; [|reflexivity].
      exfalso. apply NoDup_remove_2 in Hn. apply Hn. apply in_or_app. exact He. }
    rewrite (flat_map_ext_in _ (fun e => filter_ev e l) e1) by (intros; apply Hne; auto).
    rewrite (flat_map_ext_in _ (fun e => filter_ev e l) e2) by (intros; apply Hne; auto).
    unfold filter_ev at 2. cbn [filter]. destruct (ev_eq_dec (x_ev x) (x_ev x)); [|congruence].
    cbn [app]. rewrite <- Permutation_middle. constructor.
    assert (Hg : Permutation (flat_map (fun e => filter_ev e l) (e1 ++ x_ev x :: e2)) l).
    { apply IH; [exact Hn|]. intros y Hy. apply Hin. right. exact Hy. }
    rewrite flat_map_app in Hg. cbn [flat_map] in Hg. exact Hg.
Qed.
Lemma grouped_count d l : length (filter (fun o : op => owns ty val (snd o))
    (flat_map (fun e => flat_map (row_ops m d) (filter_ev e l)) (events_of l))) = count_rows l.
Proof.
  replace (flat_map (fun e => flat_map (row_ops m d) (filter_ev e l)) (events_of l))
    with (flat_map (row_ops m d) (flat_map (fun e => filter_ev e l) (events_of l))).
  - rewrite flat_rows_count. apply count_perm, group_perm; [apply unique_NoDup|].
    intros x Hx. unfold events_of. apply unique_In, in_map, Hx.
  - induction (events_of l) as [|e es IH]; [reflexivity|]. cbn [flat_map]. rewrite flat_map_app, IH. reflexivity.
Qed.
Lemma ops_count d : length (filter (fun o : op => owns ty val (snd o)) (all_ops m d)) =
  count_rows (internal_flat m ++ mc_flat m).
Proof.
  unfold all_ops. rewrite !filter_app, !app_length, !grouped_count, count_rows_app.
  assert (E : filter (fun o : op => owns ty val (snd o)) (flat_map (defer_ops m) (deferring m)) = []).
  { induction (deferring m) as [|x l IH]; [reflexivity|]. cbn [flat_map]. rewrite filter_app, IH, app_nil_r.
    unfold defer_ops. induction (deferred_events m x) as [|e es IHe]; [reflexivity|]. exact IHe. }
  rewrite E. cbn [length]. lia.
Qed.
Lemma fill_length d T T' : fill_dispatch m d T = Some T' ->
  length (owners ty val T') = count_rows (internal_flat m ++ mc_flat m) + length (owners ty val T).
Proof.
  intros E. rewrite fill_dispatch_pushes in E by exact Hc. rewrite (pushes_length _ _ _ E), ops_count. reflexivity.
Qed.
Lemma empty_owners : length (owners ty val (empty_tables m)) = 0.
Proof.
  rewrite owners_length. unfold empty_tables. induction (events m) as [|e es IH]; [reflexivity|].
  cbn [map snd]. rewrite sum_cons, IH. clear IH.
  induction (N.to_nat (n_states m) * n_parents m) as [|n IHn]; [reflexivity|]. exact IHn.
Qed.

Section Runs.
Context {V W G : Type}.
Variable cb : cbfun V W.
Variable gcb : gfun V W G.
Variable g0 : nat -> nat -> G.
Variable vnone : V.
Notation gst := (rt V (gworld V W G)).
Notation total := (count_rows (internal_flat m ++ mc_flat m)).

(** Only set_dependency changes the tables. *)
Definition tabs_are (T : tables) (s : gst) : Prop := rt_tabs s = T.
Lemma tabs_alike T s s' : kept_alike s s' -> tabs_are T s -> tabs_are T s'.
Proof. intros (H & _) E. unfold tabs_are in *. congruence. Qed.
Lemma tabs_guard T i t e v s : tabs_are T s -> post (g_execute_guard gcb g0 i t e v s) (tabs_are T).
Proof.
  intros H. unfold g_execute_guard. destruct (t_guard t); [exact H|]. destruct (_ && _); [|exact I].
  unfold invoke_guard. destruct (gcb _ _ _ _ _ _); exact H.
Qed.
Lemma tabs_call f k s : post (g_do_call cb gcb g0 m vnone f k s) (fun s' =>
  length (owners ty val (rt_tabs s')) =
  (if match k with KSetDep _ => true | _ => false end then total else 0) + length (owners ty val (rt_tabs s))).
Proof.
  assert (P1 : forall s0 s', kept_alike s0 s' -> tabs_are (rt_tabs s) s0 -> tabs_are (rt_tabs s) s') by (intros; eapply tabs_alike; eauto).
  assert (P0 : tabs_are (rt_tabs s) s) by reflexivity.
  assert (Q : forall r : res V (gworld V W G) out, post r (tabs_are (rt_tabs s)) ->
     post r (fun s' => length (owners ty val (rt_tabs s')) = 0 + length (owners ty val (rt_tabs s)))).
  { intros r. apply post_mono. unfold tabs_are. intros s' ->. reflexivity. }
  destruct k as [e v|r p st|p|r p st|d|]; cbn [g_do_call do_call].
  - apply Q, post_bind; [|auto]. apply p_event; auto.
    + intros. apply tabs_guard. assumption.
    + exists (rt_tabs s). auto.
  - apply Q, post_bind; [|auto]. unfold q_is.
    apply post_bind; [apply p_parent; auto|]. intros cp s' H'.
    destruct (N.eqb _ _); [|exact H']. apply post_bind; [apply p_state; auto|]. auto.
  - apply Q, post_bind; [|auto]. unfold q_parent_is. apply post_bind; [apply p_parent; auto|]. auto.
  - apply Q, post_bind; [|auto]. unfold set_state.
    destruct (in_dec _ _ _); [|exact I]. destruct (in_dec _ _ _); [|exact I].
    destruct (upd_nth _ _ _); exact P0.
  - unfold set_dependency. destruct (fill_dispatch m d (rt_tabs s)) as [T'|] eqn:Ef; [|exact I].
    cbn [bind post with_tabs rt_tabs]. apply (fill_length _ _ _ Ef).
  - apply Q, post_bind; [|auto]. unfold status. apply p_status_loop; auto.
Qed.
Lemma tabs_run f ks : forall s o s', g_run cb gcb g0 m vnone f ks s = Done o s' ->
  length (owners ty val (rt_tabs s')) = total * new_tables ks + length (owners ty val (rt_tabs s)).
Proof.
  induction ks as [|k ks IH]; intros s o s' E; cbn [g_run] in E.
  - injection E as <- <-. unfold new_tables. cbn [filter length]. lia.
  - pose proof (tabs_call f k s) as X. unfold g_do_call_catch in E.
    assert (Y : exists o1 s1 o2, length (owners ty val (rt_tabs s1)) =
      (if match k with KSetDep _ => true | _ => false end then total else 0) + length (owners ty val (rt_tabs s)) /\
      bind (g_run cb gcb g0 m vnone f ks s1) (fun os s => Done (o1 :: os) s) = Done o2 s').
    { destruct (g_do_call _ _ _ _ _ _ _ _) as [o1 s1|x s1|u|]; cbn [bind post] in *; try discriminate; eauto. }
    destruct Y as (o1 & s1 & o2 & Y1 & Y2).
    destruct (g_run cb gcb g0 m vnone f ks s1) as [o3 s3| | |] eqn:Er; cbn [bind] in Y2; try discriminate.
    injection Y2 as _ <-. rewrite (IH _ _ _ Er), Y1. unfold new_tables. cbn [filter].
    destruct k; cbn [length]; lia.
Qed.
Lemma tabs_construct f d gw s : construct (V:=V) (W:=gworld V W G) m f d gw = Done tt s ->
  length (owners ty val (rt_tabs s)) = total.
Proof.
  unfold construct. destruct (if cd_unexpected _ then _ else _); [|discriminate].
  destruct (fill_dispatch m d (empty_tables m)) as [T|] eqn:Ef; [|discriminate].
  set (s0 := mkRt _ _ _ _ _ _ _ _ _). intros E.
  assert (X : post (bind (init_current_state m f s0) (fun _ s => update_current_regions m s)) (tabs_are T)).
  { assert (P1 : forall s0 s', kept_alike s0 s' -> tabs_are T s0 -> tabs_are T s') by (intros; eapply tabs_alike; eauto).
    apply post_bind; [|intros; apply p_regions; auto].
    unfold init_current_state. destruct (nth_at _ _) as [l0|]; [|exact I].
    assert (H0 : tabs_are T s0) by reflexivity. revert H0. clear E. generalize s0. generalize 0.
    induction f as [|f IH]; intros r s1 H0; cbn [init_loop]; [exact I|].
    destruct (Nat.ltb _ _); [|exact H0]. destruct (nth_error l0 r); [|exact I].
    apply post_bind; [apply p_write_cur; auto|]. intros. apply IH. assumption. }
  rewrite E in X. cbn [post] in X. rewrite X, (fill_length _ _ _ Ef), empty_owners. lia.
Qed.
Lemma session_owners f d w ks o s : g_session cb gcb g0 m vnone f d w ks = Done o s ->
  length (owners ty val (rt_tabs s)) = total * (1 + new_tables ks).
Proof.
  unfold g_session. destruct (construct _ _ _ _) as [[] s1| | |] eqn:Ec; cbn [bind]; try discriminate.
  intros E. rewrite (tabs_run _ _ _ _ _ E), (tabs_construct _ _ _ _ Ec). lia.
Qed.
End Runs.
End Count.

(** * Statements of PropsFunctor.v *)
Lemma copies_total env root m ty val n : compile env root = Some m -> copies env root ty val n ->
  n = count_rows ty val m (internal_flat m ++ mc_flat m).
Proof.
  intros Hm (flat & ints & Hv & Hk & ->). compiled Hm.
  rewrite (visits_det _ _ _ _ (flat_visits m (cp_fl m Hc)) _ Hv) in *.
  rewrite (keeps_first_det _ _ _ _ (internal_keeps m) _ Hk). unfold count_rows.
  f_equal. apply map_ext. intros x. rewrite <- (offers_children m). reflexivity.
Qed.
Section Props.
Context {V W G : Type}.
Variable cb : cbfun V W.
Variable gcb : gfun V W G.
Variable g0 : nat -> nat -> G.
Variable vnone : V.
Variable env : cenv.
Variable root : cls.
Variable m : machine.
Hypothesis Hm : compile env root = Some m.

Lemma functor_calls f d w ks s : ends_in (g_session cb gcb g0 m vnone f d w ks) s ->
  own_memory gcb g0 (gw_calls (rt_world s)) /\ one_functor (gw_calls (rt_world s)) /\ recorded s.
Proof. destruct (compile_comp _ _ _ Hm) as (Hc & _ & _). apply session_own_memory, Hc. Qed.
Lemma functor_entry f d w ks s n count i : ends_in (g_session cb gcb g0 m vnone f d w ks) s ->
  (forall c, In c (gw_calls (rt_world s)) -> gc_id c = i -> at_most gcb g0 n count (gc_ty c) (gc_val c)) ->
  times i (gw_calls (rt_world s)) <= n.
Proof. destruct (compile_comp _ _ _ Hm) as (Hc & _ & _). apply session_at_most, Hc. Qed.
Lemma functor_copies f d w ks o s ty val k : g_session cb gcb g0 m vnone f d w ks = Done o s ->
  copies env root ty val k -> length (owners ty val (rt_tabs s)) = k * (1 + new_tables ks).
Proof.
  intros H Hk. rewrite (copies_total _ _ _ _ _ _ Hm Hk). destruct (compile_comp _ _ _ Hm) as (Hc & _ & _).
  eapply session_owners; eauto.
Qed.
Lemma functor_total f d w ks o s ty val k n count : g_session cb gcb g0 m vnone f d w ks = Done o s ->
  copies env root ty val k -> at_most gcb g0 n count ty val ->
  times_of ty val (gw_calls (rt_world s)) <= n * (k * (1 + new_tables ks)).
Proof.
  intros H Hk Hn. rewrite <- (functor_copies _ _ _ _ _ _ _ _ _ H Hk).
  destruct (compile_comp _ _ _ Hm) as (Hc & _ & _).
  eapply session_at_most_all; [exact Hc| |exact Hn]. rewrite H. reflexivity.
Qed.
End Props.
Lemma copies_intro env root m ty val : compile env root = Some m ->
  copies env root ty val (count_rows ty val m (internal_flat m ++ mc_flat m)).
Proof.
  intros Hm. compiled Hm. exists (mc_flat m), (internal_flat m).
  split; [apply (flat_visits m (cp_fl m Hc))|]. split; [apply internal_keeps|]. unfold count_rows.
  f_equal. apply map_ext. intros x. rewrite <- (offers_children m). reflexivity.
Qed.
