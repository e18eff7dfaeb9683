(** The run-time model refines the name-level semantics. *)

From Coq Require Import List Arith NArith Bool Lia.
From Verif Require Import Types Static Dispatch Runtime ListFacts IndexFacts Spec
  DispatchFacts FlattenFacts Semantics.
Import ListNotations.

(** * Initial states and targets *)

Lemma filter_filter {A} (p q : A -> bool) l :
  filter p (filter q l) = filter (fun a => q a && p a) l.
Proof.
  induction l as [|a l IH]; [reflexivity|]. cbn.
  destruct (q a); cbn; rewrite IH; reflexivity.
Qed.

Lemma unique_acc_dedup l : forall seen,
  unique_acc sref_eq_dec seen l =
  filter (fun t => if in_dec sref_eq_dec t seen then false else true) (dedup l).
Proof.
  induction l as [|a l IH]; intros seen; [reflexivity|].
  cbn [unique_acc dedup filter]. destruct (in_dec sref_eq_dec a seen) as [Hin|Hn].
  - rewrite IH, filter_filter. apply filter_ext. intros t.
    destruct (sref_eq_dec t a) as [->|]; cbn; [|reflexivity].
    destruct (in_dec sref_eq_dec a seen); [reflexivity|contradiction].
  - rewrite IH, filter_filter. f_equal. apply filter_ext. intros t.
    destruct (sref_eq_dec t a) as [E|E]; cbn [andb].
    + destruct (in_dec sref_eq_dec t (a :: seen)) as [|H]; [reflexivity|].
      exfalso. apply H. left; auto.
    + destruct (in_dec sref_eq_dec t (a :: seen)) as [H|H];
        destruct (in_dec sref_eq_dec t seen) as [H'|H']; try reflexivity.
      * destruct H; congruence.
      * exfalso. apply H. right; auto.
Qed.

Lemma unique_dedup l : unique sref_eq_dec l = dedup l.
Proof.
  unfold unique. rewrite unique_acc_dedup. cbn.
  induction (dedup l) as [|a k IH]; [reflexivity|]. cbn. now rewrite IH.
Qed.

Lemma dedup_filter p l : dedup (filter p l) = filter p (dedup l).
Proof.
  induction l as [|a l IH]; [reflexivity|]. cbn [filter dedup].
  destruct (p a) eqn:E; cbn [filter dedup].
  - rewrite IH, !filter_filter. f_equal. apply filter_ext. intros t. apply andb_comm.
  - rewrite IH, filter_filter. apply filter_ext. intros t.
    destruct (sref_eq_dec t a) as [->|]; cbn; [exact E|reflexivity].
Qed.

Lemma initials_spec env c : initials env c = initial_states env c.
Proof.
  unfold initials, initial_states, child_states, mentioned.
  rewrite unique_dedup. change (rows_of env c) with (table env c).
  rewrite <- dedup_filter. reflexivity.
Qed.

Lemma has_table_b env c : has_table env (SState c) = is_composite env c.
Proof. reflexivity. Qed.

Lemma resolve_dst_spec env x :
  resolve_dst env x = option_map snd (target_place env x) /\
  (forall pl, target_place env x = Some pl -> resolve_dst_parent env x = fst pl).
Proof.
  unfold resolve_dst, resolve_dst_parent, target_place, first_initial.
  destruct (x_tgt x) as [c|w c|w p s|w p s|w p s|w p]; rewrite ?initials_spec;
    try (split; [reflexivity|intros pl H; inversion H; reflexivity]).
  - rewrite has_table_b. destruct (is_composite env c).
    + destruct (hd_error (initial_states env c)); cbn; split; auto; intros pl H; inversion H; reflexivity.
    + split; [reflexivity|intros pl H; inversion H; reflexivity].
  - destruct (hd_error (initial_states env p)); cbn; split; auto; intros pl H; inversion H; reflexivity.
Qed.

Lemma dst_of_target m x : resolve_dst (mc_env m) x <> None ->
  dst_of m x = target_state (mc_env m) x /\
  target_place (mc_env m) x = Some (resolve_dst_parent (mc_env m) x, dst_of m x).
Proof.
  intros H. unfold dst_of, target_state.
  destruct (resolve_dst_spec (mc_env m) x) as [E F].
  rewrite E in H |- *. destruct (target_place (mc_env m) x) as [[p s]|]; cbn in *; [|congruence].
  rewrite (F _ eq_refl). auto.
Qed.

(** * Effects *)

Section Steps.
Variable env : cenv.


Lemma effects_steps x o :
  effects env x o =
  match resolve_action env x with
  | None => []
  | Some l => flat_map (step_prims (action_target env x o) (target_state env x)) l
  end.
Proof.
  assert (E : effects env x o =
     flat_map (step_prims (action_target env x o) (target_state env x))
       (resolve_exit_action env x ++ resolve_no_action x
        ++ resolve_entry_action env x ++ resolve_initial_entry_action env x)).
  { unfold effects. rewrite !flat_map_app. f_equal; [|f_equal; [|f_equal]].
    - unfold exit_call, resolve_exit_action, exit_of, pseudo_exit_of, has_exit.
      destruct (x_int x); [reflexivity|].
      destruct (x_src x) as [c|? ?|? ? ?|? ? ?|? p ?|? ?]; try reflexivity; cbn.
      + destruct (cd_exit (lookup env c)); reflexivity.
      + destruct (cd_exit (lookup env p)); reflexivity.
    - unfold resolve_no_action. destruct (x_act x); cbn; rewrite ?app_nil_r; reflexivity.
    - unfold entry_call, resolve_entry_action, entry_of, has_entry.
      destruct (x_int x); [reflexivity|].
      destruct (x_tgt x); try reflexivity. destruct (cd_entry (lookup env c)); reflexivity.
    - unfold initial_entry_call, resolve_initial_entry_action, initial_entry_of, entry_of,
        first_initial, has_entry.
      destruct (x_tgt x) as [c|? ?|? ? ?|? ? ?|? ? ?|? ?]; try reflexivity.
      rewrite has_table_b, initials_spec. destruct (is_composite env c); [|reflexivity].
      destruct (hd_error (initial_states env c)) as [[i|? ?|? ? ?|? ? ?|? ? ?|? ?]|]; try reflexivity.
      destruct (cd_entry (lookup env i)); reflexivity. }
  rewrite E. unfold resolve_action. destruct (has_action env x) eqn:Ha; [reflexivity|].
  unfold has_action in Ha. repeat rewrite orb_false_iff in Ha.
  destruct Ha as [[[[H1 H2] H3] H4] H5].
  assert (Z1 : resolve_exit_action env x = []).
  { unfold resolve_exit_action. destruct (x_int x); [reflexivity|].
    destruct (exit_of env (x_src x)); [discriminate|].
    destruct (pseudo_exit_of env x); [discriminate|reflexivity]. }
  assert (Z2 : resolve_no_action x = []).
  { unfold resolve_no_action. destruct (x_act x); [reflexivity|discriminate]. }
  assert (Z3 : resolve_entry_action env x = []).
  { unfold resolve_entry_action. destruct (x_int x); [reflexivity|].
    destruct (entry_of env (x_tgt x)); [discriminate|reflexivity]. }
  assert (Z4 : resolve_initial_entry_action env x = []).
  { unfold resolve_initial_entry_action.
    destruct (initial_entry_of env (x_tgt x)); [discriminate|reflexivity]. }
  rewrite Z1, Z2, Z3, Z4. reflexivity.
Qed.
End Steps.

(** * Bookkeeping lemmas *)
Lemma upd_nth_set {A} (a : A) l : forall n l', upd_nth n (fun _ => a) l = Some l' -> l' = set_nth n a l.
Proof.
  induction l as [|b l IH]; intros n l' H; [destruct n; discriminate|].
  destruct n; cbn in *; [now inversion H|].
  destruct (upd_nth n (fun _ => a) l) eqn:E; [|discriminate]. inversion H; subst.
  now rewrite (IH _ _ E).
Qed.

Lemma set_nth_length {A} (a : A) l : forall n, length (set_nth n a l) = length l.
Proof. induction l as [|b l IH]; intros [|n]; cbn; auto. Qed.

Lemma nth_set_same {A} (a : A) l : forall n, n < length l -> nth_error (set_nth n a l) n = Some a.
Proof. induction l as [|b l IH]; intros [|n] H; cbn in *; try lia; auto. apply IH. lia. Qed.

Lemma nth_set_other {A} (a : A) l : forall n k, k <> n -> nth_error (set_nth n a l) k = nth_error l k.
Proof.
  induction l as [|b l IH]; intros [|n] [|k] H; cbn; auto; try lia.
Qed.

Lemma upd_nth_in {A} (a : A) l n : n < length l -> upd_nth n (fun _ => a) l = Some (set_nth n a l).
Proof.
  intros H. destruct (upd_nth_Some (fun _ => a) l n H) as [l' E]. rewrite E. f_equal.
  now apply upd_nth_set.
Qed.

Section Refine.
Context {V W : Type}.
Variable cb : cbfun V W.
Variable m : machine.
Hypothesis Hc : comp m.
Notation env := (mc_env m).
Notation st := (rt V W).

Lemma after_nil (s : st) : after s (rt_world s) [] = s.
Proof. destruct s; unfold after, with_user; cbn. now rewrite app_nil_r. Qed.
Lemma after_after (s : st) w1 k1 w2 k2 : after (after s w1 k1) w2 k2 = after s w2 (k1 ++ k2).
Proof. unfold after, with_user; cbn. now rewrite app_assoc. Qed.
Lemma with_live_id (s : st) : with_live s (rt_live s) = s.
Proof. destruct s; reflexivity. Qed.
Lemma live_after_live (s : st) w1 k1 l1 w2 k2 l2 :
  with_live (after (with_live (after s w1 k1) l1) w2 k2) l2 = with_live (after s w2 (k1 ++ k2)) l2.
Proof. unfold after, with_user, with_live; cbn. now rewrite app_assoc. Qed.

Lemma perform_app e d o ps1 ps2 : forall v live w k1 v1 live1 w1 k2 n v2 live2 w2,
  perform cb e d o ps1 v live w k1 None v1 live1 w1 ->
  perform cb e d o ps2 v1 live1 w1 k2 n v2 live2 w2 ->
  perform cb e d o (ps1 ++ ps2) v live w (k1 ++ k2) n v2 live2 w2.
Proof.
  induction ps1 as [|p ps1 IH]; intros until w2; intros H1 H2; inversion H1; subst; cbn.
  - exact H2.
  - eapply pf_call; eauto.
Qed.

Lemma perform_raise_app e d o ps1 ps2 : forall v live w k1 n v1 live1 w1,
  perform cb e d o ps1 v live w k1 (Some n) v1 live1 w1 ->
  perform cb e d o (ps1 ++ ps2) v live w k1 (Some n) v1 live1 w1.
Proof.
  induction ps1 as [|p ps1 IH]; intros until w1; intros H1; inversion H1; subst; cbn.
  - eapply pf_call; eauto.
  - eapply pf_raise; eauto.
Qed.

(** What a run of effects [ps] may answer. *)
Definition performs (e : ev) (d : dep) (o : sref) (ps : list prim) (v : V) (s : st)
    (r : res V W V) : Prop :=
  match r with
  | Done v' s' => exists ks live' w',
      perform cb e d o ps v (rt_live s) (rt_world s) ks None v' live' w' /\
      s' = with_live (after s w' ks) live'
  | Threw x s' => exists n ks v' live' w', x = XUser n /\
      perform cb e d o ps v (rt_live s) (rt_world s) ks (Some n) v' live' w' /\
      s' = with_live (after s w' ks) live'
  | Undef _ => True
  | Timeout => False
  end.

Lemma performs_nil e d o v s : performs e d o [] v s (Done v s).
Proof.
  exists [], (rt_live s), (rt_world s). split; [constructor|]. now rewrite after_nil, with_live_id.
Qed.

Lemma performs_bind e d o ps1 ps2 v s r f :
  performs e d o ps1 v s r ->
  (forall v' s', performs e d o ps2 v' s' (f v' s')) ->
  performs e d o (ps1 ++ ps2) v s (bind r f).
Proof.
  intros H1 H2. destruct r as [v1 s1|x s1|u|]; cbn in *; auto; [|].
  - destruct H1 as (k1 & l1 & w1 & P1 & ->).
    specialize (H2 v1 (with_live (after s w1 k1) l1)).
    destruct (f v1 (with_live (after s w1 k1) l1)) as [v2 s2|x s2|u|]; cbn in *; auto.
    + destruct H2 as (k2 & l2 & w2 & P2 & ->).
      exists (k1 ++ k2), l2, w2. split; [eapply perform_app; eauto|apply live_after_live].
    + destruct H2 as (n & k2 & v2 & l2 & w2 & -> & P2 & ->).
      exists n, (k1 ++ k2), v2, l2, w2. split; [reflexivity|].
      split; [eapply perform_app; eauto|apply live_after_live].
  - destruct H1 as (n & k1 & v1 & l1 & w1 & -> & P1 & ->).
    exists n, k1, v1, l1, w1. split; [reflexivity|]. split; [|reflexivity].
    eapply perform_raise_app; eauto.
Qed.

Lemma performs_keep e d o p v s : p_keep p = true -> p_makes p = None ->
  performs e d o [p] v s
    (keep_payload (invoke cb (p_callee p) (mkArgs e o (p_targ p) d) v s)).
Proof.
  intros Hk Hm. unfold keep_payload, invoke.
  destruct (cb (p_callee p) (mkArgs e o (p_targ p) d) v (rt_world s)) as [b v' w'|n v' w'] eqn:E; cbn.
  - exists [mkCall (p_callee p) (mkArgs e o (p_targ p) d) v], (rt_live s), w'.
    split; [|reflexivity].
    eapply pf_call; [exact E|]. rewrite Hk, Hm. constructor.
  - exists n, [mkCall (p_callee p) (mkArgs e o (p_targ p) d) v], v, (rt_live s), w'.
    split; [reflexivity|]. split; [|reflexivity]. eapply pf_raise; exact E.
Qed.

(** Induction on nested bodies. *)
Lemma abody_ind2 (P : abody -> Prop) :
  (forall f, P (ACall f)) -> (forall f, P (ACreate f)) -> (forall f, P (AReuse f)) ->
  (forall l, Forall P l -> P (AChain l)) -> forall b, P b.
Proof.
  intros H1 H2 H3 H4. fix IH 1. intros [f|f|f|l]; [apply H1|apply H2|apply H3|].
  apply H4. induction l as [|b l IHl]; constructor; [apply IH|exact IHl].
Qed.

Fixpoint exec_chain (l : list abody) (t : trans) (e : ev) (v : V) (s : st) : res V W V :=
  match l with
  | [] => Done v s
  | b :: l' => bind (exec_body cb b t e v s) (fun v' s' => exec_chain l' t e v' s')
  end.
Lemma exec_body_chain l t e v s : exec_body cb (AChain l) t e v s = exec_chain l t e v s.
Proof.
  revert v s. induction l as [|b l IH]; intros v s; [reflexivity|].
  change (exec_body cb (AChain (b :: l)) t e v s)
    with (bind (exec_body cb b t e v s) (fun v' s' => exec_body cb (AChain l) t e v' s')).
  cbn [exec_chain]. destruct (exec_body cb b t e v s); cbn [bind]; try reflexivity. apply IH.
Qed.

Lemma exec_body_sound t e : forall b v s,
  performs e (t_dep t) (t_src t)
    (body_calls (a_tgt (action_args t e)) (t_tgt t) b) v s (exec_body cb b t e v s).
Proof.
  induction b as [f|f|f|l IH] using abody_ind2; intros v s.
  - apply (performs_keep e (t_dep t) (t_src t)
             (mkPrim (CAction f) (a_tgt (action_args t e)) true None)); reflexivity.
  - cbn. unfold invoke.
    destruct (cb (CFactory f) (mkArgs e (t_src t) TNone (t_dep t)) v (rt_world s))
      as [b v' w'|n v' w'] eqn:E; cbn.
    + eexists [_], _, w'. split.
      * eapply (pf_call _ _ _ _ (mkPrim (CFactory f) TNone false (Some (t_tgt t)))); [exact E|].
        constructor.
      * reflexivity.
    + eexists n, [_], v, _, w'. split; [reflexivity|]. split.
      * eapply (pf_raise _ _ _ _ (mkPrim (CFactory f) TNone false (Some (t_tgt t)))). exact E.
      * reflexivity.
  - cbn. destruct (alive s (t_tgt t)); [|exact I]. unfold drop_payload, invoke.
    destruct (cb (CReuse f) (mkArgs e (t_src t) (TObj (t_tgt t)) (t_dep t)) v (rt_world s))
      as [b v' w'|n v' w'] eqn:E; cbn.
    + eexists [_], (rt_live s), w'. split.
      * eapply (pf_call _ _ _ _ (mkPrim (CReuse f) (TObj (t_tgt t)) false None)); [exact E|].
        constructor.
      * reflexivity.
    + eexists n, [_], v, (rt_live s), w'. split; [reflexivity|]. split.
      * eapply (pf_raise _ _ _ _ (mkPrim (CReuse f) (TObj (t_tgt t)) false None)). exact E.
      * reflexivity.
  - rewrite exec_body_chain. cbn [body_calls].
    revert v s. induction IH as [|b l Hb Hl IHl]; intros v s; [apply performs_nil|].
    cbn [exec_chain flat_map]. apply performs_bind; [apply Hb|]. intros v' s'. apply IHl.
Qed.

Lemma exec_steps_sound t e : forall l v s,
  performs e (t_dep t) (t_src t)
    (flat_map (step_prims (a_tgt (action_args t e)) (t_tgt t)) l) v s (exec_steps cb l t e v s).
Proof.
  induction l as [|a l IH]; intros v s; [apply performs_nil|].
  cbn [exec_steps flat_map]. apply performs_bind; [|intros; apply IH].
  destruct a as [c|b|c|c]; cbn [exec_step step_prims].
  - apply (performs_keep e (t_dep t) (t_src t)
             (mkPrim (CExit c) (a_tgt (action_args t e)) true None)); reflexivity.
  - apply exec_body_sound.
  - apply (performs_keep e (t_dep t) (t_src t)
             (mkPrim (CEntry c) (a_tgt (action_args t e)) true None)); reflexivity.
  - apply (performs_keep e (t_dep t) (t_src t)
             (mkPrim (CEntry c) (a_tgt (action_args t e)) true None)); reflexivity.
Qed.

(** The entry of a bound candidate. *)
Definition bentry (b : bcand) : entry := centry m (fst b) (snd b).
Definition btrans (d : dep) (x : xrow) (o : sref) : trans :=
  mkTrans (x_guard x) (resolve_action env x) o (dst_of m x) d (x_int x)
          (negb (defctor env (dst_of m x))).
Lemma bentry_tr d x o : en_tr (bentry (d, CRow x o)) = Some (btrans d x o).
Proof. reflexivity. Qed.

Lemma execute_action_sound d x o e v s : resolve_dst env x <> None ->
  performs e d o (effects env x o) v s (execute_action cb (btrans d x o) e v s).
Proof.
  intros Hd. destruct (dst_of_target m x Hd) as [Ht _].
  rewrite effects_steps. unfold execute_action. cbn [t_act btrans t_src t_tgt t_ptr t_int].
  destruct (resolve_action env x) as [l|]; [|apply performs_nil].
  destruct (alive s o && _); [|exact I].
  assert (Ea : a_tgt (action_args (btrans d x o) e) = action_target env x o).
  { unfold action_args, action_target; cbn. rewrite Ht.
    change (defctor env (target_state env x)) with (default_constructible env (target_state env x)).
    destruct (default_constructible env (target_state env x)); cbn; [|reflexivity].
    destruct (x_int x); reflexivity. }
  pose proof (exec_steps_sound (btrans d x o) e l v s) as P.
  rewrite Ea in P. cbn [t_tgt btrans t_dep t_src] in P. rewrite Ht in P. exact P.
Qed.

Lemma execute_guard_sound d x o e v s : resolve_dst env x <> None ->
  match execute_guard cb (btrans d x o) e v s with
  | Done (b, v') s' =>
      (x_guard x = NoGuard /\ b = true /\ v' = v /\ s' = s) \/
      (exists ty val w', x_guard x = Guard ty val /\
         cb (CGuard ty val) (guard_args m e d x o) v (rt_world s) = Ret b v' w' /\
         s' = after s w' [mkCall (CGuard ty val) (guard_args m e d x o) v])
  | Threw ex s' => exists ty val n v' w', ex = XUser n /\ x_guard x = Guard ty val /\
         cb (CGuard ty val) (guard_args m e d x o) v (rt_world s) = Raise n v' w' /\
         s' = after s w' [mkCall (CGuard ty val) (guard_args m e d x o) v]
  | Undef _ => True
  | Timeout => False
  end.
Proof.
  intros Hd. destruct (dst_of_target m x Hd) as [Ht _].
  unfold execute_guard; cbn [t_guard btrans t_int t_src t_tgt t_dep].
  destruct (x_guard x) as [|ty val] eqn:Eg; [left; auto|].
  destruct (_ && _); [|exact I].
  unfold guard_args. rewrite <- Ht. unfold invoke.
  destruct (cb _ _ v (rt_world s)) as [b v' w'|n v' w'] eqn:E.
  - right. exists ty, val, w'. auto.
  - exists ty, val, n, v', w'. auto.
Qed.

(** * Decoding *)
Lemma code_combined p s : code m (p, s) = combined_idx m p s.
Proof. unfold code. now rewrite (combined_idx_pos m Hc). Qed.

Lemma decode_lt (c : N) : (calc_parent_idx (n_states m) c < N.of_nat (n_parents m))%N ->
  exists pl, nth_error (places m) (N.to_nat c) = Some pl.
Proof.
  intros H. unfold calc_parent_idx in H.
  assert (L : (c < N.of_nat (n_parents m) * n_states m)%N).
  { pose proof (n_states_pos m) as Hp.
    destruct (N.lt_ge_cases c (N.of_nat (n_parents m) * n_states m)) as [|G]; [assumption|].
    exfalso.
    assert (N.of_nat (n_parents m) <= c / n_states m)%N.
    { apply N.div_le_lower_bound; [lia|]. rewrite N.mul_comm. exact G. }
    lia. }
  rewrite <- (places_length m) in L.
  destruct (nth_error (places m) (N.to_nat c)) eqn:E; [eauto|].
  apply nth_error_None in E. lia.
Qed.

Lemma decode_parent c p s : nth_error (places m) (N.to_nat c) = Some (p, s) ->
  calc_parent_idx (n_states m) c = N.of_nat (parent_pos m p).
Proof.
  intros H. apply (places_at_inv m Hc) in H. destruct H as (Hp & Hs & ->).
  rewrite (calc_parent_combined m Hc) by assumption.
  apply (parent_idx_pos m Hc).
Qed.

Lemma decode_state c p s : nth_error (places m) (N.to_nat c) = Some (p, s) ->
  calc_state_idx (n_states m) c = state_idx m s.
Proof.
  intros H. apply (places_at_inv m Hc) in H. destruct H as (Hp & Hs & ->).
  apply (calc_state_combined m Hc); assumption.
Qed.

(** * The invariant of the tables *)
Record tinv (ds : list dep) (d0 : dep) (s : st) : Prop := mkTinv {
  ti_tabs : filled m ds (rt_tabs s);
  ti_htabs : cd_unexpected (lookup env (mc_root m)) = true -> fill_handlers m d0 = Some (rt_htabs s);
  ti_cur : length (rt_cur s) = max_initials m;
  ti_hist : map (@length N) (rt_hist s) = map (@length N) (initial_table m) }.

Lemma tinv_frame ds d0 s s' :
  rt_tabs s' = rt_tabs s -> rt_htabs s' = rt_htabs s -> length (rt_cur s') = length (rt_cur s) ->
  map (@length N) (rt_hist s') = map (@length N) (rt_hist s) ->
  tinv ds d0 s -> tinv ds d0 s'.
Proof.
  intros E1 E2 E3 E4 [T1 T2 T3 T4]. split; rewrite ?E1, ?E2, ?E3, ?E4; auto.
Qed.

Lemma tinv_hist_length ds d0 s : tinv ds d0 s -> length (rt_hist s) = n_parents m.
Proof.
  intros [_ _ _ H]. apply (f_equal (@length nat)) in H. rewrite !map_length in H.
  rewrite H. unfold initial_table. now rewrite map_length.
Qed.

Lemma get_entries_sound ds d0 e r s : tinv ds d0 s ->
  match get_entries e r s with
  | Done l s' => s' = s /\ In e (events m) /\ exists pl, at_place m s r = Some pl /\
      l = map bentry (bound m ds e pl)
  | Threw _ _ => False
  | Undef _ => True
  | Timeout => False
  end.
Proof.
  intros T. unfold get_entries.
  destruct (get_table (rt_tabs s) e) as [arr|] eqn:Eg; [|exact I].
  pose proof (filled_shape m Hc _ _ (ti_tabs _ _ _ T)) as [Sh1 Sh2].
  assert (He : In e (events m)).
  { rewrite <- Sh1. apply get_table_In. eauto. }
  unfold read_cur. destruct (nth_error (rt_cur s) r) as [[c|]|] eqn:En; cbn; auto.
  rewrite nth_at_nth. destruct (nth_error arr (N.to_nat c)) as [l|] eqn:El; [|exact I].
  split; [reflexivity|]. split; [exact He|].
  assert (Hlt : N.to_nat c < length (places m)).
  { rewrite <- (Sh2 _ _ Eg). apply nth_error_Some. congruence. }
  destruct (nth_error (places m) (N.to_nat c)) as [[p q]|] eqn:Ep;
    [|apply nth_error_None in Ep; lia].
  exists (p, q). unfold at_place. rewrite En. split; [exact Ep|].
  destruct (places_at_inv m Hc _ _ _ Ep) as (Hp & Hq & ->).
  pose proof (filled_get m Hc _ _ e p q (ti_tabs _ _ _ T) He Hp Hq) as G.
  unfold tget in G. rewrite Eg, El in G. inversion G.
  unfold bound. rewrite map_flat_map. apply flat_map_ext_in. intros d _.
  rewrite map_map. reflexivity.
Qed.

Lemma cands_accepted e pl x o : In (CRow x o) (cands m e pl) -> row_accepted m x = true.
Proof.
  intros H. apply (cp_rows m Hc). unfold cands, priority in H.
  rewrite !in_app_iff, <- !in_rev in H. rewrite in_app_iff.
  destruct H as [H|[H|H]].
  - apply (defers_at_iff m) in H. destruct H; discriminate.
  - apply (rows_at_iff m) in H. destruct H as (y & o' & Hy & _ & _ & E). inversion E; subst. auto.
  - apply (rows_at_iff m) in H. destruct H as (y & o' & Hy & _ & _ & E). inversion E; subst. auto.
Qed.

Lemma bound_accepted ds e pl d x o : In (d, CRow x o) (bound m ds e pl) -> row_accepted m x = true.
Proof.
  unfold bound. intros H. apply in_flat_map in H. destruct H as (d' & _ & H).
  apply in_map_iff in H. destruct H as (c & E & H). inversion E; subst.
  eapply cands_accepted; eauto.
Qed.

Lemma history_target_inrange x w p : In x (mc_flat m) -> row_accepted m x = true ->
  x_tgt x = SHistory w p ->
  resolve_dst_parent env x = p /\ In p (parents m) /\ In (dst_of m x) (states m).
Proof.
  intros Hx Ha Ht. unfold resolve_dst_parent. rewrite Ht. split; [reflexivity|].
  unfold row_accepted in Ha. unfold dst_of, resolve_dst in *. rewrite Ht in *.
  destruct (hd_error (initials env p)) as [i|] eqn:Ei; [|discriminate].
  rewrite !andb_true_iff in Ha. destruct Ha as [[[Ha1 Ha2] Ha3] Ha4].
  split.
  - apply (parents_iff m Hc). split.
    + apply (flat_declared m Hc) in Hx. destruct Hx as (q & r & Hu & Hr & ->).
      cbn in Ht. apply used_sub with q r; auto.
      * rewrite Ht. constructor.
      * now apply has_table_iff.
    + intros E. unfold initials, child_states in Ei. rewrite (rows_of_table m p), E in Ei. discriminate.
  - destruct (in_dec sref_eq_dec i (states m)); [assumption|discriminate].
Qed.

(** * Moving *)
Lemma relocate_sound r c (s s1 s' : st) :
  write_cur s r c = Done tt s1 -> update_current_regions m s1 = Done tt s' ->
  s' = relocate m r c s /\ settled m (relocate m r c s).
Proof.
  unfold write_cur. destruct (upd_nth r _ (rt_cur s)) as [cur|] eqn:E; [|discriminate].
  intros H; inversion H; subst s1; clear H. apply upd_nth_set in E. subst cur.
  unfold update_current_regions, relocate, settled. destruct (parallel m);
    [|intros H; inversion H; split; [reflexivity|discriminate]].
  unfold current_parent, read_cur.
  set (s1 := with_cur s (set_nth r (Some c) (rt_cur s))).
  destruct (nth_error (rt_cur s1) 0) as [[c0|]|] eqn:E0; cbn [bind]; try discriminate.
  rewrite nth_at_nth. destruct (nth_error (initial_table m) _) as [l|] eqn:El; [|discriminate].
  intros H; inversion H; subst s'.
  assert (L : (calc_parent_idx (n_states m) c0 < N.of_nat (n_parents m))%N).
  { assert (N.to_nat (calc_parent_idx (n_states m) c0) < length (initial_table m)).
    { apply nth_error_Some. congruence. }
    unfold initial_table in H0. rewrite map_length in H0. unfold n_parents. lia. }
  destruct (decode_lt c0 L) as [[p q] Ep].
  assert (A0 : at_place m s1 0 = Some (p, q)) by (unfold at_place; rewrite E0; exact Ep).
  rewrite A0. split.
  2:{ intros _. change (at_place m (with_regions s1 (length (initial_states env p))) 0)
        with (at_place m s1 0). congruence. }
  rewrite (decode_parent _ _ _ Ep), Nnat.Nat2N.id in El.
  unfold initial_table, parent_pos in El. rewrite nth_error_map in El.
  apply (places_at_inv m Hc) in Ep. destruct Ep as (Hp & _).
  rewrite nth_pos in El by exact Hp. cbn in El. inversion El; subst l.
  rewrite map_length, initials_spec. reflexivity.
Qed.

Lemma remember_sound ds d0 r (s s1 : st) p c : tinv ds d0 s ->
  current_parent m s = Done p s -> read_cur s r = Done c s -> write_hist s p r c = Done tt s1 ->
  s1 = remember m r s /\ rt_hist s1 <> [] /\ length (rt_hist s1) = n_parents m.
Proof.
  intros T. unfold current_parent, read_cur, write_hist, remember, at_place.
  destruct (nth_error (rt_cur s) 0) as [[c0|]|] eqn:E0; cbn; try discriminate.
  intros H; inversion H; subst p; clear H.
  destruct (nth_error (rt_cur s) r) as [[c1|]|] eqn:E1; cbn; try discriminate.
  intros H; inversion H; subst c1; clear H.
  rewrite nth_at_nth. destruct (nth_error (rt_hist s) _) as [l|] eqn:El; [|discriminate].
  destruct (upd_nth r _ l) as [l'|] eqn:E2; [|discriminate].
  rewrite upd_at_upd. destruct (upd_nth _ _ (rt_hist s)) as [h|] eqn:E3; [|discriminate].
  intros H; inversion H; subst s1; clear H.
  assert (L : (calc_parent_idx (n_states m) c0 < N.of_nat (n_parents m))%N).
  { rewrite <- (tinv_hist_length _ _ _ T).
    assert (N.to_nat (calc_parent_idx (n_states m) c0) < length (rt_hist s)) by (apply nth_error_Some; congruence).
    lia. }
  destruct (decode_lt c0 L) as [[p q] Ep]. rewrite Ep.
  rewrite (decode_parent _ _ _ Ep), Nnat.Nat2N.id in *. rewrite El.
  apply upd_nth_set in E2. subst l'. pose proof E3 as E4. apply upd_nth_set in E3. subst h.
  apply upd_nth_spec in E4. destruct E4 as (A & B & _).
  split; [reflexivity|]. cbn. split; [intros Z; rewrite Z in B; cbn in B; lia|].
  rewrite B. eapply tinv_hist_length; eauto.
Qed.

Lemma read_cur_Done (s s' : st) r c : read_cur s r = Done c s' -> s' = s /\ nth_error (rt_cur s) r = Some (Some c).
Proof. unfold read_cur. destruct (nth_error (rt_cur s) r) as [[c1|]|]; intros H; inversion H; auto. Qed.
Lemma current_parent_Done (s s' : st) p : current_parent m s = Done p s' -> s' = s.
Proof.
  unfold current_parent. destruct (read_cur s 0) eqn:E; cbn; intros H; inversion H; subst.
  now apply read_cur_Done in E.
Qed.

Lemma bind_Done {A B} (r : res V W A) (f : A -> st -> res V W B) b s' :
  bind r f = Done b s' -> exists a s1, r = Done a s1 /\ f a s1 = Done b s'.
Proof. destruct r; cbn; intros H; try discriminate; eauto. Qed.
Lemma bind_Threw {A B} (r : res V W A) (f : A -> st -> res V W B) x s' :
  bind r f = Threw x s' -> r = Threw x s' \/ exists a s1, r = Done a s1 /\ f a s1 = Threw x s'.
Proof. destruct r; cbn; intros H; try discriminate; eauto. inversion H; auto. Qed.

(** History rows are rows of the tables. *)
Lemma update_sound ds d0 d x o r s s' : tinv ds d0 s -> row_accepted m x = true ->
  (x_int x = false -> In x (mc_flat m)) ->
  update_current_state m r (bentry (d, CRow x o)) s = Done tt s' ->
  moves m r x s s'.
Proof.
  intros T Ha Hx. pose proof (row_accepted_dst m x Ha) as Hd.
  destruct (dst_of_target m x Hd) as [_ Htp].
  unfold update_current_state. cbn [bentry centry fst snd entry_of_row en_int en_hist en_to].
  destruct (x_int x) eqn:Ei; [intros H; inversion H; now constructor|].
  specialize (Hx eq_refl).
  destruct (has_history m) eqn:Eh.
  - intros H. apply bind_Done in H. destruct H as ([] & s4 & H & HU).
    apply bind_Done in H. destruct H as (p & s1 & H1 & H).
    pose proof (current_parent_Done _ _ _ H1) as ->.
    apply bind_Done in H. destruct H as (c & s1 & H2 & H).
    pose proof (read_cur_Done _ _ _ _ H2) as [-> Hcr].
    apply bind_Done in H. destruct H as ([] & s2 & H3 & H).
    destruct (remember_sound _ _ _ _ _ _ _ T H1 H2 H3) as (-> & _ & Hl).
    unfold resolve_history in H.
    destruct (is_history (x_tgt x)) eqn:Eih.
    + destruct (x_tgt x) as [| | | | |w p'] eqn:Et; try discriminate.
      destruct (history_target_inrange x w p' Hx Ha Et) as (Ep & Hp & Hs).
      rewrite Ep, (calc_parent_combined m Hc) in H by assumption.
      apply bind_Done in H. destruct H as (c' & s3 & H4 & H).
      unfold read_hist in H4. rewrite nth_at_nth in H4.
      rewrite (parent_idx_pos m Hc), Nnat.Nat2N.id in H4.
      destruct (nth_error (rt_hist (remember m r s)) (pos Nat.eq_dec p' (parents m))) as [l|] eqn:El; [|discriminate].
      destruct (nth_error l r) as [c1|] eqn:Ec; [|discriminate]. inversion H4; subst c1 s3; clear H4.
      destruct (relocate_sound _ _ _ _ _ H HU) as [-> Hset].
      eapply mv_history; eauto. unfold history_of, parent_pos. now rewrite El.
    + destruct (relocate_sound _ _ _ _ _ H HU) as [-> Hset].
      rewrite <- code_combined in Hset |- *. eapply mv_remember; eauto.
  - intros H. apply bind_Done in H. destruct H as ([] & s4 & H & HU).
    destruct (relocate_sound _ _ _ _ _ H HU) as [-> Hset].
    rewrite <- code_combined in Hset |- *. eapply mv_plain; eauto.
Qed.

Lemma update_no_throw r en (s : st) ex s' : update_current_state m r en s <> Threw ex s'.
Proof.
  unfold update_current_state. destruct (en_int en); [discriminate|].
  assert (Hw : forall c (s s' : st) ex, write_cur s r c <> Threw ex s').
  { intros. unfold write_cur. destruct (upd_nth _ _ _); discriminate. }
  assert (Hu : forall (s s' : st) ex, update_current_regions m s <> Threw ex s').
  { intros. unfold update_current_regions, current_parent, read_cur. destruct (parallel m); [|discriminate].
    destruct (nth_error (rt_cur s0) 0) as [[?|]|]; cbn; try discriminate.
    destruct (nth_at _ _); discriminate. }
  intros H. apply bind_Threw in H. destruct H as [H|(? & ? & _ & H)]; [|eapply Hu; eauto].
  destruct (has_history m); [|eapply Hw; eauto].
  apply bind_Threw in H. destruct H as [H|(p & s1 & _ & H)].
  { unfold current_parent, read_cur in H. destruct (nth_error (rt_cur s) 0) as [[?|]|]; discriminate. }
  apply bind_Threw in H. destruct H as [H|(c & s2 & _ & H)].
  { unfold read_cur in H. destruct (nth_error (rt_cur s1) r) as [[?|]|]; discriminate. }
  apply bind_Threw in H. destruct H as [H|(u & s3 & _ & H)].
  { unfold write_hist in H. destruct (nth_at _ _); [|discriminate].
    destruct (upd_nth _ _ _); [|discriminate]. destruct (upd_at _ _ _); discriminate. }
  destruct (en_hist en); [|eapply Hw; eauto].
  apply bind_Threw in H. destruct H as [H|(c' & s4 & _ & H)]; [|eapply Hw; eauto].
  unfold read_hist in H. destruct (nth_at _ _); [|discriminate]. destruct (nth_error _ _); discriminate.
Qed.

(** * Frames *)
Record frame (s s' : st) : Prop := mkFrame {
  fr_tabs : rt_tabs s' = rt_tabs s;
  fr_htabs : rt_htabs s' = rt_htabs s;
  fr_cur : length (rt_cur s') = length (rt_cur s);
  fr_hist : map (@length N) (rt_hist s') = map (@length N) (rt_hist s) }.
Lemma frame_refl s : frame s s.
Proof. split; reflexivity. Qed.
Lemma frame_trans s1 s2 s3 : frame s1 s2 -> frame s2 s3 -> frame s1 s3.
Proof. intros [A B C D] [A' B' C' D']. split; congruence. Qed.
Lemma frame_tinv ds d0 s s' : frame s s' -> tinv ds d0 s -> tinv ds d0 s'.
Proof. intros [A B C D]. now apply tinv_frame. Qed.

Lemma set_nth_map_length (a : list N) l n : nth_error (map (@length N) l) n = Some (length a) ->
  map (@length N) (set_nth n a l) = map (@length N) l.
Proof.
  revert n. induction l as [|b l IH]; intros [|n] H; cbn in *; auto.
  - inversion H. congruence.
  - f_equal. now apply IH.
Qed.

Lemma remember_frame r (s : st) : frame s (remember m r s).
Proof.
  unfold remember. destruct (at_place m s 0) as [[p q]|]; [|apply frame_refl].
  destruct (nth_error (rt_cur s) r) as [[c|]|]; try apply frame_refl.
  destruct (nth_error (rt_hist s) (parent_pos m p)) as [l|] eqn:E; [|apply frame_refl].
  split; try reflexivity. cbn. apply set_nth_map_length.
  rewrite nth_error_map, E. cbn. now rewrite set_nth_length.
Qed.
Lemma remember_rest r (s : st) :
  rt_queue (remember m r s) = rt_queue s /\ rt_live (remember m r s) = rt_live s /\
  rt_world (remember m r s) = rt_world s /\ rt_trace (remember m r s) = rt_trace s /\
  rt_cur (remember m r s) = rt_cur s /\ rt_regions (remember m r s) = rt_regions s.
Proof.
  unfold remember. destruct (at_place m s 0) as [[p q]|]; [|repeat split].
  destruct (nth_error (rt_cur s) r) as [[c|]|]; try (repeat split; fail).
  destruct (nth_error (rt_hist s) (parent_pos m p)); repeat split.
Qed.
Lemma relocate_frame r c (s : st) : frame s (relocate m r c s).
Proof.
  unfold relocate. destruct (parallel m).
  - destruct (at_place m _ 0) as [[p q]|]; split; try reflexivity; cbn; apply set_nth_length.
  - split; try reflexivity; cbn; apply set_nth_length.
Qed.
Lemma relocate_rest r c (s : st) :
  rt_queue (relocate m r c s) = rt_queue s /\ rt_live (relocate m r c s) = rt_live s /\
  rt_world (relocate m r c s) = rt_world s /\ rt_trace (relocate m r c s) = rt_trace s /\
  rt_cur (relocate m r c s) = set_nth r (Some c) (rt_cur s) /\
  rt_hist (relocate m r c s) = rt_hist s.
Proof.
  unfold relocate. destruct (parallel m); [|repeat split].
  destruct (at_place m _ 0) as [[p q]|]; repeat split.
Qed.

Lemma moves_frame r x (s s' : st) : moves m r x s s' -> frame s s'.
Proof.
  intros H. destruct H as [s|s pl|s pl|s w p c]; [apply frame_refl|apply relocate_frame| |];
    (eapply frame_trans; [apply remember_frame|apply relocate_frame]).
Qed.
Lemma moves_rest r x (s s' : st) : moves m r x s s' ->
  rt_queue s' = rt_queue s /\ rt_live s' = rt_live s /\ rt_world s' = rt_world s /\
  rt_trace s' = rt_trace s /\
  (forall k, k <> r -> nth_error (rt_cur s') k = nth_error (rt_cur s) k).
Proof.
  intros H. destruct H as [s|s pl|s pl|s w p c]; [repeat split| | |].
  - destruct (relocate_rest r (code m pl) s) as (A & B & C & D & E & _).
    rewrite A, B, C, D, E. repeat split. intros k Hk. now apply nth_set_other.
  - destruct (relocate_rest r (code m pl) (remember m r s)) as (A & B & C & D & E & _).
    destruct (remember_rest r s) as (A' & B' & C' & D' & E' & _).
    rewrite A, B, C, D, E, A', B', C', D', E'. repeat split. intros k Hk. now apply nth_set_other.
  - destruct (relocate_rest r c (remember m r s)) as (A & B & C & D & E & _).
    destruct (remember_rest r s) as (A' & B' & C' & D' & E' & _).
    rewrite A, B, C, D, E, A', B', C', D', E'. repeat split. intros k Hk. now apply nth_set_other.
Qed.

Lemma executes_frame r e d x o v s n v' s' : executes cb m r e d x o v s n v' s' -> frame s s'.
Proof.
  intros [v0 s0 s1 ks n0 v1 l1 w1 Hm Hp]. apply moves_frame in Hm.
  destruct Hm as [A B C D]. split; assumption.
Qed.

Section Deps.
Variable ds : list dep.
Variable d0 : dep.

Lemma region_step_frame r e v s vd v' s' : region_step cb m ds r e v s vd v' s' -> frame s s'.
Proof.
  intros H. destruct H; try apply frame_refl; try (split; reflexivity).
  - apply executes_frame in H1. destruct H1. split; assumption.
  - apply executes_frame in H1. destruct H1. split; assumption.
Qed.

Lemma regions_run_frame e limit r v s vds v' s' :
  regions_run cb m ds e limit r v s vds v' s' -> frame s s'.
Proof.
  intros H. induction H.
  - apply frame_refl.
  - eapply region_step_frame; eauto.
  - eapply frame_trans; [eapply region_step_frame; eauto|assumption].
Qed.

Lemma anon_pass_frame limit r v s vds pe v' s' :
  anon_pass cb m ds limit r v s vds pe v' s' -> frame s s'.
Proof.
  intros H. induction H; try apply frame_refl.
  - eapply region_step_frame; eauto.
  - eapply frame_trans; [eapply region_step_frame; eauto|assumption].
Qed.

Lemma anonymous_frame v s vdss n s' : anonymous cb m ds v s vdss n s' -> frame s s'.
Proof.
  intros H. induction H; try (eapply anon_pass_frame; eauto; fail).
  eapply frame_trans; [eapply anon_pass_frame; eauto|assumption].
Qed.

Variable vnone : V.

Lemma offer_frame e v s vds avds oe v' s' :
  offer cb m ds vnone e v s vds avds oe v' s' -> frame s s'.
Proof.
  intros H. destruct H; try (eapply regions_run_frame; eauto; fail).
  - destruct (has_anonymous m).
    + eapply frame_trans; [eapply regions_run_frame; eauto|eapply anonymous_frame; eauto].
    + destruct H2 as [_ ->]. eapply regions_run_frame; eauto.
  - eapply frame_trans; [eapply regions_run_frame; eauto|eapply anonymous_frame; eauto].
Qed.

Lemma recall_frame s n s' : recall cb m ds vnone s n s' -> frame s s'.
Proof.
  intros H. destruct H; [apply frame_refl|].
  apply offer_frame in H0. destruct H0; split; assumption.
Qed.

Lemma unexpected_frame e v s n v' s' : unexpected cb m d0 e v s n v' s' -> frame s s'.
Proof. intros H. destruct H; split; reflexivity. Qed.

Lemma process_frame e v s vds rp s' : process cb m ds vnone d0 e v s vds rp s' -> frame s s'.
Proof.
  intros H. destruct H; try (eapply offer_frame; eauto; fail).
  - eapply frame_trans; [eapply offer_frame; eauto|eapply unexpected_frame; eauto].
  - destruct (has_deferred m).
    + eapply frame_trans; [eapply offer_frame; eauto|eapply recall_frame; eauto].
    + destruct H0 as [_ ->]. eapply offer_frame; eauto.
Qed.

(** * Candidates in turn *)
Definition try_spec (r : nat) (e : ev) (bs : list bcand) (v : V) (s : st)
    (res : res V W (tried * V)) : Prop :=
  match res with
  | Done (Refused, v') s' => exists ks w', scan cb m e bs v (rt_world s) ks VNone v' w' /\ s' = after s w' ks
  | Done (Fired, v') s' => exists ks d x o v1 w1, scan cb m e bs v (rt_world s) ks (VPick d x o) v1 w1 /\
      executes cb m r e d x o v1 (after s w1 ks) None v' s'
  | Done (Deferred, v') s' => exists ks w', scan cb m e bs v (rt_world s) ks VDefer v' w' /\
      s' = with_queue (after s w' ks) (rt_queue s ++ [(e, v')])
  | Threw ex s' => exists n, ex = XUser n /\
      ((exists ks v' w', scan cb m e bs v (rt_world s) ks (VRaise n) v' w' /\ s' = after s w' ks) \/
       (exists ks d x o v1 w1 v', scan cb m e bs v (rt_world s) ks (VPick d x o) v1 w1 /\
          executes cb m r e d x o v1 (after s w1 ks) (Some n) v' s'))
  | Undef _ => True
  | Timeout => False
  end.

Definition rows_fine (bs : list bcand) : Prop := forall d x o, In (d, CRow x o) bs ->
  row_accepted m x = true /\ (x_int x = false -> In x (mc_flat m)).

Lemma fire_sound d x o r e v s : tinv ds d0 s ->
  row_accepted m x = true -> (x_int x = false -> In x (mc_flat m)) ->
  match bind (update_current_state m r (bentry (d, CRow x o)) s)
             (fun _ s => execute_action cb (btrans d x o) e v s) with
  | Done v' s' => executes cb m r e d x o v s None v' s'
  | Threw ex s' => exists n v', ex = XUser n /\ executes cb m r e d x o v s (Some n) v' s'
  | Undef _ => True
  | Timeout => update_current_state m r (bentry (d, CRow x o)) s = Timeout
  end.
Proof.
  intros T Ha Hx.
  destruct (update_current_state m r (bentry (d, CRow x o)) s) as [[] s1|ex s1|u|] eqn:EU; cbn [bind]; auto.
  - pose proof (update_sound ds d0 d x o r s s1 T Ha Hx EU) as Hm.
    pose proof (execute_action_sound d x o e v s1 (row_accepted_dst m x Ha)) as P.
    destruct (execute_action cb (btrans d x o) e v s1) as [v' s'|ex s'|u|]; cbn in P; auto.
    + destruct P as (ks & l' & w' & P & ->). econstructor; eauto.
    + destruct P as (n & ks & v' & l' & w' & -> & P & ->). exists n, v'. split; [reflexivity|].
      econstructor; eauto.
    + contradiction.
  - exfalso. eapply update_no_throw; eauto.
Qed.

Lemma update_no_timeout r en (s : st) : update_current_state m r en s <> Timeout.
Proof.
  assert (Hr : forall (s : st) r, read_cur s r <> Timeout).
  { intros s0 r0. unfold read_cur. destruct (nth_error (rt_cur s0) r0) as [[?|]|]; discriminate. }
  assert (Hcp : forall (s : st), current_parent m s <> Timeout).
  { intros s0. unfold current_parent. specialize (Hr s0 0). destruct (read_cur s0 0); cbn; congruence. }
  assert (Hw : forall c (s : st), write_cur s r c <> Timeout).
  { intros. unfold write_cur. destruct (upd_nth _ _ _); discriminate. }
  assert (Hu : forall (s : st), update_current_regions m s <> Timeout).
  { intros s0. unfold update_current_regions. destruct (parallel m); [|discriminate].
    specialize (Hcp s0). destruct (current_parent m s0); cbn; try congruence.
    destruct (nth_at _ _); discriminate. }
  unfold update_current_state. destruct (en_int en); [discriminate|].
  match goal with |- bind ?r _ <> _ => assert (Hin : r <> Timeout) end.
  { destruct (has_history m); [|apply Hw].
    specialize (Hcp s). destruct (current_parent m s) as [p s1| | |]; cbn [bind]; try congruence.
    specialize (Hr s1 r). destruct (read_cur s1 r) as [c s2| | |]; cbn [bind]; try congruence.
    unfold write_hist. destruct (nth_at p (rt_hist s2)); cbn [bind]; [|discriminate].
    destruct (upd_nth _ _ _); cbn [bind]; [|discriminate].
    destruct (upd_at _ _ _); cbn [bind]; [|discriminate].
    destruct (en_hist en); [|apply Hw].
    unfold read_hist. destruct (nth_at _ _); cbn [bind]; [|discriminate].
    destruct (nth_error _ _); cbn [bind]; [apply Hw|discriminate]. }
  match goal with |- bind ?r _ <> _ => destruct r as [[] s1| | |]; cbn [bind]; first [apply Hu|congruence] end.
Qed.

Lemma try_entries_sound r e : forall bs v s, tinv ds d0 s -> rows_fine bs ->
  try_spec r e bs v s (try_entries cb m (map (bentry) bs) r e v s).
Proof.
  induction bs as [|[d [|x o]] bs IH]; intros v s T Hf.
  - cbn. exists [], (rt_world s). split; [constructor|now rewrite after_nil].
  - cbn. exists [], (rt_world s). split; [constructor|now rewrite after_nil].
  - cbn [map try_entries]. rewrite bentry_tr. cbn [en_defer bentry centry fst snd entry_of_row].
    destruct (Hf d x o (or_introl eq_refl)) as [Ha Hx].
    pose proof (row_accepted_dst m x Ha) as Hd.
    pose proof (execute_guard_sound d x o e v s Hd) as G.
    destruct (execute_guard cb (btrans d x o) e v s) as [[b v1] s1|ex s1|u|]; cbn [bind fst snd]; auto.
    + assert (F : b = true ->
         exists ks w1, scan cb m e ((d, CRow x o) :: bs) v (rt_world s) ks (VPick d x o) v1 w1 /\ s1 = after s w1 ks).
      { intros ->. destruct G as [(Eg & _ & -> & ->)|(ty & val & w' & Eg & Ec & ->)].
        - exists [], (rt_world s). split; [now constructor|now rewrite after_nil].
        - eexists _, w'. split; [eapply scan_yes; eauto|reflexivity]. }
      destruct b.
      * destruct (F eq_refl) as (ks & w1 & Sc & ->).
        assert (T1 : tinv ds d0 (after s w1 ks)) by (apply (frame_tinv ds d0 s); [split; reflexivity|exact T]).
        pose proof (fire_sound d x o r e v1 _ T1 Ha Hx) as P.
        destruct (update_current_state m r (bentry (d, CRow x o)) (after s w1 ks)) as [[] s2|ex s2|u|] eqn:EU;
          cbn [bind] in P; unfold bentry, centry, entry_of_row in EU; cbn [fst snd] in EU; cbn [entry_of_row]; unfold entry_of_row; rewrite EU; cbn [bind].
        -- destruct (execute_action cb (btrans d x o) e v1 s2) as [v' s'|ex s'|u|]; cbn [bind]; cbn; auto.
           ++ exists ks, d, x, o, v1, w1. auto.
           ++ destruct P as (n & v' & -> & P). exists n. split; [reflexivity|]. right.
              exists ks, d, x, o, v1, w1, v'. auto.
           ++ discriminate.
        -- destruct P as (n & v' & -> & P). exists n. split; [reflexivity|]. right.
           exists ks, d, x, o, v1, w1, v'. auto.
        -- exact I.
        -- exfalso. eapply update_no_timeout. unfold bentry, centry, entry_of_row in *. exact EU.
      * destruct G as [(_ & Eb & _)|(ty & val & w' & Eg & Ec & ->)]; [discriminate|].
        assert (T1 : tinv ds d0 (after s w' [mkCall (CGuard ty val) (guard_args m e d x o) v]))
          by (apply (frame_tinv ds d0 s); [split; reflexivity|exact T]).
        assert (Hf1 : rows_fine bs) by (intros d' x' o' Hin; apply (Hf d' x' o'); now right).
        specialize (IH v1 _ T1 Hf1).
        destruct (try_entries cb m (map (bentry) bs) r e v1 _) as [[[| |] v2] s2|ex s2|u|]; cbn in IH |- *; auto.
        -- destruct IH as (ks & w2 & Sc & ->). rewrite after_after.
           eexists _, w2. split; [eapply scan_no; eauto|reflexivity].
        -- destruct IH as (ks & d' & x' & o' & v3 & w3 & Sc & Ex). rewrite after_after in Ex.
           eexists _, d', x', o', v3, w3. split; [eapply scan_no; eauto|exact Ex].
        -- destruct IH as (ks & w2 & Sc & ->). rewrite after_after.
           eexists _, w2. split; [eapply scan_no; eauto|reflexivity].
        -- destruct IH as (n & -> & [(ks & v3 & w3 & Sc & ->)|(ks & d' & x' & o' & v3 & w3 & v4 & Sc & Ex)]);
             exists n; (split; [reflexivity|]).
           ++ left. rewrite after_after. eexists _, v3, w3. split; [eapply scan_no; eauto|reflexivity].
           ++ right. rewrite after_after in Ex.
              eexists _, d', x', o', v3, w3, v4. split; [eapply scan_no; eauto|exact Ex].
    + destruct G as (ty & val & n & v' & w' & -> & Eg & Ec & ->). exists n. split; [reflexivity|]. left.
      eexists _, v, w'. split; [eapply scan_raise; eauto|reflexivity].
Qed.

Lemma cands_flat e pl x o : In (CRow x o) (cands m e pl) -> x_int x = false -> In x (mc_flat m).
Proof.
  intros H Hi. unfold cands, priority in H. rewrite !in_app_iff, <- !in_rev in H.
  destruct H as [H|[H|H]].
  - apply (defers_at_iff m) in H. destruct H; discriminate.
  - apply (rows_at_iff m) in H. destruct H as (y & o' & Hy & _ & _ & E). inversion E; subst. auto.
  - apply (rows_at_iff m) in H. destruct H as (y & o' & Hy & _ & _ & E). inversion E; subst.
    apply (internal_flat_int m Hc) in Hy; congruence.
Qed.

Lemma bound_fine e pl : rows_fine (bound m ds e pl).
Proof.
  intros d x o H. split; [eapply bound_accepted; eauto|].
  unfold bound in H. apply in_flat_map in H. destruct H as (d' & _ & H).
  apply in_map_iff in H. destruct H as (c & E & H). inversion E; subst. eapply cands_flat; eauto.
Qed.

(** Without deferrals the anonymous loop does the same. *)
Lemma try_anonymous_same r : forall bs v s,
  match try_anonymous cb m (map (bentry) bs) r v s with
  | Done (true, v') s' => try_entries cb m (map (bentry) bs) r ENone v s = Done (Fired, v') s'
  | Done (false, v') s' => try_entries cb m (map (bentry) bs) r ENone v s = Done (Refused, v') s'
  | Threw ex s' => try_entries cb m (map (bentry) bs) r ENone v s = Threw ex s'
  | Undef _ => True
  | Timeout => try_entries cb m (map (bentry) bs) r ENone v s = Timeout
  end.
Proof.
  induction bs as [|[d [|x o]] bs IH]; intros v s; [reflexivity|exact I|].
  cbn [map try_anonymous try_entries]. rewrite bentry_tr.
  cbn [en_defer bentry centry fst snd entry_of_row].
  destruct (execute_guard cb (btrans d x o) ENone v s) as [[[] v1] s1|ex s1|u|]; cbn [bind fst snd]; auto.
  - destruct (update_current_state m r _ s1) as [[] s2|ex s2|u|]; cbn [bind]; auto.
    destruct (execute_action cb (btrans d x o) ENone v1 s2) as [v' s'|ex s'|u|]; cbn [bind]; auto.
  - apply IH.
Qed.

(** * One region *)
Lemma nonempty_map {A B} (f : A -> B) l : map f l <> [] -> l <> [].
Proof. destruct l; cbn; congruence. Qed.

(** * The loop over the regions *)
(** One region. *)
Lemma try_region_sound r e v s : tinv ds d0 s ->
  match try_region cb m r e v s with
  | Done (None, v') s' => region_step cb m ds r e v s RNothing v' s'
  | Done (Some Refused, v') s' => region_step cb m ds r e v s RRefused v' s'
  | Done (Some Fired, v') s' => exists x, region_step cb m ds r e v s (RFired x) v' s'
  | Done (Some Deferred, v') s' => region_step cb m ds r e v s RDeferred v' s'
  | Threw ex s' => exists n vd v', ex = XUser n /\ threw vd = Some n /\ region_step cb m ds r e v s vd v' s'
  | Undef _ => True
  | Timeout => False
  end.
Proof.
  intros T. unfold try_region.
  pose proof (get_entries_sound ds d0 e r s T) as G.
  destruct (get_entries e r s) as [ens s0|ex s0|u|]; cbn [bind]; auto; [|contradiction].
  destruct G as (-> & He & pl & Hpl & ->).
  destruct (bound m ds e pl) as [|b bs] eqn:Eb; [cbn [map]; eapply rs_nothing; eauto|]. cbn [map].
  assert (Hne : bound m ds e pl <> []) by (rewrite Eb; discriminate).
  change (bentry b :: map (bentry) bs) with (map (bentry) (b :: bs)). rewrite <- Eb.
  pose proof (try_entries_sound r e (bound m ds e pl) v s T (bound_fine e pl)) as P.
  destruct (try_entries cb m (map (bentry) (bound m ds e pl)) r e v s)
    as [[[| |] v1] s1|ex s1|u|]; cbn [bind fst snd]; cbn in P; auto.
  - destruct P as (ks & w1 & Sc & ->). eapply rs_refused; eauto.
  - destruct P as (ks & d & x & o & v2 & w2 & Sc & Ex). exists x. eapply rs_fired; eauto.
  - destruct P as (ks & w1 & Sc & ->). eapply rs_deferred; eauto.
  - destruct P as (n & -> & [(ks & v3 & w3 & Sc & ->)|(ks & d & x & o & v3 & w3 & v4 & Sc & Ex)]).
    + exists n, (RGuardThrew n), v3. split; [reflexivity|]. split; [reflexivity|]. eapply rs_guard_threw; eauto.
    + exists n, (REffectThrew x n), v4. split; [reflexivity|]. split; [reflexivity|]. eapply rs_effect_threw; eauto.
Qed.

Lemma anonymous_region_sound r v s : tinv ds d0 s ->
  match anonymous_region cb m r v s with
  | Done (None, v') s' => region_step cb m ds r ENone v s RNothing v' s'
  | Done (Some false, v') s' => region_step cb m ds r ENone v s RRefused v' s'
  | Done (Some true, v') s' => exists x, region_step cb m ds r ENone v s (RFired x) v' s'
  | Threw ex s' => exists n vd v', ex = XUser n /\ threw vd = Some n /\ region_step cb m ds r ENone v s vd v' s'
  | Undef _ => True
  | Timeout => False
  end.
Proof.
  intros T. unfold anonymous_region.
  pose proof (get_entries_sound ds d0 ENone r s T) as G.
  destruct (get_entries ENone r s) as [ens s0|ex s0|u|]; cbn [bind]; auto; [|contradiction].
  destruct G as (-> & He & pl & Hpl & ->).
  destruct (bound m ds ENone pl) as [|b bs] eqn:Eb; [cbn [map]; eapply rs_nothing; eauto|]. cbn [map].
  assert (Hne : bound m ds ENone pl <> []) by (rewrite Eb; discriminate).
  change (bentry b :: map (bentry) bs) with (map (bentry) (b :: bs)). rewrite <- Eb.
  pose proof (try_entries_sound r ENone (bound m ds ENone pl) v s T (bound_fine ENone pl)) as P.
  pose proof (try_anonymous_same r (bound m ds ENone pl) v s) as Q.
  destruct (try_anonymous cb m (map (bentry) (bound m ds ENone pl)) r v s)
    as [[[] v1] s1|ex s1|u|]; cbn [bind fst snd]; auto; rewrite Q in P; auto.
  - destruct P as (ks & d & x & o & v2 & w2 & Sc & Ex). exists x. eapply rs_fired; eauto.
  - destruct P as (ks & w1 & Sc & ->). eapply rs_refused; eauto.
  - destruct P as (n & -> & [(ks & v3 & w3 & Sc & ->)|(ks & d & x & o & v3 & w3 & v4 & Sc & Ex)]).
    + exists n, (RGuardThrew n), v3. split; [reflexivity|]. split; [reflexivity|]. eapply rs_guard_threw; eauto.
    + exists n, (REffectThrew x n), v4. split; [reflexivity|]. split; [reflexivity|]. eapply rs_effect_threw; eauto.
Qed.

Definition loop_result (agf ati : bool) (vds : list rverdict) : pres :=
  if existsb deferred vds then PDeferred
  else if ati && unhandled vds then PInvalid
  else if agf && negb (existsb fired vds) then PGuardsFailed else PProcessed.

Lemma threw_stops vd n : threw vd = Some n -> stops vd = true.
Proof. destruct vd; cbn; congruence. Qed.

Lemma region_loop_sound e : forall fuel limit r agf ati v s, limit <= 255 -> tinv ds d0 s ->
  match region_loop cb m fuel limit r agf ati e v s with
  | Done (p, v') s' => exists vds, regions_run cb m ds e limit r v s vds v' s' /\
      (forall vd, In vd vds -> threw vd = None) /\ p = loop_result agf ati vds
  | Threw ex s' => exists n vds vd v', ex = XUser n /\
      regions_run cb m ds e limit r v s (vds ++ [vd]) v' s' /\ threw vd = Some n /\
      existsb stops vds = false
  | _ => True
  end.
Proof.
  induction fuel as [|fuel IH]; intros limit r agf ati v s HL T; [exact I|].
  cbn [region_loop]. destruct (Nat.ltb_spec r limit) as [Hr|Hr].
  2:{ exists []. split; [now constructor|]. split; [intros ? []|].
      unfold loop_result; cbn. destruct ati, agf; reflexivity. }
  assert (En : next_region r = S r).
  { unfold next_region. destruct (Nat.eqb_spec r 255); [lia|reflexivity]. }
  rewrite En. clear En.
  assert (Next : forall vd v1 s1 agf' ati', region_step cb m ds r e v s vd v1 s1 ->
    stops vd = false -> (forall vds, loop_result agf ati (vd :: vds) = loop_result agf' ati' vds) ->
    match region_loop cb m fuel limit (S r) agf' ati' e v1 s1 with
    | Done (p, v') s' => exists vds, regions_run cb m ds e limit r v s vds v' s' /\
        (forall vd, In vd vds -> threw vd = None) /\ p = loop_result agf ati vds
    | Threw ex s' => exists n vds vd v', ex = XUser n /\
        regions_run cb m ds e limit r v s (vds ++ [vd]) v' s' /\ threw vd = Some n /\
        existsb stops vds = false
    | _ => True
    end).
  { intros vd v1 s1 agf' ati' St Hst Hl.
    assert (T1 : tinv ds d0 s1) by (eapply frame_tinv; [eapply region_step_frame; eauto|exact T]).
    specialize (IH limit (S r) agf' ati' v1 s1 HL T1).
    destruct (region_loop cb m fuel limit (S r) agf' ati' e v1 s1) as [[p v'] s'|ex s'|u|]; auto.
    - destruct IH as (vds & R & Ht & ->). exists (vd :: vds).
      split; [eapply rr_next; eauto|]. split; [|now rewrite Hl].
      intros vd' [<-|Hin]; [destruct vd; cbn in *; congruence|auto].
    - destruct IH as (n & vds & vd' & v' & -> & R & Ht & Hs).
      exists n, (vd :: vds), vd', v'. split; [reflexivity|]. split; [eapply rr_next; eauto|].
      split; [exact Ht|]. cbn. now rewrite Hst. }
  pose proof (try_region_sound r e v s T) as P.
  destruct (try_region cb m r e v s) as [[[[| |]|] v1] s1|ex s1|u|]; cbn [bind fst snd]; auto.
  - apply (Next RRefused); auto. intros vds. unfold loop_result; cbn. now rewrite andb_false_r.
  - destruct P as [x P]. apply (Next (RFired x)); auto. intros vds. unfold loop_result; cbn. now rewrite !andb_false_r.
  - exists [RDeferred]. split; [apply rr_stop; auto|]. split; [intros vd [<-|[]]; reflexivity|reflexivity].
  - now apply (Next RNothing).
  - destruct P as (n & vd & v' & -> & Ht & P). exists n, [], vd, v'. split; [reflexivity|].
    split; [apply rr_stop; eauto using threw_stops|]. auto.
Qed.

(** * Anonymous transitions *)
Definition pass_flag (agf : bool) (vds : list rverdict) : bool := agf && negb (existsb fired vds).

Lemma anonymous_pass_sound : forall fuel limit r agf v s, limit <= 255 -> tinv ds d0 s ->
  match anonymous_pass cb m fuel limit r agf v s with
  | Done (None, v') s' => exists vds, anon_pass cb m ds limit r v s vds PeEmptyRegion v' s'
  | Done (Some b, v') s' => exists vds, anon_pass cb m ds limit r v s vds PeComplete v' s' /\
      b = pass_flag agf vds
  | Threw ex s' => exists n vds v', ex = XUser n /\ anon_pass cb m ds limit r v s vds (PeThrew n) v' s'
  | _ => True
  end.
Proof.
  induction fuel as [|fuel IH]; intros limit r agf v s HL T; [exact I|].
  cbn [anonymous_pass]. destruct (Nat.ltb_spec r limit) as [Hr|Hr].
  2:{ exists []. split; [now constructor|]. unfold pass_flag; cbn. now rewrite andb_true_r. }
  assert (En : next_region r = S r).
  { unfold next_region. destruct (Nat.eqb_spec r 255); [lia|reflexivity]. }
  rewrite En. clear En.
  assert (Next : forall vd v1 s1 agf', region_step cb m ds r ENone v s vd v1 s1 ->
    stops vd = false -> vd <> RNothing -> (forall vds, pass_flag agf (vd :: vds) = pass_flag agf' vds) ->
    match anonymous_pass cb m fuel limit (S r) agf' v1 s1 with
    | Done (None, v') s' => exists vds, anon_pass cb m ds limit r v s vds PeEmptyRegion v' s'
    | Done (Some b, v') s' => exists vds, anon_pass cb m ds limit r v s vds PeComplete v' s' /\
        b = pass_flag agf vds
    | Threw ex s' => exists n vds v', ex = XUser n /\ anon_pass cb m ds limit r v s vds (PeThrew n) v' s'
    | _ => True
    end).
  { intros vd v1 s1 agf' St Hst Hn Hl.
    assert (T1 : tinv ds d0 s1) by (eapply frame_tinv; [eapply region_step_frame; eauto|exact T]).
    specialize (IH limit (S r) agf' v1 s1 HL T1).
    destruct (anonymous_pass cb m fuel limit (S r) agf' v1 s1) as [[[b|] v'] s'|ex s'|u|]; auto.
    - destruct IH as (vds & R & ->). exists (vd :: vds). split; [eapply ap_next; eauto|now rewrite Hl].
    - destruct IH as (vds & R). exists (vd :: vds). eapply ap_next; eauto.
    - destruct IH as (n & vds & v' & -> & R). exists n, (vd :: vds), v'. split; [reflexivity|]. eapply ap_next; eauto. }
  pose proof (anonymous_region_sound r v s T) as P.
  destruct (anonymous_region cb m r v s) as [[[[|]|] v1] s1|ex s1|u|]; cbn [bind fst snd]; auto.
  - destruct P as [x P]. apply (Next (RFired x)); auto; [discriminate|].
    intros vds. unfold pass_flag; cbn. now rewrite andb_false_r.
  - apply (Next RRefused); auto. discriminate.
  - exists [RNothing]. inversion P; subst. apply ap_empty; [exact Hr|]. eapply rs_nothing; eauto.
  - destruct P as (n & vd & v' & -> & Ht & P). exists n, [vd], v'. split; [reflexivity|]. eapply ap_threw; eauto.
Qed.

(** Active regions never exceed the bound. *)
Lemma initials_le_max p : In p (parents m) -> length (initials env p) <= max_initials m.
Proof.
  intros H. unfold max_initials.
  induction (parents m) as [|q l IH]; [destruct H|]. cbn. destruct H as [->|H]; [lia|].
  specialize (IH H). lia.
Qed.

Hypothesis Hmax : max_initials m <= 255.
Definition rinv (s : st) : Prop := rt_regions s <= max_initials m.


Lemma relocate_rinv r c (s : st) : rinv s -> rinv (relocate m r c s).
Proof.
  unfold relocate, rinv. destruct (parallel m); [|auto].
  destruct (at_place m _ 0) as [[p q]|] eqn:E; [|auto]. cbn. intros _.
  rewrite <- initials_spec. apply initials_le_max.
  unfold at_place in E. destruct (nth_error _ 0) as [[c0|]|]; try discriminate.
  apply (places_at_inv m Hc) in E. apply E.
Qed.
Lemma moves_rinv r x s s' : moves m r x s s' -> rinv s -> rinv s'.
Proof.
  intros H R. destruct H; auto; apply relocate_rinv; auto;
    unfold rinv; destruct (remember_rest r s) as (_ & _ & _ & _ & _ & ->); exact R.
Qed.
Lemma executes_rinv r e d x o v s n v' s' : executes cb m r e d x o v s n v' s' -> rinv s -> rinv s'.
Proof. intros [v0 s0 s1 ks n0 v1 l1 w1 Hm Hp] R. apply (moves_rinv _ _ _ _ Hm R). Qed.
Lemma region_step_rinv r e v s vd v' s' : region_step cb m ds r e v s vd v' s' -> rinv s -> rinv s'.
Proof. intros H R. destruct H; auto; eapply executes_rinv; eauto. Qed.
Lemma regions_run_rinv e limit r v s vds v' s' :
  regions_run cb m ds e limit r v s vds v' s' -> rinv s -> rinv s'.
Proof. intros H. induction H; auto; intros R; eauto using region_step_rinv. Qed.
Lemma anon_pass_rinv limit r v s vds pe v' s' :
  anon_pass cb m ds limit r v s vds pe v' s' -> rinv s -> rinv s'.
Proof. intros H. induction H; auto; intros R; eauto using region_step_rinv. Qed.
Lemma anonymous_rinv v s vdss n s' : anonymous cb m ds v s vdss n s' -> rinv s -> rinv s'.
Proof. intros H. induction H; intros R; eauto using anon_pass_rinv. Qed.
Lemma offer_rinv e v s vds avds oe v' s' :
  offer cb m ds vnone e v s vds avds oe v' s' -> rinv s -> rinv s'.
Proof.
  intros H R. destruct H; eauto using regions_run_rinv, anonymous_rinv.
  destruct (has_anonymous m); [eauto using regions_run_rinv, anonymous_rinv|].
  destruct H2 as [_ ->]. eauto using regions_run_rinv.
Qed.
Lemma recall_rinv s n s' : recall cb m ds vnone s n s' -> rinv s -> rinv s'.
Proof. intros H R. destruct H; auto. eapply offer_rinv; eauto. Qed.
Lemma process_rinv e v s vds rp s' : process cb m ds vnone d0 e v s vds rp s' -> rinv s -> rinv s'.
Proof.
  intros H R. destruct H; eauto using offer_rinv.
  - apply offer_rinv in H; auto. destruct H0; auto.
  - destruct (has_deferred m); [eauto using offer_rinv, recall_rinv|].
    destruct H0 as [_ ->]. eauto using offer_rinv.
Qed.

Lemma active_le s : rinv s -> current_regions m s <= 255.
Proof. unfold rinv, current_regions. destruct (parallel m); lia. Qed.

Lemma anonymous_loop_sound rfuel : forall fuel v s, tinv ds d0 s -> rinv s ->
  match anonymous_loop cb m rfuel fuel v s with
  | Done _ s' => exists vdss, anonymous cb m ds v s vdss None s'
  | Threw ex s' => exists n vdss, ex = XUser n /\ anonymous cb m ds v s vdss (Some n) s'
  | _ => True
  end.
Proof.
  induction fuel as [|fuel IH]; intros v s T R; [exact I|]. cbn [anonymous_loop].
  pose proof (anonymous_pass_sound rfuel (current_regions m s) 0 true v s (active_le s R) T) as P.
  change (current_regions m s) with (active m s) in *.
  destruct (anonymous_pass cb m rfuel (active m s) 0 true v s) as [[[b|] v1] s1|ex s1|u|];
    cbn [bind fst snd]; auto.
  - destruct P as (vds & P & Eb). unfold pass_flag in Eb. cbn in Eb. destruct b.
    + exists [vds]. eapply an_quiet; eauto. destruct (existsb fired vds); [discriminate|reflexivity].
    + assert (T1 : tinv ds d0 s1) by (eapply frame_tinv; [eapply anon_pass_frame; eauto|exact T]).
      specialize (IH v1 s1 T1 (anon_pass_rinv _ _ _ _ _ _ _ _ P R)).
      assert (Hf : existsb fired vds = true) by (destruct (existsb fired vds); [reflexivity|discriminate]).
      destruct (anonymous_loop cb m rfuel fuel v1 s1) as [u' s'|ex s'|u'|]; auto.
      * destruct IH as (vdss & A). exists (vds :: vdss). eapply an_again; eauto.
      * destruct IH as (n & vdss & -> & A). exists n, (vds :: vdss). split; [reflexivity|].
        eapply an_again; eauto.
  - destruct P as (vds & P). exists [vds]. eapply an_empty; eauto.
  - destruct P as (n & vds & v' & -> & P). exists n, [vds]. split; [reflexivity|]. eapply an_threw; eauto.
Qed.

(** * Offering an event *)
Definition offer_pres (oe : offer_end) : pres :=
  match oe with
  | OfUnhandled => PInvalid | OfRefused => PGuardsFailed | OfHandled => PProcessed
  | OfDeferred | OfThrew _ => PDeferred
  end.

Lemma no_stop vds : existsb deferred vds = false -> (forall vd, In vd vds -> threw vd = None) ->
  existsb stops vds = false.
Proof.
  induction vds as [|vd vds IH]; intros H1 H2; [reflexivity|]. cbn in *.
  apply orb_false_iff in H1. destruct H1 as [H1 H1'].
  rewrite IH; auto. specialize (H2 vd (or_introl eq_refl)). destruct vd; cbn in *; congruence.
Qed.

Lemma process_event_internal_sound fuel e v s : tinv ds d0 s -> rinv s ->
  match process_event_internal cb m vnone fuel e v s with
  | Done (p, v') s' => exists vds avds oe, offer cb m ds vnone e v s vds avds oe v' s' /\
      p = offer_pres oe /\ (forall n, oe <> OfThrew n) /\ (oe <> OfHandled -> avds = [])
  | Threw ex s' => exists n vds avds v', ex = XUser n /\ offer cb m ds vnone e v s vds avds (OfThrew n) v' s'
  | _ => True
  end.
Proof.
  intros T R. unfold process_event_internal.
  pose proof (region_loop_sound e fuel (current_regions m s) 0 true true v s (active_le s R) T) as P.
  change (current_regions m s) with (active m s) in *.
  destruct (region_loop cb m fuel (active m s) 0 true true e v s) as [[p v1] s1|ex s1|u|];
    cbn [bind fst snd]; auto.
  - destruct P as (vds & P & Ht & ->). unfold loop_result. cbn [andb].
    destruct (existsb deferred vds) eqn:Ed.
    { exists vds, [], OfDeferred. repeat split; try discriminate. apply of_deferred; assumption. }
    pose proof (no_stop vds Ed Ht) as Hs.
    destruct (unhandled vds) eqn:Eu.
    { exists vds, [], OfUnhandled. repeat split; try discriminate. apply of_unhandled; assumption. }
    destruct (existsb fired vds) eqn:Ef; cbn [negb].
    2:{ exists vds, [], OfRefused. repeat split; try discriminate. apply of_refused; assumption. }
    unfold process_anonymous. destruct (has_anonymous m) eqn:Ea; cbn [bind].
    + assert (T1 : tinv ds d0 s1) by (eapply frame_tinv; [eapply regions_run_frame; eauto|exact T]).
      pose proof (anonymous_loop_sound fuel fuel vnone s1 T1 (regions_run_rinv _ _ _ _ _ _ _ _ P R)) as Q.
      destruct (anonymous_loop cb m fuel fuel vnone s1) as [u' s'|ex s'|u'|]; cbn [bind]; auto.
      * destruct Q as (avds & Q). exists vds, avds, OfHandled. repeat split; try discriminate; [|congruence].
        eapply of_handled; eauto. now rewrite Ea.
      * destruct Q as (n & avds & -> & Q). exists n, vds, avds, v1. split; [reflexivity|].
        eapply of_anon_threw; eauto.
    + exists vds, [], OfHandled. repeat split; try discriminate.
      eapply of_handled; eauto. rewrite Ea. auto.
  - destruct P as (n & vds & vd & v' & -> & P & Ht & Hs). exists n, (vds ++ [vd]), [], v'.
    split; [reflexivity|]. eapply of_threw; eauto.
Qed.

(** * process_event *)
Lemma fill_handlers_get h e p q : fill_handlers m d0 = Some h -> In e (events m) ->
  In p (parents m) -> In q (states m) ->
  match get_table h e with
  | Some arr => nth_error arr (N.to_nat (combined_idx m p q)) = Some (Some (q, d0)) /\
                length arr = length (places m)
  | None => False
  end.
Proof.
  clear Hmax. unfold fill_handlers. intros H He Hp Hq.
  set (step := fun (pr : place) arr => upd_at (combined_idx m (fst pr) (snd pr)) (fun _ => Some (snd pr, d0)) arr) in H.
  set (z := repeat None (N.to_nat (n_states m) * n_parents m)) in H.
  assert (Hz : length z = length (places m)).
  { unfold z. rewrite repeat_length, (places_length_nat m). reflexivity. }
  assert (Harr : forall l arr arr', (forall pr, In pr l -> In (fst pr) (parents m) /\ In (snd pr) (states m)) ->
     foldM step l arr = Some arr' ->
     length arr' = length arr /\
     forall p q, In p (parents m) -> In q (states m) -> length arr = length (places m) ->
     nth_error arr' (N.to_nat (combined_idx m p q)) =
     if in_dec place_eq_dec (p, q) l then Some (Some (q, d0)) else nth_error arr (N.to_nat (combined_idx m p q))).
  { induction l as [|pr l IH]; intros arr arr' Hl Hf; cbn [foldM] in Hf.
    - inversion Hf; subst. split; auto.
    - destruct (step pr arr) as [arr1|] eqn:E1; [|discriminate].
      unfold step in E1. rewrite upd_at_upd in E1. apply upd_nth_spec in E1.
      destruct E1 as (L1 & L2 & N1).
      destruct (IH arr1 arr' (fun x Hx => Hl x (or_intror Hx)) Hf) as (L3 & N3).
      split; [congruence|]. intros p' q' Hp' Hq' HL.
      rewrite N3 by (auto; congruence).
      destruct (in_dec place_eq_dec (p', q') l) as [Hi|Hi];
        destruct (in_dec place_eq_dec (p', q') (pr :: l)) as [Hj|Hj]; auto.
      + exfalso. apply Hj. now right.
      + destruct Hj as [->|Hj]; [|contradiction]. rewrite N1. cbn [fst snd].
        destruct (Nat.eq_dec _ _) as [_|Hn]; [|congruence].
        destruct (nth_error arr _) eqn:E; [reflexivity|]. apply nth_error_None in E. cbn [fst snd] in L1. lia.
      + rewrite N1. destruct (Nat.eq_dec _ _) as [En|_]; [|reflexivity]. exfalso. apply Hj. left.
        destruct pr as [p0 q0]. cbn [fst snd] in En. apply Nnat.N2Nat.inj in En. symmetry.
        apply (combined_idx_inj m Hc); assumption. }
  destruct (foldM step (handler_places m) z) as [arr|] eqn:Ef.
  - assert (Hall : forall pr, In pr (handler_places m) -> In (fst pr) (parents m) /\ In (snd pr) (states m)).
    { intros [a b] Hin. apply (in_places m). exact Hin. }
    destruct (Harr _ _ _ Hall Ef) as (La & Na).
    assert (Hh : forall (l : list ev) (t h : handler_tables), foldM (fun e t => Some (t ++ [(e, arr)])) l t = Some h ->
              h = t ++ map (fun e => (e, arr)) l).
    { induction l as [|e0 l IH]; intros t h0 Hf; cbn [foldM] in Hf.
      - inversion Hf. now rewrite app_nil_r.
      - rewrite (IH _ _ Hf). cbn. now rewrite <- app_assoc. }
    apply Hh in H. cbn in H. subst h.
    assert (Hg : get_table (map (fun e => (e, arr)) (events m)) e = Some arr).
    { clear - He. induction (events m) as [|e0 l IH]; [destruct He|]. cbn.
      destruct (ev_eq_dec e e0); [reflexivity|]. apply IH. destruct He; [congruence|assumption]. }
    rewrite Hg. split; [|congruence]. rewrite Na by auto.
    destruct (in_dec place_eq_dec (p, q) (handler_places m)) as [|Hn]; [reflexivity|].
    exfalso. apply Hn. apply (in_places m). auto.
  - exfalso. clear - H He Ef. destruct (events m) as [|e0 l]; [destruct He|].
    cbn [foldM] in H. discriminate.
Qed.

Lemma call_handler_sound e v s : tinv ds d0 s -> In e (events m) ->
  match call_handler cb m e v s with
  | Done v' s' => unexpected cb m d0 e v s None v' s'
  | Threw (XUser n) s' => exists v', unexpected cb m d0 e v s (Some n) v' s'
  | Threw _ s' => s' = s /\ at_place m s 0 = None
  | Undef _ => True
  | Timeout => False
  end.
Proof.
  intros T He. unfold call_handler.
  destruct (cd_unexpected (lookup env (mc_root m))) eqn:Eu; [|now constructor].
  unfold at_cur. destruct (nth_error (rt_cur s) 0) as [[c|]|] eqn:E0; cbn [bind]; auto.
  2:{ split; [reflexivity|]. unfold at_place. now rewrite E0. }
  destruct (get_table (rt_htabs s) e) as [arr|] eqn:Eg; [|exact I].
  pose proof (ti_htabs _ _ _ T Eu) as Hh.
  assert (Hlen : length arr = length (places m)).
  { pose proof (parents_nonempty m Hc) as Hpn. pose proof (states_nonempty m) as Hsn.
    destruct (parents m) as [|p0 pl0] eqn:Ep; [cbn in Hpn; lia|]. 
    destruct (states m) as [|q0 ql0] eqn:Es; [cbn in Hsn; lia|].
    pose proof (fill_handlers_get _ e p0 q0 Hh He) as G.
    rewrite Ep, Es, Eg in G. apply G; now left. }
  rewrite nth_at_nth. destruct (nth_error (places m) (N.to_nat c)) as [[p q]|] eqn:Ep.
  - destruct (places_at_inv m Hc _ _ _ Ep) as (Hp & Hq & ->).
    pose proof (fill_handlers_get _ e p q Hh He Hp Hq) as G. rewrite Eg in G. destruct G as [G _].
    rewrite G. destruct (alive s q); [|exact I].
    assert (Hat : at_place m s 0 = Some (p, q)) by (unfold at_place; rewrite E0; exact Ep).
    unfold keep_payload, invoke.
    destruct (cb CHandler (mkArgs e q TNone d0) v (rt_world s)) as [b v' w'|n v' w'] eqn:Ec; cbn.
    + eapply (ux_handled cb m d0 e v s (p, q)); eauto.
    + exists v. eapply (ux_threw cb m d0 e v s (p, q)); eauto.
  - apply nth_error_None in Ep.
    destruct (nth_error arr (N.to_nat c)) as [o|] eqn:En.
    + assert (N.to_nat c < length arr) by (apply nth_error_Some; congruence). lia.
    + split; [reflexivity|]. unfold at_place. rewrite E0. now apply nth_error_None.
Qed.

Theorem process_event_sound fuel e v s : tinv ds d0 s -> rinv s ->
  match process_event cb m vnone fuel e v s with
  | Done (b, v') s' => exists vds, process cb m ds vnone d0 e v s vds (Returned b v') s'
  | Threw (XUser n) s' => exists vds, process cb m ds vnone d0 e v s vds (Exception n) s'
  | _ => True
  end.
Proof.
  intros T R. unfold process_event.
  destruct (in_dec ev_eq_dec e (events m)) as [He|]; [|exact I].
  pose proof (process_event_internal_sound fuel e v s T R) as P.
  destruct (process_event_internal cb m vnone fuel e v s) as [[p v1] s1|ex s1|u|]; cbn [bind fst snd]; auto.
  - destruct P as (vds & avds & oe & P & -> & Hnt & Hav).
    assert (T1 : tinv ds d0 s1) by (eapply frame_tinv; [eapply offer_frame; eauto|exact T]).
    pose proof (offer_rinv _ _ _ _ _ _ _ _ P R) as R1.
    destruct oe as [| | | |n]; cbn [offer_pres]; try (rewrite Hav in P by discriminate).
    + pose proof (call_handler_sound e v1 s1 T1 He) as Q.
      destruct (call_handler cb m e v1 s1) as [v' s'|[n| |] s'|u|]; cbn [bind]; auto.
      * exists vds. apply (pr_unhandled cb m ds vnone d0 e v s vds v1 s1 None v' s'); assumption.
      * destruct Q as (v' & Q). exists vds.
        apply (pr_unhandled cb m ds vnone d0 e v s vds v1 s1 (Some n) v' s'); assumption.
    + exists vds. eapply pr_not_taken; eauto.
    + unfold process_deferred. destruct (has_deferred m) eqn:Ehd; cbn [bind].
      2:{ exists vds. eapply (pr_handled cb m ds vnone d0 e v s vds avds v1 s1 None); eauto. rewrite Ehd. auto. }
      destruct (rt_queue s1) as [|[e2 v2] q] eqn:Eq; cbn [bind].
      * exists vds. eapply (pr_handled cb m ds vnone d0 e v s vds avds v1 s1 None); eauto.
        rewrite Ehd. now constructor.
      * assert (T2 : tinv ds d0 (with_queue s1 q)) by (apply (frame_tinv ds d0 s1); [split; reflexivity|exact T1]).
        pose proof (process_event_internal_sound fuel e2 v2 (with_queue s1 q) T2 R1) as Q.
        destruct (process_event_internal cb m vnone fuel e2 v2 (with_queue s1 q)) as [[p' v'] s'|ex s'|u|];
          cbn [bind]; auto.
        -- destruct Q as (vds2 & avds2 & oe2 & Q & _ & Hnt2 & _). exists vds.
           eapply (pr_handled cb m ds vnone d0 e v s vds avds v1 s1 None); eauto. rewrite Ehd.
           pose proof (rc_some cb m ds vnone s1 e2 v2 q vds2 avds2 oe2 v' s' Eq Q) as C.
           destruct oe2; try exact C. exfalso. eapply Hnt2; eauto.
        -- destruct Q as (n & vds2 & avds2 & v' & -> & Q). exists vds.
           apply (pr_handled cb m ds vnone d0 e v s vds avds v1 s1 (Some n) s'); auto. rewrite Ehd.
           exact (rc_some cb m ds vnone s1 e2 v2 q vds2 avds2 (OfThrew n) v' s' Eq Q).
    + exists vds. eapply pr_not_taken; eauto.
    + exfalso. eapply Hnt; eauto.
  - destruct P as (n & vds & avds & v' & -> & P). exists vds. eapply pr_threw; eauto.
Qed.
End Deps.
End Refine.
