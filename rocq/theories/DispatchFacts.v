(** The dispatch tables built by the library contain exactly the candidates. *)

From Coq Require Import List Arith NArith Bool Lia.
From Verif Require Import Types Static Dispatch ListFacts IndexFacts Spec.
Import ListNotations.

(** ** push_front *)

(** The candidates stored for event [e] at number [k]. *)
Definition tget (t : tables) (e : ev) (k : N) : option (list entry) :=
  match get_table t e with
  | None => None
  | Some arr => nth_error arr (N.to_nat k)
  end.

Definition shape (m : machine) (t : tables) : Prop :=
  map fst t = events m /\
  forall e arr, get_table t e = Some arr -> length arr = length (places m).

Lemma get_table_In {A} (t : list (ev * A)) e : (exists a, get_table t e = Some a) <-> In e (map fst t).
Proof.
  induction t as [|[e' a] t IH]; cbn; [split; [intros [? ?]; discriminate|tauto]|].
  destruct (ev_eq_dec e e') as [->|Hne].
  - split; [auto|]. eauto.
  - rewrite IH. split; [auto|]. intros [?|?]; [congruence|auto].
Qed.

Lemma push_front_at_spec t e k en t' :
  push_front_at t e k en = Some t' ->
  map fst t' = map fst t /\
  (forall e' k', tget t' e' k' =
     if ev_eq_dec e' e then (if N.eq_dec k' k then option_map (cons en) (tget t e' k')
                             else tget t e' k')
     else tget t e' k') /\
  (forall e', option_map (@length _) (get_table t' e') = option_map (@length _) (get_table t e')) /\
  (exists l, tget t e k = Some l).
Proof.
  revert t'; induction t as [|[e0 arr] t IH]; cbn; intros t' H; [discriminate|].
  destruct (ev_eq_dec e e0) as [->|Hne].
  - rewrite upd_at_upd in H.
    destruct (upd_nth (N.to_nat k) (cons en) arr) as [arr'|] eqn:E; [|discriminate].
    injection H as <-. destruct (upd_nth_spec _ _ _ _ E) as (Hlt & Hlen & Hn).
    split; [reflexivity|]. split; [|split].
    + intros e' k'. unfold tget. cbn.
      destruct (ev_eq_dec e' e0) as [->|Hn0]; [|reflexivity].
      rewrite Hn. destruct (N.eq_dec k' k) as [->|Hk].
      * destruct (Nat.eq_dec (N.to_nat k) (N.to_nat k)); [reflexivity|lia].
      * destruct (Nat.eq_dec (N.to_nat k') (N.to_nat k)); [lia|reflexivity].
    + intros e'. cbn. destruct (ev_eq_dec e' e0); [cbn; congruence|reflexivity].
    + unfold tget. cbn. destruct (ev_eq_dec e0 e0); [|congruence].
      destruct (nth_error arr (N.to_nat k)) eqn:En; [eauto|].
      apply nth_error_None in En. lia.
  - destruct (push_front_at t e k en) as [t1|] eqn:E; [|discriminate].
    injection H as <-. destruct (IH _ eq_refl) as (Hf & Hg & Hl & Hx).
    split; [cbn; congruence|]. split; [|split].
    + intros e' k'. specialize (Hg e' k'). unfold tget in *. cbn.
      destruct (ev_eq_dec e' e0) as [->|Hn0]; [|exact Hg].
      destruct (ev_eq_dec e0 e); [congruence|reflexivity].
    + intros e'. cbn. destruct (ev_eq_dec e' e0); [reflexivity|apply Hl].
    + unfold tget. cbn. destruct (ev_eq_dec e e0); [congruence|exact Hx].
Qed.

Lemma push_front_at_ok t e k en l :
  tget t e k = Some l -> exists t', push_front_at t e k en = Some t'.
Proof.
  induction t as [|[e0 arr] t IH]; unfold tget; cbn; [discriminate|].
  destruct (ev_eq_dec e e0) as [->|Hne]; intros H.
  - rewrite upd_at_upd.
    destruct (upd_nth_Some (cons en) arr (N.to_nat k)) as (arr' & ->).
    + apply nth_error_Some. congruence.
    + cbn. eauto.
  - destruct (IH H) as (t' & ->). cbn. eauto.
Qed.

(** ** Sequences of pushes *)
Definition op := (ev * N * entry)%type.
Definition push (o : op) (t : tables) : option tables :=
  push_front_at t (fst (fst o)) (snd (fst o)) (snd o).
Definition pushes (l : list op) (t : tables) : option tables := foldM push l t.
Definition hits (e : ev) (k : N) (o : op) : bool :=
  (if ev_eq_dec (fst (fst o)) e then true else false) && N.eqb (snd (fst o)) k.

Lemma pushes_spec l : forall t t',
  pushes l t = Some t' ->
  map fst t' = map fst t /\
  (forall e, option_map (@length _) (get_table t' e) = option_map (@length _) (get_table t e)) /\
  (forall e k, tget t' e k =
     option_map (app (rev (map snd (filter (hits e k) l)))) (tget t e k)) /\
  (forall o, In o l -> exists en, tget t (fst (fst o)) (snd (fst o)) = Some en).
Proof.
  induction l as [|o l IH]; cbn; intros t t' H.
  - injection H as <-. split; [reflexivity|]. split; [reflexivity|]. split; [|intros ? []].
    intros e k. destruct (tget t e k); reflexivity.
  - unfold push at 1 in H.
    destruct (push_front_at t (fst (fst o)) (snd (fst o)) (snd o)) as [t1|] eqn:E; [|discriminate].
    destruct (push_front_at_spec _ _ _ _ _ E) as (Hf & Hg & Hl & Hx).
    destruct (IH _ _ H) as (Hf' & Hl' & Hg' & Hx').
    split; [congruence|]. split; [intros e; rewrite Hl'; apply Hl|]. split.
    + intros e k. rewrite Hg', Hg. unfold hits at 2.
      destruct (ev_eq_dec e (fst (fst o))) as [->|Hne].
      * destruct (ev_eq_dec (fst (fst o)) (fst (fst o))); [|congruence]. cbn.
        destruct (N.eq_dec k (snd (fst o))) as [->|Hk].
        -- rewrite N.eqb_refl. cbn. destruct (tget t _ _); [|reflexivity]. cbn.
           rewrite <- app_assoc. reflexivity.
        -- destruct (N.eqb_spec (snd (fst o)) k); [congruence|]. reflexivity.
      * destruct (ev_eq_dec (fst (fst o)) e); [congruence|]. reflexivity.
    + intros o' [<-|Ho]; [exact Hx|].
      destruct (Hx' o' Ho) as (en & Hen). rewrite Hg in Hen.
      destruct (ev_eq_dec _ _); [|eauto]. destruct (N.eq_dec _ _); [|eauto].
      destruct (tget t (fst (fst o')) (snd (fst o'))); [eauto|discriminate].
Qed.

Lemma pushes_ok l : forall t,
  (forall o, In o l -> exists en, tget t (fst (fst o)) (snd (fst o)) = Some en) ->
  exists t', pushes l t = Some t'.
Proof.
  induction l as [|o l IH]; cbn; intros t H; [eauto|].
  destruct (H o (or_introl eq_refl)) as (en & Hen).
  destruct (push_front_at_ok _ _ _ (snd o) _ Hen) as (t1 & E).
  unfold push at 1. rewrite E. apply IH.
  intros o' Ho. destruct (H o' (or_intror Ho)) as (en' & Hen').
  destruct (push_front_at_spec _ _ _ _ _ E) as (_ & Hg & _ & _).
  rewrite Hg. destruct (ev_eq_dec _ _); [|eauto]. destruct (N.eq_dec _ _); [|eauto].
  rewrite Hen'. cbn. eauto.
Qed.

(** ** The pushes made by the fill functions *)
Definition dst_of (m : machine) (x : xrow) : sref :=
  match resolve_dst (mc_env m) x with Some d => d | None => x_tgt x end.

Definition comp_b (m : machine) (c : cls) : bool := has_table (mc_env m) (SState c).
Definition offers_of (m : machine) : xrow -> list (place * sref) :=
  offers (comp_b m) (child_typeids (mc_env m)).

Definition centry (m : machine) (d : dep) (c : cand) : entry :=
  match c with
  | CDefer => defer_entry
  | CRow x obj => entry_of_row m d x obj (dst_of m x)
  end.

Definition row_ops (m : machine) (d : dep) (x : xrow) : list op :=
  map (fun po => (x_ev x, combined_idx m (fst (fst po)) (snd (fst po)),
                  centry m d (CRow x (snd po)))) (offers_of m x).
Definition defer_ops (m : machine) (x : xrow) : list op :=
  map (fun e => (e, combined_idx m (fst (source_place x)) (snd (source_place x)), defer_entry))
      (deferred_events m x).
Definition all_ops (m : machine) (d : dep) : list op :=
  flat_map (fun e => flat_map (row_ops m d) (filter_ev e (internal_flat m))) (events_of (internal_flat m))
  ++ flat_map (fun e => flat_map (row_ops m d) (filter_ev e (mc_flat m))) (events_of (mc_flat m))
  ++ flat_map (defer_ops m) (deferring m).

Lemma source_place_resolve x : source_place x = (resolve_src_parent x, resolve_src x).
Proof. unfold source_place, resolve_src_parent, resolve_src. destruct (x_src x); reflexivity. Qed.

Lemma add_row_pushes m d x t :
  resolve_dst (mc_env m) x <> None ->
  add_row m d x t = pushes (row_ops m d x) t.
Proof.
  intros Hd. unfold add_row, add_entry, add_exits, row_ops, offers_of, offers.
  destruct (resolve_dst (mc_env m) x) as [dst|] eqn:E; [|congruence].
  cbn [map pushes foldM]. unfold push at 1. cbn [fst snd].
  rewrite source_place_resolve. cbn [fst snd].
  unfold centry at 1, dst_of. rewrite E.
  destruct (push_front_at t _ _ _) as [t1|]; [|reflexivity].
  destruct (x_int x); [reflexivity|].
  destruct (x_src x) eqn:Es; try reflexivity.
  unfold comp_b. destruct (has_table (mc_env m) (SState c)); [|reflexivity].
  rewrite map_map, foldM_map. apply foldM_ext. intros ch t' _.
  unfold push. cbn [fst snd]. unfold centry, dst_of. rewrite E. reflexivity.
Qed.

Lemma fill_transitions_pushes m d l t :
  (forall x, In x l -> resolve_dst (mc_env m) x <> None) ->
  fill_transitions m d l t =
  pushes (flat_map (fun e => flat_map (row_ops m d) (filter_ev e l)) (events_of l)) t.
Proof.
  intros H. unfold fill_transitions, pushes. rewrite foldM_flat_map. apply foldM_ext.
  intros e t' _. rewrite foldM_flat_map. apply foldM_ext. intros x t'' Hx.
  apply add_row_pushes. apply H. apply filter_In in Hx. tauto.
Qed.

Lemma fill_deferred_pushes m t :
  fill_deferred m t = pushes (flat_map (defer_ops m) (deferring m)) t.
Proof.
  unfold fill_deferred, pushes. rewrite foldM_flat_map. apply foldM_ext.
  intros x t' _. unfold defer_ops. rewrite foldM_map. apply foldM_ext. intros e t'' _.
  unfold push. cbn [fst snd]. rewrite source_place_resolve. reflexivity.
Qed.

Lemma row_accepted_dst m x : row_accepted m x = true -> resolve_dst (mc_env m) x <> None.
Proof. unfold row_accepted. destruct (resolve_dst (mc_env m) x); congruence. Qed.

Lemma fill_dispatch_pushes m d t : comp m -> fill_dispatch m d t = pushes (all_ops m d) t.
Proof.
  intros Hc. unfold fill_dispatch, all_ops, pushes. rewrite foldM_app.
  rewrite fill_transitions_pushes.
  2:{ intros x Hx. apply row_accepted_dst. apply (cp_rows m Hc). apply in_or_app. auto. }
  unfold pushes. destruct (foldM push _ t) as [t1|]; [|reflexivity].
  rewrite foldM_app, fill_transitions_pushes.
  2:{ intros x Hx. apply row_accepted_dst. apply (cp_rows m Hc). apply in_or_app. auto. }
  unfold pushes. destruct (foldM push _ t1) as [t2|]; [|reflexivity].
  apply fill_deferred_pushes.
Qed.

(** ** Candidates of a place *)
Definition cands (m : machine) (e : ev) (pl : place) : list cand :=
  priority (comp_b m) (child_typeids (mc_env m)) (deferred_events m) e pl
           (mc_flat m) (internal_flat m) (deferring m).

Definition inrange (m : machine) (pl : place) : Prop :=
  In (fst pl) (parents m) /\ In (snd pl) (states m).

(** All places in which something is registered exist. *)
Definition regs_ok (m : machine) : Prop :=
  (forall x po, In x (internal_flat m ++ mc_flat m) -> In po (offers_of m x) -> inrange m (fst po)) /\
  (forall x, In x (deferring m) -> deferred_events m x <> [] -> inrange m (source_place x)).

Section Cands.
Variable m : machine.
Hypothesis Hc : comp m.

Lemma events_spec e : In e (events m) <-> exists x, In x (mc_flat m ++ internal_flat m) /\ x_ev x = e.
Proof.
  unfold events, events_of. rewrite unique_In, in_map_iff.
  split; intros (x & H1 & H2); exists x; auto.
Qed.

Lemma flat_ev_hits d e k l :
  filter (hits e k) (flat_map (fun e => flat_map (row_ops m d) (filter_ev e l)) (events_of l)) =
  flat_map (fun x => if ev_eq_dec (x_ev x) e then filter (hits e k) (row_ops m d x) else []) l.
Proof.
  rewrite filter_flat_map.
  assert (Hoth : forall x, x_ev x <> e -> filter (hits e k) (row_ops m d x) = []).
  { intros x Hx. unfold row_ops. induction (offers_of m x) as [|po l' IH]; cbn; [reflexivity|].
    unfold hits at 1. cbn. destruct (ev_eq_dec (x_ev x) e); [congruence|]. exact IH. }
  rewrite (flat_map_pick ev_eq_dec _ (events_of l) e).
  - rewrite filter_flat_map. unfold filter_ev. rewrite flat_map_filter.
    apply flat_map_ext_in. intros x _. destruct (ev_eq_dec (x_ev x) e); reflexivity.
  - apply unique_NoDup.
  - intros e' _ Hne. rewrite filter_flat_map. apply flat_map_nil.
    intros x Hx. apply filter_In in Hx. destruct Hx as [_ Hx].
    destruct (ev_eq_dec (x_ev x) e'); [|discriminate]. apply Hoth. congruence.
  - intros Hn. unfold filter_ev. rewrite flat_map_filter, filter_flat_map.
    apply flat_map_nil. intros x Hx. destruct (ev_eq_dec (x_ev x) e) as [He|]; [|reflexivity].
    exfalso. apply Hn. unfold events_of. rewrite unique_In. apply in_map_iff. eauto.
Qed.

Lemma row_hits d e p s x : In p (parents m) -> In s (states m) -> x_ev x = e ->
  map snd (filter (hits e (combined_idx m p s)) (row_ops m d x)) =
  map (centry m d) (flat_map (fun po => if place_eq_dec (fst po) (p, s)
                                        then [CRow x (snd po)] else []) (offers_of m x)).
Proof.
  intros Hp Hs He. unfold row_ops.
  induction (offers_of m x) as [|[[q t] o] l IH]; [reflexivity|].
  cbn [map filter flat_map fst snd]. unfold hits at 1. cbn [fst snd].
  destruct (ev_eq_dec (x_ev x) e); [|congruence]. cbn [andb].
  destruct (place_eq_dec (q, t) (p, s)) as [Heq|Hne].
  - injection Heq as -> ->. rewrite N.eqb_refl. cbn [map snd app]. rewrite IH. reflexivity.
  - destruct (N.eqb_spec (combined_idx m q t) (combined_idx m p s)) as [Hk|Hk].
    + symmetry in Hk. apply combined_idx_inj in Hk; auto. congruence.
    + exact IH.
Qed.

Lemma defer_hits e p s x : In p (parents m) -> In s (states m) ->
  map snd (filter (hits e (combined_idx m p s)) (defer_ops m x)) =
  map (centry m 0) (if place_eq_dec (source_place x) (p, s)
                    then flat_map (fun e' => if ev_eq_dec e' e then [CDefer] else [])
                                  (deferred_events m x) else []).
Proof.
  intros Hp Hs. unfold defer_ops.
  destruct (source_place x) as [q t] eqn:Esp. cbn [fst snd].
  destruct (place_eq_dec (q, t) (p, s)) as [Heq|Hne].
  - injection Heq as -> ->.
    induction (deferred_events m x) as [|e' l IH]; [reflexivity|].
    cbn [map filter flat_map]. unfold hits at 1. cbn [fst snd]. rewrite N.eqb_refl, andb_true_r.
    destruct (ev_eq_dec e' e); cbn [map snd app]; rewrite IH; reflexivity.
  - induction (deferred_events m x) as [|e' l IH]; [reflexivity|].
    cbn [map filter]. unfold hits at 1. cbn [fst snd].
    destruct (N.eqb_spec (combined_idx m q t) (combined_idx m p s)) as [Hk|Hk].
    + symmetry in Hk. apply combined_idx_inj in Hk; auto. congruence.
    + rewrite andb_false_r. exact IH.
Qed.

Lemma flat_map_map_snd {A} (f : A -> list op) (g : A -> list cand) d l :
  (forall a, In a l -> map snd (f a) = map (centry m d) (g a)) ->
  map snd (flat_map f l) = map (centry m d) (flat_map g l).
Proof.
  induction l as [|a l IH]; cbn; intros H; [reflexivity|].
  rewrite !map_app. f_equal; [apply H; auto|apply IH; auto].
Qed.

Lemma all_ops_hits d e p s : In p (parents m) -> In s (states m) ->
  rev (map snd (filter (hits e (combined_idx m p s)) (all_ops m d))) =
  map (centry m d) (cands m e (p, s)).
Proof.
  intros Hp Hs. unfold all_ops, cands, priority.
  rewrite !filter_app, !map_app, !rev_app_distr, <- app_assoc.
  rewrite !flat_ev_hits, filter_flat_map. f_equal; [|f_equal].
  - rewrite map_rev. f_equal. unfold defers_at.
    rewrite (flat_map_map_snd _ (fun x => if place_eq_dec (source_place x) (p, s)
       then flat_map (fun e' => if ev_eq_dec e' e then [CDefer] else []) (deferred_events m x)
       else []) 0).
    + apply map_ext_in. intros c Hin. apply in_flat_map in Hin. destruct Hin as (x & _ & Hin).
      destruct (place_eq_dec _ _); [|destruct Hin].
      apply in_flat_map in Hin. destruct Hin as (e' & _ & Hin).
      destruct (ev_eq_dec e' e); [|destruct Hin]. destruct Hin as [<-|[]]. reflexivity.
    + intros x _. apply defer_hits; assumption.
  - rewrite map_rev. f_equal. unfold rows_at. apply flat_map_map_snd. intros x _.
    destruct (ev_eq_dec (x_ev x) e); [|reflexivity]. apply row_hits; assumption.
  - rewrite map_rev. f_equal. unfold rows_at. apply flat_map_map_snd. intros x _.
    destruct (ev_eq_dec (x_ev x) e); [|reflexivity]. apply row_hits; assumption.
Qed.

(** The empty tables. *)
Lemma empty_tables_shape : shape m (empty_tables m).
Proof.
  unfold shape, empty_tables. split.
  - rewrite map_map. cbn. apply map_id.
  - intros e arr. induction (events m) as [|e' l IH]; cbn; [discriminate|].
    destruct (ev_eq_dec e e'); [|exact IH]. intros H; injection H as <-.
    rewrite repeat_length, places_length_nat. reflexivity.
Qed.
Lemma empty_tables_get e k l : tget (empty_tables m) e k = Some l -> l = [].
Proof.
  unfold tget, empty_tables. induction (events m) as [|e' l' IH]; cbn; [discriminate|].
  destruct (ev_eq_dec e e'); [|exact IH]. intros H. apply nth_error_In in H.
  apply repeat_spec in H. exact H.
Qed.

Lemma shape_tget t e p s : shape m t -> In e (events m) -> In p (parents m) -> In s (states m) ->
  exists l, tget t e (combined_idx m p s) = Some l.
Proof.
  intros [Hf Hl] He Hp Hs. unfold tget.
  destruct (proj2 (get_table_In t e)) as (arr & Ha); [rewrite Hf; exact He|].
  rewrite Ha. specialize (Hl _ _ Ha).
  destruct (nth_error arr (N.to_nat (combined_idx m p s))) eqn:En; [eauto|].
  apply nth_error_None in En. rewrite Hl in En.
  pose proof (places_at_combined m Hc p s Hp Hs) as H.
  assert (N.to_nat (combined_idx m p s) < length (places m)) by (apply nth_error_Some; congruence).
  lia.
Qed.

Lemma shape_tget_inv t e p s l : shape m t -> tget t e (combined_idx m p s) = Some l ->
  In e (events m) /\ In p (parents m) /\ In s (states m).
Proof.
  intros [Hf Hl] H. unfold tget in H.
  destruct (get_table t e) as [arr|] eqn:Ha; [|discriminate].
  split.
  - rewrite <- Hf. apply get_table_In. eauto.
  - specialize (Hl _ _ Ha).
    assert (Hlt : N.to_nat (combined_idx m p s) < length arr) by (apply nth_error_Some; congruence).
    rewrite Hl, combined_idx_pos, Nat2N.id in Hlt by exact Hc.
    apply pos_lt in Hlt. apply in_places in Hlt. exact Hlt.
Qed.

Lemma pushes_shape l t t' : shape m t -> pushes l t = Some t' -> shape m t'.
Proof.
  intros [Hf Hl] H. apply pushes_spec in H. destruct H as (Hf' & Hl' & _ & _). split; [congruence|].
  intros e arr Ha. specialize (Hl' e). rewrite Ha in Hl'. cbn in Hl'.
  destruct (get_table t e) as [arr0|] eqn:E; [|discriminate].
  specialize (Hl _ _ E). cbn in Hl'. congruence.
Qed.

Lemma fill_shape d t t' : shape m t -> fill_dispatch m d t = Some t' -> shape m t'.
Proof. intros Hs H. rewrite fill_dispatch_pushes in H by exact Hc. eapply pushes_shape; eauto. Qed.

(** Filling prepends the candidates of every place. *)
Lemma fill_get d t t' e p s :
  fill_dispatch m d t = Some t' -> In p (parents m) -> In s (states m) ->
  tget t' e (combined_idx m p s) =
  option_map (app (map (centry m d) (cands m e (p, s)))) (tget t e (combined_idx m p s)).
Proof.
  intros H Hp Hs. rewrite fill_dispatch_pushes in H by exact Hc.
  apply pushes_spec in H. destruct H as (_ & _ & Hg & _).
  rewrite Hg, all_ops_hits by assumption. reflexivity.
Qed.

Lemma in_all_ops d o : In o (all_ops m d) <->
  (exists x po, In x (internal_flat m ++ mc_flat m) /\ In po (offers_of m x) /\
     o = (x_ev x, combined_idx m (fst (fst po)) (snd (fst po)), centry m d (CRow x (snd po)))) \/
  (exists x e, In x (deferring m) /\ In e (deferred_events m x) /\
     o = (e, combined_idx m (fst (source_place x)) (snd (source_place x)), defer_entry)).
Proof.
  assert (Hl : forall l, In o (flat_map (fun e => flat_map (row_ops m d) (filter_ev e l)) (events_of l))
     <-> exists x po, In x l /\ In po (offers_of m x) /\
     o = (x_ev x, combined_idx m (fst (fst po)) (snd (fst po)), centry m d (CRow x (snd po)))).
  { intros l. rewrite in_flat_map. split.
    - intros (e & _ & H). apply in_flat_map in H. destruct H as (x & Hx & H).
      apply filter_In in Hx. unfold row_ops in H. apply in_map_iff in H.
      destruct H as (po & <- & Hpo). exists x, po. tauto.
    - intros (x & po & Hx & Hpo & ->). exists (x_ev x). split.
      + unfold events_of. rewrite unique_In. apply in_map. exact Hx.
      + apply in_flat_map. exists x. split.
        * apply filter_In. split; [exact Hx|]. destruct (ev_eq_dec _ _); congruence.
        * unfold row_ops. apply in_map_iff. exists po. auto. }
  unfold all_ops. rewrite !in_app_iff, !Hl, in_flat_map. split.
  - intros [(x & po & H1 & H2 & H3)|[(x & po & H1 & H2 & H3)|(x & Hx & H)]].
    + left. exists x, po. rewrite in_app_iff. auto.
    + left. exists x, po. rewrite in_app_iff. auto.
    + right. unfold defer_ops in H. apply in_map_iff in H. destruct H as (e & <- & He).
      exists x, e. auto.
  - intros [(x & po & H1 & H2 & H3)|(x & e & Hx & He & ->)].
    + apply in_app_iff in H1. destruct H1; [left|right; left]; eauto.
    + right; right. exists x. split; [exact Hx|]. unfold defer_ops. apply in_map_iff. eauto.
Qed.

Lemma deferred_nil_or x : deferred_events m x = [] \/ exists e, In e (deferred_events m x).
Proof. destruct (deferred_events m x) as [|e l]; [auto|]. right. exists e. cbn. auto. Qed.

Lemma fill_ok_iff d t : shape m t -> ((exists t', fill_dispatch m d t = Some t') <-> regs_ok m).
Proof.
  intros Hsh. rewrite fill_dispatch_pushes by exact Hc. split.
  - intros (t' & H). apply pushes_spec in H. destruct H as (_ & _ & _ & Hx). split.
    + intros x po Hin Hpo.
      destruct (Hx (x_ev x, combined_idx m (fst (fst po)) (snd (fst po)), centry m d (CRow x (snd po))))
        as (en & Hen).
      * apply in_all_ops. left. eauto.
      * cbn in Hen. apply shape_tget_inv in Hen; [|exact Hsh]. unfold inrange. tauto.
    + intros x Hin Hne. destruct (deferred_nil_or x) as [Hnil|[e He]]; [congruence|].
      destruct (Hx (e, combined_idx m (fst (source_place x)) (snd (source_place x)), defer_entry))
        as (en & Hen).
      * apply in_all_ops. right. eauto.
      * cbn in Hen. apply shape_tget_inv in Hen; [|exact Hsh]. unfold inrange. tauto.
  - intros [Hr Hd]. apply pushes_ok. intros o Ho. apply in_all_ops in Ho.
    destruct Ho as [(x & po & Hx & Hpo & ->)|(x & e & Hx & He & ->)]; cbn [fst snd].
    + destruct (Hr x po Hx Hpo) as [H1 H2]. apply shape_tget; auto.
      apply events_spec. exists x. split; [|reflexivity]. rewrite in_app_iff in *. tauto.
    + destruct (Hd x Hx) as [H1 H2].
      * intros Hnil. rewrite Hnil in He. destruct He.
      * apply shape_tget; auto. apply (cp_defer m Hc x e Hx He).
Qed.

(** Tables after construction and calls of set_dependency, newest first. *)
Inductive filled : list dep -> tables -> Prop :=
| filled_new d t : fill_dispatch m d (empty_tables m) = Some t -> filled [d] t
| filled_again d ds t t' : filled ds t -> fill_dispatch m d t = Some t' -> filled (d :: ds) t'.

Lemma filled_shape ds t : filled ds t -> shape m t.
Proof.
  induction 1 as [d t H|d ds t t' _ IH H].
  - eapply fill_shape; [apply empty_tables_shape|exact H].
  - eapply fill_shape; eauto.
Qed.

Lemma filled_regs ds t : filled ds t -> regs_ok m.
Proof.
  induction 1 as [d t H|d ds t t' _ IH H]; [|exact IH].
  apply (fill_ok_iff d (empty_tables m) empty_tables_shape). eauto.
Qed.

Lemma filled_get ds t e p s : filled ds t -> In e (events m) -> In p (parents m) -> In s (states m) ->
  tget t e (combined_idx m p s) =
  Some (flat_map (fun d => map (centry m d) (cands m e (p, s))) ds).
Proof.
  intros Hf He Hp Hs. induction Hf as [d t H|d ds t t' Hf IH H].
  - rewrite (fill_get _ _ _ _ _ _ H Hp Hs).
    destruct (shape_tget (empty_tables m) e p s) as (l & Hl); auto using empty_tables_shape.
    rewrite Hl. apply empty_tables_get in Hl. subst l. reflexivity.
  - rewrite (fill_get _ _ _ _ _ _ H Hp Hs), IH. reflexivity.
Qed.
End Cands.
