(** Proofs about StateData.v. *)

From Coq Require Import List Arith NArith Bool Lia.
From Verif Require Import Types Static Dispatch Runtime ListFacts IndexFacts Spec
  DispatchFacts FlattenFacts Semantics RefineFacts StaticFacts TermFacts Reach ReachFacts TableFacts
  QueryFacts ProcessFacts RegionFacts CallFacts QueueFacts Data DataUse SymTree StateData.
Import ListNotations.

(** * The world is what the calls made of it *)
Section World.
Context {V W : Type}.
Variable cb : cbfun V W.
Definition folds {A} (w : W) (tr : list (called V)) (r : res V W A) : Prop :=
  match r with
  | Done _ s | Threw _ s => exists t, rt_trace s = tr ++ t /\ rt_world s = world_after_all cb t w
  | _ => True
  end.
Lemma interp_folds {S} (t : tree S) : forall n vals w tr, folds w tr (interp cb n vals t w tr).
Proof.
  induction t as [l|c a i x yes IHy no IHn]; intros n vals w tr; cbn [interp].
  - destruct l; cbn; auto; exists []; cbn; rewrite app_nil_r; auto.
  - destruct (cb c a (vals i) w) as [b v w'|k v w'] eqn:E.
    + assert (W1 : world_after cb w (mkCall c a (vals i)) = w') by (unfold world_after; cbn [k_callee k_args k_payload]; now rewrite E).
      assert (G : folds w' (tr ++ [mkCall c a (vals i)]) (interp cb (Datatypes.S n) (ext vals n v) (if b then yes else no) w' (tr ++ [mkCall c a (vals i)]))) by (destruct b; auto).
      destruct (interp cb (Datatypes.S n) (ext vals n v) (if b then yes else no) w' (tr ++ [mkCall c a (vals i)])) as [y s|y s|u|]; cbn in *; auto;
        destruct G as (t & E1 & E2); exists (mkCall c a (vals i) :: t); rewrite E1, <- app_assoc; (split; [reflexivity|]); rewrite E2; unfold world_after_all; cbn [fold_left]; rewrite W1; reflexivity.
    + cbn. exists [mkCall c a (vals i)]. split; [reflexivity|]. unfold world_after_all. cbn [fold_left]. unfold world_after. cbn [k_callee k_args k_payload]. now rewrite E.
Qed.
Lemma asks_folds {S} n x (f : code S) vals w tr : 0 < n -> numbered n x -> asks n x f -> folds w tr (f V W cb vals (fill vals x w tr)).
Proof. intros Hn Hx H. destruct (H Hn Hx) as (t & _ & E). rewrite E. apply interp_folds. Qed.

(** Every state is a numbered one, filled. *)
Definition by_number (q : list (ev * V)) : list (ev * nat) := combine (map fst q) (seq 2 (length q)).
Lemma by_number_fill (vnone v : V) (q : list (ev * V)) : forall pre : list V,
  map (fun p => (fst p, nth (snd p) (pre ++ map snd q) vnone)) (combine (map fst q) (seq (length pre) (length q))) = q.
Proof.
  induction q as [|[e u] q IH]; intros pre; [reflexivity|]. cbn [map fst snd length seq combine]. f_equal.
  - f_equal. now rewrite app_nth2, Nat.sub_diag by lia.
  - specialize (IH (pre ++ [u])). rewrite app_length in IH. cbn [length] in IH. rewrite Nat.add_1_r in IH. rewrite <- app_assoc in IH. exact IH.
Qed.
Definition bones (s : rt V W) : rt nat unit :=
  mkRt (rt_cur s) (rt_hist s) (by_number (rt_queue s)) (rt_regions s) (rt_live s) (rt_tabs s) (rt_htabs s) tt [].
Definition flesh (vnone v : V) (s : rt V W) (i : nat) : V := nth i ([vnone; v] ++ map snd (rt_queue s)) vnone.
Lemma fill_bones vnone v s : fill (flesh vnone v s) (bones s) (rt_world s) (rt_trace s) = s.
Proof.
  destruct s as [cu hi q re li ta ht w tr]. unfold fill, bones, flesh. cbn [rt_cur rt_hist rt_queue rt_regions rt_live rt_tabs rt_htabs rt_world rt_trace]. f_equal.
  exact (by_number_fill vnone v q [vnone; v]).
Qed.
Lemma bones_numbered s : numbered (2 + length (rt_queue s)) (bones s).
Proof.
  intros [e i] H. cbn [snd]. unfold bones, by_number in H. cbn [rt_queue] in H. apply in_combine_r in H. apply in_seq in H. lia.
Qed.
Lemma call_folds m vnone fuel k s : folds (rt_world s) (rt_trace s) (do_call cb m vnone fuel k s).
Proof.
  set (v := match k with KProcess _ v => v | _ => vnone end).
  set (k0 := with_payload (fun _ => 1) k : call nat).
  assert (K : call_fits (2 + length (rt_queue s)) k0) by (unfold k0; destruct k; cbn; auto; lia).
  pose proof (call_a m fuel k0 (2 + length (rt_queue s)) (bones s) (Nat.lt_0_succ _) K) as A.
  pose proof (asks_folds _ _ _ (flesh vnone v s) (rt_world s) (rt_trace s) (Nat.lt_0_succ _) (bones_numbered s) A) as F.
  cbn beta in F. rewrite fill_bones in F. change (flesh vnone v s 0) with vnone in F.
  replace (with_payload (flesh vnone v s) k0) with k in F; [exact F|]. destruct k; reflexivity.
Qed.
Lemma region_folds m r e v s : folds (rt_world s) (rt_trace s) (try_region cb m r e v s).
Proof.
  pose proof (try_region_a m r e 1 (2 + length (rt_queue s)) (bones s) (proj1 (Nat.succ_lt_mono 0 _) (Nat.lt_0_succ _))) as A.
  pose proof (asks_folds _ _ _ (flesh v v s) (rt_world s) (rt_trace s) (Nat.lt_0_succ _) (bones_numbered s) A) as F.
  cbn beta in F. rewrite fill_bones in F. exact F.
Qed.
Lemma catch_folds m vnone fuel k s : folds (rt_world s) (rt_trace s) (do_call_catch cb m vnone fuel k s).
Proof. pose proof (call_folds m vnone fuel k s) as F. unfold do_call_catch. destruct (do_call cb m vnone fuel k s); cbn in *; auto. Qed.
Lemma folds_more {A} w tr t (r : res V W A) : folds (world_after_all cb t w) (tr ++ t) r -> folds w tr r.
Proof.
  destruct r; cbn; auto; intros (u & E1 & E2); exists (t ++ u); rewrite E1, app_assoc; (split; [reflexivity|]); rewrite E2; unfold world_after_all; now rewrite fold_left_app.
Qed.
Lemma run_folds m vnone fuel ks : forall s, folds (rt_world s) (rt_trace s) (run cb m vnone fuel ks s).
Proof.
  induction ks as [|k ks IH]; intros s; cbn [run].
  - exists []. rewrite app_nil_r. auto.
  - pose proof (catch_folds m vnone fuel k s) as F. destruct (do_call_catch cb m vnone fuel k s) as [o s1|x s1|u|]; cbn [bind] in *; auto.
    destruct F as (t & E1 & E2). specialize (IH s1). rewrite E1, E2 in IH. apply folds_more in IH. destruct (run cb m vnone fuel ks s1); cbn in *; auto.
Qed.
End World.

(** * Data members *)
Section Members.
Context {V W D : Type}.
Variable cb : cbfun V W.
Variables (env : cenv) (root : cls).
Variables (q : sref) (data : W -> D).
Hypothesis Hd : members cb env root q data.
Lemma members_all t : forall w, (forall k, In k t -> ~ reaches env root q k) -> data (world_after_all cb t w) = data w.
Proof.
  induction t as [|k t IH]; intros w H; [reflexivity|]. change (world_after_all cb (k :: t) w) with (world_after_all cb t (world_after cb w k)).
  rewrite IH by (intros k' Hk; apply H; now right). apply Hd, H. now left.
Qed.
End Members.

Section Read.
Context {V W : Type}.
Variable cb : cbfun V W.
Lemma run_world m vnone fuel ks s os s' : run cb m vnone fuel ks s = Done os s' ->
  exists t, rt_trace s' = rt_trace s ++ t /\ rt_world s' = world_after_all cb t (rt_world s).
Proof. intros E. pose proof (run_folds cb m vnone fuel ks s) as F. rewrite E in F. exact F. Qed.
Lemma session_world env root m vnone : compile env root = Some m -> few_regions env root ->
  forall fuel d w ks os s, session cb m vnone fuel d w ks = Done os s -> rt_world s = world_after_all cb (rt_trace s) w.
Proof.
  intros Hm Hfew fuel d w ks os s H. unfold session in H. destruct (construct m fuel d w) as [[] s0|? ?|?|] eqn:E; cbn [bind] in H; try discriminate.
  pose proof (few_max_compiled _ _ _ Hm Hfew) as Hmax. pose proof Hm as Hm2. compiled Hm2.
  apply (construct_sound m Hc) in E; [|apply (root_initials_le m Hc Hmax)]. destruct E as ((_ & _ & _ & _ & _ & _ & _ & _ & Ew & Et) & _).
  destruct (run_world _ _ _ _ _ _ _ H) as (t & E1 & E2). rewrite Et in E1. cbn in E1. now rewrite E2, E1, Ew.
Qed.
End Read.

Section Turn.
Context {V W D : Type}.
Variable cb : cbfun V W.
Variables (env : cenv) (root : cls) (m : machine) (vnone : V) (ds : list dep) (d0 : dep).
Hypothesis Hm : compile env root = Some m.
Variables (q : sref) (data : W -> D).
Hypothesis Hd : members cb env root q data.

Lemma signature_args (k : called V) c a : signature k = (c, a) -> k_callee k = c /\ k_args k = a.
Proof. unfold signature. intros [= -> ->]. auto. Qed.
Lemma factory_row x f : In (CFactory f) (row_calls env x) -> In (CFactory f) (action_calls x).
Proof.
  unfold row_calls. rewrite !in_app_iff. intros [H|[H|[H|H]]]; auto; exfalso; revert H.
  - unfold exit_call. destruct (x_int x); [intros []|]. destruct (x_src x); try (intros []; fail); destruct (has_exit env _); intros []; try discriminate; contradiction.
  - unfold entry_call. destruct (x_int x); [intros []|]. destruct (x_tgt x); try (intros []; fail); destruct (has_entry env _); intros []; try discriminate; contradiction.
  - unfold initial_entry_call. destruct (x_tgt x) as [c| | | | |]; try (intros []; fail). destruct (if is_composite env c then _ else _) as [[i| | | | |]|]; try (intros []; fail).
    destruct (has_entry env i); intros []; try discriminate; contradiction.
Qed.
(** A call of a row that can reach the data of [q]: the row is about [q]. *)
Lemma guard_about x o e d ty val (k : called V) : signature k = (CGuard ty val, guard_args m e d x o) -> reaches env root q k -> mc_env m = env -> about env root x o q.
Proof.
  intros E R Ee. apply signature_args in E. destruct E as [E1 E2]. destruct R as [R|(f & R & _)]; [|congruence].
  rewrite E2 in R. unfold guard_args, given in R. cbn [a_src a_tgt] in R. unfold about. rewrite Ee in R.
  destruct R as [R|[R|R]]; [now left| |discriminate]. injection R as R. destruct (x_int x); auto.
Qed.
Lemma effect_about x o e d (k : called V) : In (signature k) (row_signature env e d x o) -> reaches env root q k -> about env root x o q.
Proof.
  intros H R. unfold row_signature in H. apply in_map_iff in H. destruct H as (c & E & Hc). symmetry in E. apply signature_args in E. destruct E as [E1 E2].
  unfold about. destruct R as [R|(f & R & M)].
  - rewrite E2 in R. unfold call_args, given in R. cbn [a_src a_tgt] in R. destruct R as [R|R]; [now left|].
    unfold action_target in R. destruct c, (default_constructible env (target_state env x)), (x_int x); destruct R as [R|R]; try discriminate; injection R as R; auto.
  - right. right. exists f. split; [|exact M]. apply factory_row. congruence.
Qed.

Definition here (pl : place) (e : ev) (k : called V) : Prop :=
  (exists d x o ty val, candidate env root e pl (CRow x o) /\ signature k = (CGuard ty val, guard_args m e d x o)) \/
  (exists d x o, candidate env root e pl (CRow x o) /\ In (signature k) (row_signature env e d x o)).
Lemma here_about pl e k : here pl e k -> reaches env root q k -> exists x o, candidate env root e pl (CRow x o) /\ about env root x o q.
Proof.
  assert (Ee : mc_env m = env) by (clear - Hm; compiled Hm; auto).
  intros [(d & x & o & ty & val & Hc & E)|(d & x & o & Hc & E)] R; exists x, o; (split; [exact Hc|]); [eapply guard_about|eapply effect_about]; eauto.
Qed.
Lemma scan_here e pl v w ks vd v' w' s : scan cb m e (bound m ds e pl) v w ks vd v' w' -> adds (here pl e) s (after s w' ks).
Proof.
  intros H. exists ks. split; [reflexivity|]. apply Forall_forall. intros k Hk.
  destruct (scan_guards _ _ _ _ _ _ _ _ _ _ H k Hk) as (d & x & o & ty & val & Hin & Hg & E).
  apply (bound_candidate env root m Hm) in Hin. destruct Hin as [_ Hin]. left. exists d, x, o, ty, val. auto.
Qed.
Lemma executes_here r e d x o v s n v' s' pl : candidate env root e pl (CRow x o) ->
  executes cb m r e d x o v s n v' s' -> adds (here pl e) s s'.
Proof.
  intros Hx H. destruct (executes_calls _ _ _ _ _ _ _ _ _ _ _ _ H) as (ks & E1 & E2 & _).
  exists ks. split; [exact E1|]. apply Forall_forall. intros k Hk. right. exists d, x, o.
  split; [exact Hx|]. pose proof Hm as Hm2. compiled Hm2.
  assert (I : In (signature k) (map signature ks)) by (now apply in_map). rewrite E2 in I.
  rewrite <- (firstn_skipn (length ks)). apply in_or_app. now left.
Qed.
Lemma step_here r e v s vd v' s' : region_step cb m ds r e v s vd v' s' -> exists pl, at_place m s r = Some pl /\ adds (here pl e) s s'.
Proof.
  intros H. destruct H; exists pl; (split; [assumption|]); try (apply adds_refl; reflexivity); try (eapply scan_here; eassumption).
  all: try match goal with A : scan _ _ _ _ _ _ _ (VPick _ _ _) _ _ |- _ =>
    pose proof (scan_pick _ _ _ _ _ _ _ _ _ _ _ _ A) as (pre & rest & k1 & k2 & va & wa & Eb & _);
    assert (Hin : In (d, CRow x o) (bound m ds e pl)) by (rewrite Eb; apply in_or_app; right; now left);
    apply (bound_candidate env root m Hm) in Hin; destruct Hin as [_ Hin];
    eapply adds_trans; [eapply scan_here; exact A|eapply executes_here; eauto] end.
Qed.
Definition callee_dec : forall a b : callee, {a = b} + {a <> b}. Proof. decide equality; apply Nat.eq_dec. Defined.
Definition targ_dec : forall a b : targ, {a = b} + {a <> b}. Proof. decide equality; apply sref_eq_dec. Defined.
Lemma makes_dec f : {makes env root f q} + {~ makes env root f q}.
Proof.
  pose proof Hm as Hm2. compiled Hm2.
  set (P := fun x => In (CFactory f) (action_calls x) /\ target_state (mc_env m) x = q).
  assert (Pd : forall x, {P x} + {~ P x}).
  { intros x. unfold P. destruct (in_dec callee_dec (CFactory f) (action_calls x)); [|right; tauto]. destruct (sref_eq_dec (target_state (mc_env m) x) q); [left|right]; tauto. }
  destruct (Exists_dec P (mc_flat m ++ flat_map (internal_of_pair (mc_env m)) (state_pairs m)) Pd) as [H|H].
  - left. apply Exists_exists in H. destruct H as (x & Hx & H1 & H2). exists x. split; [|auto]. apply in_app_iff in Hx. destruct Hx as [Hx|Hx]; [left|right].
    + now apply (flat_declared m (cp_fl m Hc)).
    + now apply (internal_all_iff m (cp_fl m Hc)).
  - right. intros (x & Hx & H1 & H2). apply H. apply Exists_exists. exists x. split; [|now split]. apply in_app_iff. destruct Hx as [Hx|Hx]; [left|right].
    + now apply (flat_declared m (cp_fl m Hc)).
    + now apply (internal_all_iff m (cp_fl m Hc)).
Qed.
Lemma reaches_dec (k : called V) : {reaches env root q k} + {~ reaches env root q k}.
Proof.
  unfold reaches, given. destruct (sref_eq_dec (a_src (k_args k)) q); [left; auto|]. destruct (targ_dec (a_tgt (k_args k)) (TObj q)); [left; auto|]. destruct (targ_dec (a_tgt (k_args k)) (TPtr q)); [left; auto|].
  destruct (k_callee k) as [ty val|f0|f|f0|c|c|] eqn:E; try (right; intros [[H|[H|H]]|(f9 & H & _)]; congruence).
  destruct (makes_dec f) as [M|M]; [left; right; eauto|right]. intros [[H|[H|H]]|(f9 & H & M')]; [congruence|congruence|congruence|]. replace f9 with f in M' by congruence. contradiction.
Qed.
Lemma some_reaches (t : list (called V)) w : data (world_after_all cb t w) <> data w -> exists k, In k t /\ reaches env root q k.
Proof.
  intros H. destruct (Exists_dec (reaches env root q) t reaches_dec) as [G|G]; [now apply Exists_exists in G|].
  exfalso. apply H. apply (members_all cb env root q data Hd). intros k Hk R. apply G. apply Exists_exists. eauto.
Qed.
Lemma turn_data s r e v : handling cb env root m vnone ds d0 s ->
  match try_region cb m r e v s with
  | Done _ s' | Threw _ s' => data (rt_world s') <> data (rt_world s) ->
      exists pl x o, at_place m s r = Some pl /\ candidate env root e pl (CRow x o) /\ about env root x o q
  | _ => True
  end.
Proof.
  intros Hs. pose proof (region_verdict cb env root m vnone ds d0 s Hs r e v) as R. pose proof (region_folds cb m r e v s) as F.
  assert (G : forall vd v' s', region_step cb m ds r e v s vd v' s' -> (exists t, rt_trace s' = rt_trace s ++ t /\ rt_world s' = world_after_all cb t (rt_world s)) ->
    data (rt_world s') <> data (rt_world s) -> exists pl x o, at_place m s r = Some pl /\ candidate env root e pl (CRow x o) /\ about env root x o q).
  { intros vd v' s' St (t & E1 & E2) Hn. destruct (step_here _ _ _ _ _ _ _ St) as (pl & Hp & ks & E3 & F3).
    rewrite E1 in E3. apply app_inv_head in E3. subst ks. rewrite E2 in Hn. destruct (some_reaches _ _ Hn) as (k & Hk & Rk). rewrite Forall_forall in F3.
    destruct (here_about _ _ _ (F3 k Hk) Rk) as (x & o & Hx & Ha). exists pl, x, o. auto. }
  destruct (try_region cb m r e v s) as [[[[]|] v'] s'|x s'|u|]; cbn in F; auto.
  - eapply G; eauto.
  - destruct R as (x & R). eapply G; eauto.
  - eapply G; eauto.
  - eapply G; eauto.
  - destruct R as (n & vd & v' & _ & _ & R). eapply G; eauto.
Qed.
(** From construction on. *)
Lemma candidate_row e pl x o : candidate env root e pl (CRow x o) ->
  (declared env root x \/ declared_internal env root x) /\ o = snd (source_place x).
Proof.
  intros H. inversion H; subst; auto. split; [auto|]. match goal with A : x_src x = SState _ |- _ => unfold source_place; now rewrite A end.
Qed.
Lemma session_reach (Hfew : few_regions env root) fuel d w ks os s k : session cb m vnone fuel d w ks = Done os s ->
  In k (rt_trace s) -> reaches env root q k ->
  (exists x, (declared env root x \/ declared_internal env root x) /\ (snd (source_place x) = q \/ target_state env x = q)) \/
  cd_unexpected (lookup env root) = true /\ is_state env root q.
Proof.
  intros H Hk R. unfold session in H. destruct (construct m fuel d w) as [[] s0|? ?|?|] eqn:E; cbn [bind] in H; try discriminate.
  pose proof (reach_new cb m vnone _ _ _ _ E) as Rs. pose proof (run_reachable cb m vnone fuel _ _ _ _ _ _ Rs H) as Rs1.
  pose proof (reachable_justified cb env root m vnone Hm _ _ _ Hfew Rs1) as J. rewrite Forall_forall in J. specialize (J k Hk).
  assert (Ee : mc_env m = env) by (clear - Hm; compiled Hm; auto).
  assert (G : forall e pl x o, candidate env root e pl (CRow x o) -> about env root x o q ->
    exists x, (declared env root x \/ declared_internal env root x) /\ (snd (source_place x) = q \/ target_state env x = q)).
  { intros e pl x o Hc Ha. destruct (candidate_row _ _ _ _ Hc) as [Hx ->]. destruct Ha as [Ha|[Ha|(f & _ & y & Hy & _ & Ht)]]; [exists x|exists x|exists y]; auto. }
  destruct J as [e pl d1 x o ty val _ Hc _ Es|e pl d1 x o _ Hc Es|e q' Hu _ Hq Es].
  - left. eapply G; [exact Hc|]. eapply guard_about; eauto.
  - left. eapply G; [exact Hc|]. eapply effect_about; eauto.
  - right. split; [exact Hu|]. apply signature_args in Es. destruct Es as [E1 E2]. destruct R as [R|(f & R & _)]; [|congruence].
    rewrite E2 in R. unfold given in R. cbn in R. destruct R as [<-|[R|R]]; [exact Hq|discriminate|discriminate].
Qed.
Lemma session_data (Hfew : few_regions env root) fuel d w ks os s : session cb m vnone fuel d w ks = Done os s ->
  data (rt_world s) <> data w ->
  (exists x, (declared env root x \/ declared_internal env root x) /\ (snd (source_place x) = q \/ target_state env x = q)) \/
  cd_unexpected (lookup env root) = true /\ is_state env root q.
Proof.
  intros H Hn. rewrite (session_world cb env root m vnone Hm Hfew _ _ _ _ _ _ H) in Hn. destruct (some_reaches _ _ Hn) as (k & Hk & R).
  eapply session_reach; eauto.
Qed.
Lemma moments fuel d w ks os s (Hfew : few_regions env root) : session cb m vnone fuel d w ks = Done os s ->
  forall t1 t2 t3, rt_trace s = t1 ++ t2 ++ t3 -> (forall k, In k t2 -> ~ reaches env root q k) ->
  data (world_after_all cb (t1 ++ t2) w) = data (world_after_all cb t1 w) /\ (t3 = [] -> data (rt_world s) = data (world_after_all cb t1 w)).
Proof.
  intros H t1 t2 t3 Et Hk. assert (G : data (world_after_all cb (t1 ++ t2) w) = data (world_after_all cb t1 w)).
  { unfold world_after_all. rewrite fold_left_app. exact (members_all cb env root q data Hd t2 _ Hk). }
  split; [exact G|]. intros ->. rewrite (session_world cb env root m vnone Hm Hfew _ _ _ _ _ _ H), Et, app_nil_r. exact G.
Qed.
End Turn.

(** The check. *)
Lemma out_of_reach_iff env root m q : compile env root = Some m -> out_of_reach m q = true ->
  (forall x, declared env root x \/ declared_internal env root x -> snd (source_place x) <> q /\ target_state env x <> q) /\
  cd_unexpected (lookup env root) = false.
Proof.
  intros Hm. compiled Hm. unfold out_of_reach. rewrite andb_true_iff, negb_true_iff, forallb_forall. intros [H1 H2]. split; [|exact H2].
  intros x Hx. specialize (H1 x). rewrite andb_true_iff in H1. destruct H1 as [A B].
  - apply in_app_iff. destruct Hx as [Hx|Hx]; [left; now apply (flat_declared m (cp_fl m Hc))|right; now apply (internal_all_iff m (cp_fl m Hc))].
  - split; [destruct (sref_eq_dec (snd (source_place x)) q); [discriminate|auto]|destruct (sref_eq_dec (target_state (mc_env m) x) q); [discriminate|auto]].
Qed.
Lemma out_of_reach_data {V W D} (cb : cbfun V W) env root m vnone q (data : W -> D) : compile env root = Some m -> few_regions env root ->
  members cb env root q data -> out_of_reach m q = true ->
  forall fuel d w ks os s, session cb m vnone fuel d w ks = Done os s -> data (rt_world s) = data w.
Proof.
  intros Hm Hfew Hd Ho fuel d w ks os s H. destruct (out_of_reach_iff _ _ _ _ Hm Ho) as [H1 H2].
  rewrite (session_world cb env root m vnone Hm Hfew _ _ _ _ _ _ H). apply (members_all cb env root q data Hd). intros k Hk R.
  destruct (session_reach cb env root m vnone Hm q data Hd Hfew _ _ _ _ _ _ k H Hk R) as [(x & Hx & Hq)|[Hu _]]; [destruct (H1 x Hx) as [A B]; destruct Hq; auto|congruence].
Qed.
