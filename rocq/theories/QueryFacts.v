(** Proofs of the statements of PropsQuery.v. *)

From Coq Require Import List Arith NArith Bool Lia.
From Verif Require Import Types Static Dispatch Runtime ListFacts IndexFacts Spec DispatchFacts
  FlattenFacts Semantics RefineFacts StaticFacts Reach ReachFacts TableFacts TermFacts.
Import ListNotations.

Lemma max_lt l r : r < fold_right Nat.max 0 l <-> exists n, In n l /\ r < n.
Proof.
  induction l as [|n l IH]; cbn [fold_right In].
  - split; [lia|intros (? & [] & _)].
  - rewrite Nat.max_lt_iff, IH. split.
    + intros [H|(k & Hk & H)]; eauto.
    + intros (k & [-> | Hk] & H); eauto.
Qed.

Section Compiled.
Context {V W : Type}.
Variables (env : cenv) (root : cls) (m : machine).
Hypothesis Hm : compile env root = Some m.
Notation st := (rt V W).

Lemma region_exists_max r : region_exists env root r <-> r < max_initials m.
Proof.
  compiled Hm. unfold region_exists, max_initials. rewrite max_lt. split.
  - intros (p & Hp & H). exists (length (initials (mc_env m) p)). rewrite initials_spec. split; [|exact H].
    apply in_map_iff. exists p. rewrite initials_spec. split; [reflexivity|]. now apply (parent_iff m Hc).
  - intros (n & Hn & H). apply in_map_iff in Hn. destruct Hn as (p & <- & Hp). exists p.
    rewrite initials_spec in H. split; [|exact H]. now apply (parent_iff m Hc).
Qed.

Lemma parallel_iff : parallel m = true <-> region_exists env root 1.
Proof. rewrite region_exists_max. unfold parallel. rewrite Nat.ltb_lt. reflexivity. Qed.

(** ** Construction *)
Lemma construct_defined fuel d (w : W) :
  anchored env root -> length (initial_states env root) <= 255 ->
  length (initial_states env root) < fuel ->
  (region_exists env root 1 -> initial_states env root <> []) ->
  exists s : st, construct m fuel d w = Done tt s.
Proof.
  rewrite <- parallel_iff. compiled Hm. rewrite <- initials_spec. intros Ha HL Hf Hn.
  apply (construct_total m Hc); auto. now apply (regs_anchored m Hc).
Qed.

Lemma construct_undefined fuel d (w : W) : ~ anchored env root ->
  exists u, construct (V:=V) m fuel d w = Undef u.
Proof.
  compiled Hm. intros Ha. unfold construct.
  assert (Hh : exists h, (if cd_unexpected (lookup (mc_env m) (mc_root m)) then fill_handlers m d else Some []) = Some h).
  { destruct (cd_unexpected _); [apply (fill_handlers_total m Hc)|eauto]. }
  destruct Hh as [h ->].
  destruct (fill_dispatch m d (empty_tables m)) as [t|] eqn:E; [|eauto].
  exfalso. apply Ha. apply (regs_anchored m Hc).
  apply (fill_ok_iff m Hc d (empty_tables m) (empty_tables_shape m)). eauto.
Qed.

Lemma construct_result fuel d (w : W) (s : st) : length (initial_states env root) <= 255 ->
  construct m fuel d w = Done tt s ->
  (forall r i, nth_error (initial_states env root) r = Some i -> at_place m s r = Some (root, i)) /\
  (forall r, region_exists env root r -> length (initial_states env root) <= r -> uninitialised s r) /\
  (region_exists env root 1 -> active m s = length (initial_states env root)) /\
  (~ region_exists env root 1 -> active m s = 1) /\
  (forall p r, is_parent env root p ->
     history_of m s p r = option_map (fun i => code m (p, i)) (nth_error (initial_states env p) r)) /\
  (forall o, In o (rt_live s) <-> is_state env root o /\ default_constructible env o = true) /\
  rt_queue s = [] /\ rt_trace s = [] /\ rt_world s = w.
Proof.
  rewrite <- parallel_iff. setoid_rewrite region_exists_max. compiled Hm. setoid_rewrite <- initials_spec.
  intros HL H. destruct (construct_sound m Hc fuel d w s HL H) as [F _].
  destruct F as (Hlen & Hcur & Hh & Hq & Hr & Hl & Hf & Hht & Hw & Ht).
  split.
  { intros r i Hi. unfold at_place. rewrite Hcur, Hi. apply (decode_code m Hc); [apply root_parent; exact Hc|].
    apply (initials_states m Hc (mc_root m)); [apply root_parent; exact Hc|]. eapply nth_error_In; eauto. }
  split.
  { intros r Hlt Hle. unfold uninitialised. rewrite Hcur. apply nth_error_None in Hle. rewrite Hle.
    apply Nat.ltb_lt in Hlt. now rewrite Hlt. }
  split. { intros Hp. unfold active. rewrite Hp, Hr, Hp. reflexivity. }
  split. { intros Hp. unfold active. destruct (parallel m); [congruence|reflexivity]. }
  split.
  { intros p r Hp. apply (parent_iff m Hc) in Hp. unfold history_of. rewrite Hh, (initial_table_nth m Hc p Hp).
    rewrite nth_error_map. reflexivity. }
  split.
  { intros o. rewrite Hl, filter_In, (state_iff m Hc). unfold defctor, default_constructible.
    destruct o; reflexivity. }
  auto.
Qed.

(** The constructor never comes back if the root has 256 or more initial states. *)
Lemma construct_wraps fuel d (w : W) : anchored env root -> 256 <= length (initial_states env root) ->
  construct (V:=V) m fuel d w = Timeout.
Proof.
  compiled Hm. rewrite <- initials_spec. intros Ha HL. apply (regs_anchored m Hc) in Ha. unfold construct.
  assert (Hh : exists h, (if cd_unexpected (lookup (mc_env m) (mc_root m)) then fill_handlers m d else Some []) = Some h).
  { destruct (cd_unexpected _); [apply (fill_handlers_total m Hc)|eauto]. }
  destruct Hh as [h ->].
  destruct (proj2 (fill_ok_iff m Hc d (empty_tables m) (empty_tables_shape m)) Ha) as [t ->].
  unfold init_current_state. rewrite nth_at_nth, (parent_idx_pos m Hc), Nnat.Nat2N.id.
  change (pos Nat.eq_dec (mc_root m) (parents m)) with (parent_pos m (mc_root m)).
  rewrite (initial_table_nth m Hc (mc_root m) (root_parent m Hc)).
  rewrite init_loop_wraps; [reflexivity| |lia|].
  - rewrite map_length. exact HL.
  - cbn [rt_cur]. rewrite map_length, repeat_length. apply (initials_le_max m). exact (root_parent m Hc).
Qed.

(** ** Queries *)
Lemma current_parent_at (s : st) p q : at_place m s 0 = Some (p, q) ->
  current_parent m s = Done (parent_idx m p) s.
Proof.
  compiled Hm. unfold at_place, current_parent, read_cur.
  destruct (nth_error (rt_cur s) 0) as [[c|]|]; try discriminate. intros H. cbn [bind].
  rewrite (decode_parent m Hc _ _ _ H). unfold parent_pos. rewrite <- (parent_idx_pos m Hc). reflexivity.
Qed.
Lemma current_state_at (s : st) r p q : at_place m s r = Some (p, q) ->
  current_state m s r = Done (state_idx m q) s.
Proof.
  compiled Hm. unfold at_place, current_state, at_cur.
  destruct (nth_error (rt_cur s) r) as [[c|]|]; try discriminate. intros H. cbn [bind].
  rewrite (decode_state m Hc _ _ _ H). reflexivity.
Qed.
Lemma at_place_in (s : st) r p q : at_place m s r = Some (p, q) ->
  is_parent env root p /\ is_state env root q.
Proof.
  compiled Hm. unfold at_place. destruct (nth_error (rt_cur s) r) as [[c|]|]; try discriminate. intros H.
  apply (places_at_inv m Hc) in H. destruct H as (Hp & Hq & _).
  split; [now apply (parent_iff m Hc)|now apply (state_iff m Hc)].
Qed.
Lemma parent_eqb p p' : is_parent env root p -> N.eqb (parent_idx m p) (parent_idx m p') = true <-> p = p'.
Proof.
  compiled Hm. intros Hp. apply (parent_iff m Hc) in Hp. rewrite N.eqb_eq. split; [|congruence].
  apply (parent_idx_inj m Hc). exact Hp.
Qed.
Lemma state_eqb q q' : is_state env root q -> N.eqb (state_idx m q) (state_idx m q') = true <-> q = q'.
Proof.
  compiled Hm. intros Hp. apply (state_iff m Hc) in Hp. rewrite N.eqb_eq. split; [|congruence].
  apply (state_idx_inj m Hc). exact Hp.
Qed.

Lemma is_answer (s : st) r p q p0 q0 pr qr :
  at_place m s 0 = Some (p0, q0) -> at_place m s (to_region r) = Some (pr, qr) ->
  exists b, q_is m r p q s = Done b s /\ (b = true <-> p0 = p /\ qr = q).
Proof.
  intros H0 Hr. unfold q_is. rewrite (current_parent_at s p0 q0 H0). cbn [bind].
  pose proof (parent_eqb p0 p (proj1 (at_place_in s 0 _ _ H0))) as HP.
  destruct (N.eqb (parent_idx m p0) (parent_idx m p)) eqn:E.
  - rewrite (current_state_at s _ pr qr Hr). cbn [bind]. eexists. split; [reflexivity|].
    rewrite (state_eqb qr q (proj2 (at_place_in s _ _ _ Hr))). tauto.
  - exists false. split; [reflexivity|]. split; [discriminate|]. intros [H _]. apply HP in H. discriminate.
Qed.

Lemma is_unset (s : st) r p q p0 q0 :
  at_place m s 0 = Some (p0, q0) -> uninitialised s (to_region r) ->
  q_is m r p q s = if Nat.eq_dec p0 p then Undef UBUninit else Done false s.
Proof.
  intros H0 Hr. unfold q_is. rewrite (current_parent_at s p0 q0 H0). cbn [bind].
  pose proof (parent_eqb p0 p (proj1 (at_place_in s 0 _ _ H0))) as HP.
  destruct (Nat.eq_dec p0 p) as [->|Hn].
  - destruct (N.eqb (parent_idx m p) (parent_idx m p)) eqn:E; [|apply N.eqb_neq in E; congruence].
    unfold current_state, at_cur. unfold uninitialised in Hr. rewrite Hr. reflexivity.
  - destruct (N.eqb (parent_idx m p0) (parent_idx m p)) eqn:E; [|reflexivity].
    exfalso. apply Hn. now apply HP.
Qed.

Lemma is_out_of_range (s : st) r p q p0 q0 :
  at_place m s 0 = Some (p0, q0) -> length (rt_cur s) <= to_region r ->
  q_is m r p q s = if Nat.eq_dec p0 p then Threw XOutOfRange s else Done false s.
Proof.
  intros H0 Hr. unfold q_is. rewrite (current_parent_at s p0 q0 H0). cbn [bind].
  pose proof (parent_eqb p0 p (proj1 (at_place_in s 0 _ _ H0))) as HP. apply nth_error_None in Hr.
  destruct (Nat.eq_dec p0 p) as [->|Hn].
  - destruct (N.eqb (parent_idx m p) (parent_idx m p)) eqn:E; [|apply N.eqb_neq in E; congruence].
    unfold current_state, at_cur. rewrite Hr. reflexivity.
  - destruct (N.eqb (parent_idx m p0) (parent_idx m p)) eqn:E; [|reflexivity].
    exfalso. apply Hn. now apply HP.
Qed.

Lemma parent_is_answer (s : st) p p0 q0 : at_place m s 0 = Some (p0, q0) ->
  exists b, q_parent_is m p s = Done b s /\ (b = true <-> p0 = p).
Proof.
  intros H0. unfold q_parent_is. rewrite (current_parent_at s p0 q0 H0). cbn [bind]. eexists.
  split; [reflexivity|]. apply parent_eqb. exact (proj1 (at_place_in s 0 _ _ H0)).
Qed.
Lemma is0_answer (s : st) q p0 q0 : at_place m s 0 = Some (p0, q0) ->
  exists b, q_is0 m q s = Done b s /\ (b = true <-> q0 = q).
Proof.
  intros H0. unfold q_is0. rewrite (current_state_at s 0 p0 q0 H0). cbn [bind]. eexists.
  split; [reflexivity|]. apply state_eqb. exact (proj2 (at_place_in s 0 _ _ H0)).
Qed.

(** ** set *)
Lemma at_place_set (s : st) r p q : is_parent env root p -> is_state env root q ->
  r < length (rt_cur s) ->
  let s' := with_cur s (set_nth r (Some (code m (p, q))) (rt_cur s)) in
  at_place m s' r = Some (p, q) /\ (forall k, k <> r -> nth_error (rt_cur s') k = nth_error (rt_cur s) k).
Proof.
  compiled Hm. intros Hp Hq Hr. cbn. unfold at_place. cbn [rt_cur with_cur]. split.
  - rewrite nth_set_same by exact Hr. apply (decode_code m Hc).
    + now apply (parent_iff m Hc).
    + now apply (state_iff m Hc).
  - intros k Hk. now apply nth_set_other.
Qed.

Lemma set_effect (s : st) r p q : is_parent env root p -> is_state env root q ->
  to_region r < length (rt_cur s) ->
  exists s', set_state m r p q s = Done tt s' /\ at_place m s' (to_region r) = Some (p, q) /\
    (forall k, k <> to_region r -> nth_error (rt_cur s') k = nth_error (rt_cur s) k) /\
    only_places_differ s s'.
Proof.
  intros Hp Hq Hr. pose proof (at_place_set s (to_region r) p q Hp Hq Hr) as [A B]. compiled Hm.
  pose proof (set_state_result m Hc r p q s) as P.
  apply (parent_iff m Hc) in Hp. apply (state_iff m Hc) in Hq.
  destruct (set_state m r p q s) as [[] s'|x s'|u|].
  - destruct P as (_ & _ & _ & ->). eexists. split; [reflexivity|]. split; [exact A|]. split; [exact B|reflexivity].
  - lia.
  - destruct P as [_ P]. exfalso. apply P. auto.
  - destruct P.
Qed.
Lemma set_out_of_range (s : st) r p q : is_parent env root p -> is_state env root q ->
  length (rt_cur s) <= to_region r -> set_state m r p q s = Threw XOutOfRange s.
Proof.
  compiled Hm. intros Hp Hq Hr. pose proof (set_state_result m Hc r p q s) as P.
  apply (parent_iff m Hc) in Hp. apply (state_iff m Hc) in Hq.
  destruct (set_state m r p q s) as [[] s'|x s'|u|].
  - lia.
  - destruct P as (-> & -> & _). reflexivity.
  - destruct P as [_ P]. exfalso. apply P. auto.
  - destruct P.
Qed.

Section Reachable.
Variable cb : cbfun V W.
Variable vnone : V.
Hypothesis Hfew : few_regions env root.

Lemma reachable_cur ds d0 (s : st) : reachable cb m vnone ds d0 s -> length (rt_cur s) = max_initials m.
Proof.
  intros R. pose proof (few_max_compiled _ _ _ Hm Hfew) as Hmax. compiled Hm.
  pose proof (reachable_rinvs cb m Hc vnone Hmax _ _ _ R) as [[_ _ T _] _ _]. exact T.
Qed.

Lemma reachable_set ds d0 (s : st) r p q : reachable cb m vnone ds d0 s ->
  is_parent env root p -> is_state env root q -> region_exists env root (to_region r) ->
  exists s', set_state m r p q s = Done tt s' /\ at_place m s' (to_region r) = Some (p, q) /\
    (forall k, k <> to_region r -> nth_error (rt_cur s') k = nth_error (rt_cur s) k) /\
    only_places_differ s s' /\ reachable cb m vnone ds d0 s'.
Proof.
  intros R Hp Hq Hr. apply region_exists_max in Hr. rewrite <- (reachable_cur ds d0 s R) in Hr.
  destruct (set_effect s r p q Hp Hq Hr) as (s' & E & A & B & C). exists s'.
  split; [exact E|]. split; [exact A|]. split; [exact B|]. split; [exact C|].
  apply (reach_call cb m vnone 0 ds d0 s (KSet r p q) OUnit s' R).
  unfold do_call_catch, do_call. rewrite E. reflexivity.
Qed.

Lemma reachable_out_of_range ds d0 (s : st) r p q : reachable cb m vnone ds d0 s ->
  ~ region_exists env root (to_region r) ->
  (is_parent env root p -> is_state env root q -> set_state m r p q s = Threw XOutOfRange s) /\
  (forall p0 q0, at_place m s 0 = Some (p0, q0) ->
     q_is m r p q s = if Nat.eq_dec p0 p then Threw XOutOfRange s else Done false s).
Proof.
  intros R Hr. rewrite region_exists_max, <- (reachable_cur ds d0 s R) in Hr. split.
  - intros Hp Hq. apply set_out_of_range; auto. lia.
  - intros p0 q0 H0. eapply is_out_of_range; eauto. lia.
Qed.

Lemma reachable_set_dependency ds d0 (s : st) d : reachable cb m vnone ds d0 s ->
  exists s', set_dependency m d s = Done tt s' /\ s' = with_tabs s (rt_tabs s') /\
    reachable cb m vnone (d :: ds) d0 s' /\
    forall e p q, In e (events m) -> is_place env root (p, q) ->
      exists cs new old, candidate_list env root e (p, q) cs /\
        tget (rt_tabs s) e (combined_idx m p q) = Some old /\
        tget (rt_tabs s') e (combined_idx m p q) = Some (new ++ old) /\
        Forall2 (describes m) (map (pair d) cs) new.
Proof.
  intros R. pose proof (few_max_compiled _ _ _ Hm Hfew) as Hmax.
  pose proof (compile_comp _ _ _ Hm) as (Hc & He & Hr).
  pose proof (reachable_rinvs cb m Hc vnone Hmax _ _ _ R) as [[T _ _ _] _ _].
  pose proof (filled_regs m Hc _ _ T) as Hregs.
  destruct (proj2 (fill_ok_iff m Hc d (rt_tabs s) (filled_shape m Hc _ _ T)) Hregs) as [t Ht].
  exists (with_tabs s t).
  assert (E : set_dependency m d s = Done tt (with_tabs s t)) by (unfold set_dependency; now rewrite Ht).
  split; [exact E|]. split; [reflexivity|]. split.
  { apply (reach_call cb m vnone 0 ds d0 s (KSetDep d) OUnit (with_tabs s t) R).
    unfold do_call_catch, do_call. rewrite E. reflexivity. }
  intros e p q Hev Hpl. rewrite <- He, <- Hr in Hpl. apply (place_iff m Hc) in Hpl.
  destruct Hpl as [Hp Hq]. cbn [fst snd] in Hp, Hq.
  pose proof (filled_get m Hc ds _ e p q T Hev Hp Hq) as Hold.
  pose proof (fill_get m Hc d _ _ e p q Ht Hp Hq) as Hnew.
  exists (cands m e (p, q)), (map (centry m d) (cands m e (p, q))). eexists.
  split; [subst env root; apply candidate_list_cands; [exact Hc|reflexivity]|]. split; [exact Hold|].
  split. { cbn [rt_tabs with_tabs]. rewrite Hnew, Hold. reflexivity. }
  assert (G : forall l, (forall x o, In (CRow x o) l -> row_accepted m x = true) ->
       Forall2 (describes m) (map (pair d) l) (map (centry m d) l)).
  { induction l as [|b l IH]; intros H; cbn [map]; constructor.
    - apply (bentry_describes m (d, b) Hc). intros x o Eb. cbn in Eb. subst b. eapply H. left. reflexivity.
    - apply IH. intros x o Hi. eapply H. right. exact Hi. }
  apply G. intros x o Hi. exact (cands_accepted m Hc _ _ _ _ Hi).
Qed.
End Reachable.
End Compiled.

(** Asking a concatenation of candidate lists. *)
Lemma scan_app {V W} (cb : cbfun V W) m e bs1 bs2 : forall v w ks vd v' w',
  scan cb m e (bs1 ++ bs2) v w ks vd v' w' ->
  (vd <> VNone /\ scan cb m e bs1 v w ks vd v' w') \/
  (exists ks1 ks2 v1 w1, ks = ks1 ++ ks2 /\ scan cb m e bs1 v w ks1 VNone v1 w1 /\
     scan cb m e bs2 v1 w1 ks2 vd v' w').
Proof.
  induction bs1 as [|b bs1 IH]; intros v w ks vd v' w' H.
  - right. exists [], ks, v, w. split; [reflexivity|]. split; [constructor|exact H].
  - cbn [app] in H. inversion H; subst.
    + left. split; [discriminate|]. constructor.
    + left. split; [discriminate|]. now constructor.
    + left. split; [discriminate|]. econstructor; eauto.
    + match goal with H : scan _ _ _ (bs1 ++ bs2) _ _ _ _ _ _ |- _ => apply IH in H; destruct H as [[Hn H]|(k1 & k2 & v2 & w2 & -> & H1' & H2')] end.
      * left. split; [exact Hn|]. econstructor; eauto.
      * right. eexists (_ :: k1), k2, v2, w2. split; [reflexivity|]. split; [|exact H2']. econstructor; eauto.
    + left. split; [discriminate|]. eapply scan_raise; eauto.
Qed.

Lemma scan_none_length {V W} (cb : cbfun V W) m e bs : forall v w ks v' w',
  scan cb m e bs v w ks VNone v' w' -> length ks = length bs.
Proof.
  intros v w ks v' w' H. remember VNone as vd eqn:E.
  induction H; try discriminate; cbn [length]; auto.
Qed.

Lemma newest_first {V W} (cb : cbfun V W) m d ds e pl v w ks vd v' w' :
  scan cb m e (bound m (d :: ds) e pl) v w ks vd v' w' ->
  scan cb m e (map (pair d) (cands m e pl)) v w ks vd v' w' \/
  exists ks1 ks2 v1 w1, ks = ks1 ++ ks2 /\
    scan cb m e (map (pair d) (cands m e pl)) v w ks1 VNone v1 w1 /\
    length ks1 = length (cands m e pl) /\
    scan cb m e (bound m ds e pl) v1 w1 ks2 vd v' w'.
Proof.
  unfold bound at 1. cbn [flat_map]. intros H. apply scan_app in H.
  destruct H as [[_ H]|(k1 & k2 & v1 & w1 & -> & H1 & H2)]; [now left|right].
  exists k1, k2, v1, w1. split; [reflexivity|]. split; [exact H1|]. split; [|exact H2].
  apply scan_none_length in H1. now rewrite map_length in H1.
Qed.

Lemma chosen_dependency {V W} (cb : cbfun V W) m d cs e v w ks d' x o v' w' :
  scan cb m e (map (pair d) cs) v w ks (VPick d' x o) v' w' -> d' = d /\ In (CRow x o) cs.
Proof.
  revert v w ks v' w'. induction cs as [|c cs IH]; intros v w ks v' w' H; inversion H; subst; cbn [map] in *.
  - split; [congruence|]. left. congruence.
  - split; [congruence|]. left. congruence.
  - match goal with H : scan _ _ _ (map _ _) _ _ _ _ _ _ |- _ => apply IH in H end. split; [tauto|]. right. tauto.
Qed.

Section More.
Context {V W : Type}.
Variables (env : cenv) (root : cls) (m : machine).
Hypothesis Hm : compile env root = Some m.
Variable cb : cbfun V W.
Variable vnone : V.
Hypothesis Hfew : few_regions env root.
Notation st := (rt V W).

Lemma some_region : region_exists env root 0.
Proof.
  assert (C : compiles env root) by (apply compile_compiles; eauto).
  destruct C as [_ _ (p & Hp & Hi) _ _ _ _ _ _]. exists p. split; [exact Hp|].
  destruct (initial_states env p); [congruence|cbn; lia].
Qed.

Lemma set_then_is ds d0 (s : st) p q : reachable cb m vnone ds d0 s ->
  is_parent env root p -> is_state env root q ->
  exists s', set_state m 0 p q s = Done tt s' /\
    forall p' q', exists b, q_is m 0 p' q' s' = Done b s' /\ (b = true <-> p' = p /\ q' = q).
Proof.
  intros R Hp Hq.
  destruct (reachable_set env root m Hm cb vnone Hfew ds d0 s 0 p q R Hp Hq some_region)
    as (s' & E & A & _). exists s'. split; [exact E|]. intros p' q'.
  destruct (is_answer env root m Hm s' 0 p' q' p q p q A A) as (b & Hb & Hi). exists b. split; [exact Hb|].
  rewrite Hi. intuition congruence.
Qed.
Lemma set_then_is_region ds d0 (s : st) r p q p0 q0 : reachable cb m vnone ds d0 s ->
  is_parent env root p -> is_state env root q -> region_exists env root (to_region r) ->
  to_region r <> 0 -> at_place m s 0 = Some (p0, q0) ->
  exists s', set_state m r p q s = Done tt s' /\
    forall p' q', exists b, q_is m r p' q' s' = Done b s' /\ (b = true <-> p' = p0 /\ q' = q).
Proof.
  intros R Hp Hq Hr Hn H0.
  destruct (reachable_set env root m Hm cb vnone Hfew ds d0 s r p q R Hp Hq Hr)
    as (s' & E & A & B & _). exists s'. split; [exact E|]. intros p' q'.
  assert (A0 : at_place m s' 0 = Some (p0, q0)).
  { unfold at_place in *. rewrite B by congruence. exact H0. }
  destruct (is_answer env root m Hm s' r p' q' p0 q0 p q A0 A) as (b & Hb & Hi). exists b. split; [exact Hb|].
  rewrite Hi. intuition congruence.
Qed.

Lemma regions_run_length (ds : list dep) e limit : forall r v (s : st) vds v' s',
  regions_run cb m ds e limit r v s vds v' s' ->
  length vds <= limit - r /\ (existsb stops vds = false -> length vds = limit - r).
Proof.
  induction 1 as [r v s Hr|r v s vd v' s' Hr Hs Hst|r v s vd v1 s1 vds v' s' Hr Hs Hst Hrun [IH1 IH2]]; cbn.
  - split; lia.
  - rewrite Hst. split; [lia|discriminate].
  - rewrite Hst. cbn. split; [lia|]. intros H. specialize (IH2 H). lia.
Qed.

Lemma each_region_once fuel ds d0 (s : st) e v : reachable cb m vnone ds d0 s ->
  match region_loop cb m fuel (active m s) 0 true true e v s with
  | Done _ s' | Threw _ s' =>
      exists vds v1, regions_run cb m ds e (active m s) 0 v s vds v1 s' /\
        (existsb stops vds = false -> length vds = active m s) /\
        length vds <= active m s /\ active m s <= 255
  | Undef _ => True
  | Timeout => fuel <= active m s
  end.
Proof.
  intros R. pose proof (few_max_compiled _ _ _ Hm Hfew) as Hmax. compiled Hm.
  pose proof (reachable_rinvs cb m Hc vnone Hmax _ _ _ R) as [T I _].
  assert (Ha : active m s <= 255) by (unfold active; red in I; destruct (parallel m); lia).
  pose proof (region_loop_sound cb m Hc ds d0 e fuel (active m s) 0 true true v s Ha T) as P.
  destruct (region_loop cb m fuel (active m s) 0 true true e v s) as [[p v'] s'|ex s'|u|] eqn:E; auto.
  - destruct P as (vds & P & _). exists vds, v'. split; [exact P|].
    apply regions_run_length in P. rewrite Nat.sub_0_r in P. destruct P. auto.
  - destruct P as (n & vds & vd & v' & _ & P & _). exists (vds ++ [vd]), v'. split; [exact P|].
    apply regions_run_length in P. rewrite Nat.sub_0_r in P. destruct P. auto.
  - destruct (Nat.le_gt_cases fuel (active m s)) as [|Hf]; [assumption|exfalso].
    eapply region_loop_timeout; [exact Ha| |exact E]. lia.
Qed.
End More.

(** A decision procedure for [anchored]. *)
Definition fills (m : machine) : bool :=
  match fill_dispatch m 0 (empty_tables m) with Some _ => true | None => false end.
Lemma fills_anchored env root m : compile env root = Some m -> (fills m = true <-> anchored env root).
Proof.
  intros H. compiled H. rewrite <- (regs_anchored m Hc).
  rewrite <- (fill_ok_iff m Hc 0 (empty_tables m) (empty_tables_shape m)). unfold fills.
  destruct (fill_dispatch m 0 (empty_tables m)) as [t|]; split; eauto; try discriminate. intros [? ?]. discriminate.
Qed.

(** Machines with any number of regions. *)
Definition wide_rows (n : nat) : list row :=
  map (fun i => mkRow (SInitial WState (S i)) (EUser 1) NoGuard NoAction (SState (S i))) (seq 0 n).
Definition wide_env (n : nat) : cenv :=
  [ (0, mkCdef (Some (wide_rows n)) None false false false None true) ].

Section Wide.
Variable n : nat.
Notation env := (wide_env n).

Lemma wide_lookup c : lookup env (S c) = lookup [] (S c).
Proof. reflexivity. Qed.
Lemma wide_table c : table env c = match c with 0 => wide_rows n | _ => [] end.
Proof. destruct c; reflexivity. Qed.
Lemma wide_row r : In r (wide_rows n) <-> exists i, i < n /\
  r = mkRow (SInitial WState (S i)) (EUser 1) NoGuard NoAction (SState (S i)).
Proof.
  unfold wide_rows. rewrite in_map_iff. setoid_rewrite in_seq. split; intros (i & H1 & H2).
  - exists i. split; [lia|congruence].
  - exists i. split; [congruence|lia].
Qed.
Lemma wide_leaf c : ~ composite env (S c).
Proof. intros H. apply H. reflexivity. Qed.
Lemma wide_used c : used env 0 c <-> c = 0.
Proof.
  split; [|intros ->; constructor]. induction 1 as [|p r c Hp IH Hr Hl Hcc]; [reflexivity|]. subst p.
  rewrite wide_table in Hr. apply wide_row in Hr. destruct Hr as (i & _ & ->). inversion Hl; subst.
  now apply wide_leaf in Hcc.
Qed.
Lemma wide_child s : child env 0 s <-> exists i, i < n /\ s = SState (S i).
Proof.
  unfold child. rewrite wide_table. split.
  - intros (r & Hr & H). apply wide_row in Hr. destruct Hr as (i & Hi & ->). exists i. cbn in H. intuition.
  - intros (i & Hi & ->). eexists. split; [apply wide_row; eauto|]. now right.
Qed.
Lemma wide_declared x : declared env 0 x <-> exists i, i < n /\
  x = mkXrow 0 (SInitial WState (S i)) (EUser 1) NoGuard NoAction (SState (S i)) false.
Proof.
  split.
  - intros (p & r & Hp & Hr & ->). apply wide_used in Hp. subst p. rewrite wide_table in Hr.
    apply wide_row in Hr. destruct Hr as (i & Hi & ->). exists i. auto.
  - intros (i & Hi & ->). exists 0. eexists. split; [constructor|]. split; [rewrite wide_table; apply wide_row; eauto|].
    reflexivity.
Qed.
Lemma wide_state s : is_state env 0 s <-> s = SState 0 \/ exists i, i < n /\ s = SState (S i).
Proof.
  unfold is_state. split; (intros [H|H]; [now left|right]).
  - destruct H as (p & Hp & H). apply wide_used in Hp. subst p. now apply wide_child.
  - exists 0. split; [constructor|]. now apply wide_child.
Qed.
Lemma wide_internals c : internals env c = [].
Proof. destruct c; reflexivity. Qed.
Lemma wide_no_internal x : ~ declared_internal env 0 x.
Proof. intros H. inversion H; subst; rewrite wide_internals in *; contradiction. Qed.

Lemma wide_dedup l : NoDup l -> dedup l = l.
Proof.
  induction 1 as [|a l Ha Hl IH]; [reflexivity|]. cbn [dedup]. rewrite IH. f_equal.
  clear - Ha. induction l as [|b l IH]; [reflexivity|]. cbn [filter].
  destruct (sref_eq_dec b a) as [->|]; [exfalso; apply Ha; now left|]. f_equal. apply IH.
  intros H. apply Ha. now right.
Qed.
Lemma wide_initials : initial_states env 0 = map (fun i => SState (S i)) (seq 0 n).
Proof.
  unfold initial_states. assert (E : filter marked (mentioned env 0) = map (fun i => SInitial WState (S i)) (seq 0 n)).
  { unfold mentioned. rewrite wide_table. unfold wide_rows. induction (seq 0 n) as [|i l IH]; [reflexivity|].
    cbn. f_equal. exact IH. }
  rewrite E, wide_dedup, map_map; [reflexivity|]. apply FinFun.Injective_map_NoDup; [|apply seq_NoDup].
  intros a b H. congruence.
Qed.

Lemma NoDup_bound {A} (l l' : list A) : NoDup l -> (forall a, In a l -> In a l') -> length l <= length l'.
Proof. intros H1 H2. apply NoDup_incl_length; [exact H1|exact H2]. Qed.

Lemma wide_compiles : 0 < n -> (N.of_nat (S n) < two64)%N -> compiles env 0.
Proof.
  intros Hn Hs.
  assert (Hne : table env 0 <> []).
  { rewrite wide_table. unfold wide_rows. destruct n; [lia|discriminate]. }
  split.
  - exact Hne.
  - intros (p & c & Hp & (r & Hr & Hl & Hcc) & _). apply wide_used in Hp. subst p.
    rewrite wide_table in Hr. apply wide_row in Hr. destruct Hr as (i & _ & ->). inversion Hl; subst.
    now apply wide_leaf in Hcc.
  - exists 0. split; [split; [constructor|exact Hne]|]. rewrite wide_initials. destruct n; [lia|discriminate].
  - intros c H. rewrite wide_initials in H. apply in_map_iff in H. destruct H as (i & H & _). inversion H; subst.
    split; [apply wide_leaf|reflexivity].
  - intros x Hx. apply wide_declared in Hx. destruct Hx as (i & Hi & ->). split.
    + eexists. split; [reflexivity|]. apply wide_state. right. cbn. eauto.
    + apply wide_state. right. cbn. eauto.
    + discriminate.
    + discriminate.
  - intros flat ints x Hv Hk Hx. exfalso. unfold internal_rows in Hk.
    assert (E : flat_map (internal_rows_of env) (occurrences 0 flat) = []).
    { clear Hk Hx Hv. induction (occurrences 0 flat) as [|[p s] l IH]; [reflexivity|]. cbn [flat_map]. rewrite IH, app_nil_r.
      unfold internal_rows_of. destruct s; try reflexivity. cbn [snd]. now rewrite wide_internals. }
    rewrite E in Hk. inversion Hk; subst. contradiction.
  - intros x e Hx He. apply wide_declared in Hx. destruct Hx as (i & Hi & ->). destruct He.
  - intros p Hp. apply wide_used in Hp. subst p. intros H. apply wide_child in H. destruct H as (i & _ & H). discriminate.
  - intros ps ss Hps Hss Hip Hiss.
    assert (H1 : length ps <= 1).
    { apply (NoDup_bound ps [0] Hps). intros p Hp. destruct (Hip p Hp) as [H _]. apply wide_used in H. subst. now left. }
    assert (H2 : length ss <= S n).
    { replace (S n) with (length (SState 0 :: map (fun i => SState (S i)) (seq 0 n))) by (cbn; now rewrite map_length, seq_length).
      apply NoDup_bound; [exact Hss|]. intros s Hi. apply Hiss, wide_state in Hi. destruct Hi as [->|(i & Hi & ->)]; [now left|].
      right. apply in_map_iff. exists i. split; [reflexivity|]. apply in_seq. lia. }
    unfold two64 in *. nia.
Qed.

Lemma wide_anchored : anchored env 0.
Proof.
  assert (Hp : forall i, i < n -> is_place env 0 (0, SState (S i))).
  { intros i Hi. split; [split; [constructor|]|].
    - cbn [fst]. rewrite wide_table. intros H. assert (Hin : In (mkRow (SInitial WState (S i)) (EUser 1) NoGuard NoAction (SState (S i))) (wide_rows n)) by (apply wide_row; eauto).
      rewrite H in Hin. destruct Hin.
    - apply wide_state. right. cbn. eauto. }
  intros e pl c H. destruct H as [x Hx He|x c s Hx He Hs Hcc Hch|x Hx He|x c Hx Hs He].
  - apply wide_declared in Hx. destruct Hx as (i & Hi & ->). now apply Hp.
  - apply wide_declared in Hx. destruct Hx as (i & Hi & ->). discriminate.
  - now apply wide_no_internal in Hx.
  - apply wide_declared in Hx. destruct Hx as (i & Hi & ->). now apply Hp.
Qed.
End Wide.

Lemma wide_accepted n : 0 < n -> (N.of_nat (S n) < two64)%N -> exists m,
  compile (wide_env n) 0 = Some m /\ anchored (wide_env n) 0 /\ length (initial_states (wide_env n) 0) = n.
Proof.
  intros H1 H2. destruct (proj2 (compile_compiles _ _) (wide_compiles n H1 H2)) as [m Hm].
  exists m. split; [exact Hm|]. split; [apply wide_anchored|].
  now rewrite wide_initials, map_length, seq_length.
Qed.
