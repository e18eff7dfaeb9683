(** The library does what the interpreter of Interp.v does. *)

From Coq Require Import List Arith NArith Bool Lia.
From Verif Require Import Types Static Dispatch Runtime ListFacts IndexFacts Spec
  DispatchFacts FlattenFacts Semantics RefineFacts StaticFacts ReachFacts TableFacts Interp.
Import ListNotations.

Section Interp.
Variable m : machine.
Hypothesis Hc : comp m.
Hypothesis Hfew : max_initials m <= 255.
Notation env := (mc_env m).
Notation root := (mc_root m).
Notation flat := (mc_flat m).
Notation ints := (internal_flat m).
Context {V W : Type}.
Variable cb : cbfun V W.
Variable vnone : V.
Notation st := (rt V W).
Notation mc := (mach V W).

Lemma upd_nth_out {A} (f : A -> A) l : forall n, length l <= n -> upd_nth n f l = None.
Proof.
  induction l as [|a l IH]; intros n H; [now destruct n|]. destruct n as [|n]; cbn in *; [lia|].
  rewrite IH by lia. reflexivity.
Qed.

(** * What there is *)
Lemma encloses_iff p : encloses flat p = true <-> In p (parents m).
Proof.
  unfold encloses, parents. rewrite existsb_exists, unique_In, in_map_iff. split.
  - intros (x & Hx & E). destruct (Nat.eq_dec (x_parent x) p); [eauto|discriminate].
  - intros (x & E & Hx). exists x. split; [exact Hx|]. destruct (Nat.eq_dec (x_parent x) p); congruence.
Qed.
Lemma known_iff s : known root flat s = true <-> In s (states m).
Proof.
  unfold known, states, child_states_rec. rewrite in_app_iff, unique_In, orb_true_iff, existsb_exists, in_flat_map. cbn [In]. split.
  - intros [E|(x & Hx & E)].
    + right. left. destruct (sref_eq_dec s (SState root)); [congruence|discriminate].
    + left. exists x. split; [exact Hx|]. change unwrap_initial with unmarked. apply orb_true_iff in E.
      destruct (sref_eq_dec s (unmarked (x_src x))), (sref_eq_dec s (x_tgt x)); destruct E; subst; auto; discriminate.
  - intros [(x & Hx & E)|[E|[]]].
    + right. exists x. split; [exact Hx|]. change unwrap_initial with unmarked in E.
      destruct (sref_eq_dec s (unmarked (x_src x))), (sref_eq_dec s (x_tgt x)); cbn; auto.
      exfalso. destruct E as [E|[E|[]]]; congruence.
    + left. destruct (sref_eq_dec s (SState root)); congruence.
Qed.
Lemma a_place_iff pl : a_place root flat pl = true <-> In pl (places m).
Proof. destruct pl as [p s]. unfold a_place. rewrite andb_true_iff, encloses_iff, known_iff, in_places. reflexivity. Qed.

Lemma an_event_iff e : an_event flat ints e = true <-> In e (events m).
Proof.
  unfold an_event, events, events_of. rewrite existsb_exists, unique_In, in_map_iff. split.
  - intros (x & Hx & E). destruct (ev_eq_dec (x_ev x) e); [eauto|discriminate].
  - intros (x & E & Hx). exists x. split; [exact Hx|]. destruct (ev_eq_dec (x_ev x) e); congruence.
Qed.

Lemma fold_max_le (l : list nat) n : fold_right Nat.max 0 l <= n <-> Forall (fun k => k <= n) l.
Proof.
  induction l as [|a l IH]; cbn; [split; [constructor|lia]|]. rewrite Forall_cons_iff, <- IH. lia.
Qed.
Lemma width_max : width env flat = max_initials m.
Proof.
  assert (E : forall n, width env flat <= n <-> max_initials m <= n).
  { intros n. unfold width, max_initials. rewrite !fold_max_le, !Forall_map, !Forall_forall. split.
    - intros H p Hp. rewrite initials_spec. unfold parents in Hp. apply unique_In, in_map_iff in Hp.
      destruct Hp as (x & <- & Hx). now apply H.
    - intros H x Hx. rewrite <- initials_spec. apply H. unfold parents. apply unique_In, in_map. exact Hx. }
  pose proof (proj1 (E _) (le_n _)). pose proof (proj2 (E _) (le_n _)). lia.
Qed.
Lemma parallel_width : Nat.ltb 1 (width env flat) = parallel m.
Proof. now rewrite width_max. Qed.
Lemma choices_cands e pl : choices env flat ints e pl = cands m e pl.
Proof. unfold choices. now rewrite cands_priority. Qed.

(** * Spots *)
Definition fine (sp : spot) : Prop := match sp with At pl => In pl (places m) | Nowhere => True end.
Notation number := (number m).

Lemma number_at pl : In pl (places m) -> N.to_nat (number (At pl)) < length (places m) /\
  nth_error (places m) (N.to_nat (number (At pl))) = Some pl.
Proof.
  intros H. cbn [Interp.number]. unfold code. rewrite Nnat.Nat2N.id. split; [now apply pos_lt|]. now apply nth_pos.
Qed.
Lemma spot_of_number p s : number (spot_of root flat (p, s)) = combined_idx m p s.
Proof.
  rewrite (combined_idx_pos m Hc). unfold spot_of. destruct (a_place root flat (p, s)) eqn:E.
  - reflexivity.
  - cbn [Interp.number]. f_equal. symmetry. apply pos_absent. intros H. apply a_place_iff in H. congruence.
Qed.
Lemma spot_of_fine pl : fine (spot_of root flat pl).
Proof. unfold spot_of. destruct (a_place root flat pl) eqn:E; [now apply a_place_iff|exact I]. Qed.

Lemma number_parent sp : fine sp -> calc_parent_idx (n_states m) (number sp) = parent_number m sp.
Proof.
  destruct sp as [|[p s]]; intros H; cbn [parent_number].
  - cbn [Interp.number]. rewrite places_length. unfold calc_parent_idx. apply N.div_mul. pose proof (n_states_pos m). lia.
  - destruct (number_at _ H) as [_ E]. rewrite (decode_parent m Hc _ _ _ E). symmetry. apply (parent_idx_pos m Hc).
Qed.
Lemma number_state sp : fine sp -> calc_state_idx (n_states m) (number sp) = state_number m sp.
Proof.
  destruct sp as [|[p s]]; intros H; cbn [state_number].
  - cbn [Interp.number]. rewrite places_length. unfold calc_state_idx. apply N.mod_mul. pose proof (n_states_pos m). lia.
  - destruct (number_at _ H) as [_ E]. now rewrite (decode_state m Hc _ _ _ E).
Qed.

Lemma first_state_zero : state_idx m (first_state root flat) = 0%N.
Proof.
  rewrite (state_idx_pos m Hc). unfold first_state, states, child_states_rec.
  destruct (mc_flat m) as [|x l] eqn:E; [exfalso; now apply (cp_flat m Hc)|].
  rewrite unique_dedup. cbn [flat_map app dedup pos]. change unwrap_initial with unmarked.
  destruct (sref_eq_dec (unmarked (x_src x)) (unmarked (x_src x))); [reflexivity|congruence].
Qed.
Lemma first_state_in : In (first_state root flat) (states m).
Proof. apply (state_idx_lt m Hc). rewrite first_state_zero. apply n_states_pos. Qed.

Lemma state_is_number s sp : fine sp -> N.eqb (state_number m sp) (state_idx m s) = state_is root flat s sp.
Proof.
  intros H. assert (G : forall t, In t (states m) ->
     N.eqb (state_idx m t) (state_idx m s) = if sref_eq_dec t s then true else false).
  { intros t Ht. destruct (sref_eq_dec t s) as [->|n]; [apply N.eqb_refl|]. apply N.eqb_neq. intros E.
    apply n. now apply (state_idx_inj m Hc). }
  destruct sp as [|[p t]]; cbn [state_number state_is].
  - rewrite <- first_state_zero. apply G, first_state_in.
  - apply G. apply in_places in H. tauto.
Qed.
Lemma encloser_is_number p sp : fine sp -> N.eqb (parent_number m sp) (parent_idx m p) = encloser_is flat p sp.
Proof.
  intros H. destruct sp as [|[q t]]; cbn [parent_number encloser_is].
  - destruct (encloses flat p) eqn:E; cbn.
    + apply encloses_iff, (parent_idx_lt m Hc) in E. apply N.eqb_neq. unfold n_parents in E. lia.
    + apply N.eqb_eq. rewrite (parent_idx_pos m Hc). f_equal. symmetry. apply pos_absent. intros Hp.
      apply encloses_iff in Hp. congruence.
  - apply in_places in H. destruct (Nat.eq_dec q p) as [->|n]; [apply N.eqb_refl|].
    apply N.eqb_neq. intros E. apply n. apply (parent_idx_inj m Hc); tauto.
Qed.

(** * The simulation *)
Record sim (s : st) (z : mc) : Prop := mkSim {
  si_shows : shows m s z;
  si_tabs : filled m (z_deps z) (rt_tabs s);
  si_htabs : cd_unexpected (lookup env root) = true -> fill_handlers m (z_first z) = Some (rt_htabs s);
  si_at : Forall (fun o => match o with Some sp => fine sp | None => True end) (z_at z);
  si_mem : forall p, In p (parents m) -> Forall fine (z_mem z p);
  si_regions : z_regions z <= 255;
  si_queue : has_deferred m = false -> z_queue z = [];
  si_events : Forall (fun q => In (fst q) (events m)) (z_queue z) }.

Definition akin {A B} (P : A -> B -> Prop) (r : res V W A) (a : ans V W B) : Prop :=
  match r, a with
  | Done x s, Ok y z => P x y /\ sim s z
  | Threw x s, Err y z => x = y /\ sim s z
  | Undef u, Bad u' => u = u'
  | Timeout, Endless => True
  | _, _ => False
  end.

Lemma akin_bind {A B C D} (P : A -> B -> Prop) (Q : C -> D -> Prop) r a f g :
  akin P r a -> (forall x y s z, P x y -> sim s z -> akin Q (f x s) (g y z)) -> akin Q (bind r f) (next a g).
Proof. destruct r, a; cbn; try tauto. intros [H1 H2] H. auto. Qed.
Lemma akin_same {A B} (P : A -> B -> Prop) r a : akin P r a -> same_answer m P r a.
Proof.
  destruct r, a; cbn; try tauto; intros [H1 H2]; split; auto; apply si_shows; assumption.
Qed.

Lemma sim_user s z w tr : sim s z -> sim (with_user s w tr) (put_user z w tr).
Proof. intros [[? ? ? ? ? ? ?] ? ? ? ? ? ? ?]. constructor; auto. constructor; auto. Qed.
Lemma sim_live s z l : sim s z -> sim (with_live s l) (put_live z l).
Proof. intros [[? ? ? ? ? ? ?] ? ? ? ? ? ? ?]. constructor; auto. constructor; auto. Qed.
Lemma sim_queue s z q : sim s z -> (has_deferred m = false -> q = []) ->
  Forall (fun q => In (fst q) (events m)) q -> sim (with_queue s q) (put_queue z q).
Proof. intros [[? ? ? ? ? ? ?] ? ? ? ? ? ? ?] H H'. constructor; auto. constructor; auto. Qed.
Lemma sim_regions s z n : sim s z -> n <= 255 -> sim (with_regions s n) (put_regions z n).
Proof. intros [[? ? ? ? ? ? ?] ? ? ? ? ? ? ?] H. constructor; auto. constructor; auto. Qed.
Lemma sim_at s z r sp : sim s z -> fine sp ->
  sim (with_cur s (set_nth r (Some (number sp)) (rt_cur s))) (put_at z (set_nth r (Some sp) (z_at z))).
Proof.
  intros [[E ? ? ? ? ? ?] ? ? Ha ? ? ? ?] H. constructor; auto.
  - constructor; auto. cbn [rt_cur with_cur z_at put_at]. rewrite E. clear. revert r.
    induction (z_at z) as [|a l IH]; intros [|r]; cbn; try reflexivity. now rewrite IH.
  - cbn [z_at put_at]. clear - Ha H. revert r. induction Ha as [|a l H1 H2 IH]; intros [|r]; cbn; constructor; auto.
Qed.

Lemma alive_object s z o : sim s z -> alive s o = has_object z o.
Proof. intros [[? ? ? ? E ? ?] ? ? ? ? ? ? ?]. unfold alive, has_object. now rewrite E. Qed.

Lemma invoke_akin c a v s z : sim s z -> akin eq (invoke cb c a v s) (use cb c a v z).
Proof.
  intros H. unfold invoke, use. rewrite (sh_world _ _ _ (si_shows _ _ H)), (sh_trace _ _ _ (si_shows _ _ H)).
  destruct (cb c a v (z_world z)); cbn; split; auto; now apply sim_user.
Qed.

(** * Candidates *)
Lemma target_eq x : row_accepted m x = true -> dst_of m x = target_state env x /\
  target_place env x = Some (resolve_dst_parent env x, dst_of m x).
Proof. intros H. apply (dst_of_target m x). now apply row_accepted_dst. Qed.

Lemma guard_akin d x o e v s z : row_accepted m x = true -> sim s z ->
  akin eq (execute_guard cb (btrans m d x o) e v s) (ask cb env e d x o v z).
Proof.
  intros Ha H. destruct (target_eq x Ha) as [Et _]. unfold execute_guard, ask.
  cbn [t_guard btrans t_int t_src t_tgt t_dep]. rewrite Et, !(alive_object s z) by assumption.
  destruct (x_guard x); [split; auto|]. destruct (_ && _); [|reflexivity]. now apply invoke_akin.
Qed.

Lemma busy_action x : busy env x = has_action env x.
Proof.
  unfold busy, has_action, exit_call, entry_call, initial_entry_call, external, initial_entry_of, pseudo_exit_of,
    entry_of, exit_of, has_entry, has_exit, first_initial.
  cbn [x_int x_src x_tgt x_act]. 
  assert (E1 : match x_act x with NoAction => false | Action _ _ => true end = is_some (action_ty (x_act x))) by now destruct (x_act x).
  rewrite E1. destruct (is_some (action_ty (x_act x))); [reflexivity|]. cbn [orb].
  assert (E2 : some_of match x_tgt x with
     | SState c => match (if is_composite env c then hd_error (initial_states env c) else None) with
                   | Some (SState i) => if cd_entry (lookup env i) then [CEntry i] else []
                   | _ => [] end
     | _ => [] end =
     is_some match x_tgt x with
     | SState c => if has_table env (x_tgt x) then match hd_error (initials env c) with
                   | Some i => match i with SState c0 => if cd_entry (lookup env c0) then Some c0 else None | _ => None end
                   | None => None end else None
     | _ => None end).
  { destruct (x_tgt x) as [c| | | | |]; try reflexivity. rewrite has_table_b, initials_spec.
    destruct (is_composite env c); [|reflexivity]. destruct (hd_error (initial_states env c)) as [[i| | | | |]|]; try reflexivity.
    destruct (cd_entry (lookup env i)); reflexivity. }
  rewrite E2. clear E2.
  assert (E3 : some_of match x_tgt x with SState c => if cd_entry (lookup env c) then [CEntry c] else [] | _ => [] end =
    is_some match x_tgt x with SState c => if cd_entry (lookup env c) then Some c else None | _ => None end).
  { destruct (x_tgt x) as [c| | | | |]; try reflexivity. destruct (cd_entry (lookup env c)); reflexivity. }
  rewrite E3. clear E3.
  assert (E4 : some_of match x_src x with
      | SState c => if cd_exit (lookup env c) then [CExit c] else []
      | SExit _ p _ => if cd_exit (lookup env p) then [CExit p] else []
      | _ => [] end =
    is_some match x_src x with SState c => if cd_exit (lookup env c) then Some c else None | _ => None end ||
    is_some match x_src x with SExit _ p _ => if cd_exit (lookup env p) then Some p else None | _ => None end).
  { destruct (x_src x) as [c| | | |? p ?|]; try reflexivity.
    - destruct (cd_exit (lookup env c)); reflexivity.
    - destruct (cd_exit (lookup env p)); reflexivity. }
  rewrite E4. clear E4.
  repeat match goal with |- context [is_some ?a] => destruct (is_some a) end; reflexivity.
Qed.

Lemma act_app e d o ps1 ps2 : forall v (z : mc),
  act cb e d o (ps1 ++ ps2) v z = next (act cb e d o ps1 v z) (fun v z => act cb e d o ps2 v z).
Proof.
  induction ps1 as [|p ps1 IH]; intros v z; [reflexivity|]. cbn [app act].
  destruct (match p_callee p with CReuse _ => _ | _ => _ end); [|reflexivity].
  destruct (use cb _ _ v z); cbn [next]; auto.
Qed.

Lemma act_one e d o c t v s z : (forall f, c <> CReuse f) -> sim s z ->
  akin eq (keep_payload (invoke cb c (mkArgs e o t d) v s)) (act cb e d o [mkPrim c t true None] v z).
Proof.
  intros Hn H. cbn [act p_callee p_targ p_keep p_makes].
  assert (E : match c with CReuse _ => match t with TObj t => has_object z t | _ => true end | _ => true end = true).
  { destruct c; try reflexivity. exfalso. now apply (Hn f). }
  rewrite E. unfold keep_payload. eapply akin_bind; [now apply invoke_akin|].
  intros bv bv' s1 z1 <- H1. split; auto.
Qed.

Lemma body_akin t e : forall b v s z, sim s z ->
  akin eq (exec_body cb b t e v s)
    (act cb e (t_dep t) (t_src t) (body_calls (a_tgt (action_args t e)) (t_tgt t) b) v z).
Proof.
  apply (abody_ind2 (fun b => forall v s z, sim s z ->
    akin eq (exec_body cb b t e v s)
      (act cb e (t_dep t) (t_src t) (body_calls (a_tgt (action_args t e)) (t_tgt t) b) v z))).
  - intros f v s z H. cbn [exec_body body_calls]. apply (act_one e (t_dep t) (t_src t) (CAction f)); [discriminate|exact H].
  - intros f v s z H. cbn [exec_body body_calls act p_callee p_targ p_keep p_makes].
    eapply akin_bind; [now apply invoke_akin|]. intros bv bv' s1 z1 <- H1. split; [reflexivity|].
    unfold set_live, assign. rewrite (sh_live _ _ _ (si_shows _ _ H1)). now apply sim_live.
  - intros f v s z H. cbn [exec_body body_calls act p_callee p_targ p_keep p_makes].
    rewrite (alive_object s z) by assumption. destruct (has_object z (t_tgt t)); [|reflexivity].
    unfold drop_payload. eapply akin_bind; [now apply invoke_akin|]. intros bv bv' s1 z1 <- H1. split; auto.
  - intros l IH v s z H. rewrite exec_body_chain. cbn [body_calls]. revert v s z H.
    induction IH as [|b l Hb _ IHl]; intros v s z H; [split; auto|].
    cbn [flat_map]. rewrite act_app. cbn [exec_chain]. eapply akin_bind; [now apply Hb|].
    intros v1 v1' s1 z1 <- H1. now apply IHl.
Qed.

Lemma steps_akin t e : forall l v s z, sim s z ->
  akin eq (exec_steps cb l t e v s)
    (act cb e (t_dep t) (t_src t) (flat_map (step_prims (a_tgt (action_args t e)) (t_tgt t)) l) v z).
Proof.
  induction l as [|a l IH]; intros v s z H; [split; auto|]. cbn [exec_steps flat_map]. rewrite act_app.
  eapply akin_bind; [|intros v1 v1' s1 z1 <- H1; now apply IH].
  destruct a; cbn [exec_step step_prims].
  - apply (act_one e (t_dep t) (t_src t) (CExit c)); [discriminate|exact H].
  - now apply body_akin.
  - apply (act_one e (t_dep t) (t_src t) (CEntry c)); [discriminate|exact H].
  - apply (act_one e (t_dep t) (t_src t) (CEntry c)); [discriminate|exact H].
Qed.

Lemma action_akin d x o e v s z : row_accepted m x = true -> sim s z ->
  akin eq (execute_action cb (btrans m d x o) e v s) (perform_all cb env e d x o v z).
Proof.
  intros Ha H. destruct (target_eq x Ha) as [Et _]. unfold execute_action, perform_all.
  cbn [t_act btrans t_src t_tgt t_ptr t_int]. rewrite busy_action, effects_steps. unfold resolve_action.
  destruct (has_action env x); [|split; auto].
  rewrite !(alive_object s z) by assumption. rewrite Et.
  change (defctor env (target_state env x)) with (default_constructible env (target_state env x)).
  replace (x_int x || negb (default_constructible env (target_state env x)))
    with (negb (default_constructible env (target_state env x)) || x_int x) by apply orb_comm.
  destruct (_ && _); [|reflexivity].
  assert (Ea : a_tgt (action_args (btrans m d x o) e) = action_target env x o).
  { unfold action_args, action_target; cbn. rewrite Et.
    change (defctor env (target_state env x)) with (default_constructible env (target_state env x)).
    destruct (default_constructible env (target_state env x)); cbn; [|reflexivity].
    destruct (x_int x); reflexivity. }
  match goal with |- akin eq (exec_steps _ ?l _ _ _ _) _ => pose proof (steps_akin (btrans m d x o) e l v s z H) as P end.
  rewrite Ea in P. cbn [t_tgt btrans t_dep t_src] in P. rewrite Et in P. exact P.
Qed.

(** * Moving *)
Lemma read_akin r s z : sim s z -> akin (fun c sp => c = number sp /\ fine sp) (read_cur s r) (spot_at r z).
Proof.
  intros H. unfold read_cur, spot_at. rewrite (sh_at _ _ _ (si_shows _ _ H)), nth_error_map.
  destruct (nth_error (z_at z) r) as [[sp|]|] eqn:E; cbn; auto. split; [|exact H]. split; [reflexivity|].
  apply nth_error_In in E. pose proof (si_at _ _ H) as F. rewrite Forall_forall in F. exact (F _ E).
Qed.
Lemma parent_akin s z : sim s z -> akin (fun c sp => c = parent_number m sp /\ fine sp) (current_parent m s) (spot_at 0 z).
Proof.
  intros H. unfold current_parent. replace (spot_at 0 z) with (next (spot_at 0 z) (fun sp z => Ok sp z)) by now destruct (spot_at 0 z).
  eapply akin_bind; [now apply read_akin|]. intros c sp s1 z1 [-> F] H1. split; [|exact H1]. split; [|exact F].
  now apply number_parent.
Qed.

Lemma initials_few p : In p (parents m) -> length (initial_states env p) <= 255.
Proof. intros Hp. rewrite <- initials_spec. pose proof (initials_le_max m p Hp). lia. Qed.

Lemma parents_spec_nth p : In p (parents m) -> forall {A} (f : cls -> A),
  nth_at (parent_idx m p) (map f (parents m)) = Some (f p).
Proof.
  intros Hp A f. rewrite nth_at_nth, (parent_idx_pos m Hc), Nnat.Nat2N.id, nth_error_map, nth_pos by exact Hp. reflexivity.
Qed.
Lemma parents_past {A} (f : cls -> A) : nth_at (N.of_nat (length (parents m))) (map f (parents m)) = None.
Proof. rewrite nth_at_nth, Nnat.Nat2N.id. apply nth_error_None. rewrite map_length. lia. Qed.

Lemma recount_akin s z : sim s z -> akin eq (update_current_regions m s) (recount env flat z).
Proof.
  intros H. unfold update_current_regions, recount. rewrite parallel_width. destruct (parallel m); [|split; auto].
  eapply akin_bind; [now apply parent_akin|]. intros c sp s1 z1 [-> F] H1.
  unfold initial_table. destruct sp as [|[p q]]; cbn [parent_number].
  - now rewrite parents_past.
  - apply in_places in F. destruct F as [Fp _]. rewrite parents_spec_nth by exact Fp. rewrite map_length, initials_spec.
    split; [reflexivity|]. apply sim_regions; [exact H1|]. now apply initials_few.
Qed.

Lemma write_akin r sp s z : sim s z -> fine sp ->
  akin eq (bind (write_cur s r (number sp)) (fun _ s => update_current_regions m s)) (go_to env flat r sp z).
Proof.
  intros H F. unfold write_cur, go_to.
  assert (L : length (rt_cur s) = length (z_at z)) by (now rewrite (sh_at _ _ _ (si_shows _ _ H)), map_length).
  destruct (Nat.ltb_spec r (length (z_at z))) as [Hr|Hr].
  - rewrite upd_nth_in by lia. cbn [bind]. apply recount_akin. now apply sim_at.
  - rewrite upd_nth_out by lia. reflexivity.
Qed.

Lemma memorise_akin r s z : sim s z ->
  akin eq (bind (current_parent m s) (fun p s => bind (read_cur s r) (fun c s => write_hist s p r c))) (memorise r z).
Proof.
  intros H. unfold memorise. eapply akin_bind; [now apply parent_akin|]. intros c0 sp0 s1 z1 [-> F0] H1.
  eapply akin_bind; [now apply read_akin|]. intros c sp s2 z2 [-> F] H2.
  unfold write_hist. rewrite (sh_mem _ _ _ (si_shows _ _ H2)). destruct sp0 as [|[p q]]; cbn [parent_number].
  - now rewrite parents_past.
  - apply in_places in F0. destruct F0 as [Fp _].
    rewrite (parents_spec_nth p Fp (fun p => map number (z_mem z2 p))).
    destruct (Nat.ltb_spec r (length (z_mem z2 p))) as [Hr|Hr].
    + rewrite upd_nth_in by (now rewrite map_length).
      rewrite upd_at_upd, (parent_idx_pos m Hc), Nnat.Nat2N.id.
      rewrite upd_nth_in by (rewrite map_length; now apply pos_lt).
      split; [reflexivity|]. destruct H2 as [[? ? ? ? ? ? ?] ? ? ? Hmem ? ? ?]. constructor; auto.
      * constructor; auto. cbn [rt_hist with_hist z_mem put_mem].
        assert (Es : set_nth r (number sp) (map number (z_mem z2 p)) = map number (set_nth r sp (z_mem z2 p))).
        { clear. revert r. induction (z_mem z2 p) as [|a l IH]; intros [|r]; cbn; try reflexivity. now rewrite IH. }
        rewrite Es. pose proof (parents_NoDup m) as ND. revert Fp ND. generalize (parents m).
        induction l as [|a l IH]; intros Hin ND; [destruct Hin|]. inversion ND as [|? ? N1 N2]; subst. cbn [pos map].
        destruct (Nat.eq_dec p a) as [->|n].
        -- cbn [set_nth]. destruct (Nat.eq_dec a a); [|congruence]. f_equal. apply map_ext_in. intros b Hb.
           destruct (Nat.eq_dec b a) as [->|]; [contradiction|reflexivity].
        -- cbn [set_nth]. destruct (Nat.eq_dec a p); [congruence|]. f_equal. apply IH; [|exact N2]. destruct Hin; [congruence|assumption].
      * intros c Hcp. cbn [z_mem put_mem]. destruct (Nat.eq_dec c p); [|now apply Hmem].
        specialize (Hmem p Fp). clear - Hmem F. revert r. induction Hmem as [|a l H1 H2 IH]; intros [|r]; cbn; constructor; auto.
    + rewrite upd_nth_out by (rewrite map_length; lia). reflexivity.
Qed.

Lemma move_akin d x o r s z : row_accepted m x = true -> (x_int x = false -> In x flat) -> sim s z ->
  akin eq (update_current_state m r (bentry m (d, CRow x o)) s) (move env root flat r x z).
Proof.
  intros Ha Hx H. destruct (target_eq x Ha) as [Et Etp]. unfold update_current_state, move.
  cbn [bentry centry fst snd entry_of_row en_int en_hist en_to].
  destruct (x_int x) eqn:Ei; [split; auto|]. specialize (Hx eq_refl).
  assert (El : number (land env root flat x) = combined_idx m (resolve_dst_parent env x) (dst_of m x)).
  { unfold land. rewrite Etp. apply spot_of_number. }
  assert (Fl : fine (land env root flat x)).
  { unfold land. rewrite Etp. apply spot_of_fine. }
  change (any_history flat) with (has_history m). destruct (has_history m).
  2:{ rewrite <- El. now apply write_akin. }
  pose proof (memorise_akin r s z H) as M.
  assert (R : forall f, bind (bind (current_parent m s) (fun p s => bind (read_cur s r) (fun c s =>
     bind (write_hist s p r c) (fun _ s => f s)))) (fun _ s => update_current_regions m s) =
     bind (bind (current_parent m s) (fun p s => bind (read_cur s r) (fun c s => write_hist s p r c)))
       (fun _ s => bind (f s) (fun (_ : unit) s => update_current_regions m s))).
  { intros f. destruct (current_parent m s) as [p s1| | |]; cbn [bind]; try reflexivity.
    destruct (read_cur s1 r) as [c s2| | |]; cbn [bind]; try reflexivity.
    destruct (write_hist s2 p r c); reflexivity. }
  rewrite R. clear R. eapply akin_bind; [exact M|]. intros [] [] s1 z1 _ H1.
  unfold resolve_history. destruct (is_history (x_tgt x)) eqn:Eh.
  2:{ rewrite <- El. destruct (x_tgt x); try discriminate; now apply write_akin. }
  destruct (x_tgt x) as [| | | | |w p] eqn:Tx; try discriminate.
  destruct (history_target_inrange m Hc x w p Hx Ha Tx) as (Ep & Hp & Hs). rewrite Ep, (calc_parent_combined m Hc) by assumption.
  unfold read_hist. rewrite (sh_mem _ _ _ (si_shows _ _ H1)).
  rewrite (parents_spec_nth p Hp (fun p => map number (z_mem z1 p))), nth_error_map.
  destruct (nth_error (z_mem z1 p) r) as [sp|] eqn:E; [|reflexivity]. cbn [option_map bind].
  apply write_akin; [exact H1|]. apply nth_error_In in E. pose proof (si_mem _ _ H1 p Hp) as F.
  rewrite Forall_forall in F. exact (F _ E).
Qed.

(** * Trying *)
Lemma attempt_akin r e : In e (events m) -> forall bs, rows_fine m bs ->
  ((exists d, In (d, CDefer) bs) -> has_deferred m = true) -> forall v s z, sim s z ->
  akin eq (try_entries cb m (map (bentry m) bs) r e v s) (attempt cb env root flat e r bs v z).
Proof.
  intros He. induction bs as [|[d [|x o]] bs IH]; intros Hf Hd v s z H; cbn [map try_entries attempt]; [split; auto| |].
  - cbn [bentry centry snd en_defer defer_entry]. split; [reflexivity|]. rewrite (sh_queue _ _ _ (si_shows _ _ H)).
    apply sim_queue; [exact H| |].
    + intros E. rewrite Hd in E; [discriminate|]. exists d. now left.
    + apply Forall_app. split; [apply (si_events _ _ H)|]. now repeat constructor.
  - cbn [en_defer bentry centry fst snd entry_of_row].
    change (en_tr (bentry m (d, CRow x o))) with (Some (btrans m d x o)).
    destruct (Hf d x o (or_introl eq_refl)) as [Ha Hx].
    eapply akin_bind; [now apply guard_akin|]. intros [b v1] bv' s1 z1 <- H1. cbn [fst snd].
    destruct b.
    + eapply akin_bind; [now apply move_akin|]. intros [] [] s2 z2 _ H2.
      eapply akin_bind; [now apply action_akin|]. intros v3 v3' s3 z3 <- H3. split; auto.
    + apply IH; auto.
      * intros d' x' o' Hi. apply (Hf d' x' o'). now right.
      * intros [d' Hi]. apply Hd. exists d'. now right.
Qed.
Lemma attempt_anonymous_akin r : forall bs, rows_fine m bs -> forall v s z, sim s z ->
  akin eq (try_anonymous cb m (map (bentry m) bs) r v s) (attempt_anonymous cb env root flat r bs v z).
Proof.
  induction bs as [|[d [|x o]] bs IH]; intros Hf v s z H; cbn [map try_anonymous attempt_anonymous]; [split; auto|reflexivity|].
  change (en_tr (bentry m (d, CRow x o))) with (Some (btrans m d x o)).
  destruct (Hf d x o (or_introl eq_refl)) as [Ha Hx].
  eapply akin_bind; [now apply guard_akin|]. intros [b v1] bv' s1 z1 <- H1. cbn [fst snd].
  destruct b.
  - eapply akin_bind; [now apply move_akin|]. intros [] [] s2 z2 _ H2.
    eapply akin_bind; [now apply action_akin|]. intros v3 v3' s3 z3 <- H3. split; auto.
  - apply IH; auto. intros d' x' o' Hi. apply (Hf d' x' o'). now right.
Qed.

Lemma entries_akin e r s z : In e (events m) -> sim s z ->
  akin (fun l pl => l = map (bentry m) (bound m (z_deps z) e pl)) (get_entries e r s)
    (next (spot_at r z) (fun sp z => match sp with At pl => Ok pl z | Nowhere => Bad UBIndex end)).
Proof.
  intros He H. unfold get_entries. pose proof (si_tabs _ _ H) as T.
  pose proof (filled_shape m Hc _ _ T) as [Sh1 Sh2].
  destruct (get_table (rt_tabs s) e) as [arr|] eqn:Eg.
  2:{ exfalso. rewrite <- Sh1 in He. apply get_table_In in He. destruct He as [a Ea]. congruence. }
  assert (Z : forall sp z1, spot_at r z = Ok sp z1 -> z1 = z).
  { unfold spot_at. destruct (nth_error (z_at z) r) as [[?|]|]; congruence. }
  assert (S1 : forall c s1, read_cur s r = Done c s1 -> s1 = s).
  { intros c s1 Hq. now apply (read_cur_Done s) in Hq. }
  pose proof (read_akin r s z H) as R.
  destruct (read_cur s r) as [c s1|? ?|?|], (spot_at r z) as [sp z1|? ?|?|]; cbn in R |- *; try tauto.
  destruct R as [[-> F] H1]. rewrite (Z _ _ eq_refl), (S1 _ _ eq_refl) in *. destruct sp as [|[p q]].
  - rewrite nth_at_nth. cbn [Interp.number]. rewrite Nnat.Nat2N.id.
    assert (E : nth_error arr (length (places m)) = None) by (apply nth_error_None; rewrite (Sh2 _ _ Eg); lia).
    now rewrite E.
  - pose proof F as F'. apply in_places in F'. destruct F' as [Hp Hq].
    pose proof (filled_get m Hc _ _ e p q T He Hp Hq) as G. unfold tget in G. rewrite Eg in G.
    cbn [Interp.number]. rewrite (code_combined m Hc), nth_at_nth. 
    destruct (nth_error arr (N.to_nat (combined_idx m p q))) as [l|]; [|discriminate].
    inversion G as [G1]. split; [|exact H]. unfold bound. rewrite map_flat_map. apply flat_map_ext_in. intros d _.
    rewrite map_map. reflexivity.
Qed.

Lemma bound_rows ds e pl : rows_fine m (bound m ds e pl).
Proof.
  intros d x o Hi. unfold bound in Hi. apply in_flat_map in Hi. destruct Hi as (d' & _ & Hi).
  apply in_map_iff in Hi. destruct Hi as (c & E & Hi). inversion E; subst. split.
  - now apply (cands_accepted m Hc e pl x o).
  - intros Ei. now apply (cands_flat m Hc e pl x o).
Qed.
Lemma bound_deferred ds e pl : (exists d, In (d, CDefer) (bound m ds e pl)) -> has_deferred m = true.
Proof.
  intros [d Hi]. unfold bound in Hi. apply in_flat_map in Hi. destruct Hi as (d' & _ & Hi).
  apply in_map_iff in Hi. destruct Hi as (c & E & Hi). inversion E; subst. clear E.
  unfold cands, priority in Hi. rewrite !in_app_iff, <- !in_rev in Hi.
  destruct Hi as [Hi|[Hi|Hi]]; try (apply rows_at_rows in Hi; destruct Hi as (? & ? & ? & _); discriminate).
  unfold defers_at in Hi. apply in_flat_map in Hi. destruct Hi as (x & Hx & _).
  unfold has_deferred. destruct (deferring m); [destruct Hx|reflexivity].
Qed.

Lemma region_akin e r v s z : sim s z -> In e (events m) ->
  akin eq (try_region cb m r e v s) (region cb env root flat ints e r v z).
Proof.
  intros H He. unfold try_region, region. rewrite (proj2 (an_event_iff e) He).
  pose proof (entries_akin e r s z He H) as P.
  assert (Z : forall sp z1, spot_at r z = Ok sp z1 -> z1 = z).
  { unfold spot_at. destruct (nth_error (z_at z) r) as [[?|]|]; congruence. }
  destruct (spot_at r z) as [sp z1|? ?|?|]; cbn [next] in P |- *;
    try (destruct (get_entries e r s); cbn in P |- *; tauto).
  rewrite (Z _ _ eq_refl) in *. destruct sp as [|pl]; [destruct (get_entries e r s); cbn in P |- *; tauto|].
  destruct (get_entries e r s) as [l s1|? ?|?|]; cbn in P; try contradiction. destruct P as [-> H1]. cbn [bind].
  rewrite choices_cands. change (bind_all (z_deps z) (cands m e pl)) with (bound m (z_deps z) e pl).
  pose proof (bound_rows (z_deps z) e pl) as Hf. pose proof (bound_deferred (z_deps z) e pl) as Hd.
  destruct (bound m (z_deps z) e pl) as [|b bs] eqn:Eb; [split; auto|].
  pose proof (attempt_akin r e He (b :: bs) Hf Hd v s1 z H1) as A. cbn [map] in A |- *.
  eapply akin_bind; [exact A|]. intros tv tv' s2 z2 <- H2. split; auto.
Qed.

Lemma regions_akin e : In e (events m) -> forall n limit r fuel agf ati v s z,
  n = limit - r -> limit <= 255 -> n < fuel -> sim s z ->
  akin eq (region_loop cb m fuel limit r agf ati e v s) (regions cb env root flat ints e n r agf ati v z).
Proof.
  intros He n. induction n as [|n IH]; intros limit r fuel agf ati v s z En Hl Hf H;
    (destruct fuel as [|fuel]; [lia|]); cbn [region_loop regions].
  - destruct (Nat.ltb_spec r limit); [lia|]. split; auto.
  - destruct (Nat.ltb_spec r limit); [|lia].
    assert (Er : next_region r = S r) by (unfold next_region; destruct (Nat.eqb_spec r 255); [lia|reflexivity]).
    rewrite Er. eapply akin_bind; [now apply region_akin|]. intros tv tv' s1 z1 <- H1.
    destruct (fst tv) as [[]|]; try (apply IH; auto; lia). split; auto.
Qed.

Lemma awake_le (z : mc) s : sim s z -> current_regions m s = awake env flat z /\ awake env flat z <= 255.
Proof.
  intros H. unfold current_regions, awake. rewrite parallel_width, (sh_regions _ _ _ (si_shows _ _ H)).
  split; [reflexivity|]. destruct (parallel m); [apply (si_regions _ _ H)|lia].
Qed.

Lemma pass_akin : In ENone (events m) -> forall n limit r fuel agf v s z,
  n = limit - r -> limit <= 255 -> n < fuel -> sim s z ->
  akin eq (anonymous_pass cb m fuel limit r agf v s) (pass cb env root flat ints n r agf v z).
Proof.
  intros He n. induction n as [|n IH]; intros limit r fuel agf v s z En Hl Hf H;
    (destruct fuel as [|fuel]; [lia|]); cbn [anonymous_pass pass].
  - destruct (Nat.ltb_spec r limit); [lia|]. split; auto.
  - destruct (Nat.ltb_spec r limit); [|lia].
    assert (Er : next_region r = S r) by (unfold next_region; destruct (Nat.eqb_spec r 255); [lia|reflexivity]).
    rewrite Er. unfold anonymous_region. pose proof (entries_akin ENone r s z He H) as P.
    assert (Z : forall sp z1, spot_at r z = Ok sp z1 -> z1 = z).
    { unfold spot_at. destruct (nth_error (z_at z) r) as [[?|]|]; congruence. }
    destruct (spot_at r z) as [sp z1|? ?|?|]; cbn [next] in P |- *;
      try (destruct (get_entries ENone r s); cbn in P |- *; tauto).
    rewrite (Z _ _ eq_refl) in *. destruct sp as [|pl]; [destruct (get_entries ENone r s); cbn in P |- *; tauto|].
    destruct (get_entries ENone r s) as [l s1|? ?|?|]; cbn in P; try contradiction. destruct P as [-> H1]. cbn [bind].
    rewrite choices_cands. change (bind_all (z_deps z) (cands m ENone pl)) with (bound m (z_deps z) ENone pl).
    pose proof (bound_rows (z_deps z) ENone pl) as Hr.
    destruct (bound m (z_deps z) ENone pl) as [|b bs] eqn:Eb; [split; auto|].
    pose proof (attempt_anonymous_akin r (b :: bs) Hr v s1 z H1) as A. cbn [map] in A |- *.
    destruct (try_anonymous cb m (bentry m b :: map (bentry m) bs) r v s1) as [bv s2|? ?|?|],
      (attempt_anonymous cb env root flat r (b :: bs) v z) as [bv' z2|? ?|?|]; cbn in A |- *; try tauto.
    destruct A as [<- H2]. apply IH; auto; lia.
Qed.

Lemma passes_akin rfuel : In ENone (events m) -> 255 < rfuel -> forall fuel v s z, sim s z ->
  akin eq (anonymous_loop cb m rfuel fuel v s) (passes cb env root flat ints fuel v z).
Proof.
  intros He Hr fuel. induction fuel as [|fuel IH]; intros v s z H; [exact I|]. cbn [anonymous_loop passes].
  destruct (awake_le z s H) as [-> L].
  eapply akin_bind; [apply pass_akin; auto; lia|]. intros ov ov' s1 z1 <- H1.
  destruct (fst ov) as [[]|]; try (split; auto; fail). now apply IH.
Qed.

Lemma propose_akin fuel e v s z : 255 < fuel -> In e (events m) -> sim s z ->
  akin eq (process_event_internal cb m vnone fuel e v s) (propose cb env root flat ints vnone fuel e v z).
Proof.
  intros Hf He H. unfold process_event_internal, propose. destruct (awake_le z s H) as [-> L].
  eapply akin_bind; [apply regions_akin; auto; lia|]. intros pv pv' s1 z1 <- H1.
  destruct (fst pv); try (split; auto; fail). unfold process_anonymous.
  change (any_anonymous flat) with (has_anonymous m). destruct (has_anonymous m) eqn:Ea; [|split; auto].
  eapply akin_bind; [apply passes_akin; auto|intros [] [] s2 z2 _ H2; split; auto].
  unfold has_anonymous in Ea. apply existsb_exists in Ea. destruct Ea as (x & Hx & Ea).
  unfold is_anonymous in Ea. destruct (ev_eq_dec (x_ev x) ENone) as [E|]; [|discriminate]. rewrite <- E.
  unfold events, events_of. apply unique_In, in_map, in_or_app. now left.
Qed.

Lemma complain_akin e v s z : In e (events m) -> sim s z ->
  akin eq (call_handler cb m e v s) (complain cb env root e v z).
Proof.
  intros He H. unfold call_handler, complain. destruct (cd_unexpected (lookup env root)) eqn:Eu; [|split; auto].
  pose proof (si_htabs _ _ H Eu) as Hh.
  unfold at_cur, checked_spot. rewrite (sh_at _ _ _ (si_shows _ _ H)), nth_error_map.
  destruct (nth_error (z_at z) 0) as [[sp|]|] eqn:E; cbn [option_map bind next]; [|reflexivity|split; auto].
  assert (F : fine sp).
  { apply nth_error_In in E. pose proof (si_at _ _ H) as F. rewrite Forall_forall in F. exact (F _ E). }
  assert (G : forall p q, In p (parents m) -> In q (states m) -> match get_table (rt_htabs s) e with
     | Some arr => nth_error arr (N.to_nat (combined_idx m p q)) = Some (Some (q, z_first z)) /\
                   length arr = length (places m)
     | None => False end).
  { intros p q Hp Hq. now apply (fill_handlers_get m Hc (z_first z) (rt_htabs s) e p q). }
  assert (Gl : match get_table (rt_htabs s) e with Some arr => length arr = length (places m) | None => False end).
  { pose proof (parents_nonempty m Hc) as Hpn. pose proof (states_nonempty m) as Hsn.
    destruct (parents m) as [|p0 pl0] eqn:Ep; [cbn in Hpn; lia|].
    destruct (states m) as [|q0 ql0] eqn:Es; [cbn in Hsn; lia|].
    specialize (G p0 q0 (or_introl eq_refl) (or_introl eq_refl)).
    destruct (get_table (rt_htabs s) e); [exact (proj2 G)|exact G]. }
  destruct (get_table (rt_htabs s) e) as [arr|]; [|contradiction].
  destruct sp as [|[p q]].
  - rewrite nth_at_nth. cbn [Interp.number]. rewrite Nnat.Nat2N.id.
    assert (En : nth_error arr (length (places m)) = None) by (apply nth_error_None; lia). rewrite En. split; auto.
  - apply in_places in F. destruct F as [Hp Hq]. destruct (G p q Hp Hq) as [En _].
    cbn [Interp.number]. rewrite (code_combined m Hc), nth_at_nth, En, (alive_object s z) by exact H.
    destruct (has_object z q); [|reflexivity]. unfold keep_payload.
    eapply akin_bind; [now apply invoke_akin|]. intros bv bv' s1 z1 <- H1. split; auto.
Qed.

Lemma dispatch_akin fuel e v s z : 255 < fuel -> sim s z ->
  akin (fun bv b => fst bv = b) (process_event cb m vnone fuel e v s) (dispatch cb env root flat ints vnone fuel e v z).
Proof.
  intros Hf H. unfold process_event, dispatch. destruct (in_dec ev_eq_dec e (events m)) as [He|He].
  2:{ destruct (an_event flat ints e) eqn:E; [apply an_event_iff in E; contradiction|reflexivity]. }
  rewrite (proj2 (an_event_iff e) He).
  eapply akin_bind; [now apply propose_akin|]. intros pv pv' s1 z1 <- H1. destruct (fst pv).
  - eapply akin_bind; [now apply complain_akin|]. intros v' v'' s2 z2 <- H2. split; auto.
  - split; auto.
  - unfold process_deferred. rewrite (sh_queue _ _ _ (si_shows _ _ H1)).
    pose proof (si_queue _ _ H1) as Q. pose proof (si_events _ _ H1) as QE.
    destruct (z_queue z1) as [|[e2 v2] q]; [destruct (has_deferred m); split; auto|].
    destruct (has_deferred m) eqn:Ed; [|specialize (Q eq_refl); discriminate]. inversion QE as [|? ? Q1 Q2]; subst.
    pose proof (propose_akin fuel e2 v2 (with_queue s1 q) (put_queue z1 q) Hf Q1) as P.
    assert (H2 : sim (with_queue s1 q) (put_queue z1 q)) by (apply sim_queue; [exact H1|congruence|exact Q2]).
    specialize (P H2). cbn [fst] in P |- *.
    destruct (process_event_internal cb m vnone fuel e2 v2 (with_queue s1 q)),
      (propose cb env root flat ints vnone fuel e2 v2 (put_queue z1 q)); cbn in P |- *; try tauto.
  - split; auto.
Qed.

(** * Client calls *)
Lemma checked_akin r s z : sim s z ->
  akin (fun c sp => c = state_number m sp /\ fine sp) (current_state m s r) (checked_spot r z).
Proof.
  intros H. unfold current_state, at_cur, checked_spot. rewrite (sh_at _ _ _ (si_shows _ _ H)), nth_error_map.
  destruct (nth_error (z_at z) r) as [[sp|]|] eqn:E; cbn; auto.
  assert (F : fine sp).
  { apply nth_error_In in E. pose proof (si_at _ _ H) as F. rewrite Forall_forall in F. exact (F _ E). }
  split; [|exact H]. split; [now apply number_state|exact F].
Qed.

Definition line (t : nat * spot * spot) : nat * N * N * N :=
  match t with (r, sp, sp0) => (r, number sp, parent_number m sp0, state_number m sp) end.
Lemma report_akin : forall n limit r fuel s z, n = limit - r -> limit <= 255 -> n < fuel -> sim s z ->
  akin (fun l l' => l = map line l') (status_loop m fuel limit r s) (report n r z).
Proof.
  induction n as [|n IH]; intros limit r fuel s z En Hl Hf H;
    (destruct fuel as [|fuel]; [lia|]); cbn [status_loop report].
  - destruct (Nat.ltb_spec r limit); [lia|]. split; auto.
  - destruct (Nat.ltb_spec r limit); [|lia].
    assert (Er : next_region r = S r) by (unfold next_region; destruct (Nat.eqb_spec r 255); [lia|reflexivity]).
    rewrite Er. 
    assert (Z : forall r sp z1, spot_at r z = Ok sp z1 -> z1 = z /\ nth_error (z_at z) r = Some (Some sp)).
    { unfold spot_at. intros r0 sp z1. destruct (nth_error (z_at z) r0) as [[?|]|]; intros Hq; inversion Hq; auto. }
    assert (S1 : forall c s1, read_cur s r = Done c s1 -> s1 = s).
    { intros c s1 Hq. now apply (read_cur_Done s) in Hq. }
    assert (S2 : forall c s1, current_parent m s = Done c s1 -> s1 = s).
    { intros c s1 Hq. now apply (current_parent_Done m s) in Hq. }
    pose proof (read_akin r s z H) as R.
    destruct (read_cur s r) as [c s1|? ?|?|], (spot_at r z) as [sp z1|? ?|?|] eqn:Es; cbn in R |- *; try tauto.
    destruct R as [[-> F] H1]. destruct (Z _ _ _ Es) as [-> Ez]. rewrite (S1 _ _ eq_refl) in *.
    pose proof (parent_akin s z H) as R.
    destruct (current_parent m s) as [c s2|? ?|?|], (spot_at 0 z) as [sp0 z2|? ?|?|] eqn:Es0; cbn in R |- *; try tauto.
    destruct R as [[-> F0] H2]. destruct (Z _ _ _ Es0) as [-> _]. rewrite (S2 _ _ eq_refl) in *.
    pose proof (checked_akin r s z H) as R. unfold checked_spot in R. rewrite Ez in R.
    destruct (current_state m s r) as [c s3|? ?|?|]; cbn in R |- *; try tauto. destruct R as [[-> _] H3].
    eapply akin_bind; [apply (IH limit); auto; lia|]. intros l l' s4 z4 -> H4. split; auto.
Qed.

Lemma orderly_regs : orderly env root flat ints = true <-> regs_ok m.
Proof.
  unfold orderly. rewrite forallb_forall. unfold regs_ok, offers_of. split.
  - intros H. assert (G : forall x po, In x (ints ++ flat) -> In po (offers (comp_b m) (child_typeids env) x) -> inrange m (fst po)).
    { intros x po Hx Hp. rewrite offers_children in Hp. specialize (H x). rewrite in_app_iff in H, Hx.
      rewrite forallb_forall in H. specialize (H ltac:(tauto) po Hp). apply a_place_iff in H.
      destruct (fst po). apply in_places in H. exact H. }
    split; [exact G|]. intros x Hx _. apply (G x (source_place x, snd (source_place x))).
    + apply in_app_iff. right. unfold deferring in Hx. apply filter_In in Hx. tauto.
    + now left.
  - intros [H _] x Hx. apply forallb_forall. intros po Hp. rewrite <- offers_children in Hp.
    rewrite in_app_iff in Hx. specialize (H x po). rewrite in_app_iff in H. specialize (H ltac:(tauto) Hp).
    apply a_place_iff. destruct (fst po). now apply in_places.
Qed.

Lemma serve_akin fuel k s z : 255 < fuel -> sim s z ->
  akin (tells m) (do_call cb m vnone fuel k s) (serve cb env root flat ints vnone fuel k z).
Proof.
  intros Hf H. destruct k as [e v|r p q|p|r p q|d|]; cbn [do_call serve].
  - eapply akin_bind; [now apply dispatch_akin|]. intros bv b s1 z1 <- H1. split; [reflexivity|exact H1].
  - unfold q_is. 
    assert (E : forall (A B C : Type) (r : res V W A) f (g : B -> st -> res V W C), bind (bind r f) g = bind r (fun a s => bind (f a s) g)).
    { intros A B C r0 f g. destruct r0; reflexivity. }
    rewrite E. eapply akin_bind; [now apply parent_akin|]. intros c sp0 s1 z1 [-> F] H1.
    rewrite encloser_is_number by exact F. destruct (encloser_is flat p sp0); [|split; auto; reflexivity].
    rewrite E. eapply akin_bind; [now apply checked_akin|]. intros c sp s2 z2 [-> F2] H2. split; [|exact H2].
    cbn [tells]. now rewrite state_is_number.
  - unfold q_parent_is. 
    assert (E : forall (A B C : Type) (r : res V W A) f (g : B -> st -> res V W C), bind (bind r f) g = bind r (fun a s => bind (f a s) g)).
    { intros A B C r0 f g. destruct r0; reflexivity. }
    rewrite E. eapply akin_bind; [now apply parent_akin|]. intros c sp0 s1 z1 [-> F] H1. split; [|exact H1].
    cbn [tells]. now rewrite encloser_is_number.
  - unfold set_state. destruct (a_place root flat (p, q)) eqn:Ea.
    + apply a_place_iff in Ea. pose proof Ea as Ep. apply in_places in Ep. destruct Ep as [Hp Hq].
      destruct (in_dec sref_eq_dec q (states m)); [|contradiction]. destruct (in_dec Nat.eq_dec p (parents m)); [|contradiction].
      change (to_region r) with (narrow r).
      assert (L : length (rt_cur s) = length (z_at z)) by (now rewrite (sh_at _ _ _ (si_shows _ _ H)), map_length).
      destruct (Nat.ltb_spec (narrow r) (length (z_at z))) as [Hr|Hr].
      * rewrite upd_nth_in by lia. cbn [bind]. split; [reflexivity|].
        rewrite <- (code_combined m Hc). now apply (sim_at s z (narrow r) (At (p, q))).
      * rewrite upd_nth_out by lia. split; auto.
    + destruct (in_dec sref_eq_dec q (states m)); [|reflexivity]. destruct (in_dec Nat.eq_dec p (parents m)); [|reflexivity].
      exfalso. assert (X : a_place root flat (p, q) = true) by (apply a_place_iff, in_places; auto). congruence.
  - unfold set_dependency. pose proof (si_tabs _ _ H) as T.
    destruct (proj2 (fill_ok_iff m Hc d (rt_tabs s) (filled_shape m Hc _ _ T)) (filled_regs m Hc _ _ T)) as [t Et].
    rewrite Et. cbn [bind]. split; [reflexivity|]. destruct H as [[? ? ? ? ? ? ?] ? ? ? ? ? ? ?]. constructor; auto.
    + constructor; auto.
    + cbn. econstructor; eauto.
  - unfold status. destruct (awake_le z s H) as [-> L].
    eapply akin_bind; [apply report_akin; auto; lia|]. intros l l' s1 z1 -> H1. split; [reflexivity|exact H1].
Qed.

Lemma serve_catch_akin fuel k s z : 255 < fuel -> sim s z ->
  akin (tells m) (do_call_catch cb m vnone fuel k s) (serve_catch cb env root flat ints vnone fuel k z).
Proof.
  intros Hf H. pose proof (serve_akin fuel k s z Hf H) as P. unfold do_call_catch, serve_catch.
  destruct (do_call cb m vnone fuel k s), (serve cb env root flat ints vnone fuel k z); cbn in P |- *; try tauto.
  destruct P as [<- P]. split; [reflexivity|exact P].
Qed.

Lemma serve_all_akin fuel : 255 < fuel -> forall ks s z, sim s z ->
  akin (Forall2 (tells m)) (run cb m vnone fuel ks s) (serve_all cb env root flat ints vnone fuel ks z).
Proof.
  intros Hf ks. induction ks as [|k ks IH]; intros s z H; [split; [constructor|exact H]|]. cbn [run serve_all].
  eapply akin_bind; [now apply serve_catch_akin|]. intros o o' s1 z1 Ho H1.
  eapply akin_bind; [now apply IH|]. intros os os' s2 z2 Hos H2. split; [now constructor|exact H2].
Qed.

Lemma nth_ext_list {A} (l l' : list A) : (forall n, nth_error l n = nth_error l' n) -> l = l'.
Proof.
  revert l'. induction l as [|a l IH]; intros [|b l'] H; try (specialize (H 0); discriminate); [reflexivity|].
  pose proof (H 0) as H0. inversion H0. f_equal. apply IH. intros n. exact (H (S n)).
Qed.

Theorem session_interpret fuel d w ks : 255 < fuel ->
  same_answer m (Forall2 (tells m)) (session cb m vnone fuel d w ks)
    (interpret cb env root flat ints vnone fuel d w ks).
Proof.
  intros Hf. apply akin_same. unfold session, interpret, construct.
  assert (Hh : exists h, (if cd_unexpected (lookup env root) then fill_handlers m d else Some []) = Some h /\
     (cd_unexpected (lookup env root) = true -> fill_handlers m d = Some h)).
  { destruct (cd_unexpected (lookup env root)).
    - destruct (fill_handlers_total m Hc d) as [h E]. eauto.
    - exists []. split; [reflexivity|discriminate]. }
  destruct Hh as (h & -> & Hh).
  destruct (orderly env root flat ints) eqn:Eo.
  2:{ destruct (fill_dispatch m d (empty_tables m)) as [t|] eqn:Et; [|reflexivity]. exfalso.
      assert (R : regs_ok m) by (apply (fill_ok_iff m Hc d (empty_tables m) (empty_tables_shape m)); eauto).
      apply orderly_regs in R. congruence. }
  apply orderly_regs in Eo.
  destruct (proj2 (fill_ok_iff m Hc d (empty_tables m) (empty_tables_shape m)) Eo) as [t Et]. rewrite Et.
  set (rest := fun (_ : unit) (s : st) => run cb m vnone fuel ks s).
  assert (E : forall (A B C : Type) (r : res V W A) f (g : B -> st -> res V W C), bind (bind r f) g = bind r (fun a s => bind (f a s) g)).
  { intros A B C r0 f g. destruct r0; reflexivity. }
  rewrite E.
  unfold init_current_state. rewrite nth_at_nth, (parent_idx_pos m Hc), Nnat.Nat2N.id.
  change (pos Nat.eq_dec root (parents m)) with (parent_pos m root).
  pose proof (root_parent m Hc) as Hroot. rewrite (initial_table_nth m Hc root Hroot).
  set (l := map (fun s => code m (root, s)) (initials env root)).
  set (s0 := mkRt _ _ _ _ _ _ _ _ _).
  assert (Hl : length l = length (initials env root)) by (unfold l; now rewrite map_length).
  pose proof (initials_le_max m root Hroot) as Hmx.
  assert (Hl0 : length l <= length (rt_cur s0)) by (rewrite Hl; cbn; now rewrite repeat_length).
  pose proof (init_loop_spec l ltac:(lia) fuel 0 s0 Hl0) as P.
  destruct (init_loop fuel l 0 s0) as [[] s1|ex s1|u|]; cbn [bind]; try contradiction; [|lia].
  destruct P as (cur' & -> & HL1 & HN). cbn [rt_cur s0] in HL1, HN. rewrite repeat_length in HL1.
  assert (H : sim (with_cur s0 cur') (Interp.fresh env root flat d w)).
  { assert (Hin : forall p i, In p (parents m) -> In i (initial_states env p) -> In (p, i) (places m)).
    { intros p i Hp Hi. apply in_places. split; [exact Hp|]. apply (initials_states m Hc p); [exact Hp|]. now rewrite initials_spec. }
    unfold Interp.fresh. constructor; cbn [z_deps z_first z_at z_mem z_regions z_queue rt_tabs rt_htabs with_cur s0].
    - constructor; cbn [z_at z_mem z_queue z_regions z_live z_world z_trace rt_cur rt_hist rt_queue rt_regions rt_live rt_world rt_trace with_cur s0]; auto.
      + apply nth_ext_list. intros r. rewrite HN. cbn [Nat.leb andb]. rewrite Hl, nth_error_map, width_max.
        rewrite !map_length, <- initials_spec.
        destruct (Nat.ltb_spec r (length (initials env root))) as [Hr|Hr].
        * rewrite nth_error_app1 by (now rewrite !map_length). unfold l. rewrite !nth_error_map.
          destruct (nth_error (initials env root) r) eqn:En; [reflexivity|]. apply nth_error_None in En. lia.
        * rewrite nth_error_app2 by (now rewrite !map_length). rewrite !map_length, !ReachFacts.nth_repeat.
          destruct (Nat.ltb_spec r (max_initials m)), (Nat.ltb_spec (r - length (initials env root)) (max_initials m - length (initials env root)));
            try lia; reflexivity.
      + unfold initial_table. apply map_ext. intros p. rewrite map_map, initials_spec. apply map_ext. intros q.
        symmetry. apply (code_combined m Hc).
      + unfold states, child_states_rec. now rewrite unique_dedup.
    - now constructor.
    - exact Hh.
    - apply Forall_app. split.
      + apply Forall_map, Forall_map, Forall_forall. intros i Hi. now apply Hin.
      + apply Forall_forall. intros o Ho. apply repeat_spec in Ho. now subst.
    - intros p Hp. apply Forall_map, Forall_forall. intros i Hi. now apply Hin.
    - lia.
    - reflexivity.
    - constructor. }
  eapply akin_bind; [now apply recount_akin|]. intros [] [] s2 z2 _ H2. now apply serve_all_akin.
Qed.
End Interp.

(** * The rows of a program *)
Lemma walk_flatten env : forall f c l, flatten f env c = Some l -> walk f env c = l.
Proof.
  induction f as [|f IH]; intros c l H; [discriminate|]. rewrite flatten_S in H. cbn [walk]. unfold table.
  destruct (cd_table (lookup env c)) as [rows|]; [|discriminate].
  revert l H. induction rows as [|r rows IHr]; intros l H; cbn in H; [now inversion H|].
  destruct (contrib f env c r) as [a|] eqn:Ea; [|discriminate].
  destruct (concat_opt (map (contrib f env c) rows)) as [b|]; [|discriminate].
  inversion H; subst l; clear H. cbn [flat_map]. rewrite (IHr b eq_refl). f_equal.
  unfold contrib in Ea. change (row_in c r) with (extend c r).
  destruct (sub_state_parent (r_tgt r)) as [p|w p|w p s|w p s|w p s|w p] eqn:Es.
  - assert (into (r_tgt r) = Some p) as -> by (destruct (r_tgt r); cbn in Es |- *; congruence).
    rewrite <- has_table_b. destruct (has_table env (SState p)); [|now inversion Ea].
    destruct (flatten f env p) as [sub|] eqn:Ef; [|discriminate]. inversion Ea. now rewrite (IH p sub Ef).
  - inversion Ea. destruct (r_tgt r); cbn in Es |- *; congruence.
  - inversion Ea. destruct (r_tgt r); cbn in Es |- *; congruence.
  - inversion Ea. destruct (r_tgt r); cbn in Es |- *; congruence.
  - inversion Ea. destruct (r_tgt r); cbn in Es |- *; congruence.
  - inversion Ea. destruct (r_tgt r); cbn in Es |- *; congruence.
Qed.

Lemma same_type_iff {A} dec (a b : A) : same_type dec a b = true <-> a = b.
Proof. unfold same_type. destruct (dec a b); split; congruence. Qed.
Lemma alike_iff x y : alike x y = true <-> same_cpp_type x y.
Proof.
  unfold alike, same_cpp_type. rewrite !andb_true_iff, !same_type_iff.
  change guard_type with guard_ty. change action_type with action_ty. tauto.
Qed.
Lemma alike_sym x y : same_cpp_type x y -> same_cpp_type y x.
Proof. intros (A & B & C & D & E & F). repeat split; auto. Qed.
Lemma alike_trans x y z : same_cpp_type x y -> same_cpp_type y z -> same_cpp_type x z.
Proof. intros (A & B & C & D & E & F) (A' & B' & C' & D' & E' & F'). repeat split; congruence. Qed.
Lemma firsts_keeps l : forall pre seen,
  (forall x, (exists b, In b seen /\ same_cpp_type b x) <-> exists b, In b pre /\ same_cpp_type b x) ->
  keeps_first same_cpp_type pre l (firsts seen l).
Proof.
  induction l as [|a l IH]; intros pre seen H; cbn [firsts]; [constructor|].
  destruct (existsb (alike a) seen) eqn:E.
  - apply existsb_exists in E. destruct E as (b & Hb & E). apply alike_iff, alike_sym in E.
    apply kf_drop; [apply H; eauto|]. apply IH. intros x. rewrite H. split.
    + intros (b' & Hb' & Hs). exists b'. split; [apply in_or_app; auto|exact Hs].
    + intros (b' & Hb' & Hs). apply in_app_or in Hb'. destruct Hb' as [Hb'|[<-|[]]]; [eauto|].
      apply H. exists b. split; [exact Hb|]. eapply alike_trans; eauto.
  - apply kf_keep.
    + intros b Hb Hs. destruct (proj2 (H a) (Logic.ex_intro _ b (conj Hb Hs))) as (b' & Hb' & Hs').
      assert (existsb (alike a) seen = true) by (apply existsb_exists; exists b'; split; [exact Hb'|]; now apply alike_iff, alike_sym).
      congruence.
    + apply IH. intros x. split.
      * intros (b & [<-|Hb] & Hs).
        -- exists a. split; [apply in_or_app; right; now left|exact Hs].
        -- destruct (proj1 (H x)) as (b' & Hb' & Hs'); [eauto|]. exists b'. split; [apply in_or_app; auto|exact Hs'].
      * intros (b & Hb & Hs). apply in_app_or in Hb. destruct Hb as [Hb|[<-|[]]].
        -- destruct (proj2 (H x)) as (b' & Hb' & Hs'); [eauto|]. exists b'. split; [now right|exact Hs'].
        -- exists a. split; [now left|exact Hs].
Qed.

Lemma rows_compiled env root m : compile env root = Some m ->
  outer_rows env root = mc_flat m /\ inner_rows env root = internal_flat m.
Proof.
  intros Hm. assert (E : outer_rows env root = mc_flat m).
  { unfold compile in Hm. destruct (flatten (S (length env)) env root) as [fl|] eqn:Hf; [|discriminate].
    destruct (accepted (mkMachine env root fl)); [|discriminate]. injection Hm as <-. now apply walk_flatten. }
  split; [exact E|]. unfold inner_rows. rewrite E. compiled Hm.
  eapply keeps_first_det; [apply internal_keeps; exact (cp_fl m Hc)|]. apply firsts_keeps. intros x. tauto.
Qed.

Theorem interpreter_session : forall V W (cb : cbfun V W) env root m vnone fuel d w ks,
  compile env root = Some m -> few_regions env root -> 255 < fuel ->
  same_answer m (Forall2 (tells m)) (session cb m vnone fuel d w ks) (interpreter cb env root vnone fuel d w ks).
Proof.
  intros V W cb env root m vnone fuel d w ks Hm F Hf. unfold interpreter.
  destruct (rows_compiled env root m Hm) as [-> ->]. compiled Hm.
  apply session_interpret; [exact Hc|exact (few_max m Hc F)|exact Hf].
Qed.

Theorem interpreter_rows : forall env root m, compile env root = Some m ->
  visits env root (table env root) (outer_rows env root) /\
  keeps_first same_cpp_type [] (internal_rows env root (outer_rows env root)) (inner_rows env root).
Proof.
  intros env root m Hm. split.
  - destruct (rows_compiled env root m Hm) as [-> _]. compiled Hm. apply flat_visits. exact (cp_fl m Hc).
  - apply firsts_keeps. intros x. tauto.
Qed.

Theorem interpreter_undefined : forall V W (cb : cbfun V W) env root m vnone fuel d w ks u,
  compile env root = Some m -> few_regions env root -> 255 < fuel ->
  (session cb m vnone fuel d w ks = Undef u <-> interpreter cb env root vnone fuel d w ks = Bad u) /\
  (session cb m vnone fuel d w ks = Timeout <-> interpreter cb env root vnone fuel d w ks = Endless).
Proof.
  intros V W cb env root m vnone fuel d w ks u Hm F Hf.
  pose proof (interpreter_session V W cb env root m vnone fuel d w ks Hm F Hf) as P. unfold same_answer in P.
  destruct (session cb m vnone fuel d w ks), (interpreter cb env root vnone fuel d w ks); try contradiction;
    split; split; congruence.
Qed.
