(** A check of [Part.self_contained], for use on programs.  Nothing here is a model of code
    of the repository. *)

From Coq Require Import List Arith NArith Bool Lia.
From Verif Require Import Dsl Types Static Dispatch Runtime ListFacts IndexFacts Spec DispatchFacts FlattenFacts
  Semantics RefineFacts StaticFacts Reach ReachFacts ProcessFacts SpellRun Reorder Dead ReorderRun ReorderFacts ReorderCheck Part PartRun PartFacts.
Import ListNotations.

(** * Equality of candidates *)
Fixpoint same_body (a b : abody) : bool :=
  match a, b with
  | ACall f, ACall g => Nat.eqb f g
  | ACreate f, ACreate g => Nat.eqb f g
  | AReuse f, AReuse g => Nat.eqb f g
  | AChain l, AChain k =>
      (fix go l k := match l, k with [], [] => true | a :: l, b :: k => same_body a b && go l k | _, _ => false end) l k
  | _, _ => false
  end.
Lemma same_body_eq : forall a b, same_body a b = true -> a = b.
Proof.
  induction a as [f|f|f|l IH] using abody_ind2; intros [g|g|g|k] H; cbn in H; try discriminate; try (apply Nat.eqb_eq in H; now subst).
  f_equal. revert k H. induction IH as [|a l Ha _ IHl]; intros [|b k] H; try discriminate; [reflexivity|].
  apply andb_true_iff in H. destruct H as [H1 H2]. f_equal; [now apply Ha|now apply IHl].
Qed.
Definition same_action (a b : action) : bool :=
  match a, b with NoAction, NoAction => true | Action t x, Action u y => Nat.eqb t u && same_body x y | _, _ => false end.
Lemma same_action_eq a b : same_action a b = true -> a = b.
Proof.
  destruct a as [|t x], b as [|u y]; cbn; try discriminate; [reflexivity|]. rewrite andb_true_iff, Nat.eqb_eq. intros [-> H]. now apply same_body_eq in H; subst.
Qed.
Definition guard_eq_dec : forall a b : guard, {a = b} + {a <> b}.
Proof. decide equality; apply Nat.eq_dec. Defined.
Definition same_xrow (x y : xrow) : bool :=
  Nat.eqb (x_parent x) (x_parent y) && (if sref_eq_dec (x_src x) (x_src y) then true else false) &&
  (if ev_eq_dec (x_ev x) (x_ev y) then true else false) && (if guard_eq_dec (x_guard x) (x_guard y) then true else false) &&
  same_action (x_act x) (x_act y) && (if sref_eq_dec (x_tgt x) (x_tgt y) then true else false) && Bool.eqb (x_int x) (x_int y).
Lemma same_xrow_eq x y : same_xrow x y = true -> x = y.
Proof.
  destruct x, y. unfold same_xrow. cbn. rewrite !andb_true_iff, Nat.eqb_eq, Bool.eqb_true_iff.
  destruct (sref_eq_dec _ _), (ev_eq_dec _ _), (guard_eq_dec _ _), (sref_eq_dec _ _); try (intuition discriminate).
  intros ((((((-> & _) & _) & _) & A) & _) & ->). apply same_action_eq in A. now subst.
Qed.
Definition same_cand (a b : cand) : bool :=
  match a, b with
  | CDefer, CDefer => true
  | CRow x o, CRow y p => same_xrow x y && (if sref_eq_dec o p then true else false)
  | _, _ => false
  end.
Lemma same_cand_eq a b : same_cand a b = true -> a = b.
Proof.
  destruct a as [|x o], b as [|y p]; cbn; try discriminate; [reflexivity|]. rewrite andb_true_iff. intros [H D].
  apply same_xrow_eq in H. destruct (sref_eq_dec o p); [now subst|discriminate].
Qed.

(** * The same choice *)
Fixpoint choice_ok (again : bool) (seen l l' : list cand) : bool :=
  match l with
  | [] => match l' with [] => true | _ => false end
  | c :: k =>
      match l' with
      | c' :: k' =>
          if same_cand c c' then decisive c || choice_ok again (c :: seen) k k'
          else again && existsb (same_cand c) seen && choice_ok again seen k l'
      | [] => again && existsb (same_cand c) seen && choice_ok again seen k l'
      end
  end.
Lemma seen_In c seen : existsb (same_cand c) seen = true -> In c seen.
Proof. intros H. apply existsb_exists in H. destruct H as (k & Hk & H). apply same_cand_eq in H. now subst. Qed.
Lemma choice_sound again : forall l seen l', choice_ok again seen l l' = true -> same_choice again seen l l'.
Proof.
  induction l as [|c l IH]; intros seen [|c' l'] H; cbn [choice_ok] in H; try discriminate.
  - constructor.
  - rewrite !andb_true_iff in H. destruct H as [[H1 H2] H3]. apply sc_copy; auto. now apply seen_In.
  - destruct (same_cand c c') eqn:Ec.
    + apply same_cand_eq in Ec. subst c'. apply orb_true_iff in H. destruct H as [H|H]; [now apply sc_last|apply sc_keep; auto].
    + rewrite !andb_true_iff in H. destruct H as [[H1 H2] H3]. apply sc_copy; auto. now apply seen_In.
Qed.

(** * The part *)
Definition inP (p : cls) (l : list cls) : bool := if in_dec Nat.eq_dec p l then true else false.
Definition inE (e : ev) (l : list ev) : bool := if in_dec ev_eq_dec e l then true else false.
Definition inS (s : sref) (l : list sref) : bool := if in_dec sref_eq_dec s l then true else false.
Definition inside_places (m m' : machine) : list place :=
  filter (fun pl => inS (snd pl) (states m)) (list_prod (parents m') (states m')).
Definition empty {A} (l : list A) : bool := match l with [] => true | _ => false end.
Definition choices_ok (again : bool) (evs : list ev) (m m' : machine) : bool :=
  forallb (fun e => forallb (fun pl => choice_ok again [] (cands m e pl) (cands m' e pl)) (inside_places m m'))
          (evs ++ if has_anonymous m then [ENone] else []).
Definition events_ok (evs : list ev) (m m' : machine) : bool := forallb (fun e => inE e (events m) && inE e (events m')) evs.
Definition completion_ok (m m' : machine) : bool :=
  negb (has_anonymous m) || has_anonymous m' || forallb (fun pl => empty (cands m' ENone pl)) (inside_places m m').
Definition regions_ok (m m' : machine) : bool :=
  forallb (fun p => Nat.eqb (length (initials (mc_env m') p)) 1) (parents m') ||
  (negb (has_history m) || has_history m') && (negb (parallel m) || parallel m').
Definition stays_ok (m' : machine) : bool := forallb (fun x => inP (resolve_dst_parent (mc_env m') x) (parents m')) (mc_flat m').
Definition handler_ok (m m' : machine) : bool :=
  Bool.eqb (cd_unexpected (lookup (mc_env m) (mc_root m))) (cd_unexpected (lookup (mc_env m') (mc_root m'))).
Definition used_ok (m m' : machine) : bool := inP (mc_root m') (parents m).
(** What is asked of the tables outside. *)
Definition leads (r : row) : option cls :=
  match r_tgt r with SState k | SEntry _ k _ | SDirect _ k _ | SHistory _ k => Some k | _ => None end.
Definition used_list (m : machine) : list cls :=
  mc_root m :: flat_map (fun x => match x_tgt x with
    | SState k | SEntry _ k _ | SDirect _ k _ | SHistory _ k => if is_composite (mc_env m) k then [k] else []
    | _ => [] end) (mc_flat m).
Definition outer_rows (m m' : machine) : list row :=
  flat_map (fun p => if inP p (used_list m') then [] else table (mc_env m) p) (parents m).
Definition within_ok (m m' : machine) : bool := negb (inP (mc_root m) (used_list m')).
Definition entrance_ok (m m' : machine) : bool :=
  forallb (fun r => match leads r with
    | Some k => negb (is_composite (mc_env m) k) || negb (inP k (used_list m')) || Nat.eqb k (mc_root m')
    | None => true end) (outer_rows m m').
Definition about (evs : list ev) (e : ev) : bool := inE e (ENone :: evs).
Definition rows_at_ok (evs : list ev) (m m' : machine) : bool :=
  forallb (fun r => negb (about evs (r_ev r)) || match r_src r with SState k => negb (inP k (used_list m')) | _ => true end) (outer_rows m m').
Definition pseudo_ok (evs : list ev) (m m' : machine) : bool :=
  forallb (fun r => negb (about evs (r_ev r)) ||
    match r_src r with SExit _ k _ | SDirect _ k _ => negb (inP k (used_list m')) | _ => true end) (outer_rows m m').
Definition quiet_ok (evs : list ev) (m m' : machine) : bool :=
  forallb (fun x => negb (about evs (x_ev x)) || if in_dec place_eq_dec (source_place x) (inside_places m m') then false else true)
    (flat_map (internal_of_pair (mc_env m)) (state_pairs m) ++ flat_map (internal_of_pair (mc_env m')) (state_pairs m')).

Definition part_ok (again : bool) (evs : list ev) (m m' : machine) : bool :=
  used_ok m m' && events_ok evs m m' && choices_ok again evs m m' && completion_ok m m' && regions_ok m m' && stays_ok m' && handler_ok m m'.
Definition part_check (again : bool) (evs : list ev) (env : cenv) (root c : cls) : bool :=
  match compile env root, compile env c with Some m, Some m' => part_ok again evs m m' | _, _ => false end.

Section Sound.
Variable evs : list ev.
Variable env : cenv.
Variable root c : cls.
Variable m m' : machine.
Hypothesis Hm : compile env root = Some m.
Hypothesis Hm' : compile env c = Some m'.
Notation E := (fun e => In e evs).
Let Hc : comp m. Proof. exact (proj1 (compile_comp _ _ _ Hm)). Qed.
Let Hc' : comp m'. Proof. exact (proj1 (compile_comp _ _ _ Hm')). Qed.
Let He : mc_env m = env. Proof. exact (proj1 (proj2 (compile_comp _ _ _ Hm))). Qed.
Let He' : mc_env m' = env. Proof. exact (proj1 (proj2 (compile_comp _ _ _ Hm'))). Qed.
Let Hr : mc_root m = root. Proof. exact (proj2 (proj2 (compile_comp _ _ _ Hm))). Qed.
Let Hr' : mc_root m' = c. Proof. exact (proj2 (proj2 (compile_comp _ _ _ Hm'))). Qed.

Let S : forall q, In q (states m) <-> is_state env root q. Proof. intros q. rewrite (state_iff m Hc q), He, Hr. reflexivity. Qed.
Let S' : forall q, In q (states m') <-> is_state env c q. Proof. intros q. rewrite (state_iff m' Hc' q), He', Hr'. reflexivity. Qed.
Let P : forall p, In p (parents m) <-> is_parent env root p. Proof. intros q. rewrite (parent_iff m Hc q), He, Hr. reflexivity. Qed.
Let P' : forall p, In p (parents m') <-> is_parent env c p. Proof. intros q. rewrite (parent_iff m' Hc' q), He', Hr'. reflexivity. Qed.
Let L : forall e pl cs, candidate_list env root e pl cs -> cs = cands m e pl.
Proof. intros e pl cs H. apply (candidate_list_cands m Hc). now rewrite He, Hr. Qed.
Let L' : forall e pl cs, candidate_list env c e pl cs -> cs = cands m' e pl.
Proof. intros e pl cs H. apply (candidate_list_cands m' Hc'). now rewrite He', Hr'. Qed.
Let I : forall pl, inside env root c pl -> In pl (inside_places m m').
Proof.
  intros [p q] [[I1 I2] [I3 I4]]. cbn in *. apply filter_In. split; [apply in_prod; [now apply P'|now apply S']|].
  unfold inS. cbn [snd]. destruct (in_dec sref_eq_dec q (states m)) as [|N]; [reflexivity|]. destruct N. now apply S.
Qed.
Lemma used_sound : used_ok m m' = true -> used env root c.
Proof. unfold used_ok, inP. destruct (in_dec Nat.eq_dec _ _) as [H|]; [|discriminate]. rewrite Hr' in H. apply P in H. intros _. exact (proj1 H). Qed.
Lemma events_sound : events_ok evs m m' = true -> own_events E env root c.
Proof.
  intros A2 e H. unfold events_ok in A2. rewrite forallb_forall in A2. specialize (A2 e H). apply andb_true_iff in A2. unfold inE in A2.
  destruct (in_dec ev_eq_dec e (events m)) as [B|], (in_dec ev_eq_dec e (events m')) as [B'|]; try (destruct A2; discriminate).
  split; [now apply (events_iff _ _ _ Hm)|now apply (events_iff _ _ _ Hm')].
Qed.
Lemma choices_sound again : choices_ok again evs m m' = true -> own_choices again E env root c.
Proof.
  intros A3 e pl cs cs' H Hi K K'. apply L in K. apply L' in K'. subst cs cs'. apply choice_sound.
  unfold choices_ok in A3. rewrite forallb_forall in A3. assert (In e (evs ++ if has_anonymous m then [ENone] else [])) as X.
  { apply in_app_iff. destruct H as [H|[-> H]]; [now left|right]. apply (anonymous_iff _ _ _ Hm) in H. rewrite H. now left. }
  specialize (A3 e X). rewrite forallb_forall in A3. auto.
Qed.
Lemma completion_sound : completion_ok m m' = true -> own_completion env root c.
Proof.
  intros A4 H. apply (anonymous_iff _ _ _ Hm) in H. unfold completion_ok in A4. rewrite H in A4. cbn in A4. apply orb_true_iff in A4. destruct A4 as [A4|A4].
  - left. now apply (anonymous_iff _ _ _ Hm').
  - right. intros pl cs Hi K. apply L' in K. subst cs. rewrite forallb_forall in A4. specialize (A4 pl (I pl Hi)). now destruct (cands m' ENone pl).
Qed.
Lemma regions_sound : regions_ok m m' = true -> own_regions env root c.
Proof.
  intros A5. apply orb_true_iff in A5. destruct A5 as [A5|A5].
  - left. intros p Hp. rewrite forallb_forall in A5. specialize (A5 p (proj2 (P' p) Hp)). apply Nat.eqb_eq in A5. now rewrite He', initials_spec in A5.
  - right. apply andb_true_iff in A5. destruct A5 as [B1 B2]. split.
    + intros H. apply (history_iff _ _ _ Hm) in H. rewrite H in B1. now apply (history_iff _ _ _ Hm').
    + intros H. apply (parallel_of env m root Hm) in H. rewrite H in B2. now apply (parallel_of env m' c Hm').
Qed.
Lemma stays_sound : stays_ok m' = true -> stays_inside env c.
Proof.
  intros A6 x pl Hx Ht. unfold stays_ok in A6. rewrite forallb_forall in A6. assert (Hf : In x (mc_flat m')) by (apply (flat_declared m' Hc'); now rewrite He', Hr').
  specialize (A6 x Hf). unfold inP in A6. destruct (in_dec Nat.eq_dec _ _) as [H|]; [|discriminate]. apply P' in H.
  destruct (resolve_dst_spec (mc_env m') x) as [_ T]. rewrite He' in *. now rewrite <- (T pl Ht).
Qed.
Lemma handler_sound : handler_ok m m' = true -> own_handler env root c.
Proof. intros A7. apply Bool.eqb_prop in A7. now rewrite He, He', Hr, Hr' in A7. Qed.

(** ** Outside *)
Lemma used_list_iff m0 k : comp m0 -> In k (used_list m0) <-> used (mc_env m0) (mc_root m0) k.
Proof.
  intros C. unfold used_list. cbn [In]. rewrite in_flat_map. split.
  - intros [<-|(x & Hx & H)]; [constructor|]. apply (flat_declared m0 C) in Hx. destruct Hx as (p & r & U & R & ->). cbn [x_tgt row_in] in H.
    assert (X : leads_into (r_tgt r) k /\ is_composite (mc_env m0) k = true).
    { destruct (r_tgt r) as [j|w j|w j s|w j s|w j s|w j]; try destruct H;
        (destruct (is_composite (mc_env m0) j) eqn:Ej; [destruct H as [<-|[]]; split; [constructor|exact Ej]|destruct H]). }
    destruct X as [X1 X2]. apply (used_sub _ _ p r k U R X1). now apply composite_b.
  - intros H. inversion H as [|p r k' U R X1 X2]; subst; [now left|right]. exists (row_in p r).
    split; [apply (flat_declared m0 C); exists p, r; auto|]. apply composite_b in X2. cbn [x_tgt row_in].
    destruct X1; rewrite X2; now left.
Qed.
Let U' : forall k, In k (used_list m') <-> used env c k. Proof. intros k. rewrite (used_list_iff m' k Hc'), He', Hr'. reflexivity. Qed.
Lemma inP_iff k l : inP k l = true <-> In k l.
Proof. unfold inP. destruct (in_dec Nat.eq_dec k l); split; auto; discriminate. Qed.
Lemma not_used k : negb (inP k (used_list m')) = true -> ~ used env c k.
Proof. intros H X. apply U', inP_iff in X. rewrite X in H. discriminate. Qed.
Lemma outer_In p r : outer env root c p -> In r (table env p) -> In r (outer_rows m m').
Proof.
  intros [O1 O2] Hr0. unfold outer_rows. apply in_flat_map. exists p. split.
  - apply P. split; [exact O1|]. intros X. now rewrite X in Hr0.
  - rewrite He. destruct (inP p (used_list m')) eqn:X; [|exact Hr0]. apply inP_iff, U' in X. contradiction.
Qed.
Lemma about_In e : In e evs \/ e = ENone -> about evs e = true.
Proof. intros H. unfold about, inE. destruct (in_dec ev_eq_dec e (ENone :: evs)) as [|N]; [reflexivity|]. destruct N. destruct H as [H| ->]; [now right|now left]. Qed.
Lemma within_sound : within_ok m m' = true -> ~ used env c root.
Proof. unfold within_ok. rewrite Hr. apply not_used. Qed.
Lemma entrance_sound : entrance_ok m m' = true -> one_entrance env root c.
Proof.
  intros A p r k O Hr0 Hl Hk U. unfold entrance_ok in A. rewrite forallb_forall in A. specialize (A r (outer_In p r O Hr0)).
  assert (X : leads r = Some k) by (unfold leads; destruct Hl; reflexivity). rewrite X, He, Hr' in A. apply composite_b in Hk. rewrite Hk in A.
  apply U', inP_iff in U. rewrite U in A. now apply Nat.eqb_eq.
Qed.
Lemma rows_at_sound : rows_at_ok evs m m' = true -> no_rows_at E env root c.
Proof.
  intros A p r k O Hr0 Hev Hs. unfold rows_at_ok in A. rewrite forallb_forall in A. specialize (A r (outer_In p r O Hr0)).
  rewrite (about_In _ Hev), Hs in A. now apply not_used.
Qed.
Lemma pseudo_sound : pseudo_ok evs m m' = true -> no_rows_at_pseudo E env root c.
Proof.
  intros A p r w q s O Hr0 Hev Hs. unfold pseudo_ok in A. rewrite forallb_forall in A. specialize (A r (outer_In p r O Hr0)).
  rewrite (about_In _ Hev) in A. apply not_used. now destruct Hs as [Hs|Hs]; rewrite Hs in A.
Qed.
Lemma quiet_sound : quiet_ok evs m m' = true -> no_internal_rows E env root c.
Proof.
  intros A x Hx Hev Hi. unfold quiet_ok in A. rewrite forallb_forall in A.
  assert (X : In x (flat_map (internal_of_pair (mc_env m)) (state_pairs m) ++ flat_map (internal_of_pair (mc_env m')) (state_pairs m'))).
  { apply in_app_iff. rewrite (internal_all_iff m Hc), (internal_all_iff m' Hc'), He, He', Hr, Hr'. exact Hx. }
  specialize (A x X). rewrite (about_In _ Hev) in A. destruct (in_dec _ _ _) as [|N]; [discriminate|]. apply N, I, Hi.
Qed.
End Sound.

Lemma part_sound again evs env root c : part_check again evs env root c = true -> self_contained again (fun e => In e evs) env root c.
Proof.
  unfold part_check. destruct (compile env root) as [m|] eqn:Hm; [|discriminate]. destruct (compile env c) as [m'|] eqn:Hm'; [|discriminate].
  unfold part_ok. rewrite !andb_true_iff. intros ((((((A1 & A2) & A3) & A4) & A5) & A6) & A7).
  constructor; eauto using used_sound, events_sound, choices_sound, completion_sound, regions_sound, stays_sound, handler_sound.
Qed.
Definition closed_ok (evs : list ev) (m m' : machine) : bool :=
  used_ok m m' && within_ok m m' && entrance_ok m m' && rows_at_ok evs m m' && pseudo_ok evs m m' && quiet_ok evs m m'.
Definition fitting_ok (evs : list ev) (m m' : machine) : bool :=
  events_ok evs m m' && completion_ok m m' && regions_ok m m' && stays_ok m' && handler_ok m m'.
Definition closed_check (evs : list ev) (env : cenv) (root c : cls) : bool :=
  match compile env root, compile env c with Some m, Some m' => closed_ok evs m m' && fitting_ok evs m m' | _, _ => false end.
Lemma closed_sound evs env root c : closed_check evs env root c = true ->
  closed (fun e => In e evs) env root c /\ fitting (fun e => In e evs) env root c.
Proof.
  unfold closed_check. destruct (compile env root) as [m|] eqn:Hm; [|discriminate]. destruct (compile env c) as [m'|] eqn:Hm'; [|discriminate].
  unfold closed_ok, fitting_ok. rewrite !andb_true_iff. intros ((((((A1 & A2) & A3) & A4) & A5) & A6) & ((((B1 & B2) & B3) & B4) & B5)).
  split; constructor; eauto using used_sound, within_sound, entrance_sound, rows_at_sound, pseudo_sound, quiet_sound,
    events_sound, completion_sound, regions_sound, stays_sound, handler_sound.
Qed.

(** * Just entered *)
Definition entered_ok (m m' : machine) (n : nat) {V W} (s : rt V W) : bool :=
  let env := mc_env m' in let c := mc_root m' in
  let at_ok (r : nat) (i : sref) := match at_place m s r with Some pl => if place_eq_dec pl (c, i) then true else false | None => false end in
  let numbered (p : cls) := combine (seq 0 (length (initial_states env p))) (initial_states env p) in
  forallb (fun ri => at_ok (fst ri) (snd ri)) (numbered c) &&
  forallb (fun r => match nth_error (rt_cur s) r with Some None => true | _ => false end)
          (seq (length (initial_states env c)) (n - length (initial_states env c))) &&
  empty (rt_queue s) && Nat.eqb (active m s) (length (initial_states env c)) &&
  (negb (has_history m') ||
   forallb (fun p => forallb (fun ri =>
     match remembered m s p (fst ri) with Some pl => if place_eq_dec pl (p, snd ri) then true else false | None => false end) (numbered p)) (parents m')) &&
  forallb (fun o => Bool.eqb (inS o (rt_live s)) (default_constructible env o)) (filter (fun o => inS o (states m)) (states m')).
Lemma numbered_In {A} (l : list A) : forall k r i, nth_error l r = Some i -> In (k + r, i) (combine (seq k (length l)) l).
Proof.
  induction l as [|a l IH]; intros k [|r] i H; try discriminate; cbn in *.
  - injection H as ->. left. now rewrite Nat.add_0_r.
  - right. specialize (IH (S k) r i H). now rewrite Nat.add_succ_comm in IH.
Qed.
Lemma entered_sound env root c m m' n V W (s : rt V W) : compile env root = Some m -> compile env c = Some m' -> entered_ok m m' n s = true ->
  just_entered env root c m n s.
Proof.
  intros Hm Hm' H. destruct (compile_comp _ _ _ Hm) as (Hc & He & Hr). destruct (compile_comp _ _ _ Hm') as (Hc' & He' & Hr').
  unfold entered_ok in H. rewrite He', Hr', !andb_true_iff in H. destruct H as (((((A1 & A2) & A3) & A4) & A5) & A6).
  rewrite forallb_forall in A1, A2, A6. constructor.
  - intros r i Hi. specialize (A1 (r, i) (numbered_In _ 0 r i Hi)). cbn [fst snd] in A1.
    destruct (at_place m s r) as [pl|]; [|discriminate]. destruct (place_eq_dec pl (c, i)) as [->|]; [reflexivity|discriminate].
  - intros r [Hl Hu]. specialize (A2 r). unfold uninitialised. destruct (nth_error (rt_cur s) r) as [[a|]|]; [|reflexivity|].
    + discriminate A2. apply in_seq. lia.
    + discriminate A2. apply in_seq. lia.
  - now destruct (rt_queue s).
  - now apply Nat.eqb_eq.
  - intros R p r i Hp Hi. apply (history_iff _ _ _ Hm') in R. rewrite R in A5. cbn [negb orb] in A5. rewrite forallb_forall in A5.
    assert (Q : In p (parents m')) by (apply (parent_iff m' Hc'); now rewrite He', Hr'). specialize (A5 p Q). rewrite forallb_forall in A5.
    specialize (A5 (r, i) (numbered_In _ 0 r i Hi)). cbn [fst snd] in A5.
    destruct (remembered m s p r) as [pl|]; [|discriminate]. destruct (place_eq_dec pl (p, i)) as [->|]; [reflexivity|discriminate].
  - intros o [Ho Ho']. specialize (A6 o). assert (X : In o (filter (fun o => inS o (states m)) (states m'))).
    { apply filter_In. split; [apply (state_iff m' Hc'); now rewrite He', Hr'|]. unfold inS.
      destruct (in_dec sref_eq_dec o (states m)) as [|N]; [reflexivity|]. destruct N. apply (state_iff m Hc). now rewrite He, Hr. }
    specialize (A6 X). apply Bool.eqb_prop in A6. rewrite <- A6. unfold inS. destruct (in_dec sref_eq_dec o (rt_live s)); split; auto; discriminate.
Qed.
Definition own_ok (evs : list ev) (m m' : machine) (n : nat) {V} (k : call V) : bool :=
  match k with
  | KProcess e _ => inE e evs
  | KIs r _ _ => Nat.ltb (r mod 256) n
  | KParentIs _ => true
  | KSet r p q => Nat.ltb (r mod 256) n && if in_dec place_eq_dec (p, q) (inside_places m m') then true else false
  | KSetDep _ => true
  | KStatus => false
  end.
Lemma inside_In env root c m m' pl : compile env root = Some m -> compile env c = Some m' -> used env root c -> In pl (inside_places m m') -> inside env root c pl.
Proof.
  intros Hm Hm' U H. destruct (compile_comp _ _ _ Hm) as (Hc & He & Hr). destruct (compile_comp _ _ _ Hm') as (Hc' & He' & Hr').
  destruct pl as [p q]. apply filter_In in H. destruct H as [H1 H2]. apply in_prod_iff in H1. destruct H1 as [Hp Hq].
  unfold inS in H2. cbn [snd] in H2. destruct (in_dec sref_eq_dec q (states m)) as [Hq0|]; [|discriminate].
  apply (parent_iff m' Hc') in Hp. apply (state_iff m' Hc') in Hq. apply (state_iff m Hc) in Hq0. rewrite He', Hr' in *. rewrite He, Hr in *.
  split; split; auto. eapply part_parent; eauto.
Qed.
Lemma own_sound env root c m m' evs n V (k : call V) : compile env root = Some m -> compile env c = Some m' -> used env root c ->
  own_ok evs m m' n k = true -> own_call (fun e => In e evs) env root c n k.
Proof.
  intros Hm Hm' U H. destruct k as [e v|r p q|p|r p q|d|]; cbn [own_ok own_call] in *; auto; try discriminate.
  - unfold inE in H. destruct (in_dec ev_eq_dec e evs); [assumption|discriminate].
  - now apply Nat.ltb_lt.
  - apply andb_true_iff in H. destruct H as [H1 H2]. apply Nat.ltb_lt in H1. split; [exact H1|].
    destruct (in_dec place_eq_dec (p, q) (inside_places m m')) as [Hi|]; [|discriminate]. eapply inside_In; eauto.
Qed.
