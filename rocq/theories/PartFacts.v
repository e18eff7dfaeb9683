(** A composite as a machine of its own: what the machines of PartRun.v have in common. *)

From Coq Require Import List Arith NArith Bool Lia.
From Verif Require Import Dsl Types Static Dispatch Runtime ListFacts IndexFacts Spec DispatchFacts FlattenFacts
  Semantics RefineFacts StaticFacts Reach ReachFacts ProcessFacts QueueFacts HistFacts SpellRun Reorder Dead ReorderRun Part PartRun.
Import ListNotations.

Lemma used_trans env a b c : used env a b -> used env b c -> used env a c.
Proof. intros H H'. induction H' as [|p r c Hp IH Hr Hl Hc]; [exact H|]. econstructor; eauto. Qed.
Lemma part_parent env root c p : used env root c -> is_parent env c p -> is_parent env root p.
Proof. intros U [H T]. split; [eapply used_trans; eauto|exact T]. Qed.
Lemma part_declared env root c x : used env root c -> declared env c x -> declared env root x.
Proof. intros U (p & r & H & Hr & E). exists p, r. split; [eapply used_trans; eauto|auto]. Qed.

Section Part.
Variable again : bool.
Variable E : ev -> Prop.
Variable env : cenv.
Variable root c : cls.
Variable m m' : machine.
Hypothesis Hm : compile env root = Some m.
Hypothesis Hm' : compile env c = Some m'.
Hypothesis Hself : self_contained again E env root c.
Context {V W : Type}.
Variable cb : cbfun V W.
Variable vnone : V.
Hypothesis Hlook : again = true -> guards_look cb.
Variable pre : list (called V).

Lemma facts : comp m /\ comp m' /\ mc_env m = env /\ mc_env m' = env /\ mc_root m = root /\ mc_root m' = c.
Proof.
  destruct (compile_comp _ _ _ Hm) as (Hc & He & Hr). destruct (compile_comp _ _ _ Hm') as (Hc' & He' & Hr'). tauto.
Qed.
Lemma inn_iff q : inn m m' q <-> inner env root c q.
Proof.
  destruct facts as (Hc & Hc' & He & He' & Hr & Hr'). unfold inn, inner. pose proof (state_iff m Hc q) as A. pose proof (state_iff m' Hc' q) as A'.
  rewrite He, Hr in A. rewrite He', Hr' in A'. tauto.
Qed.
Lemma par_iff p : In p (parents m') <-> is_parent env c p.
Proof. destruct facts as (Hc & Hc' & He & He' & Hr & Hr'). pose proof (parent_iff m' Hc' p) as A. now rewrite He', Hr' in A. Qed.
Lemma par_m p : In p (parents m) <-> is_parent env root p.
Proof. destruct facts as (Hc & Hc' & He & He' & Hr & Hr'). pose proof (parent_iff m Hc p) as A. now rewrite He, Hr in A. Qed.
Lemma par_sub p : In p (parents m') -> In p (parents m).
Proof. intros H. apply par_m. apply par_iff in H. eapply part_parent; [apply Hself|exact H]. Qed.
Lemma inside_iff p q : In p (parents m') /\ inn m m' q <-> inside env root c (p, q).
Proof.
  unfold inside, is_place. cbn. rewrite par_iff, inn_iff. unfold inner. split; [|tauto].
  intros (H & A & B). split; split; auto. eapply part_parent; [apply Hself|exact H].
Qed.
Lemma list_m e pl : candidate_list env root e pl (cands m e pl).
Proof. destruct facts as (Hc & Hc' & He & He' & Hr & Hr'). pose proof (proj2 (candidate_list_cands m Hc e pl _) eq_refl) as A. now rewrite He, Hr in A. Qed.
Lemma list_m' e pl : candidate_list env c e pl (cands m' e pl).
Proof. destruct facts as (Hc & Hc' & He & He' & Hr & Hr'). pose proof (proj2 (candidate_list_cands m' Hc' e pl _) eq_refl) as A. now rewrite He', Hr' in A. Qed.
Lemma parallel_of k r (Hk : compile env r = Some k) : parallel k = true <-> parallels env r.
Proof.
  destruct (compile_comp _ _ _ Hk) as (Hc & He & Hr). unfold parallel, parallels, max_initials. rewrite Nat.ltb_lt, He.
  assert (P : forall p, In p (parents k) <-> is_parent env r p) by (intros p; rewrite (parent_iff k Hc), He, Hr; reflexivity).
  assert (G : forall l, 1 < fold_right Nat.max 0 (map (fun p => length (initials env p)) l) <-> exists p, In p l /\ 1 < length (initials env p)).
  { induction l as [|p l IH]; cbn [map fold_right]; [split; [lia|intros (p & [] & _)]|]. split.
    - intros H. destruct (le_lt_dec 2 (length (initials env p))); [exists p; split; [now left|lia]|].
      destruct (proj1 IH) as (q & Hq & L); [lia|]. exists q. split; [now right|exact L].
    - intros (q & [<-|Hq] & L); [lia|]. assert (1 < fold_right Nat.max 0 (map (fun p => length (initials env p)) l)) by (apply IH; eauto). lia. }
  rewrite G. split; intros (p & Hp & L); exists p; rewrite initials_spec in *; split; auto; now apply P.
Qed.
Lemma sub_history : has_history m' = true -> has_history m = true.
Proof.
  rewrite (history_iff _ _ _ Hm), (history_iff _ _ _ Hm'). intros (x & w & p & Hx & T). exists x, w, p. split; [|exact T]. eapply part_declared; [apply Hself|exact Hx].
Qed.
Lemma sub_parallel : parallel m' = true -> parallel m = true.
Proof.
  rewrite (parallel_of m root Hm), (parallel_of m' c Hm'). intros (p & Hp & L). exists p. split; [|exact L]. eapply part_parent; [apply Hself|exact Hp].
Qed.

Lemma part_run fuel ks s s' : Forall (own m m' E) ks -> sim m m' again E pre s s' ->
  rs m m' again E pre eq (run cb m vnone fuel ks s) (run cb m' vnone fuel ks s').
Proof.
  destruct facts as (Hc & Hc' & He & He' & Hr & Hr'). pose proof (pt_used _ _ _ _ _ Hself) as U. apply run_s; auto.
  - congruence.
  - apply par_sub.
  - intros x Hx. pose proof (cp_rows m' Hc' x (proj2 (in_app_iff _ _ _) (or_introl Hx))) as Ha.
    destruct (dst_of_target m' x (row_accepted_dst m' x Ha)) as [_ Et]. rewrite He in *. rewrite He' in *.
    apply par_iff. apply (pt_stays _ _ _ _ _ Hself x (resolve_dst_parent env x, dst_of m' x)); [|exact Et].
    rewrite <- He', <- Hr'. now apply (flat_declared m' Hc').
  - intros e H. apply (pt_events _ _ _ _ _ Hself) in H. now rewrite (events_iff _ _ _ Hm), (events_iff _ _ _ Hm').
  - intros e p q H Hp Hq. apply (pt_choice _ _ _ _ _ Hself e (p, q)); [|now apply inside_iff|apply list_m|apply list_m'].
    unfold completes. now rewrite <- (anonymous_iff _ _ _ Hm).
  - intros Ha. split; [apply (events_iff _ _ _ Hm); apply (anonymous_iff _ _ _ Hm) in Ha; destruct Ha as (x & Hx & Ex); exists x; auto|].
    destruct (Bool.bool_dec (has_anonymous m') true) as [Ha'|Ha'].
    + left. split; [exact Ha'|]. apply (events_iff _ _ _ Hm'). apply (anonymous_iff _ _ _ Hm') in Ha'. destruct Ha' as (x & Hx & Ex). exists x. auto.
    + right. apply not_true_is_false in Ha'. split; [exact Ha'|]. intros p q Hp Hq.
      destruct (pt_completion _ _ _ _ _ Hself) as [X|X]; [now apply (anonymous_iff _ _ _ Hm)| |].
      * apply (anonymous_iff _ _ _ Hm') in X. congruence.
      * apply (X (p, q)); [now apply inside_iff|apply list_m'].
  - rewrite (anonymous_iff _ _ _ Hm), (anonymous_iff _ _ _ Hm'). intros (x & Hx & Ex). exists x. split; [|exact Ex]. eapply part_declared; eauto.
  - rewrite (deferred_iff _ _ _ Hm), (deferred_iff _ _ _ Hm'). intros (x & k & l & Hx & Ex). exists x, k, l. split; [|exact Ex]. eapply part_declared; eauto.
  - apply sub_history.
  - intros x w p Hx T. apply (history_iff _ _ _ Hm'). exists x, w, p. split; [|exact T]. rewrite <- He', <- Hr'. now apply (flat_declared m' Hc').
  - intros e pl H. destruct (has_deferred m') eqn:D; [reflexivity|]. destruct (no_deferral _ _ _ Hm' e pl D H).
  - destruct (pt_regions _ _ _ _ _ Hself) as [O|[R P]]; [left|right; split; apply bool_iff; split].
    + intros p Hp. rewrite He, initials_spec. apply O. now apply par_iff.
    + apply sub_parallel.
    + rewrite (parallel_of m root Hm), (parallel_of m' c Hm'). exact P.
    + apply sub_history.
    + rewrite (history_iff _ _ _ Hm), (history_iff _ _ _ Hm'). exact R.
  - rewrite He, Hr, Hr'. apply Hself.
Qed.

Lemma place_of k r (Hk : compile env r = Some k) (s : rt V W) i p q : at_place k s i = Some (p, q) -> nth_error (rt_cur s) i = Some (Some (combined_idx k p q)).
Proof.
  destruct (compile_comp _ _ _ Hk) as (Hc & He & Hr). intros H. unfold at_place in H.
  destruct (nth_error (rt_cur s) i) as [[a|]|] eqn:N; try discriminate. apply (place_code k Hc) in H. rewrite <- (code_combined k Hc), H. reflexivity.
Qed.
Lemma hist_shape k r (Hk : compile env r = Some k) ds d0 (s : rt V W) p : tinv k ds d0 s -> In p (parents k) ->
  exists l, nth_error (rt_hist s) (parent_pos k p) = Some l /\ length l = length (initials env p).
Proof.
  destruct (compile_comp _ _ _ Hk) as (Hc & He & Hr). intros T Hp. pose proof (ti_hist _ _ _ _ T) as L.
  pose proof (initial_table_nth k Hc p Hp) as I. apply (map_nth_error (@length N)) in I. rewrite <- L, nth_error_map in I.
  destruct (nth_error (rt_hist s) (parent_pos k p)) as [l|]; [|discriminate]. cbn in I. injection I as I. exists l. split; [reflexivity|].
  now rewrite I, map_length, He.
Qed.
Lemma step_sim ds d0 s s' : running cb env root m vnone ds d0 s -> running cb env c m' vnone ds d0 s' ->
  in_step again E env root c m m' pre s s' -> sim m m' again E pre s s'.
Proof.
  intros R R' S. destruct facts as (Hc & Hc' & He & He' & Hr & Hr').
  pose proof (running_rinvs _ _ _ _ _ _ _ _ R) as [T _ _]. pose proof (running_rinvs _ _ _ _ _ _ _ _ R') as [T' I' _].
  pose proof (ti_cur _ _ _ _ T') as L. constructor.
  - exact L.
  - intros r Hlt. rewrite <- L in Hlt. destruct (is_place_of _ _ _ _ _ _ _ _ _ _ S r Hlt) as [([p q] & Hi & A & A')|[A A']].
    + apply inside_iff in Hi. apply (place_of m root Hm) in A. apply (place_of m' c Hm') in A'. do 2 eexists. split; [exact A|]. split; [exact A'|]. now constructor.
    + exists None, None. split; [exact A|]. split; [exact A'|exact I].
  - apply (is_somewhere _ _ _ _ _ _ _ _ _ _ S).
  - intros Hh p Hp. pose proof Hp as Hp0. apply par_iff in Hp0.
    destruct (hist_shape m root Hm ds d0 s p T (par_sub p Hp)) as (l & N & Ll). destruct (hist_shape m' c Hm' ds d0 s' p T' Hp) as (l' & N' & Ll').
    exists l, l'. split; [exact N|]. split; [exact N'|].
    assert (G : forall r, r < length (initials env p) -> exists a a', nth_error l r = Some a /\ nth_error l' r = Some a' /\ csim m m' a a').
    { intros r Hlt. rewrite initials_spec in Hlt.
      destruct (is_history_of _ _ _ _ _ _ _ _ _ _ S (proj1 (history_iff _ _ _ Hm') Hh) p r Hp0 Hlt) as ([p0 q] & Hi & A & A').
      unfold remembered, history_of in A, A'. rewrite N in A. rewrite N' in A'.
      destruct (nth_error l r) as [a|] eqn:Na; [|discriminate]. destruct (nth_error l' r) as [a'|] eqn:Na'; [|discriminate].
      exists a, a'. split; [reflexivity|]. split; [reflexivity|]. apply (place_code m Hc) in A. apply (place_code m' Hc') in A'.
      rewrite (code_combined m Hc) in A. rewrite (code_combined m' Hc') in A'. subst a a'. apply inside_iff in Hi. now constructor. }
    rewrite <- Ll in G. assert (length l = length l') as Le by congruence. clear - G Le.
    revert l' Le G. induction l as [|a l IH]; intros [|a' l'] Le G; try discriminate; constructor.
    + destruct (G 0) as (b & b' & X & X' & C); [cbn; lia|]. cbn in X, X'. congruence.
    + apply IH; [cbn in Le; lia|]. intros r Hlt. apply (G (S r)). cbn. lia.
  - intros p Hp. rewrite He. apply (hist_shape m root Hm ds d0 s p T (par_sub p Hp)).
  - apply (is_waiting _ _ _ _ _ _ _ _ _ _ S).
  - apply (is_own _ _ _ _ _ _ _ _ _ _ S).
  - destruct R' as (_ & Hfew & Hr0). apply (queue_balance cb m' vnone env c Hm' Hfew ds d0 s' Hr0).
  - exact (is_active _ _ _ _ _ _ _ _ _ _ S).
  - unfold current_regions. destruct (parallel m') eqn:P; [apply I'|]. pose proof (cp_max m' Hc'). lia.
  - intros o Ho. apply (is_objects _ _ _ _ _ _ _ _ _ _ S). now apply inn_iff.
  - exists ds. split; [apply T|apply T'].
  - intros Hu. exists d0. split; [now apply (ti_htabs _ _ _ _ T)|]. apply (ti_htabs _ _ _ _ T').
    rewrite He', Hr', <- (pt_handler _ _ _ _ _ Hself), <- He, <- Hr. exact Hu.
  - apply (is_world _ _ _ _ _ _ _ _ _ _ S).
  - apply (is_calls _ _ _ _ _ _ _ _ _ _ S).
Qed.
Lemma sim_step (s s' : rt V W) : sim m m' again E pre s s' -> in_step again E env root c m m' pre s s'.
Proof.
  intros S. destruct facts as (Hc & Hc' & He & He' & Hr & Hr'). destruct S; constructor; auto.
  - intros r Hlt. rewrite si_len in Hlt. destruct (si_cur r Hlt) as (a & a' & N & N' & C). unfold at_place, uninitialised. rewrite N, N'.
    destruct a as [a|], a' as [a'|]; cbn in C; try tauto. left. destruct C as [p q Hp Hq]. exists (p, q). split; [now apply inside_iff|].
    pose proof Hq as [Q Q']. split; [apply (places_at_combined m Hc)|apply (places_at_combined m' Hc')]; auto. now apply par_sub.
  - intros Hh p r Hp Hlt. apply (history_iff _ _ _ Hm') in Hh. pose proof (proj2 (par_iff p) Hp) as Hp0.
    destruct (si_hist Hh p Hp0) as (l & l' & N & N' & F). destruct (si_shape p Hp0) as (l0 & N0 & L0). rewrite N in N0. injection N0 as <-.
    rewrite He, initials_spec in L0. pose proof (Forall2_nth _ _ _ F r) as G. unfold remembered, history_of. rewrite N, N'.
    destruct (nth_error l r) as [a|] eqn:Na; [|apply nth_error_None in Na; lia]. destruct (nth_error l' r) as [a'|]; [|destruct G].
    destruct G as [p0 q Hp1 Hq]. exists (p0, q). split; [now apply inside_iff|]. pose proof Hq as [Q Q'].
    split; [apply (places_at_combined m Hc)|apply (places_at_combined m' Hc')]; auto. now apply par_sub.
  - intros o Ho. apply si_live. now apply inn_iff.
Qed.
Lemma run_part ds d0 s s' fuel ks : running cb env root m vnone ds d0 s -> running cb env c m' vnone ds d0 s' ->
  in_step again E env root c m m' pre s s' -> Forall (own_call E env root c (length (rt_cur s'))) ks ->
  same_run again E env root c m m' pre (run cb m vnone fuel ks s) (run cb m' vnone fuel ks s').
Proof.
  intros R R' S O. pose proof (step_sim ds d0 s s' R R' S) as S0.
  assert (O' : Forall (own m m' E) ks).
  { eapply Forall_impl; [|exact O]. pose proof (si_len _ _ _ _ _ _ _ S0) as L. intros [e v|r p q|p|r p q|d|]; cbn [own_call own]; rewrite ?L; auto.
    intros [H Hi]. apply inside_iff in Hi. tauto. }
  assert (N : forall x (t : rt V W), run cb m' vnone fuel ks s' <> Threw x t).
  { intros x t. clear. revert s'. induction ks as [|k ks IH]; intros s' X; [discriminate|]. cbn [run] in X.
    unfold do_call_catch in X. destruct (do_call cb m' vnone fuel k s') as [o s1|x1 s1|u|]; cbn [bind] in X; try discriminate;
      destruct (run cb m' vnone fuel ks s1) as [os s2|x2 s2|u|] eqn:Y; cbn [bind] in X; try discriminate; injection X as -> ->; now apply (IH _ Y). }
  destruct (part_run fuel ks s s' O' S0) as [os os' t t' <- S1|x t t' S1|u|]; [|now destruct (N x t')| |]; constructor. now apply sim_step.
Qed.
End Part.

(** * A whole that has just entered the part *)
Section Start.
Variable again : bool.
Variable E : ev -> Prop.
Variable env : cenv.
Variable root c : cls.
Variable m m' : machine.
Hypothesis Hm : compile env root = Some m.
Hypothesis Hm' : compile env c = Some m'.
Hypothesis Hself : self_contained again E env root c.
Context {V W : Type}.
Lemma start_step fuel d (s s' : rt V W) : few_regions env c -> construct m' fuel d (rt_world s) = Done tt s' ->
  just_entered env root c m (length (rt_cur s')) s -> in_step again E env root c m m' (counted again (rt_trace s)) s s'.
Proof.
  intros Hfew Hn J. destruct (facts env root c m m' Hm Hm') as (Hc & Hc' & He & He' & Hr & Hr').
  pose proof (root_parent m' Hc') as Pr. rewrite Hr' in Pr. pose proof (proj1 (par_iff env root c m m' Hm Hm' c) Pr) as Pc.
  destruct (construct_sound m' Hc' fuel d (rt_world s) s') as [F F0]; [rewrite He', Hr', initials_spec; now apply Hfew|exact Hn|].
  destruct F as (F1 & F2 & F3 & F4 & F5 & F6 & _ & _ & F7 & F8). rewrite He', Hr', initials_spec in *.
  assert (I : forall p i, is_parent env c p -> In i (initial_states env p) -> inside env root c (p, i)).
  { intros p i Hp Hi. rewrite <- initials_spec in Hi. pose proof (par_sub again E env root c m m' Hm Hm' Hself p (proj2 (par_iff env root c m m' Hm Hm' p) Hp)) as Q.
    apply (inside_iff again E env root c m m' Hm Hm' Hself). split; [now apply (par_iff env root c m m' Hm Hm')|].
    split; [apply (initials_states m Hc p); rewrite ?He; auto|apply (initials_states m' Hc' p); rewrite ?He'; auto]. now apply (par_iff env root c m m' Hm Hm'). }
  assert (A : forall r i, nth_error (initial_states env c) r = Some i -> at_place m' s' r = Some (c, i)).
  { intros r i Hi. unfold at_place. rewrite F2, Hi. pose proof (I c i Pc (nth_error_In _ _ Hi)) as Hin.
    apply (inside_iff again E env root c m m' Hm Hm' Hself) in Hin. apply (decode_code m' Hc'); [exact Pr|apply Hin]. }
  constructor.
  - intros r Hlt. destruct (nth_error (initial_states env c) r) as [i|] eqn:Ei.
    + left. exists (c, i). split; [apply I; [exact Pc|eapply nth_error_In; eauto]|]. split; [now apply (je_place _ _ _ _ _ _ J)|now apply A].
    + right. split; [apply (je_nowhere _ _ _ _ _ _ J); split; [now apply nth_error_None|exact Hlt]|].
      unfold uninitialised. rewrite F2, Ei. rewrite F1 in Hlt. now apply Nat.ltb_lt in Hlt as ->.
  - unfold uninitialised. rewrite F2. pose proof (je_active _ _ _ _ _ _ J) as Ac. unfold active in Ac.
    destruct (initial_states env c) as [|i l] eqn:Ei; [|cbn; congruence]. exfalso. cbn [length] in Ac.
    destruct (parallel m) eqn:Pm; [|discriminate]. pose proof (cp_max m' Hc') as Mx.
    destruct (pt_regions _ _ _ _ _ Hself) as [O|[_ P]]; [specialize (O c Pc); rewrite Ei in O; discriminate|].
    apply F0; [|reflexivity]. apply (parallel_of env m' c Hm'). apply P. now apply (parallel_of env m root Hm).
  - intros R p r Hp Hlt. destruct (nth_error (initial_states env p) r) as [i|] eqn:Ei; [|apply nth_error_None in Ei; lia].
    exists (p, i). pose proof (I p i Hp (nth_error_In _ _ Ei)) as Hin. split; [exact Hin|]. split; [now apply (je_history _ _ _ _ _ _ J)|].
    apply (inside_iff again E env root c m m' Hm Hm' Hself) in Hin. destruct Hin as [H1 H2].
    unfold remembered, history_of. rewrite F3, (initial_table_nth m' Hc' p H1), He', initials_spec, nth_error_map, Ei. cbn.
    apply (decode_code m' Hc'); [exact H1|apply H2].
  - now rewrite F4, (je_waiting _ _ _ _ _ _ J).
  - rewrite F4. intros e v [].
  - rewrite (je_active _ _ _ _ _ _ J). unfold active. rewrite F5. destruct (parallel m') eqn:P; [reflexivity|].
    pose proof (je_active _ _ _ _ _ _ J) as Ac. unfold active in Ac.
    destruct (parallel m) eqn:Pm; [|now symmetry]. destruct (pt_regions _ _ _ _ _ Hself) as [O|[_ Q]]; [now apply O|].
    rewrite (proj2 (parallel_of env m' c Hm')) in P; [discriminate|]. apply Q. now apply (parallel_of env m root Hm).
  - intros o Ho. rewrite (je_objects _ _ _ _ _ _ J o Ho), F6, filter_In. change (defctor env o) with (default_constructible env o).
    pose proof (proj2 (inn_iff env root c m m' Hm Hm' o) Ho) as [_ Q]. tauto.
  - now symmetry.
  - rewrite F8. unfold counted at 3. destruct again; cbn; now rewrite app_nil_r.
Qed.
Variable cb : cbfun V W.
Variable vnone : V.
Hypothesis Hlook : again = true -> guards_look cb.
Lemma entered_run fuel0 fuel d ks (s s' : rt V W) : running cb env root m vnone [d] d s -> few_regions env c ->
  construct m' fuel0 d (rt_world s) = Done tt s' -> just_entered env root c m (length (rt_cur s')) s ->
  Forall (own_call E env root c (length (rt_cur s'))) ks ->
  same_run again E env root c m m' (counted again (rt_trace s)) (run cb m vnone fuel ks s) (run cb m' vnone fuel ks s').
Proof.
  intros R Hfew Hn J O. apply (run_part again E env root c m m' Hm Hm' Hself cb vnone Hlook _ [d] d); auto.
  - split; [exact Hm'|]. split; [exact Hfew|]. eapply reach_new; eauto.
  - eapply start_step; eauto.
Qed.
End Start.
