(** Proofs about Restore.v. *)

From Coq Require Import List Arith NArith Bool Lia.
From Verif Require Import Types Static Dispatch Runtime ListFacts IndexFacts Spec
  DispatchFacts FlattenFacts Semantics RefineFacts StaticFacts TermFacts Reach ReachFacts TableFacts
  QueryFacts ProcessFacts RegionFacts CallFacts StepFacts QueueFacts Data DataUse SymTree Graph BalanceFacts StateData StateDataFacts Restore.
Import ListNotations.

(** * What happened before has no influence *)
Section Past.
Context {V W : Type}.
Variable cb : cbfun V W.
Definition past (tr : list (called V)) (s : rt V W) : rt V W :=
  mkRt (rt_cur s) (rt_hist s) (rt_queue s) (rt_regions s) (rt_live s) (rt_tabs s) (rt_htabs s) (rt_world s) (tr ++ rt_trace s).
Definition past_res {A} (tr : list (called V)) (r : res V W A) : res V W A :=
  match r with Done a s => Done a (past tr s) | Threw x s => Threw x (past tr s) | Undef u => Undef u | Timeout => Timeout end.
Lemma interp_past {S} (t : tree S) : forall n vals w tr0 tr, interp cb n vals t w (tr0 ++ tr) = past_res tr0 (interp cb n vals t w tr).
Proof.
  induction t as [l|c a i x yes IHy no IHn]; intros n vals w tr0 tr; cbn [interp].
  - destruct l; reflexivity.
  - destruct (cb c a (vals i) w) as [b v w'|k v w'].
    + rewrite <- app_assoc. destruct b; auto.
    + rewrite <- app_assoc. reflexivity.
Qed.
Lemma call_past m vnone fuel k s tr : do_call cb m vnone fuel k (past tr s) = past_res tr (do_call cb m vnone fuel k s).
Proof.
  set (v := match k with KProcess _ v => v | _ => vnone end).
  set (k0 := with_payload (fun _ => 1) k : call nat).
  assert (K : call_fits (2 + length (rt_queue s)) k0) by (unfold k0; destruct k; cbn; auto; lia).
  pose proof (call_a m fuel k0 (2 + length (rt_queue s)) (bones s) (Nat.lt_0_succ _) K) as A.
  destruct (A (Nat.lt_0_succ _) (bones_numbered s)) as (t & _ & E).
  pose proof (E V W cb (flesh vnone v s) (rt_world s) (rt_trace s)) as E1.
  pose proof (E V W cb (flesh vnone v s) (rt_world s) (tr ++ rt_trace s)) as E2.
  rewrite interp_past, <- E1 in E2. rewrite fill_bones in E2.
  change (fill (flesh vnone v s) (bones s) (rt_world s) (tr ++ rt_trace s)) with (past tr (fill (flesh vnone v s) (bones s) (rt_world s) (rt_trace s))) in E2.
  rewrite fill_bones in E2. change (flesh vnone v s 0) with vnone in E2.
  replace (with_payload (flesh vnone v s) k0) with k in E2; [exact E2|]. destruct k; reflexivity.
Qed.
Lemma catch_past m vnone fuel k s tr : do_call_catch cb m vnone fuel k (past tr s) = past_res tr (do_call_catch cb m vnone fuel k s).
Proof. unfold do_call_catch. rewrite call_past. destruct (do_call cb m vnone fuel k s); reflexivity. Qed.
Lemma run_past m vnone fuel ks : forall s tr, run cb m vnone fuel ks (past tr s) = past_res tr (run cb m vnone fuel ks s).
Proof.
  induction ks as [|k ks IH]; intros s tr; cbn [run]; [reflexivity|]. rewrite catch_past.
  destruct (do_call_catch cb m vnone fuel k s) as [o s1|x s1|u|]; cbn [bind past_res]; try reflexivity.
  rewrite IH. destruct (run cb m vnone fuel ks s1); reflexivity.
Qed.
Lemma run_app m vnone fuel : forall ks1 ks2 s, run cb m vnone fuel (ks1 ++ ks2) s =
  bind (run cb m vnone fuel ks1 s) (fun os s1 => bind (run cb m vnone fuel ks2 s1) (fun os2 s2 => Done (os ++ os2) s2)).
Proof.
  induction ks1 as [|k ks1 IH]; intros ks2 s; cbn [run app bind].
  - destruct (run cb m vnone fuel ks2 s); reflexivity.
  - destruct (do_call_catch cb m vnone fuel k s) as [o s1|x s1|u|]; cbn [bind]; try reflexivity. rewrite IH.
    destruct (run cb m vnone fuel ks1 s1) as [os s2|x s2|u|]; cbn [bind]; try reflexivity. destruct (run cb m vnone fuel ks2 s2); reflexivity.
Qed.
Lemma run_no_throw m vnone fuel ks : forall s x s', run cb m vnone fuel ks s <> Threw x s'.
Proof.
  induction ks as [|k ks IH]; intros s x s'; cbn [run]; [discriminate|]. unfold do_call_catch.
  destruct (do_call cb m vnone fuel k s) as [o s1|y s1|u|]; cbn [bind]; try discriminate;
    specialize (IH s1); destruct (run cb m vnone fuel ks s1); cbn [bind]; try discriminate; congruence.
Qed.
End Past.

(** * What stays *)
Section Kept.
Context {V W : Type}.
Variable cb : cbfun V W.
Variables (env : cenv) (root : cls) (m : machine) (vnone : V).
Hypothesis Hm : compile env root = Some m.
Hypothesis F : few_regions env root.
Hypothesis RS : restorable env root.
Notation st := (rt V W).

Definition handlers (d : dep) : option handler_tables :=
  if cd_unexpected (lookup env root) then fill_handlers m d else Some [].
Definition kept (ds : list dep) (d0 : dep) (s : st) : Prop :=
  (exists l, ds = l ++ [d0]) /\ rt_hist s = initial_table m /\
  (parallel m = false -> rt_regions s = 0) /\
  rt_live s = filter (defctor env) (states m) /\ handlers d0 = Some (rt_htabs s).

Lemma init_loop_htabs l : forall fuel r (s s' : st), init_loop fuel l r s = Done tt s' -> rt_htabs s' = rt_htabs s.
Proof.
  induction fuel as [|fuel IH]; intros r s s' H; [discriminate|]. cbn [init_loop] in H.
  destruct (Nat.ltb r (length l)); [|injection H as <-; reflexivity]. destruct (nth_error l r) as [c|]; [|discriminate].
  unfold write_cur in H. destruct (upd_nth _ _ _) as [cu|]; cbn [bind] in H; [|discriminate]. apply IH in H. rewrite H. reflexivity.
Qed.
Lemma construct_htabs fuel d w (s : st) : construct m fuel d w = Done tt s -> handlers d = Some (rt_htabs s).
Proof.
  intros H. destruct (compile_comp _ _ _ Hm) as (Hc & He & Hr). unfold construct in H. unfold handlers. rewrite <- He, <- Hr.
  destruct (if cd_unexpected _ then _ else _) as [h|]; [|discriminate]. f_equal.
  destruct (fill_dispatch m d (empty_tables m)) as [t|]; [|discriminate]. unfold init_current_state in H.
  destruct (nth_at _ _); [|discriminate]. destruct (init_loop fuel l 0 _) as [[] s1|x s1|u|] eqn:E; cbn [bind] in H; try discriminate.
  apply init_loop_htabs in E. cbn in E. unfold update_current_regions in H. destruct (parallel m).
  - destruct (current_parent m s1) as [p s2|x s2|u|] eqn:Ep; cbn [bind] in H; try discriminate.
    assert (s2 = s1).
    { unfold current_parent, read_cur in Ep. destruct (nth_error (rt_cur s1) 0) as [[c|]|]; cbn [bind] in Ep; try discriminate. now injection Ep. }
    subst s2. destruct (nth_at p (initial_table m)); [|discriminate]. injection H as <-. symmetry. exact E.
  - injection H as <-. now rewrite E.
Qed.
Lemma body_makes at_ t b : ~ makes b -> forall p, In p (body_calls at_ t b) -> p_makes p = None.
Proof.
  induction b as [f|f|f|l IH] using abody_ind2; intros N p H; cbn [body_calls] in H.
  - destruct H as [<-|[]]. reflexivity.
  - contradiction N. constructor.
  - destruct H as [<-|[]]. reflexivity.
  - apply in_flat_map in H. destruct H as (b & Hb & H). rewrite Forall_forall in IH. apply (IH b Hb); [|exact H].
    intros M. apply N. now apply (ma_chain b).
Qed.
Lemma perform_live e d o ps v live w ks n v' live' w' : perform cb e d o ps v live w ks n v' live' w' ->
  (forall p, In p ps -> p_makes p = None) -> live' = live.
Proof.
  intros H. induction H as [v live w|p ps v live w b v1 w1 ks n v' live' w' E H IH|]; intros Hp; auto.
  rewrite IH by (intros q Hq; apply Hp; now right). now rewrite (Hp p (or_introl eq_refl)).
Qed.
Lemma no_history_of : has_history m = false.
Proof.
  destruct (has_history m) eqn:E; [|reflexivity]. apply (history_iff _ _ m Hm) in E. destruct E as (x & w & p & D & T).
  destruct (re_history _ _ RS). eauto.
Qed.
Lemma relocate_regions r c (s : st) : (parallel m = false -> rt_regions s = 0) -> parallel m = false -> rt_regions (relocate m r c s) = 0.
Proof. intros H Ep. unfold relocate. rewrite Ep. cbn. auto. Qed.
Lemma moves_kept r x (s s' : st) : moves m r x s s' -> (parallel m = false -> rt_regions s = 0) ->
  rt_hist s' = rt_hist s /\ rt_live s' = rt_live s /\ rt_htabs s' = rt_htabs s /\
  (parallel m = false -> rt_regions s' = 0).
Proof.
  intros H Hr. destruct (moves_rest m r x s s' H) as (_ & El & _). pose proof no_history_of as Nh.
  assert (Ht : forall c, rt_htabs (relocate m r c s) = rt_htabs s).
  { intros c. unfold relocate. destruct (parallel m); [|reflexivity]. destruct (at_place m _ 0) as [[p q]|]; reflexivity. }
  destruct H as [s|s pl|s pl Hi Hh|s w p c Hi Hh]; [auto| |congruence|congruence].
  destruct (relocate_rest m r (Semantics.code m pl) s) as (_ & _ & _ & _ & _ & E). split; [exact E|]. split; [exact El|]. split; [apply Ht|]. now apply relocate_regions.
Qed.

Lemma executes_kept ds d0 r e d x o v (s s' : st) on v' pl : kept ds d0 s -> candidate env root e pl (CRow x o) ->
  executes cb m r e d x o v s on v' s' -> kept ds d0 s'.
Proof.
  intros (K0 & K1 & K2 & K3 & K4) Hc H. destruct (compile_comp _ _ _ Hm) as (_ & He & _).
  destruct H as [v s s1 ks n v' live' w' Mv P]. destruct (moves_kept r x s s1 Mv K2) as (E1 & E2 & E3 & E4).
  assert (El : live' = rt_live s1).
  { eapply perform_live; [exact P|]. intros p Hp. unfold effects in Hp. rewrite !in_app_iff in Hp. 
    assert (Q : forall (f : callee -> prim) l, (forall c, p_makes (f c) = None) -> In p (map f l) -> p_makes p = None).
    { intros f l Hf Hi. apply in_map_iff in Hi. destruct Hi as (c & <- & _). apply Hf. }
    destruct Hp as [Hp|[Hp|[Hp|Hp]]]; try (eapply Q; [|exact Hp]; reflexivity).
    destruct (x_act x) as [|ty b] eqn:Ea; [destruct Hp|]. eapply body_makes; [|exact Hp].
    apply (re_makes _ _ RS x ty b); [|exact Ea]. inversion Hc; subst; auto. }
  subst live'. repeat split; cbn; auto; congruence.
Qed.
Lemma step_kept ds d0 r e v s vd v' s' : r < max_initials m -> tinv m ds d0 s -> rinv m s -> kept ds d0 s ->
  region_step cb m ds r e v s vd v' s' -> kept ds d0 s'.
Proof.
  intros _ _ _ K H. destruct (compile_comp _ _ _ Hm) as (Hc & He & Hr).
  assert (Ca : forall pl v w ks d x o v1 w1, scan cb m e (bound m ds e pl) v w ks (VPick d x o) v1 w1 -> candidate env root e pl (CRow x o)).
  { intros pl v0 w ks d x o v1 w1 Hs. apply scan_pick in Hs. destruct Hs as (pre & rest & k1 & k2 & va & wa & Eb & _). rewrite <- He, <- Hr. apply (cands_sound m Hc).
    assert (Hin : In (d, CRow x o) (bound m ds e pl)) by (rewrite Eb; apply in_or_app; right; now left).
    unfold bound in Hin. apply in_flat_map in Hin. destruct Hin as (d1 & _ & Hin). apply in_map_iff in Hin. destruct Hin as (q & Eq & Hin). inversion Eq; subst. exact Hin. }
  destruct H; try exact K; try (destruct K as (K0 & K1 & K2 & K3 & K4); repeat split; assumption);
    match goal with X : scan _ _ _ _ _ _ _ (VPick _ _ _) _ _, Y : executes _ _ _ _ _ _ _ _ ?a _ _ _ |- _ =>
      apply (executes_kept ds d0 _ _ _ _ _ _ _ _ _ _ _ (conj (proj1 K) (proj2 K) : kept ds d0 a) (Ca _ _ _ _ _ _ _ _ _ X) Y) end.
Qed.
Lemma reachable_kept ds d0 s : reachable cb m vnone ds d0 s -> kept ds d0 s.
Proof.
  destruct (compile_comp _ _ _ Hm) as (Hc & He & Hr).
  apply (reachable_keeps cb m Hc vnone (few_max_compiled _ _ _ Hm F) kept).
  - intros. eapply step_kept; eauto.
  - intros ds' d' s' q K. exact K.
  - intros ds' d' s' w ks K. exact K.
  - intros fuel d w s' Hc' (F1 & F2 & F3 & F4 & F5 & F6 & F7 & F8 & F9). rewrite He, Hr, initials_spec in F5. rewrite He in F6.
    split; [exists []; reflexivity|]. split; [exact F3|]. split; [intros Ep; rewrite F5, Ep; reflexivity|]. split; [exact F6|]. eapply construct_htabs; eauto.
  - intros ds' d' s' r p q K _ _ _ _. exact K.
  - intros ds' d' s' d t ((l & ->) & K) _. split; [exists (d :: l); reflexivity|exact K].
Qed.
End Kept.

Section Back.
Context {V W : Type}.
Variable cb : cbfun V W.
Variables (env : cenv) (root : cls) (m : machine) (vnone : V).
Notation st := (rt V W).

Lemma filled_fun ds t1 : filled m ds t1 -> forall t2, filled m ds t2 -> t1 = t2.
Proof.
  induction 1 as [d t H|d ds t t' H IH E]; intros t2 H2; inversion H2 as [d' t2' E2|d' ds' u u' Hu E2]; subst.
  - congruence.
  - inversion Hu.
  - inversion H.
  - rewrite (IH u Hu) in E. congruence.
Qed.

Lemma run_deps fuel (Hc : comp m) (Hr : regs_ok m) : forall l ds (s : st), filled m ds (rt_tabs s) ->
  exists t, run cb m vnone fuel (map (@KSetDep V) (rev l)) s = Done (repeat OUnit (length l)) (with_tabs s t) /\ filled m (l ++ ds) t.
Proof.
  induction l as [|d l IH]; intros ds s H; cbn [rev map app length repeat].
  - exists (rt_tabs s). split; [|exact H]. destruct s. reflexivity.
  - destruct (IH ds s H) as (t & E & Ht). rewrite map_app, run_app, E. cbn [bind map run].
    destruct (proj2 (fill_ok_iff m Hc d t (filled_shape m Hc _ _ Ht)) Hr) as [t' Ht'].
    exists t'. unfold do_call_catch, do_call, set_dependency. cbn [rt_tabs with_tabs]. rewrite Ht'. cbn [bind].
    split; [f_equal; now rewrite <- repeat_cons|]. now apply (filled_again m d (l ++ ds) t).
Qed.

Definition settings (s : st) (n : nat) : list (call V) :=
  flat_map (fun r => match at_place m s r with Some pl => [KSet r (fst pl) (snd pl)] | None => [] end) (seq 0 n).
Lemma set_nth_mid {A} (a : A) k : forall l l1 : list A, length l = length l1 -> k < length l -> nth_error l k = Some a ->
  set_nth k a (firstn k l ++ skipn k l1) = firstn (S k) l ++ skipn (S k) l1.
Proof.
  induction k as [|k IH]; intros [|b l] [|b1 l1] E L H; cbn in *; try lia; try discriminate.
  - now injection H as ->.
  - f_equal. apply (IH l l1); auto; lia.
Qed.
Lemma run_sets fuel (Hc : comp m) (s : st) : length (rt_cur s) <= 255 ->
  (forall r, r < length (rt_cur s) -> exists pl, at_place m s r = Some pl) ->
  forall n (s1 : st), n <= length (rt_cur s) -> length (rt_cur s1) = length (rt_cur s) ->
  run cb m vnone fuel (settings s n) s1 =
    Done (repeat OUnit (length (settings s n))) (with_cur s1 (firstn n (rt_cur s) ++ skipn n (rt_cur s1))).
Proof.
  intros L A. induction n as [|n IH]; intros s1 Hn El.
  - destruct s1. reflexivity.
  - assert (E : settings s (S n) = settings s n ++ match at_place m s n with Some pl => [KSet n (fst pl) (snd pl)] | None => [] end).
    { unfold settings. rewrite seq_S, flat_map_app. cbn [flat_map Nat.add]. now rewrite app_nil_r. }
    destruct (A n ltac:(lia)) as [[p q] Ep]. rewrite Ep in E. cbn [fst snd] in E. rewrite E, run_app, IH by (lia || exact El). cbn [bind run].
    set (s2 := with_cur s1 _).
    assert (L2 : length (rt_cur s2) = length (rt_cur s)).
    { unfold s2. cbn [rt_cur with_cur]. rewrite app_length, firstn_length, skipn_length. lia. }
    unfold at_place in Ep. destruct (nth_error (rt_cur s) n) as [[c|]|] eqn:En; try discriminate.
    destruct (places_at_inv m Hc _ _ _ Ep) as (Hp & Hq & Ec).
    assert (T : to_region n = n) by (unfold to_region; apply Nat.mod_small; lia).
    pose proof (set_state_result m Hc n p q s2) as P. rewrite T in P.
    unfold do_call_catch, do_call. destruct (set_state m n p q s2) as [[] s3|x s3|u|]; cbn [bind].
    + destruct P as (_ & _ & _ & ->). rewrite app_length, repeat_app. cbn [length repeat]. f_equal.
      unfold s2. cbn [rt_cur with_cur]. rewrite (code_combined m Hc), <- Ec. unfold with_cur.
      f_equal. apply set_nth_mid; [now symmetry|lia|exact En].
    + destruct P as (_ & _ & _ & _ & P). lia.
    + destruct P as [_ P]. exfalso. auto.
    + destruct P.
Qed.

Hypothesis Hm : compile env root = Some m.
Hypothesis F : few_regions env root.

Lemma reachable_started ds d0 (s : st) : reachable cb m vnone ds d0 s ->
  region_exists env root 1 -> initial_states env root <> [].
Proof.
  destruct (compile_comp _ _ _ Hm) as (Hc & He & Hr). rewrite <- (parallel_iff env root m Hm), <- initials_spec, <- He, <- Hr.
  induction 1 as [fuel d w s H|fuel ds d0 s k o s' H IH H1]; [|exact IH].
  apply (construct_sound m Hc fuel d w s); [|exact H]. apply root_initials_le; auto. exact (few_max_compiled _ _ _ Hm F).
Qed.

Lemma restored_lemma ds d0 (s : st) w fuel : restorable env root -> reachable cb m vnone ds d0 s ->
  rt_queue s = [] -> (forall r, region_exists env root r -> exists pl, at_place m s r = Some pl) ->
  (region_exists env root 1 -> active m s = length (initial_states env root)) ->
  length (initial_states env root) < fuel ->
  session cb m vnone fuel d0 w (restoring m ds s) = Done (repeat OUnit (length (restoring m ds s))) (anew w s).
Proof.
  intros RS R Hq Hat Hact Hf. destruct (compile_comp _ _ _ Hm) as (Hc & He & Hr). pose proof (few_max_compiled _ _ _ Hm F) as Hmax.
  pose proof (reachable_kept cb env root m vnone Hm F RS _ _ _ R) as ((l & El) & K1 & K2 & K3 & K4).
  pose proof (reachable_rinvs cb m Hc vnone Hmax _ _ _ R) as [[T1 _ T3 _] _ _].
  pose proof (filled_regs m Hc _ _ T1) as Hregs.
  assert (Ha : anchored env root) by (rewrite <- He, <- Hr; now apply (regs_anchored m Hc)).
  assert (HL : length (initials (mc_env m) (mc_root m)) <= 255) by (apply root_initials_le; auto).
  assert (HL' : length (initial_states env root) <= 255) by (rewrite <- initials_spec, <- He, <- Hr; exact HL).
  destruct (construct_defined (V := V) env root m Hm fuel d0 w Ha HL' Hf (reachable_started _ _ _ R)) as [s0 E0].
  pose proof (construct_htabs (V := V) (W := W) env root m Hm fuel d0 w s0 E0) as E0h.
  destruct (construct_sound m Hc fuel d0 w s0 HL E0) as [(F1 & F2 & F3 & F4 & F5 & F6 & F7 & F8 & F9 & F10) _].
  rewrite He, Hr, initials_spec in F5. rewrite He in F6.
  assert (Lc : length (rt_cur s) <= 255) by lia.
  assert (At : forall r, r < length (rt_cur s) -> exists pl, at_place m s r = Some pl).
  { intros r Hr'. apply Hat. apply (region_exists_max env root m Hm). lia. }
  unfold session. rewrite E0. cbn [bind]. unfold restoring. fold (settings s (length (rt_cur s))).
  subst ds. rewrite rev_app_distr. cbn [rev app tl].
  destruct (run_deps fuel Hc Hregs l [d0] s0 F7) as (t & E1 & Ht). rewrite run_app, E1. cbn [bind].
  rewrite (run_sets fuel Hc s Lc At (length (rt_cur s)) (with_tabs s0 t) (le_n _)) by (cbn; lia). cbn [bind].
  rewrite app_length, map_length, rev_length, repeat_app. f_equal.
  pose proof (filled_fun _ _ Ht _ T1) as Et. rewrite K4 in E0h. injection E0h as E0h.
  unfold anew, with_cur, with_tabs. cbn [rt_cur rt_hist rt_queue rt_regions rt_live rt_tabs rt_htabs rt_world rt_trace].
  f_equal; try congruence.
  - rewrite firstn_all, skipn_all2 by lia. apply app_nil_r.
  - rewrite F5. destruct (parallel m) eqn:Ep; [|symmetry; auto].
    rewrite <- Hact by (now apply (parallel_iff env root m Hm)). unfold active. now rewrite Ep.
Qed.

Lemma behaves_lemma ds d0 (s : st) fuel ks : restorable env root -> reachable cb m vnone ds d0 s ->
  rt_queue s = [] -> (forall r, region_exists env root r -> exists pl, at_place m s r = Some pl) ->
  (region_exists env root 1 -> active m s = length (initial_states env root)) ->
  length (initial_states env root) < fuel ->
  session cb m vnone fuel d0 (rt_world s) (restoring m ds s ++ ks) =
  later (length (rt_trace s)) (repeat OUnit (length (restoring m ds s))) (run cb m vnone fuel ks s).
Proof.
  intros RS R Hq Hat Hact Hf. pose proof (restored_lemma ds d0 s (rt_world s) fuel RS R Hq Hat Hact Hf) as E.
  unfold session in *. destruct (construct m fuel d0 (rt_world s)) as [[] s0|x s0|u|]; cbn [bind] in *; try discriminate.
  rewrite run_app, E. cbn [bind].
  assert (Es : s = past (rt_trace s) (anew (rt_world s) s)) by (destruct s; unfold past, anew; cbn; now rewrite app_nil_r).
  assert (Ep : run cb m vnone fuel ks s = past_res (rt_trace s) (run cb m vnone fuel ks (anew (rt_world s) s))) by (rewrite Es at 1; apply run_past).
  rewrite Ep.
  destruct (run cb m vnone fuel ks (anew (rt_world s) s)) as [os s1|x s1|u|] eqn:Er; cbn [bind past_res later]; try reflexivity.
  - f_equal. destruct s1; unfold past; cbn. f_equal. rewrite skipn_app, skipn_all, Nat.sub_diag. reflexivity.
  - now apply run_no_throw in Er.
Qed.
End Back.

Lemma machine_restored : forall V W (cb : cbfun V W) env root m vnone ds d0 s w fuel,
  running cb env root m vnone ds d0 s -> restorable env root ->
  rt_queue s = [] -> (forall r, region_exists env root r -> exists pl, at_place m s r = Some pl) ->
  (region_exists env root 1 -> active m s = length (initial_states env root)) ->
  length (initial_states env root) < fuel ->
  session cb m vnone fuel d0 w (restoring m ds s) = Done (repeat OUnit (length (restoring m ds s))) (anew w s).
Proof.
  intros V W cb env root m vnone ds d0 s w fuel (H1 & H2 & H3) RS. now apply (restored_lemma cb env root m vnone H1 H2).
Qed.

Lemma machine_behaves : forall V W (cb : cbfun V W) env root m vnone ds d0 s fuel ks,
  running cb env root m vnone ds d0 s -> restorable env root ->
  rt_queue s = [] -> (forall r, region_exists env root r -> exists pl, at_place m s r = Some pl) ->
  (region_exists env root 1 -> active m s = length (initial_states env root)) ->
  length (initial_states env root) < fuel ->
  session cb m vnone fuel d0 (rt_world s) (restoring m ds s ++ ks) =
  later (length (rt_trace s)) (repeat OUnit (length (restoring m ds s))) (run cb m vnone fuel ks s).
Proof.
  intros V W cb env root m vnone ds d0 s fuel ks (H1 & H2 & H3) RS. now apply (behaves_lemma cb env root m vnone H1 H2).
Qed.
