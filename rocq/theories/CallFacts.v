(** More about single calls: what a region decides, recalled events, the end of
    anonymous processing, objects created by actions. *)

From Coq Require Import List Arith NArith Bool Lia.
From Verif Require Import Types Static Dispatch Runtime ListFacts IndexFacts Spec
  DispatchFacts FlattenFacts Semantics RefineFacts StaticFacts TermFacts Reach ReachFacts TableFacts
  QueryFacts ProcessFacts RegionFacts LoopFacts OutcomeFacts QueueFacts.
Import ListNotations.

(** * The choice of a region *)
Lemma drops_find {A} (f : A -> bool) seen l l' : drops_copies seen l l' ->
  (forall a, In a seen -> f a = false) -> find f l' = find f l.
Proof.
  intros H. induction H as [seen|seen a l l' H IH|seen a l l' Ha H IH]; intros Hs; [reflexivity| |].
  - cbn. destruct (f a) eqn:E; [reflexivity|]. apply IH. intros b [<-|Hb]; auto.
  - cbn. rewrite (Hs a Ha). auto.
Qed.

Section Choice.
Context {V W : Type}.
Variable cb : cbfun V W.
Variables (env : cenv) (root : cls) (m : machine) (vnone : V) (ds : list dep) (d0 : dep).
Notation st := (rt V W).

Lemma scan_pure G e bs v w ks vd v' w' : pure_guards cb G -> scan cb m e bs v w ks vd v' w' ->
  v' = v /\ w' = w /\
  match vd with
  | VNone => find (enabled G m e) bs = None
  | VDefer => exists d, find (enabled G m e) bs = Some (d, CDefer)
  | VPick d x o => find (enabled G m e) bs = Some (d, CRow x o)
  | VRaise _ => False
  end.
Proof.
  intros HG H. induction H as [| | |d x o bs v w ty val v' w' Hg Hc|d x o bs v w ty val v1 w1 ks vd v' w' Hg Hc H IH
      |d x o bs v w ty val n v' w' Hg Hc].
  - auto.
  - repeat split; auto. exists d. reflexivity.
  - repeat split; auto. cbn. unfold enabled. cbn. now rewrite H.
  - rewrite HG in Hc. inversion Hc; subst. repeat split; auto. cbn. unfold enabled. cbn. rewrite Hg.
    match goal with A : G _ _ _ = true |- _ => now rewrite A end.
  - rewrite HG in Hc. inversion Hc; subst. destruct IH as (-> & -> & IH). repeat split; auto.
    assert (E : enabled G m e (d, CRow x o) = false) by (unfold enabled; cbn; now rewrite Hg).
    cbn [find]. rewrite E. exact IH.
  - rewrite HG in Hc. discriminate.
Qed.

Variable s : st.
Hypothesis Hs : handling cb env root m vnone ds d0 s.

(** With pure guards the first enabled candidate decides, and copies of a
    candidate behind it do not matter. *)
Lemma pure_choice G r e v pl cs bs : pure_guards cb G ->
  at_place m s r = Some pl -> candidate_list env root e pl cs -> drops_copies [] (bind_all ds cs) bs ->
  match try_region cb m r e v s with
  | Done (None, v') s' => bs = [] /\ v' = v /\ s' = s
  | Done (Some Refused, v') s' => bs <> [] /\ find (enabled G m e) bs = None /\ v' = v /\
      exists ks, s' = after s (rt_world s) ks
  | Done (Some Deferred, v') s' => v' = v /\ exists d ks, find (enabled G m e) bs = Some (d, CDefer) /\
      s' = with_queue (after s (rt_world s) ks) (rt_queue s ++ [(e, v)])
  | Done (Some Fired, v') s' => exists d x o ks, find (enabled G m e) bs = Some (d, CRow x o) /\
      executes cb m r e d x o v (after s (rt_world s) ks) None v' s'
  | Threw ex s' => exists n d x o ks v', ex = XUser n /\ find (enabled G m e) bs = Some (d, CRow x o) /\
      executes cb m r e d x o v (after s (rt_world s) ks) (Some n) v' s'
  | Undef _ => True
  | Timeout => False
  end.
Proof.
  intros HG Hp Hcs Hd. pose proof (region_verdict _ _ _ _ _ _ _ _ Hs r e v) as P.
  assert (Eb : bind_all ds cs = bound m ds e pl).
  { destruct Hs as (Hm & _ & _). compiled Hm. apply (candidate_list_cands m Hc) in Hcs. now subst cs. }
  rewrite Eb in Hd. clear Hcs Eb cs.
  assert (Ef : find (enabled G m e) bs = find (enabled G m e) (bound m ds e pl)).
  { eapply drops_find; [exact Hd|]. intros a []. }
  assert (En : bs = [] <-> bound m ds e pl = []).
  { clear - Hd. inversion Hd; subst; split; intros; try discriminate; auto.
    match goal with A : In _ [] |- _ => destruct A end. }
  rewrite Ef.
  destruct (try_region cb m r e v s) as [[[[| |]|] v1] s1|ex s1|u|]; auto.
  - inversion P; subst. rewrite Hp in *. match goal with A : Some _ = Some _ |- _ => inversion A; subst; clear A end.
    match goal with A : scan _ _ _ _ _ _ _ _ _ _ |- _ => destruct (scan_pure _ _ _ _ _ _ _ _ _ HG A) as (-> & -> & E) end.
    repeat split; eauto. tauto.
  - destruct P as [x P]. inversion P; subst. rewrite Hp in *.
    match goal with A : Some _ = Some _ |- _ => inversion A; subst; clear A end.
    match goal with A : scan _ _ _ _ _ _ _ _ _ _ |- _ => destruct (scan_pure _ _ _ _ _ _ _ _ _ HG A) as (-> & -> & E) end.
    eauto 8.
  - inversion P; subst. rewrite Hp in *. match goal with A : Some _ = Some _ |- _ => inversion A; subst; clear A end.
    match goal with A : scan _ _ _ _ _ _ _ _ _ _ |- _ => destruct (scan_pure _ _ _ _ _ _ _ _ _ HG A) as (-> & -> & d & E) end.
    split; [reflexivity|]. eauto.
  - inversion P; subst. rewrite Hp in *. match goal with A : Some _ = Some _ |- _ => inversion A; subst; clear A end.
    tauto.
  - destruct P as (n & vd & v' & -> & Ht & P). destruct P; try discriminate; cbn in Ht; inversion Ht; subst;
      rewrite Hp in *; match goal with A : Some _ = Some _ |- _ => inversion A; subst; clear A end;
      match goal with A : scan _ _ _ _ _ _ _ _ _ _ |- _ => destruct (scan_pure _ _ _ _ _ _ _ _ _ HG A) as (E1 & E2 & E); subst end;
      [contradiction|]. exists n, d, x, o. eauto 8.
Qed.

(** The guards are asked as declared, whatever they answer. *)
Lemma scan_entries r e : forall bs v w ks vd v' w', scan cb m e bs v w ks vd v' w' ->
  forall k0, guards_ready m s bs -> (forall d x o, In (d, CRow x o) bs -> row_accepted m x = true) ->
  match vd with
  | VNone => try_entries cb m (map (bentry m) bs) r e v (after s w k0) = Done (Refused, v') (after s w' (k0 ++ ks))
  | VDefer => try_entries cb m (map (bentry m) bs) r e v (after s w k0) =
      Done (Deferred, v') (with_queue (after s w' (k0 ++ ks)) (rt_queue s ++ [(e, v')]))
  | VRaise n => try_entries cb m (map (bentry m) bs) r e v (after s w k0) = Threw (XUser n) (after s w' (k0 ++ ks))
  | VPick d x o => try_entries cb m (map (bentry m) bs) r e v (after s w k0) =
      bind (update_current_state m r (bentry m (d, CRow x o)) (after s w' (k0 ++ ks))) (fun _ s =>
      bind (execute_action cb (btrans m d x o) e v' s) (fun v2 s => Done (Fired, v2) s))
  end.
Proof.
  assert (Hm : compile env root = Some m) by apply Hs. compiled Hm.
  assert (G : forall d x o ty val bs v w k0, guards_ready m s ((d, CRow x o) :: bs) -> x_guard x = Guard ty val ->
    row_accepted m x = true ->
    execute_guard cb (btrans m d x o) e v (after s w k0) =
    match cb (CGuard ty val) (guard_args m e d x o) v w with
    | Ret b v' w' => Done (b, v') (after s w' (k0 ++ [mkCall (CGuard ty val) (guard_args m e d x o) v]))
    | Raise n _ w' => Threw (XUser n) (after s w' (k0 ++ [mkCall (CGuard ty val) (guard_args m e d x o) v]))
    end).
  { intros d x o ty val bs v w k0 Hr Hg Ha. destruct (dst_of_target m x (row_accepted_dst m x Ha)) as [Et _].
    unfold execute_guard. cbn [t_guard btrans t_int t_src t_tgt t_dep]. rewrite Hg, Et.
    destruct (Hr d x o (or_introl eq_refl)) as [Ho Ht]; [congruence|].
    assert (A1 : alive (after s w k0) o = true) by (unfold alive; cbn [rt_live after with_user]; destruct (in_dec sref_eq_dec o (rt_live s)); [reflexivity|contradiction]).
    assert (A2 : alive (after s w k0) (if x_int x then o else target_state (mc_env m) x) = true)
      by (unfold alive; cbn [rt_live after with_user]; destruct (in_dec sref_eq_dec (if x_int x then o else target_state (mc_env m) x) (rt_live s)); [reflexivity|contradiction]).
    rewrite A1, A2. cbn [andb]. unfold invoke. cbn [rt_world after with_user].
    change (mkArgs e o (TObj (if x_int x then o else target_state (mc_env m) x)) d) with (guard_args m e d x o).
    destruct (cb (CGuard ty val) (guard_args m e d x o) v w) as [b v' w'|n v' w']; unfold after, with_user; cbn; now rewrite <- app_assoc. }
  intros bs v w ks vd v' w' H. induction H as [v w|d bs v w|d x o bs v w Hg|d x o bs v w ty val v' w' Hg Hcb
      |d x o bs v w ty val v1 w1 ks vd v' w' Hg Hcb H IH|d x o bs v w ty val n v' w' Hg Hcb]; intros k0 Hr Ha.
  - cbn. now rewrite app_nil_r.
  - cbn. now rewrite app_nil_r.
  - cbn [map try_entries]. rewrite bentry_tr. cbn [en_defer bentry centry fst snd entry_of_row].
    unfold execute_guard. cbn [t_guard btrans]. rewrite Hg. cbn [bind fst snd]. now rewrite app_nil_r.
  - cbn [map try_entries]. rewrite bentry_tr. cbn [en_defer bentry centry fst snd entry_of_row].
    rewrite (G d x o ty val bs v w k0 Hr Hg (Ha d x o (or_introl eq_refl))), Hcb. reflexivity.
  - cbn [map try_entries]. rewrite bentry_tr. cbn [en_defer bentry centry fst snd entry_of_row].
    rewrite (G d x o ty val bs v w k0 Hr Hg (Ha d x o (or_introl eq_refl))), Hcb. cbn [bind fst snd].
    assert (Hr' : guards_ready m s bs) by (intros d' x' o' H'; apply (Hr d'); now right).
    assert (Ha' : forall d x o, In (d, CRow x o) bs -> row_accepted m x = true) by (intros d' x' o' H'; apply (Ha d' x' o'); now right).
    specialize (IH (k0 ++ [mkCall (CGuard ty val) (guard_args m e d x o) v]) Hr' Ha').
    rewrite <- app_assoc in IH. exact IH.
  - cbn [map try_entries]. rewrite bentry_tr. cbn [en_defer bentry centry fst snd entry_of_row].
    rewrite (G d x o ty val bs v w k0 Hr Hg (Ha d x o (or_introl eq_refl))), Hcb. reflexivity.
Qed.

(** Total version for the outcomes decided by guards alone. *)
Lemma region_decides r e v pl cs ks vd v' w' : event_of env root e ->
  at_place m s r = Some pl -> candidate_list env root e pl cs ->
  guards_ready m s (bind_all ds cs) -> scan cb m e (bind_all ds cs) v (rt_world s) ks vd v' w' ->
  match vd with
  | VNone => try_region cb m r e v s =
      Done (if Nat.eqb (length cs) 0 then None else Some Refused, v') (after s w' ks)
  | VDefer => try_region cb m r e v s =
      Done (Some Deferred, v') (with_queue (after s w' ks) (rt_queue s ++ [(e, v')]))
  | VRaise n => try_region cb m r e v s = Threw (XUser n) (after s w' ks)
  | VPick _ _ _ => True
  end.
Proof.
  intros He Hp Hcs Hr Sc. pose proof (handling_rinvs _ _ _ _ _ _ _ _ Hs) as [T _ _].
  assert (Hm : compile env root = Some m) by apply Hs. pose proof He as He'. apply (events_iff _ _ _ Hm) in He'.
  assert (Ec : cs = cands m e pl) by (compiled Hm; now apply (candidate_list_cands m Hc)).
  assert (Eb : bind_all ds cs = bound m ds e pl) by (rewrite Ec; reflexivity).
  assert (N : ds <> []) by (eapply filled_nonempty, (ti_tabs _ _ _ _ T)).
  assert (Nil : cs = [] <-> bind_all ds cs = []) by (rewrite Eb, Ec; symmetry; now apply bound_nil).
  assert (Ha : forall d x o, In (d, CRow x o) (bind_all ds cs) -> row_accepted m x = true).
  { rewrite Eb. intros d x o Hin. compiled Hm. eapply (bound_accepted m Hc); eauto. }
  pose proof (scan_entries r e _ _ _ _ _ _ _ Sc [] Hr Ha) as P. cbn [app] in P. rewrite after_nil in P.
  unfold try_region.
  rewrite (get_entries_total m ltac:(clear - Hm; compiled Hm; exact Hc) ds d0 e r s pl T He' Hp). cbn [bind]. rewrite <- Eb.
  destruct (bind_all ds cs) as [|b bs] eqn:Ebs.
  - destruct Nil as [_ Nil]. rewrite (Nil eq_refl). inversion Sc; subst. cbn. now rewrite after_nil.
  - destruct vd as [|d x o| |n]; auto; cbn [map] in P |- *; rewrite P; cbn [bind fst snd]; auto.
    destruct cs; [|reflexivity]. destruct Nil as [Nil _]. discriminate Nil. reflexivity.
Qed.

(** A guard looking at an object that does not exist. *)
Lemma region_dead_guard r e v pl x o cs : event_of env root e ->
  at_place m s r = Some pl -> candidate_list env root e pl (CRow x o :: cs) -> x_guard x <> NoGuard ->
  ~ In o (rt_live s) \/ ~ In (if x_int x then o else target_state env x) (rt_live s) ->
  try_region cb m r e v s = Undef UBNull.
Proof.
  intros He Hp Hcs Hg Hl. pose proof (handling_rinvs _ _ _ _ _ _ _ _ Hs) as [T _ _].
  assert (Hm : compile env root = Some m) by apply Hs. pose proof He as He'. apply (events_iff _ _ _ Hm) in He'.
  pose proof Hm as Hm2. compiled Hm.
  assert (Ec : CRow x o :: cs = cands m e pl) by (now apply (candidate_list_cands m Hc)).
  assert (N : ds <> []) by (eapply filled_nonempty, (ti_tabs _ _ _ _ T)).
  unfold try_region. rewrite (get_entries_total m Hc ds d0 e r s pl T He' Hp). cbn [bind].
  destruct ds as [|d l] eqn:Ed; [congruence|].
  assert (Ha : row_accepted m x = true).
  { eapply (bound_accepted m Hc (d :: l) e pl d x o). unfold bound. cbn. rewrite <- Ec. apply in_or_app. left. now left. }
  unfold bound. cbn [flat_map]. rewrite <- Ec. cbn [map app try_entries]. rewrite bentry_tr.
  cbn [en_defer bentry centry fst snd entry_of_row]. unfold execute_guard. cbn [t_guard btrans t_int t_src t_tgt t_dep].
  destruct (dst_of_target m x (row_accepted_dst m x Ha)) as [Et _]. rewrite Et.
  destruct (x_guard x) as [|ty val]; [congruence|].
  assert (A : alive s o && alive s (if x_int x then o else target_state (mc_env m) x) = false).
  { unfold alive. destruct (in_dec sref_eq_dec o (rt_live s)); [|reflexivity].
    destruct (in_dec sref_eq_dec (if x_int x then o else target_state (mc_env m) x) (rt_live s)); [|reflexivity].
    tauto. }
  rewrite A. reflexivity.
Qed.
End Choice.

(** * Recalled events *)
Section Recall.
Context {V W : Type}.
Variable cb : cbfun V W.
Variables (env : cenv) (root : cls) (m : machine) (vnone : V).

Lemma row_call_no_handler ds (k : called V) : row_call env root m ds k -> k_callee k <> CHandler.
Proof.
  intros [(e & pl & d & x & o & ty & val & _ & _ & _ & E)|(e & pl & d & x & o & _ & _ & E)] H.
  - unfold signature in E. inversion E. congruence.
  - unfold row_signature in E. apply in_map_iff in E. destruct E as (c & E & Hin). unfold signature in E. inversion E; subst.
    rewrite H in Hin. unfold row_calls in Hin. rewrite !in_app_iff in Hin.
    assert (B : forall b, ~ In CHandler (callees b)).
    { fix IH 1. intros b. destruct b as [f|f|f|l]; cbn; try (intros [A|[]]; discriminate).
      induction l as [|b l IHl]; [intros []|]. cbn. rewrite in_app_iff. intros [A|A]; [exact (IH b A)|exact (IHl A)]. }
    destruct Hin as [A|[A|[A|A]]].
    + unfold exit_call in A. destruct (x_int x); [destruct A|].
      destruct (x_src x); try (destruct A; fail); destruct (has_exit env _); try (destruct A; fail); destruct A as [A|[]]; discriminate.
    + unfold action_calls in A. destruct (x_act x); [destruct A|]. exact (B _ A).
    + unfold entry_call in A. destruct (x_int x); [destruct A|].
      destruct (x_tgt x); try (destruct A; fail); destruct (has_entry env _); try (destruct A; fail); destruct A as [A|[]]; discriminate.
    + unfold initial_entry_call in A. destruct (x_tgt x); try (destruct A; fail).
      destruct (if is_composite env c then _ else _) as [[i| | | | |]|]; try (destruct A; fail).
      destruct (has_entry env i); try (destruct A; fail); destruct A as [A|[]]; discriminate.
Qed.

Lemma process_recalls ds d0 s fuel e v v' s' : running cb env root m vnone ds d0 s ->
  process_event cb m vnone fuel e v s = Done (true, v') s' ->
  exists vds avds s1, offer cb m ds vnone e v s vds avds OfHandled v' s1 /\ rt_queue s1 = rt_queue s /\
    (rt_queue s = [] -> s' = s1) /\
    (forall e2 v2 q, rt_queue s = (e2, v2) :: q ->
       exists vds2 avds2 oe v3, offer cb m ds vnone e2 v2 (with_queue s1 q) vds2 avds2 oe v3 s' /\
         (forall n, oe <> OfThrew n) /\ rt_queue s' = q ++ put_back oe e2 v3) /\
    exists ks, rt_trace s' = rt_trace s ++ ks /\ forall k, In k ks -> k_callee k <> CHandler.
Proof.
  intros Hs H. pose proof (running_rinvs _ _ _ _ _ _ _ _ Hs) as R. destruct Hs as (Hm & Hfew & Hr).
  pose proof (few_max_compiled _ _ _ Hm Hfew) as Hmax.
  destruct (queue_balance cb m vnone env root Hm Hfew _ _ _ Hr) as (I0 & _).
  assert (Hc : comp m) by (clear - Hm; compiled Hm; exact Hc).
  pose proof (process_event_result m Hc cb ds vnone d0 Hmax fuel e v s R) as P. rewrite H in P.
  destruct P as (vds & P). apply process_parts in P. destruct P as (avds & oe & v1 & s1 & O & P).
  destruct oe as [| | | |n]; try (destruct P; discriminate).
  1:{ destruct P as (n & v'' & _ & E). destruct n; discriminate. }
  destruct P as (n & P & E). destruct n as [n|]; [discriminate|]. inversion E; subst v1.
  pose proof (offer_queue _ _ _ _ _ _ _ _ _ _ _ _ O) as Q. cbn [put_back] in Q. rewrite app_nil_r in Q.
  exists vds, avds, s1. split; [exact O|]. split; [exact Q|].
  pose proof (offer_adds cb env root m vnone Hm _ _ _ _ _ _ _ _ _ O) as A1.
  assert (T : adds (row_call env root m ds) s1 s' ->
    exists ks, rt_trace s' = rt_trace s ++ ks /\ forall k, In k ks -> k_callee k <> CHandler).
  { intros A2. destruct (adds_trans _ _ _ _ A1 A2) as (ks & E1 & F). exists ks. split; [exact E1|].
    rewrite Forall_forall in F. intros k Hk. eapply row_call_no_handler, F, Hk. }
  destruct (has_deferred m) eqn:Ed.
  - pose proof (recall_adds cb env root m vnone Hm _ _ _ _ P) as A2.
    split; [|split; [|exact (T A2)]].
    + intros Q0. inversion P; subst; [reflexivity|congruence].
    + intros e2 v2 q Q2. inversion P; subst; [congruence|].
      match goal with A : rt_queue s1 = _ :: _ |- _ => rewrite Q, Q2 in A; inversion A; subst; clear A end.
      match goal with A : offer _ _ _ _ _ _ _ _ _ _ _ s' |- _ => exists vds0, avds0, oe, v'0; split; [exact A|];
        apply offer_queue in A; split; [|exact A] end.
      intros n ->. discriminate.
  - destruct P as [_ ->]. split; [reflexivity|]. split; [intros e2 v2 q Q2; rewrite (I0 eq_refl) in Q2; discriminate|].
    apply T. now apply adds_refl.
Qed.
End Recall.

(** * The end of anonymous processing *)
Section AnonymousEnd.
Context {V W : Type}.
Variable cb : cbfun V W.
Variables (env : cenv) (root : cls) (m : machine) (vnone : V).

(** Every region from [r] on refused. *)
Lemma pass_quiet ds limit r v s vds v' s' : anon_pass cb m ds limit r v s vds PeComplete v' s' ->
  existsb fired vds = false ->
  rt_cur s' = rt_cur s /\ forall k, r <= k < limit -> exists v1 s1 v2 s2,
    region_step cb m ds k ENone v1 s1 RRefused v2 s2 /\ rt_cur s1 = rt_cur s'.
Proof.
  intros H. remember PeComplete as pe. revert Heqpe.
  induction H as [r v s L|r v s L R|r v s vd n v' s' L R St|r v s vd v1 s1 vds pe v' s' L R St Hn H IH]; intros Ep F; try discriminate.
  - split; [reflexivity|]. intros k Hk. lia.
  - cbn in F. apply orb_false_iff in F. destruct F as [F1 F2]. destruct (IH Ep F2) as [Ec IH'].
    assert (Ev : vd = RRefused) by (destruct vd; cbn in *; congruence). subst vd.
    assert (Es : rt_cur s1 = rt_cur s) by (inversion R; subst; reflexivity).
    split; [congruence|]. intros k Hk. destruct (Nat.eq_dec k r) as [->|].
    + exists v, s, v1, s1. split; [exact R|congruence].
    + apply IH'. lia.
Qed.

Lemma pass_still ds limit r v s vds v' s' : anon_pass cb m ds limit r v s vds PeComplete v' s' ->
  existsb fired vds = false -> active m s' = active m s.
Proof.
  intros H. remember PeComplete as pe. revert Heqpe.
  induction H as [r v s L|r v s L R|r v s vd n v' s' L R St|r v s vd v1 s1 vds pe v' s' L R St Hn H IH]; intros Ep F; try discriminate; [reflexivity|].
  cbn in F. apply orb_false_iff in F. destruct F as [F1 F2]. rewrite (IH Ep F2).
  assert (Ev : vd = RRefused) by (destruct vd; cbn in *; congruence). subst vd. inversion R; subst; reflexivity.
Qed.

Lemma pass_empty ds limit r v s vds v' s' : anon_pass cb m ds limit r v s vds PeEmptyRegion v' s' ->
  exists i pl, r <= i < limit /\ at_place m s' i = Some pl /\ bound m ds ENone pl = [].
Proof.
  intros H. remember PeEmptyRegion as pe. revert Heqpe.
  induction H as [r v s L|r v s L R|r v s vd n v' s' L R St|r v s vd v1 s1 vds pe v' s' L R St Hn H IH]; intros Ep; try discriminate.
  - inversion R; subst. exists r, pl. repeat split; auto.
  - destruct (IH Ep) as (i & pl & Hi & Hp & Hb). exists i, pl. split; [lia|auto].
Qed.

Lemma anonymous_last ds v s vdss s' : anonymous cb m ds v s vdss None s' ->
  (exists v0 s0 vds v2 i pl, anon_pass cb m ds (active m s0) 0 v0 s0 vds PeEmptyRegion v2 s' /\
     i < active m s0 /\ at_place m s' i = Some pl /\ bound m ds ENone pl = []) \/
  (forall k, k < active m s' -> exists v1 s1 v2 s2,
     region_step cb m ds k ENone v1 s1 RRefused v2 s2 /\ rt_cur s1 = rt_cur s').
Proof.
  intros H. remember None as n. revert Heqn. induction H as [v s vds v' s' P|v s vds n v' s' P|v s vds v' s' P F|v s vds v1 s1 rest n s' P F H IH]; intros En.
  - left. destruct (pass_empty _ _ _ _ _ _ _ _ P) as (i & pl & L & A & B).
    exists v, s, vds, v', i, pl. repeat split; auto; apply L.
  - discriminate.
  - right. assert (Ea : active m s' = active m s).
    { eapply pass_still; eauto. }
    rewrite Ea. intros k Hk. destruct (pass_quiet _ _ _ _ _ _ _ _ P F) as [_ Q]. apply Q. lia.
  - auto.
Qed.

(** Machines without deferring states: when process_event returns true, either some
    active region's place has no anonymous candidate, or the last pass asked all
    regions and all of them refused. *)
Lemma anonymous_stop ds d0 s fuel e v v' s' : running cb env root m vnone ds d0 s ->
  (exists x, declared env root x /\ x_ev x = ENone) ->
  (forall x c, declared env root x -> unmarked (x_src x) = SState c -> cd_defer (lookup env c) = None) ->
  process_event cb m vnone fuel e v s = Done (true, v') s' ->
  (exists v0 s0 vds v2 i pl, anon_pass cb m ds (active m s0) 0 v0 s0 vds PeEmptyRegion v2 s' /\
     i < active m s0 /\ at_place m s' i = Some pl /\ candidate_list env root ENone pl []) \/
  (forall k, k < active m s' -> exists v1 s1 v2 s2,
     region_step cb m ds k ENone v1 s1 RRefused v2 s2 /\ rt_cur s1 = rt_cur s').
Proof.
  intros Hs Ha Hd H. pose proof (running_rinvs _ _ _ _ _ _ _ _ Hs) as R. destruct Hs as (Hm & Hfew & _).
  apply (anonymous_iff _ _ _ Hm) in Ha.
  assert (Hnd : has_deferred m = false).
  { destruct (has_deferred m) eqn:E; [|reflexivity]. apply (deferred_iff _ _ _ Hm) in E.
    destruct E as (x & c & l & Hx & Hu & Ed). rewrite (Hd x c Hx Hu) in Ed. discriminate. }
  pose proof (few_max_compiled _ _ _ Hm Hfew) as Hmax. compiled Hm.
  pose proof (process_event_result m Hc cb ds vnone d0 Hmax fuel e v s R) as P. rewrite H in P.
  destruct P as (vds & P). apply process_parts in P. destruct P as (avds & oe & v1 & s1 & O & P).
  destruct oe as [| | | |n]; try (destruct P; discriminate).
  1:{ destruct P as (n & v'' & _ & E). destruct n; discriminate. }
  destruct P as (n & P & E). rewrite Hnd in P. destruct P as [_ ->].
  apply offer_run in O. destruct O as (s2 & Rr & _ & _ & O). rewrite Ha in O.
  destruct (anonymous_last _ _ _ _ _ O) as [(v0 & s0 & vds0 & v2 & i & pl & Hpass & Hi & A & B)|A]; [left|right; exact A].
  exists v0, s0, vds0, v2, i, pl. repeat (split; [assumption|]). apply (candidate_list_cands m Hc). symmetry.
  apply (bound_nil m ds ENone pl) in B; [exact B|]. eapply filled_nonempty, (ti_tabs _ _ _ _ (ri_tinv _ _ _ _ R)).
Qed.
End AnonymousEnd.

(** * Actions *)
Section Actions.
Context {V W : Type}.
Variable cb : cbfun V W.

(** A list of calls performed one after the other. *)
Lemma perform_app e d o p1 p2 v live w ks n v' live' w' :
  perform cb e d o (p1 ++ p2) v live w ks n v' live' w' <->
  ((exists k, n = Some k /\ perform cb e d o p1 v live w ks n v' live' w') \/
   (exists k1 k2 v1 live1 w1, ks = k1 ++ k2 /\ perform cb e d o p1 v live w k1 None v1 live1 w1 /\
      perform cb e d o p2 v1 live1 w1 k2 n v' live' w')).
Proof.
  split.
  - revert v live w ks. induction p1 as [|p p1 IH]; intros v live w ks H.
    + right. exists [], ks, v, live, w. repeat split; [constructor|exact H].
    + cbn [app] in H. inversion H; subst.
      * match goal with A : perform _ _ _ _ (p1 ++ p2) _ _ _ _ _ _ _ _ |- _ => apply IH in A; destruct A as [(k & -> & A)|(k1 & k2 & v2 & l2 & w2 & -> & A & B)] end.
        -- left. exists k. split; [reflexivity|]. eapply pf_call; eauto.
        -- right. eexists (_ :: k1), k2, v2, l2, w2. split; [reflexivity|]. split; [eapply pf_call; eauto|exact B].
      * left. eexists. split; [reflexivity|]. eapply pf_raise; eauto.
  - intros [(k & -> & H)|(k1 & k2 & v1 & l1 & w1 & -> & H1 & H2)].
    + remember (Some k) as n0. induction H; try discriminate; cbn; [eapply pf_call; eauto|eapply pf_raise; eauto].
    + remember None as n0. revert Heqn0 H2. induction H1; intros E H2; try discriminate; cbn; [exact H2|].
      eapply pf_call; eauto.
Qed.

(** ** create_state and reuse_state *)
Definition plain_prim (p : prim) : Prop := p_makes p = None.

Lemma perform_live e d o ps v live w ks n v' live' w' : perform cb e d o ps v live w ks n v' live' w' ->
  Forall plain_prim ps -> live' = live.
Proof.
  intros H. induction H as [|p ps v live w b v1 w1 ks n v' live' w' Hcb H IH|]; intros F; auto.
  inversion F; subst. rewrite IH by assumption. unfold plain_prim in *. now rewrite H2.
Qed.

Lemma plain_calls at_ cs : Forall plain_prim (map (fun c => mkPrim c at_ true None) cs).
Proof. apply Forall_forall. intros p Hp. apply in_map_iff in Hp. destruct Hp as (c & <- & _). reflexivity. Qed.

Lemma assign_In live t b t' : In t' (assign live t b) <-> if sref_eq_dec t' t then b = true else In t' live.
Proof.
  unfold assign. destruct b.
  - destruct (in_dec sref_eq_dec t live) as [Hin|Hn]; destruct (sref_eq_dec t' t) as [->|Hne]; cbn; intuition congruence.
  - rewrite filter_In. destruct (sref_eq_dec t' t); intuition congruence.
Qed.

Lemma executes_create m r e d x o v s v' s' ty f : executes cb m r e d x o v s None v' s' ->
  x_act x = Action ty (ACreate f) ->
  exists u w b u' w', cb (CFactory f) (mkArgs e o TNone d) u w = Ret b u' w' /\
    (In (target_state (mc_env m) x) (rt_live s') <-> b = true) /\
    forall t, t <> target_state (mc_env m) x -> (In t (rt_live s') <-> In t (rt_live s)).
Proof.
  intros H Ha. remember None as n. destruct H as [v0 s0 s1 ks n v1 l1 w1 Hm Hp]. subst n.
  unfold effects in Hp. rewrite Ha in Hp. cbn [body_calls] in Hp.
  apply perform_app in Hp. destruct Hp as [(k & E & _)|(k1 & k2 & va & la & wa & -> & P1 & Hp)]; [discriminate|].
  apply perform_app in Hp. destruct Hp as [(k & E & _)|(k3 & k4 & vb & lb & wb & -> & P2 & P3)]; [discriminate|].
  apply perform_live in P1; [|apply plain_calls].
  apply perform_live in P3; [|apply Forall_app; split; apply plain_calls].
  inversion P2; subst. match goal with A : perform _ _ _ _ [] _ _ _ _ _ _ _ _ |- _ => inversion A; subst; clear A end.
  cbn [p_callee p_targ p_makes] in *. cbn [rt_live with_live].
  destruct (moves_frame2 _ _ _ _ _ Hm) as (_ & El & _).
  do 5 eexists. split; [eassumption|]. split.
  - rewrite assign_In. destruct (sref_eq_dec _ _); [reflexivity|congruence].
  - intros t Ht. rewrite assign_In. destruct (sref_eq_dec _ _); [congruence|]. now rewrite El.
Qed.

Lemma exec_steps_reuse f t e : forall l v s v' s', exec_steps cb l t e v s = Done v' s' ->
  In (StAct (AReuse f)) l -> (forall b, In (StAct b) l -> b = AReuse f) -> alive s (t_tgt t) = true.
Proof.
  induction l as [|st l IH]; intros v s v' s' H Hin Hall; [destruct Hin|].
  cbn [exec_steps] in H. apply bind_Done in H. destruct H as (v1 & s1 & H1 & H2).
  assert (K : forall c a, keep_payload (invoke cb c a v s) = Done v1 s1 -> rt_live s1 = rt_live s).
  { intros c a. unfold keep_payload, invoke. destruct (cb c a v (rt_world s)); cbn; intros E; inversion E; reflexivity. }
  assert (R : rt_live s1 = rt_live s -> In (StAct (AReuse f)) l -> alive s (t_tgt t) = true).
  { intros El Hl. assert (A : alive s1 (t_tgt t) = true).
    { eapply IH; eauto. intros b Hb. apply Hall. now right. }
    unfold alive in *. now rewrite El in A. }
  destruct Hin as [->|Hin].
  - cbn [exec_step exec_body] in H1. destruct (alive s (t_tgt t)); [reflexivity|discriminate].
  - destruct st as [c|b|c|c]; cbn [exec_step] in H1.
    2:{ rewrite (Hall b (or_introl eq_refl)) in H1. cbn [exec_body] in H1.
        destruct (alive s (t_tgt t)); [reflexivity|discriminate]. }
    all: apply R; [eapply K; eauto|exact Hin].
Qed.

(** Reusing an object that does not exist never works. *)
Lemma region_dead_reuse env root m vnone ds d0 s r e v pl x o cs ty f :
  handling cb env root m vnone ds d0 s -> event_of env root e ->
  at_place m s r = Some pl -> candidate_list env root e pl (CRow x o :: cs) -> x_guard x = NoGuard ->
  x_act x = Action ty (AReuse f) -> ~ In (target_state env x) (rt_live s) ->
  forall tv s', try_region cb m r e v s <> Done tv s'.
Proof.
  intros Hs He Hp Hcs Hg Hact Hl tv s'. pose proof (handling_rinvs _ _ _ _ _ _ _ _ Hs) as [T _ _].
  assert (Hm : compile env root = Some m) by apply Hs. pose proof He as He'. apply (events_iff _ _ _ Hm) in He'.
  pose proof Hm as Hm2. compiled Hm.
  assert (Ec : CRow x o :: cs = cands m e pl) by (now apply (candidate_list_cands m Hc)).
  assert (N : ds <> []) by (eapply filled_nonempty, (ti_tabs _ _ _ _ T)).
  unfold try_region. rewrite (get_entries_total m Hc ds d0 e r s pl T He' Hp). cbn [bind].
  destruct ds as [|d l] eqn:Ed; [congruence|].
  assert (Ha : row_accepted m x = true).
  { eapply (bound_accepted m Hc (d :: l) e pl d x o). unfold bound. cbn. rewrite <- Ec. apply in_or_app. left. now left. }
  unfold bound. cbn [flat_map]. rewrite <- Ec. cbn [map app try_entries]. rewrite bentry_tr.
  cbn [en_defer bentry centry fst snd entry_of_row]. unfold execute_guard. cbn [t_guard btrans]. rewrite Hg.
  cbn [bind fst snd]. intros H.
  apply bind_Done in H. destruct H as (tv1 & s1 & H & _).
  apply bind_Done in H. destruct H as ([] & s2 & Hu & H).
  apply bind_Done in H. destruct H as (v2 & s3 & Hx & _).
  assert (El : rt_live s2 = rt_live s).
  { assert (Hx' : x_int x = false -> In x (mc_flat m)).
    { intros Hi. assert (Hcand : candidate (mc_env m) (mc_root m) e pl (CRow x o)) by (apply (cands_sound m Hc); rewrite <- Ec; now left).
      apply (flat_declared m Hc). inversion Hcand; subst; auto.
      match goal with A : declared_internal _ _ _ |- _ => destruct A; discriminate end. }
    pose proof (update_sound m Hc (d :: l) d0 d x o r s s2 T Ha Hx' Hu) as Hmv.
    destruct (moves_frame2 _ _ _ _ _ Hmv) as (_ & E & _). exact E. }
  unfold execute_action in Hx. cbn [t_act t_src t_ptr t_int t_tgt btrans] in Hx.
  assert (Er : exists l, resolve_action (mc_env m) x = Some l /\ In (StAct (AReuse f)) l /\ forall b, In (StAct b) l -> b = AReuse f).
  { unfold resolve_action, has_action. rewrite Hact. eexists. split; [reflexivity|].
    unfold resolve_no_action. rewrite Hact. split; [apply in_or_app; right; now left|].
    intros b Hb. rewrite !in_app_iff in Hb.
    destruct Hb as [Hb|[[Hb|[]]|[Hb|Hb]]]; [| |..].
    - unfold resolve_exit_action in Hb. destruct (x_int x); [destruct Hb|].
      destruct (exit_of (mc_env m) (x_src x)); [destruct Hb as [Hb|[]]; discriminate|].
      unfold opt_step in Hb. destruct (pseudo_exit_of (mc_env m) x); [destruct Hb as [Hb|[]]; discriminate|destruct Hb].
    - congruence.
    - unfold resolve_entry_action in Hb. destruct (x_int x); [destruct Hb|].
      unfold opt_step in Hb. destruct (entry_of (mc_env m) (x_tgt x)); [destruct Hb as [Hb|[]]; discriminate|destruct Hb].
    - unfold resolve_initial_entry_action, opt_step in Hb.
      repeat match goal with H : In _ (match ?x with _ => _ end) |- _ => destruct x end;
        try (destruct Hb as [Hb|[]]; discriminate); destruct Hb. }
  destruct Er as (l1 & Er & Hin & Hall). rewrite Er in Hx.
  destruct (alive s2 o && _); [|discriminate].
  pose proof (exec_steps_reuse _ _ _ _ _ _ _ _ Hx Hin Hall) as A. cbn [t_tgt btrans] in A.
  destruct (dst_of_target m x (row_accepted_dst m x Ha)) as [Et _]. rewrite Et in A.
  unfold alive in A. rewrite El in A. destruct (in_dec sref_eq_dec _ _); [contradiction|discriminate].
Qed.

(** ** chain_actions *)
Lemma chain_app l1 l2 t e v (s : rt V W) :
  exec_body cb (AChain (l1 ++ l2)) t e v s =
  bind (exec_body cb (AChain l1) t e v s) (fun v s => exec_body cb (AChain l2) t e v s).
Proof.
  revert v s. induction l1 as [|b l1 IH]; intros v s; [reflexivity|].
  cbn [exec_body app]. destruct (exec_body cb b t e v s) as [v1 s1|ex s1|u|]; cbn [bind]; auto.
  apply IH.
Qed.
Lemma chain_one b t e v (s : rt V W) : exec_body cb (AChain [b]) t e v s = exec_body cb b t e v s.
Proof. cbn [exec_body]. destruct (exec_body cb b t e v s); reflexivity. Qed.
End Actions.

(** * Exceptions *)
Section Exceptions.
Context {V W : Type}.
Variable cb : cbfun V W.
Variables (env : cenv) (root : cls) (m : machine) (vnone : V) (ds : list dep) (d0 : dep) (s : rt V W).
Hypothesis Hs : running cb env root m vnone ds d0 s.

Lemma event_throws fuel e v i v1 s1 ex s' : event_of env root e -> i < active m s -> i < fuel ->
  turns cb m e 0 v s i v1 s1 -> try_region cb m i e v1 s1 = Threw ex s' ->
  process_event cb m vnone fuel e v s = Threw ex s' /\
  (forall k, i < k -> nth_error (rt_cur s') k = nth_error (rt_cur s) k) /\
  running cb env root m vnone ds d0 s' /\
  exists n, ex = XUser n /\
  ((exists ks w', s' = after s1 w' ks) \/
   (exists d x o v2 s2 v' ks, takes cb m ds i e v1 s1 d x o v2 s2 /\
      executes cb m i e d x o v2 s2 (Some n) v' s' /\
      rt_trace s' = rt_trace s2 ++ ks /\ 0 < length ks <= length (row_calls env x) /\
      map signature ks = firstn (length ks) (row_signature env e d x o))).
Proof.
  intros He Hi Hf T E.
  pose proof (turns_handling _ _ _ _ _ _ _ _ _ _ _ _ _ _ (running_handling _ _ _ _ _ _ _ _ Hs) T) as H1.
  pose proof (turns_stop _ _ _ _ _ _ _ _ Hs fuel e v i v1 s1 He Hi T Hf) as P. rewrite E in P.
  split; [exact P|]. split; [|split].
  - intros k Hk. pose proof (region_verdict _ _ _ _ _ _ _ _ H1 i e v1) as Q. rewrite E in Q.
    destruct Q as (n & vd & v' & _ & _ & Q). rewrite (region_step_cur _ _ _ _ _ _ _ _ _ _ Q k) by lia.
    apply (turns_cur _ _ _ _ _ _ _ _ _ _ _ _ _ _ (running_handling _ _ _ _ _ _ _ _ Hs) T). lia.
  - destruct Hs as (Hm & Hfew & Hr). repeat (split; [assumption|]).
    change ds with (deps_after (KProcess e v) ds). eapply reach_call with (fuel := fuel) (k := KProcess e v); [exact Hr|].
    unfold do_call_catch. cbn [do_call]. rewrite P. cbn [bind]. reflexivity.
  - exact (threw_region _ _ _ _ _ _ _ _ H1 i e v1 ex s' E).
Qed.

Lemma guard_throws fuel e v i v1 s1 pl cs ks n v' w' : event_of env root e -> i < active m s -> i < fuel ->
  turns cb m e 0 v s i v1 s1 -> at_place m s i = Some pl -> candidate_list env root e pl cs ->
  guards_ready m s1 (bind_all ds cs) ->
  scan cb m e (bind_all ds cs) v1 (rt_world s1) ks (VRaise n) v' w' ->
  process_event cb m vnone fuel e v s = Threw (XUser n) (after s1 w' ks) /\
  (forall k, i <= k -> nth_error (rt_cur s1) k = nth_error (rt_cur s) k) /\
  running cb env root m vnone ds d0 (after s1 w' ks).
Proof.
  intros He Hi Hf T Hp Hcs Hg Sc.
  pose proof (turns_handling _ _ _ _ _ _ _ _ _ _ _ _ _ _ (running_handling _ _ _ _ _ _ _ _ Hs) T) as H1.
  assert (Hc : forall k, i <= k -> nth_error (rt_cur s1) k = nth_error (rt_cur s) k).
  { intros k Hk. apply (turns_cur _ _ _ _ _ _ _ _ _ _ _ _ _ _ (running_handling _ _ _ _ _ _ _ _ Hs) T). lia. }
  assert (Hp1 : at_place m s1 i = Some pl) by (unfold at_place in *; rewrite Hc; auto).
  pose proof (region_decides _ _ _ _ _ _ _ _ H1 i e v1 pl cs ks (VRaise n) v' w' He Hp1 Hcs Hg Sc) as P. cbn in P.
  destruct (event_throws fuel e v i v1 s1 _ _ He Hi Hf T P) as (A & _ & B & _). auto.
Qed.
End Exceptions.

(** * Exits *)
Section Exits.
Lemma row_exits env x c : x_int x = false ->
  (In (CExit c) (row_calls env x) <->
   has_exit env c = true /\ (x_src x = SState c \/ exists w q, x_src x = SExit w c q)).
Proof.
  intros Hi. unfold row_calls. rewrite !in_app_iff.
  assert (B : forall b, ~ In (CExit c) (callees b)).
  { fix IH 1. intros b. destruct b as [f|f|f|l]; cbn; try (intros [A|[]]; discriminate).
    induction l as [|b l IHl]; [intros []|]. cbn. rewrite in_app_iff. intros [A|A]; [exact (IH b A)|exact (IHl A)]. }
  assert (N : ~ In (CExit c) (action_calls x) /\ ~ In (CExit c) (entry_call env x) /\ ~ In (CExit c) (initial_entry_call env x)).
  { split; [|split]; intros A.
    - unfold action_calls in A. destruct (x_act x); [destruct A|exact (B _ A)].
    - unfold entry_call in A. destruct (x_int x); [destruct A|].
      destruct (x_tgt x); try (destruct A; fail). destruct (has_entry env _); [destruct A as [A|[]]; discriminate|destruct A].
    - unfold initial_entry_call in A. destruct (x_tgt x); try (destruct A; fail).
      destruct (if is_composite env c0 then _ else _) as [[i| | | | |]|]; try (destruct A; fail).
      destruct (has_entry env i); [destruct A as [A|[]]; discriminate|destruct A]. }
  destruct N as (N1 & N2 & N3). unfold exit_call. rewrite Hi.
  split.
  - intros [A|[A|[A|A]]]; try contradiction.
    destruct (x_src x) as [c'| | | |w p q|] eqn:Es; try (destruct A; fail).
    + destruct (has_exit env c') eqn:Eh; [|destruct A]. destruct A as [A|[]]. inversion A; subst. auto.
    + destruct (has_exit env p) eqn:Eh; [|destruct A]. destruct A as [A|[]]. inversion A; subst. eauto.
  - intros [Hh [Es|(w & q & Es)]]; rewrite Es, Hh; left; now left.
Qed.

Context {V W : Type}.
Variable cb : cbfun V W.
Variables (env : cenv) (root : cls) (m : machine) (vnone : V) (ds : list dep) (d0 : dep) (s : rt V W).
Hypothesis Hs : handling cb env root m vnone ds d0 s.

(** on_exit is called exactly for plain sources and the parents of exit sources. *)
Lemma fired_exits r e v v' s' c : try_region cb m r e v s = Done (Some Fired, v') s' ->
  exists d x o v1 s1 ks, takes cb m ds r e v s d x o v1 s1 /\ executes cb m r e d x o v1 s1 None v' s' /\
    rt_trace s' = rt_trace s1 ++ ks /\
    (x_int x = false ->
      ((exists k, In k ks /\ k_callee k = CExit c) <->
       has_exit env c = true /\ (x_src x = SState c \/ exists w q, x_src x = SExit w c q))).
Proof.
  intros H. destruct (fired_calls _ _ _ _ _ _ _ _ Hs _ _ _ _ _ H) as (d & x & o & v1 & s1 & ks & Ht & He & Et & Ek).
  exists d, x, o, v1, s1, ks. repeat (split; [assumption|]). intros Hi. rewrite <- (row_exits env x c Hi).
  assert (M : map k_callee ks = row_calls env x).
  { transitivity (map fst (map signature ks)); [rewrite map_map; reflexivity|]. rewrite Ek. unfold row_signature.
    rewrite map_map. cbn. apply map_id. }
  rewrite <- M. rewrite in_map_iff. split; intros (k & A & B); exists k; auto.
Qed.
End Exits.


Lemma fired_chain {V W} (cb : cbfun V W) env root m vnone ds d0 s :
  handling cb env root m vnone ds d0 s ->
  forall r e v v' s', try_region cb m r e v s = Done (Some Fired, v') s' ->
  exists d x o v1 s1, takes cb m ds r e v s d x o v1 s1 /\
    forall ty fs, x_act x = Action ty (AChain (map ACall fs)) ->
    exists k1 k2 k3, rt_trace s' = rt_trace s1 ++ k1 ++ k2 ++ k3 /\
      map signature k2 = map (fun f => (CAction f, mkArgs e o (action_target env x o) d)) fs.
Proof.
  intros Hs r e v v' s' H.
  destruct (fired_calls _ _ _ _ _ _ _ _ Hs _ _ _ _ _ H) as (d & x & o & v1 & s1 & ks & Ht & He & Et & Ek).
  exists d, x, o, v1, s1. split; [exact Ht|]. intros ty fs Ha. unfold row_signature, row_calls in Ek. rewrite !map_app in Ek.
  apply map_eq_app in Ek. destruct Ek as (k1 & k' & -> & _ & Ek).
  apply map_eq_app in Ek. destruct Ek as (k2 & k3 & -> & Ek & _).
  exists k1, k2, k3. split; [exact Et|]. rewrite Ek. unfold action_calls. rewrite Ha. cbn [callees].
  assert (E : flat_map callees (map ACall fs) = map CAction fs).
  { clear. induction fs as [|f fs IH]; [reflexivity|]. cbn in *. now rewrite IH. }
  rewrite E, map_map. reflexivity.
Qed.

Lemma process_agrees {V W} (cb : cbfun V W) env root m vnone ds d0 s fuel e v :
  running cb env root m vnone ds d0 s ->
  match process_event cb m vnone fuel e v s with
  | Done (b, v') s' => (exists vds, process cb m ds vnone d0 e v s vds (Returned b v') s') /\
      forall vds rp t, process cb m ds vnone d0 e v s vds rp t -> rp = Returned b v' /\ t = s'
  | Threw ex s' => exists n, ex = XUser n /\ (exists vds, process cb m ds vnone d0 e v s vds (Exception n) s') /\
      forall vds rp t, process cb m ds vnone d0 e v s vds rp t -> rp = Exception n /\ t = s'
  | Undef _ => True
  | Timeout => True
  end.
Proof.
  intros Hs. pose proof (running_rinvs _ _ _ _ _ _ _ _ Hs) as R. destruct Hs as (Hm & Hfew & _).
  pose proof (few_max_compiled _ _ _ Hm Hfew) as Hmax. compiled Hm.
  pose proof (process_event_result m Hc cb ds vnone d0 Hmax fuel e v s R) as H.
  destruct (process_event cb m vnone fuel e v s) as [[b v'] s'|ex s'|u|]; auto.
  - destruct H as [vds H]. split; [eauto|]. intros vds2 rp t H2. destruct (process_det _ _ _ _ _ _ _ _ _ _ _ H _ _ _ H2) as (_ & ? & ?). auto.
  - destruct H as (n & vds & -> & H). exists n. split; [reflexivity|]. split; [eauto|].
    intros vds2 rp t H2. destruct (process_det _ _ _ _ _ _ _ _ _ _ _ H _ _ _ H2) as (_ & ? & ?). auto.
Qed.
