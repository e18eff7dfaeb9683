(** More about single calls: created and reused objects when callbacks throw, and the
    end of anonymous processing in machines with deferred events. *)

From Coq Require Import List Arith NArith Bool Lia.
From Verif Require Import Types Static Dispatch Runtime ListFacts IndexFacts Spec
  DispatchFacts FlattenFacts Semantics RefineFacts StaticFacts TermFacts Reach ReachFacts TableFacts
  QueryFacts ProcessFacts RegionFacts LoopFacts OutcomeFacts QueueFacts CallFacts.
Import ListNotations.

Section Objects.
Context {V W : Type}.
Variable cb : cbfun V W.
Notation st := (rt V W).

Definition by_exit (k : called V) : Prop := exists c, k_callee k = CExit c.
Definition by_entry (k : called V) : Prop := exists c, k_callee k = CEntry c.

Lemma perform_kinds e d o ps v live w ks n v' live' w' (P : callee -> Prop) :
  perform cb e d o ps v live w ks n v' live' w' -> Forall (fun p => P (p_callee p)) ps -> Forall (fun k => P (k_callee k)) ks.
Proof. intros H. induction H; intros F; inversion F; subst; repeat constructor; auto. Qed.
Lemma exits_only env x at_ : Forall (fun p => exists c, p_callee p = CExit c) (map (fun c => mkPrim c at_ true None) (exit_call env x)).
Proof.
  unfold exit_call. destruct (x_int x); [constructor|]. destruct (x_src x); try constructor;
    match goal with |- context[has_exit ?e ?c] => destruct (has_exit e c) end; repeat constructor; cbn; eauto.
Qed.
Lemma entries_only env x at_ : Forall (fun p => exists c, p_callee p = CEntry c)
  (map (fun c => mkPrim c at_ true None) (entry_call env x) ++ map (fun c => mkPrim c at_ true None) (initial_entry_call env x)).
Proof.
  apply Forall_app. split.
  - unfold entry_call. destruct (x_int x); [constructor|]. destruct (x_tgt x); try constructor;
      match goal with |- context[has_entry ?e ?c] => destruct (has_entry e c) end; repeat constructor; cbn; eauto.
  - unfold initial_entry_call. destruct (x_tgt x); try constructor.
    destruct (if is_composite env c then first_initial env c else None) as [[]|]; try constructor;
      match goal with |- context[has_entry ?e ?c] => destruct (has_entry e c) end; repeat constructor; cbn; eauto.
Qed.

(** The one call of an action body made of a single callback. *)
Lemma executes_single m r e d x o v (s : st) n v' s' p : executes cb m r e d x o v s n v' s' ->
  match x_act x with NoAction => [] | Action _ b => body_calls (action_target (mc_env m) x o) (target_state (mc_env m) x) b end = [p] ->
  exists ks, rt_trace s' = rt_trace s ++ ks /\
   ((n <> None /\ Forall by_exit ks /\ rt_live s' = rt_live s) \/
    (exists before k u u' w w' j, ks = before ++ [k] /\ Forall by_exit before /\ k = mkCall (p_callee p) (mkArgs e o (p_targ p) d) u /\
       n = Some j /\ cb (p_callee p) (mkArgs e o (p_targ p) d) u w = Raise j u' w' /\ rt_live s' = rt_live s) \/
    (exists before k after_ u u' w w' b, ks = before ++ k :: after_ /\ Forall by_exit before /\ Forall by_entry after_ /\
       k = mkCall (p_callee p) (mkArgs e o (p_targ p) d) u /\
       cb (p_callee p) (mkArgs e o (p_targ p) d) u w = Ret b u' w' /\
       rt_live s' = match p_makes p with Some t => assign (rt_live s) t b | None => rt_live s end)).
Proof.
  intros H Hb. destruct H as [v0 s0 s1 ks n v1 l1 w1 Hm Hp]. unfold effects in Hp. rewrite Hb in Hp.
  destruct (moves_frame2 _ _ _ _ _ Hm) as (_ & El & _ & Et & _).
  exists ks. split; [cbn; now rewrite Et|]. cbn [rt_live with_live]. rewrite <- El.
  apply perform_app in Hp. destruct Hp as [(k & -> & P1)|(k1 & k2 & va & la & wa & -> & P1 & Hp)].
  { left. split; [discriminate|]. split; [|apply perform_live in P1; [exact P1|apply plain_calls]].
    apply (perform_kinds _ _ _ _ _ _ _ _ _ _ _ _ (fun c => exists k, c = CExit k) P1 (exits_only _ _ _)). }
  right. pose proof (perform_kinds _ _ _ _ _ _ _ _ _ _ _ _ (fun c => exists k, c = CExit k) P1 (exits_only _ _ _)) as K1.
  apply perform_live in P1; [|apply plain_calls]. subst la.
  apply perform_app in Hp. destruct Hp as [(k & -> & P2)|(k3 & k4 & vb & lb & wb & -> & P2 & P3)].
  - left. inversion P2; subst.
    { match goal with A : perform _ _ _ _ [] _ _ _ _ _ _ _ _ |- _ => inversion A end. }
    do 7 eexists. split; [reflexivity|]. split; [exact K1|]. split; [reflexivity|]. split; [reflexivity|]. split; [eassumption|reflexivity].
  - right. pose proof (perform_kinds _ _ _ _ _ _ _ _ _ _ _ _ (fun c => exists k, c = CEntry k) P3 (entries_only _ _ _)) as K3.
    apply perform_live in P3; [|apply Forall_app; split; apply plain_calls]. subst l1.
    inversion P2; subst. match goal with A : perform _ _ _ _ [] _ _ _ _ _ _ _ _ |- _ => inversion A; subst; clear A end.
    do 8 eexists. split; [reflexivity|]. split; [exact K1|]. split; [exact K3|]. split; [reflexivity|]. split; [eassumption|reflexivity].
Qed.

(** create_state: whatever throws, the object is there (or gone, if the factory returned
    an empty pointer) from the return of the factory on, and not before. *)
Lemma create_stages m r e d x o v (s : st) n v' s' ty f : executes cb m r e d x o v s n v' s' ->
  x_act x = Action ty (ACreate f) ->
  exists ks, rt_trace s' = rt_trace s ++ ks /\
   ((n <> None /\ Forall by_exit ks /\ rt_live s' = rt_live s) \/
    (exists before u u' w w' j, ks = before ++ [mkCall (CFactory f) (mkArgs e o TNone d) u] /\ Forall by_exit before /\
       n = Some j /\ cb (CFactory f) (mkArgs e o TNone d) u w = Raise j u' w' /\ rt_live s' = rt_live s) \/
    (exists before after_ u u' w w' b, ks = before ++ mkCall (CFactory f) (mkArgs e o TNone d) u :: after_ /\
       Forall by_exit before /\ Forall by_entry after_ /\ cb (CFactory f) (mkArgs e o TNone d) u w = Ret b u' w' /\
       (In (target_state (mc_env m) x) (rt_live s') <-> b = true) /\
       forall t, t <> target_state (mc_env m) x -> (In t (rt_live s') <-> In t (rt_live s)))).
Proof.
  intros H Ha. eapply executes_single in H; [|rewrite Ha; reflexivity]. cbn [p_callee p_targ p_makes] in H.
  destruct H as (ks & Et & [H|[H|H]]); exists ks; (split; [exact Et|]).
  - now left.
  - right. left. destruct H as (b & k & u & u' & w & w' & j & -> & A & -> & B). exists b, u, u', w, w', j. tauto.
  - right. right. destruct H as (bf & k & af & u & u' & w & w' & b & -> & A & B & -> & C & D).
    exists bf, af, u, u', w, w', b. rewrite D. repeat (split; [assumption || reflexivity|]). split.
    + rewrite assign_In. destruct (sref_eq_dec _ _); [reflexivity|congruence].
    + intros t Ht. rewrite assign_In. destruct (sref_eq_dec _ _); [congruence|reflexivity].
Qed.

(** reuse_state: the function gets the object of the target; no object comes or goes. *)
Lemma reuse_stages m r e d x o v (s : st) n v' s' ty f : executes cb m r e d x o v s n v' s' ->
  x_act x = Action ty (AReuse f) ->
  rt_live s' = rt_live s /\
  exists ks, rt_trace s' = rt_trace s ++ ks /\
   ((n <> None /\ Forall by_exit ks) \/
    exists before after_ u, ks = before ++ mkCall (CReuse f) (mkArgs e o (TObj (target_state (mc_env m) x)) d) u :: after_ /\
       Forall by_exit before /\ Forall by_entry after_).
Proof.
  intros H Ha. eapply executes_single in H; [|rewrite Ha; reflexivity]. cbn [p_callee p_targ p_makes] in H.
  destruct H as (ks & Et & [H|[H|H]]).
  - split; [tauto|]. exists ks. tauto.
  - destruct H as (b & k & u & u' & w & w' & j & -> & A & -> & B & C & D). split; [exact D|].
    eexists. split; [exact Et|]. right. exists b, [], u. repeat split; auto.
  - destruct H as (bf & k & af & u & u' & w & w' & b & -> & A & B & -> & C & D). split; [exact D|].
    eexists. split; [exact Et|]. right. exists bf, af, u. repeat split; auto.
Qed.
End Objects.

(** * The end of anonymous processing *)
Section Stop.
Context {V W : Type}.
Variable cb : cbfun V W.
Variables (env : cenv) (root : cls) (m : machine) (vnone : V).
Notation st := (rt V W).

(** Where anonymous processing stops: some region had no anonymous candidate, or all
    regions were asked and refused. *)
Definition comes_to_rest (ds : list dep) (s' : st) : Prop :=
  (exists v0 s0 vds v2 i pl, anon_pass cb m ds (active m s0) 0 v0 s0 vds PeEmptyRegion v2 s' /\
     i < active m s0 /\ at_place m s' i = Some pl /\ candidate_list env root ENone pl []) \/
  (forall k, k < active m s' -> exists v1 s1 v2 s2,
     region_step cb m ds k ENone v1 s1 RRefused v2 s2 /\ rt_cur s1 = rt_cur s').

Lemma handled_rests ds d0 s e v s1 vds avds v' s' : running cb env root m vnone ds d0 s ->
  (exists x, declared env root x /\ x_ev x = ENone) ->
  offer cb m ds vnone e v s1 vds avds OfHandled v' s' -> comes_to_rest ds s'.
Proof.
  intros Hs Ha O. pose proof (running_rinvs _ _ _ _ _ _ _ _ Hs) as R. destruct Hs as (Hm & Hfew & _).
  apply (anonymous_iff _ _ _ Hm) in Ha. unfold comes_to_rest. compiled Hm.
  apply offer_run in O. destruct O as (s2 & Rr & _ & _ & O). rewrite Ha in O.
  destruct (anonymous_last _ _ _ _ _ _ _ O) as [(v0 & s0 & vds0 & v2 & i & pl & Hpass & Hi & A & B)|A]; [left|right; exact A].
  exists v0, s0, vds0, v2, i, pl. repeat (split; [assumption|]). apply (candidate_list_cands m Hc). symmetry.
  apply (bound_nil m ds ENone pl) in B; [exact B|]. eapply filled_nonempty, (ti_tabs _ _ _ _ (ri_tinv _ _ _ _ R)).
Qed.

Lemma process_rests ds d0 s fuel e v v' s' : running cb env root m vnone ds d0 s ->
  (exists x, declared env root x /\ x_ev x = ENone) ->
  process_event cb m vnone fuel e v s = Done (true, v') s' ->
  exists vds avds s1, offer cb m ds vnone e v s vds avds OfHandled v' s1 /\ comes_to_rest ds s1 /\
    (rt_queue s = [] -> s' = s1) /\
    (forall e2 v2 q, rt_queue s = (e2, v2) :: q -> exists vds2 avds2 oe v3,
       offer cb m ds vnone e2 v2 (with_queue s1 q) vds2 avds2 oe v3 s' /\ (oe = OfHandled -> comes_to_rest ds s')).
Proof.
  intros Hs Ha H. destruct (process_recalls _ _ _ _ _ _ _ _ _ _ _ _ _ Hs H) as (vds & avds & s1 & O & Q & A & B & _).
  exists vds, avds, s1. split; [exact O|]. split; [eapply handled_rests; eauto|]. split; [exact A|].
  intros e2 v2 q Hq. destruct (B e2 v2 q Hq) as (vds2 & avds2 & oe & v3 & O2 & _). exists vds2, avds2, oe, v3.
  split; [exact O2|]. intros ->. eapply handled_rests; eauto.
Qed.
End Stop.
