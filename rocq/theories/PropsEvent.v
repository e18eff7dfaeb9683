(** Properties of whole calls of process_event: outcomes (C06, C07, C08, C46),
    exceptions (C11, C12), anonymous transitions (C17, C39), deferral (C19-C22,
    C40), regions (C23).  Vocabulary: Spec.v, Semantics.v, Reach.v. *)

From Coq Require Import List Arith NArith Bool.
From Verif Require Import Types Static Dispatch Runtime Dsl Examples Spec DispatchFacts Semantics Reach
  StaticFacts TableFacts ProcessFacts RegionFacts LoopFacts OutcomeFacts QueueFacts CallFacts Demo.
Import ListNotations.

(** C46. process_event does what the semantics by names (Semantics.v) says, and
    that semantics leaves no choice. *)
Theorem C46_semantics : forall V W (cb : cbfun V W) env root m vnone ds d0 s fuel e v,
  running cb env root m vnone ds d0 s ->
  match process_event cb m vnone fuel e v s with
  | Done (b, v') s' => (exists vds, process cb m ds vnone d0 e v s vds (Returned b v') s') /\
      forall vds rp t, process cb m ds vnone d0 e v s vds rp t -> rp = Returned b v' /\ t = s'
  | Threw ex s' => exists n, ex = XUser n /\ (exists vds, process cb m ds vnone d0 e v s vds (Exception n) s') /\
      forall vds rp t, process cb m ds vnone d0 e v s vds rp t -> rp = Exception n /\ t = s'
  | Undef _ => True
  | Timeout => True
  end.
Proof. exact @process_agrees. Qed.
Print Assumptions C46_semantics.

(** The machine parameters of that semantics, by names. *)
Theorem C46_events : forall env root m, compile env root = Some m ->
  forall e, In e (events m) <-> event_of env root e.
Proof. exact events_iff. Qed.
Print Assumptions C46_events.
Theorem C46_anonymous : forall env root m, compile env root = Some m ->
  (has_anonymous m = true <-> exists x, declared env root x /\ x_ev x = ENone).
Proof. exact anonymous_iff. Qed.
Print Assumptions C46_anonymous.
Theorem C46_history : forall env root m, compile env root = Some m ->
  (has_history m = true <-> exists x w p, declared env root x /\ x_tgt x = SHistory w p).
Proof. exact history_iff. Qed.
Print Assumptions C46_history.
Theorem C46_deferred : forall env root m, compile env root = Some m ->
  (has_deferred m = true <-> exists x c l, declared env root x /\ unmarked (x_src x) = SState c /\
     cd_defer (lookup env c) = Some l).
Proof. exact deferred_iff. Qed.
Print Assumptions C46_deferred.

Example C46_applies : demo_state ex_cb Defer.env 50 [pe 2] (fun m s =>
  exists s', process_event ex_cb m 0 300 (EUser 1) 5 s = Done (true, 5) s' /\ rt_queue s <> [] /\ rt_queue s' = []).
Proof. apply demo_intro. vm_compute. split; [reflexivity|]. eexists. repeat split. discriminate. Qed.

(** C06. *)
Theorem C06_unhandled : forall V W (cb : cbfun V W) env root m vnone ds d0 s,
  running cb env root m vnone ds d0 s ->
  forall fuel e v, event_of env root e -> active m s < fuel ->
  (forall r, r < active m s -> exists pl, at_place m s r = Some pl /\ candidate_list env root e pl []) ->
  (cd_unexpected (lookup env root) = false -> process_event cb m vnone fuel e v s = Done (false, v) s) /\
  (cd_unexpected (lookup env root) = true -> forall p q, at_place m s 0 = Some (p, q) ->
     process_event cb m vnone fuel e v s =
     if in_dec sref_eq_dec q (rt_live s) then
       match cb CHandler (mkArgs e q TNone d0) v (rt_world s) with
       | Ret _ v' w' => Done (false, v') (after s w' [mkCall CHandler (mkArgs e q TNone d0) v])
       | Raise n _ w' => Threw (XUser n) (after s w' [mkCall CHandler (mkArgs e q TNone d0) v])
       end
     else Undef UBNull).
Proof. exact @process_unhandled. Qed.
Print Assumptions C06_unhandled.

Example C06_applies : demo_state ex_cb Basic.env Basic.Main [] (fun m s =>
  active m s = 1 /\ at_place m s 0 = Some (12, SState 1) /\ candidate_list Basic.env 12 (EUser 3) (12, SState 1) [] /\
  event_of Basic.env 12 (EUser 3) /\ In (SState 1) (rt_live s) /\
  exists s', process_event ex_cb m 0 300 (EUser 3) 5 s = Done (false, 99) s' /\ map k_callee (rt_trace s') = [CHandler]).
Proof.
  assert (D : demo_state ex_cb Basic.env Basic.Main [] (fun m s =>
    active m s = 1 /\ at_place m s 0 = Some (12, SState 1) /\ cands m (EUser 3) (12, SState 1) = [] /\
    existsb (fun e => if ev_eq_dec e (EUser 3) then true else false) (events m) = true /\ In (SState 1) (rt_live s) /\
    exists s', process_event ex_cb m 0 300 (EUser 3) 5 s = Done (false, 99) s' /\ map k_callee (rt_trace s') = [CHandler])).
  { apply demo_intro. vm_compute. repeat (split; [reflexivity|]). split; [auto|]. eexists. repeat split. }
  destruct D as (m & s & Hm & Hf & Hr & H1 & H2 & H3 & H4 & H5 & H6). exists m, s.
  repeat (split; [assumption|]). split; [eapply demo_candidates; eauto|]. split; [|split; assumption].
  apply (C46_events _ _ _ Hm). apply existsb_exists in H4. destruct H4 as (e & Hi & He).
  destruct (ev_eq_dec e (EUser 3)); [subst; exact Hi|discriminate].
Qed.

(** C07. *)
Theorem C07_refused : forall V W (cb : cbfun V W) env root m vnone ds d0 s,
  running cb env root m vnone ds d0 s ->
  forall fuel e v (lists : nat -> list cand), event_of env root e -> active m s < fuel ->
  (forall r, r < active m s -> exists pl, at_place m s r = Some pl /\ candidate_list env root e pl (lists r)) ->
  (exists r, r < active m s /\ lists r <> []) ->
  (forall r c, r < active m s -> In c (lists r) -> refuses cb m ds s e c) ->
  exists v' w' ks, process_event cb m vnone fuel e v s = Done (false, v') (after s w' ks) /\
    map signature ks = flat_map (fun r => flat_map (asks m e) (bind_all ds (lists r))) (seq 0 (active m s)).
Proof. exact @process_refused. Qed.
Print Assumptions C07_refused.

Example C07_applies : demo_state ex_cb Regions.env Regions.Main [] (fun m s =>
  active m s = 2 /\ at_place m s 0 = Some (50, SState 1) /\ at_place m s 1 = Some (50, SState 3) /\
  (exists x y o o', cands m (EUser 3) (50, SState 1) = [CRow x o] /\ cands m (EUser 3) (50, SState 3) = [CRow y o'] /\
     x_guard x = fail /\ x_guard y = fail /\
     (forall c, c = CRow x o \/ c = CRow y o' -> refuses ex_cb m [0] s (EUser 3) c)) /\
  exists s', process_event ex_cb m 0 300 (EUser 3) 5 s = Done (false, 5) s' /\
    map k_callee (rt_trace s') = [CGuard 0 0; CGuard 0 0]).
Proof.
  apply demo_intro. vm_compute. repeat (split; [reflexivity|]). split.
  - do 4 eexists. do 4 (split; [reflexivity|]). intros c [-> | ->]; do 4 eexists;
      (split; [reflexivity|]); (split; [reflexivity|]); (split; [tauto|]); (split; [tauto|]);
      intros; do 2 eexists; reflexivity.
  - eexists. repeat split.
Qed.

(** C08. *)
Theorem C08_answer : forall V W (cb : cbfun V W) env root m vnone ds d0 s fuel e v b v' s',
  running cb env root m vnone ds d0 s -> process_event cb m vnone fuel e v s = Done (b, v') s' ->
  exists vds v1 s1, regions_run cb m ds e (active m s) 0 v s vds v1 s1 /\
    (b = true <-> existsb fired vds = true /\ existsb deferred vds = false) /\
    (existsb fired vds = false -> rt_cur s' = rt_cur s /\ rt_hist s' = rt_hist s /\ rt_regions s' = rt_regions s).
Proof. exact @process_answer. Qed.
Print Assumptions C08_answer.

(** Region 0 takes its row, region 1 refuses. *)
Example C08_applies : demo_state ex_cb Regions.env Regions.Main [] (fun m s =>
  exists s', process_event ex_cb m 0 300 (EUser 4) 5 s = Done (true, 5) s' /\
    at_place m s' 0 = Some (50, SState 2) /\ at_place m s' 1 = Some (50, SState 3)).
Proof. apply demo_intro. vm_compute. split; [reflexivity|]. eexists. repeat split. Qed.

(** C11, C12. An exception in the turn of region i ends the call. *)
Theorem C11_throws : forall V W (cb : cbfun V W) env root m vnone ds d0 s,
  running cb env root m vnone ds d0 s ->
  forall fuel e v i v1 s1 ex s', event_of env root e -> i < active m s -> i < fuel ->
  turns cb m e 0 v s i v1 s1 -> try_region cb m i e v1 s1 = Threw ex s' ->
  process_event cb m vnone fuel e v s = Threw ex s' /\
  (forall k, i < k -> nth_error (rt_cur s') k = nth_error (rt_cur s) k) /\
  running cb env root m vnone ds d0 s' /\
  exists n, ex = XUser n /\
    ((exists ks w', s' = after s1 w' ks) \/
     (exists d x o v2 s2 v' ks, takes cb m ds i e v1 s1 d x o v2 s2 /\
        executes cb m i e d x o v2 s2 (Some n) v' s' /\
        rt_trace s' = rt_trace s2 ++ ks /\
        0 < length ks <= length (row_calls env x) /\
        map signature ks = firstn (length ks) (row_signature env e d x o))).
Proof. exact @event_throws. Qed.
Print Assumptions C11_throws.

Definition throw_env : cenv :=
 [ (1, EntryExit.ee None); (2, EntryExit.ee None);
   (50, tbl [ mkRow (SInitial WState 9) (EUser 9) NoGuard NoAction (SState 1);
              mkRow (SState 1) (EUser 1) NoGuard boom (SState 2);
              mkRow (SState 1) (EUser 2) bang NoAction (SState 2);
              mkRow (SInitial WState 3) (EUser 1) NoGuard NoAction (SState 4);
              mkRow (SState 3) (EUser 2) NoGuard NoAction (SState 4) ]) ].
(** The action throws: on_exit was called, on_entry was not, region 0 is in the
    target, region 1 was not asked. *)
Example C11_applies : demo_state throw_cb throw_env 50 [pe 9] (fun m s =>
  exists s', try_region throw_cb m 0 (EUser 1) 5 s = Threw (XUser 7) s' /\
    process_event throw_cb m 0 300 (EUser 1) 5 s = Threw (XUser 7) s' /\
    map k_callee (rt_trace s') = map k_callee (rt_trace s) ++ [CExit 1; CAction 666] /\
    at_place m s' 0 = Some (50, SState 2) /\ at_place m s' 1 = Some (50, SState 3)).
Proof. apply demo_intro. vm_compute. split; [reflexivity|]. eexists. repeat split. Qed.

Theorem C12_guard_throws : forall V W (cb : cbfun V W) env root m vnone ds d0 s,
  running cb env root m vnone ds d0 s ->
  forall fuel e v i v1 s1 pl cs ks n v' w', event_of env root e -> i < active m s -> i < fuel ->
  turns cb m e 0 v s i v1 s1 -> at_place m s i = Some pl -> candidate_list env root e pl cs ->
  guards_ready m s1 (bind_all ds cs) -> scan cb m e (bind_all ds cs) v1 (rt_world s1) ks (VRaise n) v' w' ->
  process_event cb m vnone fuel e v s = Threw (XUser n) (after s1 w' ks) /\
  (forall k, i <= k -> nth_error (rt_cur s1) k = nth_error (rt_cur s) k) /\
  running cb env root m vnone ds d0 (after s1 w' ks).
Proof. exact @guard_throws. Qed.
Print Assumptions C12_guard_throws.

Example C12_applies : demo_state throw_cb throw_env 50 [pe 9] (fun m s =>
  match process_event throw_cb m 0 300 (EUser 2) 5 s with
  | Threw (XUser 6) s' => rt_cur s' = rt_cur s /\ rt_hist s' = rt_hist s /\ rt_queue s' = rt_queue s /\
      match process_event throw_cb m 0 300 (EUser 9) 5 s' with
      | Done (b, _) _ => b = false
      | _ => False
      end
  | _ => False
  end).
Proof. apply demo_intro. vm_compute. repeat split. Qed.

(** C17. One region: when process_event returns, the last thing asked was that
    region's anonymous candidates, and none was taken.  Not covered: machines whose
    anonymous rows are all in internal tables; there the statement is false, see below. *)
Theorem C17_completion_partial : forall V W (cb : cbfun V W) env root m vnone ds d0 s fuel e v v' s',
  running cb env root m vnone ds d0 s -> ~ region_exists env root 1 ->
  (exists x, declared env root x /\ x_ev x = ENone) ->
  process_event cb m vnone fuel e v s = Done (true, v') s' ->
  exists v1 s1 vd v2 s2, region_step cb m ds 0 ENone v1 s1 vd v2 s2 /\ quiet vd /\ rt_cur s' = rt_cur s2.
Proof. exact @process_quiet. Qed.
Print Assumptions C17_completion_partial.

(** With guards that only look at their arguments: every anonymous candidate of
    the final place is guarded and its guard refuses. *)
Theorem C17_completion_pure_partial : forall V W (cb : cbfun V W) env root m vnone ds d0 s fuel e v v' s' G p q,
  running cb env root m vnone ds d0 s ->
  (forall ty val a v w, cb (CGuard ty val) a v w = Ret (G ty val a) v w) ->
  ~ region_exists env root 1 -> (exists x, declared env root x /\ x_ev x = ENone) ->
  process_event cb m vnone fuel e v s = Done (true, v') s' -> at_place m s' 0 = Some (p, q) ->
  forall cs d x o, candidate_list env root ENone (p, q) cs -> In d ds -> In (CRow x o) cs ->
  exists ty val, x_guard x = Guard ty val /\ G ty val (guard_args m ENone d x o) = false.
Proof. exact @process_quiet_pure. Qed.
Print Assumptions C17_completion_pure_partial.

Definition chain_env : cenv :=
 [ (50, tbl [ mkRow (SInitial WState 1) (EUser 1) NoGuard NoAction (SState 2);
              mkRow (SState 2) ENone ok NoAction (SState 3); mkRow (SState 3) ENone NoGuard NoAction (SState 4);
              mkRow (SState 4) ENone fail NoAction (SState 5) ]) ].
Example C17_applies : demo_state ex_cb chain_env 50 [] (fun m s =>
  exists s', process_event ex_cb m 0 300 (EUser 1) 5 s = Done (true, 5) s' /\
    at_place m s' 0 = Some (50, SState 4) /\ max_initials m = 1 /\
    map k_callee (rt_trace s') = [CGuard 1 0; CGuard 0 0]).
Proof. apply demo_intro. vm_compute. split; [reflexivity|]. eexists. repeat split. Qed.

(** An anonymous row of an internal table is not taken if no ordinary table has
    an anonymous row. *)
Theorem C17_internal_refuted : exists V W (cb : cbfun V W) env root m vnone ds d0 s fuel e v s' pl x o,
  running cb env root m vnone ds d0 s /\ process_event cb m vnone fuel e v s = Done (true, v) s' /\
  active m s' = 1 /\ at_place m s' 0 = Some pl /\ candidate_list env root ENone pl [CRow x o] /\
  x_guard x = NoGuard /\ x_act x = act /\ rt_trace s' = rt_trace s.
Proof.
  assert (D : demo_state ex_cb
     [ (2, mkCdef None (Some [mkIrow ENone NoGuard act]) false false false None true);
       (50, tbl [ mkRow (SInitial WState 1) (EUser 1) NoGuard NoAction (SState 2) ]) ] 50 []
     (fun m s => exists s' x o, process_event ex_cb m 0 300 (EUser 1) 5 s = Done (true, 5) s' /\
        active m s' = 1 /\ at_place m s' 0 = Some (50, SState 2) /\ cands m ENone (50, SState 2) = [CRow x o] /\
        x_guard x = NoGuard /\ x_act x = act /\ rt_trace s' = rt_trace s)).
  { apply demo_intro. vm_compute. split; [reflexivity|]. do 3 eexists. repeat split. }
  destruct D as (m & s & Hm & Hf & Hr & s' & x & o & H1 & H2 & H3 & H4 & H5 & H6 & H7).
  exists nat, nat, ex_cb. do 3 eexists. exists 0, [0], 0, s, 300, (EUser 1), 5, s', (50, SState 2), x, o.
  split; [repeat split; eassumption|]. repeat (split; [assumption|]). split; [eapply demo_candidates; eauto|].
  repeat split; assumption.
Qed.
Print Assumptions C17_internal_refuted.

(** C39. Several regions (no deferring states): the last pass over the regions ended
    at a region without anonymous candidates, or every region refused in it. *)
Theorem C39_stop : forall V W (cb : cbfun V W) env root m vnone ds d0 s fuel e v v' s',
  running cb env root m vnone ds d0 s -> (exists x, declared env root x /\ x_ev x = ENone) ->
  (forall x c, declared env root x -> unmarked (x_src x) = SState c -> cd_defer (lookup env c) = None) ->
  process_event cb m vnone fuel e v s = Done (true, v') s' ->
  (exists v0 s0 vds v2 i pl, anon_pass cb m ds (active m s0) 0 v0 s0 vds PeEmptyRegion v2 s' /\
     i < active m s0 /\ at_place m s' i = Some pl /\ candidate_list env root ENone pl []) \/
  (forall k, k < active m s' -> exists v1 s1 v2 s2,
     region_step cb m ds k ENone v1 s1 RRefused v2 s2 /\ rt_cur s1 = rt_cur s').
Proof. exact @anonymous_stop. Qed.
Print Assumptions C39_stop.

(** Region 1 has an unguarded anonymous row, yet process_event returns. *)
Definition starve_env : cenv :=
 [ (50, tbl [ mkRow (SInitial WState 1) (EUser 1) NoGuard NoAction (SState 2);
              mkRow (SInitial WState 3) (EUser 1) NoGuard NoAction (SState 4);
              mkRow (SState 4) ENone NoGuard NoAction (SState 5) ]) ].
Theorem C39_completion_refuted : exists V W (cb : cbfun V W) env root m vnone ds d0 s fuel e v s' r pl x o,
  running cb env root m vnone ds d0 s /\ (exists x, declared env root x /\ x_ev x = ENone) /\
  process_event cb m vnone fuel e v s = Done (true, v) s' /\
  r < active m s' /\ at_place m s' r = Some pl /\ candidate_list env root ENone pl [CRow x o] /\ x_guard x = NoGuard.
Proof.
  assert (D : demo_state ex_cb starve_env 50 []
     (fun m s => exists s' x o, process_event ex_cb m 0 300 (EUser 1) 5 s = Done (true, 5) s' /\
        active m s' = 2 /\ at_place m s' 1 = Some (50, SState 4) /\ cands m ENone (50, SState 4) = [CRow x o] /\
        x_guard x = NoGuard /\ has_anonymous m = true)).
  { apply demo_intro. vm_compute. split; [reflexivity|]. do 3 eexists. repeat split. }
  destruct D as (m & s & Hm & Hf & Hr & s' & x & o & H1 & H2 & H3 & H4 & H5 & H6).
  exists nat, nat, ex_cb. do 3 eexists. exists 0, [0], 0, s, 300, (EUser 1), 5, s', 1, (50, SState 4), x, o.
  split; [repeat split; eassumption|]. split; [now apply (C46_anonymous _ _ _ Hm)|]. split; [assumption|].
  split; [rewrite H2; constructor|]. split; [assumption|]. split; [eapply demo_candidates; eauto|assumption].
Qed.
Print Assumptions C39_completion_refuted.

(** C19. *)
Theorem C19_defer : forall V W (cb : cbfun V W) env root m vnone ds d0 s fuel e v i pl,
  running cb env root m vnone ds d0 s -> event_of env root e -> i < active m s -> i < fuel ->
  (forall r, r < i -> exists pl', at_place m s r = Some pl' /\ candidate_list env root e pl' []) ->
  at_place m s i = Some pl -> candidate env root e pl CDefer ->
  process_event cb m vnone fuel e v s = Done (false, v) (with_queue s (rt_queue s ++ [(e, v)])).
Proof. exact @first_defers. Qed.
Print Assumptions C19_defer.

(** C40. The general case: the regions before the deferring one had their turn. *)
Theorem C40_defer : forall V W (cb : cbfun V W) env root m vnone ds d0 s fuel e v i v1 s1 pl,
  running cb env root m vnone ds d0 s -> event_of env root e -> i < active m s -> i < fuel ->
  turns cb m e 0 v s i v1 s1 -> at_place m s i = Some pl -> candidate env root e pl CDefer ->
  process_event cb m vnone fuel e v s = Done (false, v1) (with_queue s1 (rt_queue s1 ++ [(e, v1)])).
Proof. exact @turn_defers. Qed.
Print Assumptions C40_defer.

Example C19_applies : demo_state ex_cb Defer.env 50 [pe 2] (fun m s =>
  at_place m s 0 = Some (50, SState 1) /\ In CDefer (cands m (EUser 3) (50, SState 1)) /\
  process_event ex_cb m 0 300 (EUser 3) 5 s = Done (false, 5) (with_queue s [(EUser 2, 0); (EUser 3, 5)])).
Proof. apply demo_intro. vm_compute. repeat split. auto. Qed.

(** "false" does not mean that nothing happened: region 0 moved and ran its action,
    region 1 deferred; when the event is recalled it is offered to region 0 again. *)
Definition both_env : cenv :=
 [ (3, mkCdef None None false false false (Some [EUser 1]) true);
   (50, tbl [ mkRow (SInitial WState 1) (EUser 1) NoGuard act (SState 2);
              mkRow (SState 2) (EUser 1) NoGuard act (SState 1);
              mkRow (SInitial WState 3) (EUser 2) NoGuard NoAction (SState 4) ]) ].
Theorem C40_false_means_unchanged_refuted :
  exists V W (cb : cbfun V W) env root m vnone ds d0 s fuel e v s' pl pl',
  running cb env root m vnone ds d0 s /\ process_event cb m vnone fuel e v s = Done (false, v) s' /\
  at_place m s 0 = Some pl /\ at_place m s' 0 = Some pl' /\ pl <> pl' /\ rt_queue s' = rt_queue s ++ [(e, v)] /\
  map k_callee (rt_trace s') = map k_callee (rt_trace s) ++ [CAction 0].
Proof.
  assert (D : demo_state ex_cb both_env 50 []
     (fun m s => exists s', process_event ex_cb m 0 300 (EUser 1) 5 s = Done (false, 5) s' /\
        at_place m s 0 = Some (50, SState 1) /\ at_place m s' 0 = Some (50, SState 2) /\
        rt_queue s' = rt_queue s ++ [(EUser 1, 5)] /\
        map k_callee (rt_trace s') = map k_callee (rt_trace s) ++ [CAction 0])).
  { apply demo_intro. vm_compute. split; [reflexivity|]. eexists. repeat split. }
  destruct D as (m & s & Hm & Hf & Hr & s' & H1 & H2 & H3 & H4 & H5).
  exists nat, nat, ex_cb. do 3 eexists. exists 0, [0], 0, s, 300, (EUser 1), 5, s', (50, SState 1), (50, SState 2).
  split; [repeat split; eassumption|]. repeat (split; [assumption|]). split; [discriminate|]. split; assumption.
Qed.
Print Assumptions C40_false_means_unchanged_refuted.
Example C40_offered_twice : demo_state ex_cb both_env 50 [pe 1] (fun m s =>
  exists s', process_event ex_cb m 0 300 (EUser 2) 5 s = Done (true, 5) s' /\
    at_place m s 0 = Some (50, SState 2) /\ at_place m s' 0 = Some (50, SState 1)).
Proof. apply demo_intro. vm_compute. split; [reflexivity|]. eexists. repeat split. Qed.

(** C20. *)
Theorem C20_recall : forall V W (cb : cbfun V W) env root m vnone ds d0 s fuel e v v' s',
  running cb env root m vnone ds d0 s -> process_event cb m vnone fuel e v s = Done (true, v') s' ->
  exists vds avds s1, offer cb m ds vnone e v s vds avds OfHandled v' s1 /\ rt_queue s1 = rt_queue s /\
    (rt_queue s = [] -> s' = s1) /\
    (forall e2 v2 q, rt_queue s = (e2, v2) :: q ->
       exists vds2 avds2 oe v3, offer cb m ds vnone e2 v2 (with_queue s1 q) vds2 avds2 oe v3 s' /\
         (forall n, oe <> OfThrew n) /\ rt_queue s' = q ++ put_back oe e2 v3) /\
    exists ks, rt_trace s' = rt_trace s ++ ks /\ forall k, In k ks -> k_callee k <> CHandler.
Proof. exact @process_recalls. Qed.
Print Assumptions C20_recall.

(** Two events queued, one recalled; it is refused in the new place and lost. *)
Example C20_applies : demo_state ex_cb Defer.env 50 [pe 3; pe 3; pe 2] (fun m s =>
  exists s', process_event ex_cb m 0 300 (EUser 1) 5 s = Done (true, 5) s' /\
    rt_queue s = [(EUser 3, 0); (EUser 3, 0); (EUser 2, 0)] /\ rt_queue s' = [(EUser 3, 0); (EUser 2, 0)] /\
    at_place m s' 0 = Some (50, SState 2)).
Proof. apply demo_intro. vm_compute. split; [reflexivity|]. eexists. repeat split. Qed.

(** C21, C22. Over a whole run. *)
Theorem C21_calls : forall V W (cb : cbfun V W) env root m vnone ds d0 s fuel k o s',
  running cb env root m vnone ds d0 s -> do_call_catch cb m vnone fuel k s = Done o s' ->
  exists rs ps, queue_use cb m vnone ds s k rs ps /\ rs ++ rt_queue s' = rt_queue s ++ ps /\
    length rs <= 1 /\ length ps <= 1 /\ ((forall e v, k <> KProcess e v) -> rt_queue s' = rt_queue s).
Proof. exact @queue_calls. Qed.
Print Assumptions C21_calls.
Theorem C22_fifo : forall V W (cb : cbfun V W) env root m vnone ds d0 s,
  running cb env root m vnone ds d0 s ->
  (exists recalled deferred, queue_log cb m vnone ds d0 s recalled deferred) /\
  (forall recalled deferred, queue_log cb m vnone ds d0 s recalled deferred -> recalled ++ rt_queue s = deferred).
Proof. exact @queue_fifo. Qed.
Print Assumptions C22_fifo.

Example C21_applies : demo_state ex_cb Defer.env 50 [pe 3; pe 2; pe 1] (fun m s => rt_queue s = [(EUser 2, 0)]).
Proof. apply demo_intro. vm_compute. repeat split. Qed.

(** C23. *)
Theorem C23_in_order : forall V W (cb : cbfun V W) env root m vnone ds d0 s,
  running cb env root m vnone ds d0 s ->
  forall fuel e v, event_of env root e -> active m s < fuel ->
  (exists v1 s1, turns cb m e 0 v s (active m s) v1 s1) \/
  (exists i v1 s1, i < active m s /\ turns cb m e 0 v s i v1 s1 /\
     match try_region cb m i e v1 s1 with
     | Done (Some Deferred, v') s' => process_event cb m vnone fuel e v s = Done (false, v') s'
     | Threw ex s' => process_event cb m vnone fuel e v s = Threw ex s'
     | Undef u => process_event cb m vnone fuel e v s = Undef u
     | _ => False
     end).
Proof. exact @process_turns. Qed.
Print Assumptions C23_in_order.
Theorem C23_isolated : forall V W (cb : cbfun V W) env root m vnone ds d0 s,
  handling cb env root m vnone ds d0 s ->
  forall r e v v' s', try_region cb m r e v s = Done (Some Fired, v') s' ->
  (forall k, k <> r -> nth_error (rt_cur s') k = nth_error (rt_cur s) k) /\
  (forall p k, is_parent env root p -> k <> r \/ (forall q, at_place m s 0 <> Some (p, q)) ->
     history_of m s' p k = history_of m s p k) /\
  rt_queue s' = rt_queue s.
Proof. exact @fired_isolated. Qed.
Print Assumptions C23_isolated.

(** Region 0 has no candidate, region 1 moves. *)
Example C23_applies : demo_state ex_cb Regions.env Regions.Main [pe 4] (fun m s =>
  exists s', process_event ex_cb m 0 300 (EUser 2) 5 s = Done (true, 5) s' /\
    at_place m s 0 = Some (50, SState 2) /\ cands m (EUser 2) (50, SState 2) = [] /\
    at_place m s' 0 = Some (50, SState 2) /\
    at_place m s 1 = Some (50, SState 3) /\ at_place m s' 1 = Some (50, SState 5)).
Proof. apply demo_intro. vm_compute. split; [reflexivity|]. eexists. repeat split. Qed.
