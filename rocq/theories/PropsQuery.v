(** Properties of construction (C01, C29), queries (C02), set (C26, C27) and
    set_dependency (C28).  Vocabulary: Spec.v, Semantics.v. *)

From Coq Require Import List Arith NArith Bool.
From Verif Require Import Types Static Dispatch Runtime Dsl Examples Spec DispatchFacts Semantics Reach
  StaticFacts TableFacts QueryFacts Demo.
Import ListNotations.

(** C01. *)
Theorem C01_construction : forall V W env root m, compile env root = Some m ->
  forall fuel d (w : W) (s : rt V W), length (initial_states env root) <= 255 ->
  construct m fuel d w = Done tt s ->
  (forall r i, nth_error (initial_states env root) r = Some i -> at_place m s r = Some (root, i)) /\
  (forall r, region_exists env root r -> length (initial_states env root) <= r -> uninitialised s r) /\
  (region_exists env root 1 -> active m s = length (initial_states env root)) /\
  (~ region_exists env root 1 -> active m s = 1) /\
  (forall p r, is_parent env root p ->
     history_of m s p r = option_map (fun i => code m (p, i)) (nth_error (initial_states env p) r)) /\
  (forall o, In o (rt_live s) <-> is_state env root o /\ default_constructible env o = true) /\
  rt_queue s = [] /\ rt_trace s = [] /\ rt_world s = w.
Proof. exact @construct_result. Qed.
Print Assumptions C01_construction.

(** When the constructor returns. *)
Theorem C01_construction_defined : forall V W env root m, compile env root = Some m ->
  forall fuel d (w : W),
  anchored env root -> length (initial_states env root) <= 255 ->
  length (initial_states env root) < fuel ->
  (region_exists env root 1 -> initial_states env root <> []) ->
  exists s : rt V W, construct m fuel d w = Done tt s.
Proof. exact @construct_defined. Qed.
Print Assumptions C01_construction_defined.

(** If something is declared for a place that does not exist (e.g. a row from
    exit<P,S> of a composite that no row leads into), construction is undefined. *)
Theorem C01_construction_undefined : forall V W env root m, compile env root = Some m ->
  forall fuel d (w : W), ~ anchored env root ->
  exists u, construct (V:=V) m fuel d w = Undef u.
Proof. exact @construct_undefined. Qed.
Print Assumptions C01_construction_undefined.

Example C01_applies : demo_state ex_cb Regions.env Regions.Main [] (fun m s =>
  initial_states Regions.env Regions.Main = [SState 1; SState 3] /\
  at_place m s 0 = Some (Regions.Main, SState 1) /\ at_place m s 1 = Some (Regions.Main, SState 3) /\
  history_of m s Regions.Sub 0 = Some (code m (Regions.Sub, SState 1))).
Proof. apply demo_intro. vm_compute. auto. Qed.

(** A row that leaves a composite nobody enters: accepted, but its registration
    writes behind the table. *)
Definition unanchored_env : cenv :=
 [ (11, tbl [ mkRow (SInitial WState 1) (EUser 1) NoGuard NoAction (SState 2) ]);
   (50, tbl [ mkRow (SInitial WState 1) (EUser 1) NoGuard NoAction (SState 2);
              mkRow (SExit WState 11 2) (EUser 1) NoGuard NoAction (SState 1) ]) ].
Example C01_undefined_applies : exists m, compile unanchored_env 50 = Some m /\
  construct (V:=nat) m 300 0 0 = Undef UBIndex.
Proof. eexists. split; vm_compute; reflexivity. Qed.

(** C02. The places p0, q0 and pr, qr of regions 0 and r determine the answer. *)
Theorem C02_is : forall V W env root m, compile env root = Some m ->
  forall (s : rt V W) r p q p0 q0 pr qr,
  at_place m s 0 = Some (p0, q0) -> at_place m s (to_region r) = Some (pr, qr) ->
  exists b, q_is m r p q s = Done b s /\ (b = true <-> p0 = p /\ qr = q).
Proof. exact @is_answer. Qed.
Print Assumptions C02_is.

Theorem C02_parent_is : forall V W env root m, compile env root = Some m ->
  forall (s : rt V W) p p0 q0, at_place m s 0 = Some (p0, q0) ->
  exists b, q_parent_is m p s = Done b s /\ (b = true <-> p0 = p).
Proof. exact @parent_is_answer. Qed.
Print Assumptions C02_parent_is.

Theorem C02_is_state : forall V W env root m, compile env root = Some m ->
  forall (s : rt V W) q p0 q0, at_place m s 0 = Some (p0, q0) ->
  exists b, q_is0 m q s = Done b s /\ (b = true <-> q0 = q).
Proof. exact @is0_answer. Qed.
Print Assumptions C02_is_state.

(** The active places are places of the machine, so names it does not have get
    the answer false. *)
Theorem C02_active_places_exist : forall V W env root m, compile env root = Some m ->
  forall (s : rt V W) r p q, at_place m s r = Some (p, q) ->
  is_parent env root p /\ is_state env root q.
Proof. exact @at_place_in. Qed.
Print Assumptions C02_active_places_exist.

(** An uninitialised region: undefined only if the parent matches. *)
Theorem C02_is_uninitialised : forall V W env root m, compile env root = Some m ->
  forall (s : rt V W) r p q p0 q0,
  at_place m s 0 = Some (p0, q0) -> uninitialised s (to_region r) ->
  q_is m r p q s = if Nat.eq_dec p0 p then Undef UBUninit else Done false s.
Proof. exact @is_unset. Qed.
Print Assumptions C02_is_uninitialised.

Example C02_applies : demo_state ex_cb Regions.env Regions.Main [pe 1] (fun m s =>
  at_place m s 0 = Some (Regions.Main, SState 2) /\ at_place m s 1 = Some (Regions.Main, SState 4) /\
  q_is m 1 Regions.Main (SState 4) s = Done true s /\
  q_is m 1 Regions.Main (SState 3) s = Done false s /\
  q_is m 1 Regions.Sub (SState 4) s = Done false s /\
  q_is m 257 Regions.Main (SState 4) s = Done true s /\
  q_parent_is m 77 s = Done false s).
Proof. apply demo_intro. vm_compute. repeat (split; [reflexivity|]). reflexivity. Qed.

(** is(region, parent, state) does not look at the region's own parent: in a
    machine with parallel regions region 1 may be inside Sub while the answer for
    (Sub, 1) is false and the one for (Main, 1) is true. *)
Definition mixed_env : cenv :=
 [ (11, tbl [ mkRow (SInitial WState 1) (EUser 2) NoGuard NoAction (SState 2) ]);
   (50, tbl [ mkRow (SInitial WState 1) (EUser 3) NoGuard NoAction (SState 2);
              mkRow (SInitial WState 3) (EUser 1) NoGuard NoAction (SState 11) ]) ].
Theorem C02_own_parent_refuted : exists V W (cb : cbfun V W) env root m vnone ds d0 s r p q,
  compile env root = Some m /\ reachable cb m vnone ds d0 s /\
  at_place m s r = Some (p, q) /\ q_is m r p q s = Done false s.
Proof.
  assert (D : demo_state ex_cb mixed_env 50 [pe 1] (fun m s =>
    at_place m s 1 = Some (11, SState 1) /\ q_is m 1 11 (SState 1) s = Done false s)).
  { apply demo_intro. vm_compute. auto. }
  destruct D as (m & s & Hm & _ & R & H1 & H2).
  exists nat, nat, ex_cb, mixed_env, 50, m, 0. repeat eexists; eauto.
Qed.
Print Assumptions C02_own_parent_refuted.

(** C26. *)
Theorem C26_set : forall V W env root m, compile env root = Some m ->
  forall (cb : cbfun V W) vnone, few_regions env root ->
  forall ds d0 s r p q, reachable cb m vnone ds d0 s ->
  is_parent env root p -> is_state env root q -> region_exists env root (to_region r) ->
  exists s', set_state m r p q s = Done tt s' /\ at_place m s' (to_region r) = Some (p, q) /\
    (forall k, k <> to_region r -> nth_error (rt_cur s') k = nth_error (rt_cur s) k) /\
    only_places_differ s s' /\ reachable cb m vnone ds d0 s'.
Proof. exact @reachable_set. Qed.
Print Assumptions C26_set.

(** What is asked afterwards: region 0 ... *)
Theorem C26_set_then_is : forall V W env root m, compile env root = Some m ->
  forall (cb : cbfun V W) vnone, few_regions env root ->
  forall ds d0 s p q, reachable cb m vnone ds d0 s ->
  is_parent env root p -> is_state env root q ->
  exists s', set_state m 0 p q s = Done tt s' /\
    forall p' q', exists b, q_is m 0 p' q' s' = Done b s' /\ (b = true <-> p' = p /\ q' = q).
Proof. exact @set_then_is. Qed.
Print Assumptions C26_set_then_is.
(** ... and any other region. *)
Theorem C26_set_then_is_region : forall V W env root m, compile env root = Some m ->
  forall (cb : cbfun V W) vnone, few_regions env root ->
  forall ds d0 s r p q p0 q0, reachable cb m vnone ds d0 s ->
  is_parent env root p -> is_state env root q -> region_exists env root (to_region r) ->
  to_region r <> 0 -> at_place m s 0 = Some (p0, q0) ->
  exists s', set_state m r p q s = Done tt s' /\
    forall p' q', exists b, q_is m r p' q' s' = Done b s' /\ (b = true <-> p' = p0 /\ q' = q).
Proof. exact @set_then_is_region. Qed.
Print Assumptions C26_set_then_is_region.

Example C26_applies : demo_state ex_cb Regions.env Regions.Main [pe 1] (fun m s =>
  exists s', set_state m 1 Regions.Sub (SState 7) s = Done tt s' /\
  at_place m s' 1 = Some (Regions.Sub, SState 7) /\ at_place m s' 0 = at_place m s 0).
Proof. apply demo_intro. vm_compute. split; [reflexivity|]. eexists. auto. Qed.

(** C27. *)
Theorem C27_out_of_range : forall V W env root m, compile env root = Some m ->
  forall (cb : cbfun V W) vnone, few_regions env root ->
  forall ds d0 s r p q, reachable cb m vnone ds d0 s ->
  ~ region_exists env root (to_region r) ->
  (is_parent env root p -> is_state env root q -> set_state m r p q s = Threw XOutOfRange s) /\
  (forall p0 q0, at_place m s 0 = Some (p0, q0) ->
     q_is m r p q s = if Nat.eq_dec p0 p then Threw XOutOfRange s else Done false s).
Proof. exact @reachable_out_of_range. Qed.
Print Assumptions C27_out_of_range.

Example C27_applies : demo_state ex_cb Regions.env Regions.Main [pe 1] (fun m s =>
  set_state m 2 Regions.Sub (SState 7) s = Threw XOutOfRange s /\
  q_is m 2 Regions.Main (SState 7) s = Threw XOutOfRange s /\
  q_is m 2 Regions.Sub (SState 7) s = Done false s).
Proof. apply demo_intro. vm_compute. auto. Qed.

(** C28. set_dependency always succeeds and changes the dispatch table only: each
    list gets the candidates bound to the new dependency in front. *)
Theorem C28_set_dependency : forall V W env root m, compile env root = Some m ->
  forall (cb : cbfun V W) vnone, few_regions env root ->
  forall ds d0 s d, reachable cb m vnone ds d0 s ->
  exists s', set_dependency m d s = Done tt s' /\ s' = with_tabs s (rt_tabs s') /\
    reachable cb m vnone (d :: ds) d0 s' /\
    forall e p q, In e (events m) -> is_place env root (p, q) ->
      exists cs new old, candidate_list env root e (p, q) cs /\
        tget (rt_tabs s) e (combined_idx m p q) = Some old /\
        tget (rt_tabs s') e (combined_idx m p q) = Some (new ++ old) /\
        Forall2 (describes m) (map (pair d) cs) new.
Proof. exact @reachable_set_dependency. Qed.
Print Assumptions C28_set_dependency.

(** Asking the candidates after it: either one bound to the newest dependency is
    taken (or throws, or the event is deferred), or all guards were asked with
    that dependency and refused before the older ones were asked. *)
Theorem C28_newest_first : forall V W (cb : cbfun V W) m d ds e pl v w ks vd v' w',
  scan cb m e (bound m (d :: ds) e pl) v w ks vd v' w' ->
  scan cb m e (map (pair d) (cands m e pl)) v w ks vd v' w' \/
  exists ks1 ks2 v1 w1, ks = ks1 ++ ks2 /\
    scan cb m e (map (pair d) (cands m e pl)) v w ks1 VNone v1 w1 /\
    length ks1 = length (cands m e pl) /\
    scan cb m e (bound m ds e pl) v1 w1 ks2 vd v' w'.
Proof. exact @newest_first. Qed.
Print Assumptions C28_newest_first.

(** A row chosen among candidates bound to [d] is executed with [d]. *)
Theorem C28_chosen_dependency : forall V W (cb : cbfun V W) m d cs e v w ks d' x o v' w',
  scan cb m e (map (pair d) cs) v w ks (VPick d' x o) v' w' -> d' = d /\ In (CRow x o) cs.
Proof. exact @chosen_dependency. Qed.
Print Assumptions C28_chosen_dependency.

(** The dependency passed to guards, actions and the handler of [Basic], before
    and after set_dependency(7): the handler keeps the old one. *)
Example C28_applies : demo_state ex_cb Basic.env Basic.Main [pe 1; KSetDep 7; pe 1; pe 3] (fun m s =>
  map (fun k => (k_callee k, a_dep (k_args k))) (rt_trace s) =
  [(CAction 0, 0); (CAction 0, 7); (CHandler, 0)]).
Proof. apply demo_intro. vm_compute. auto. Qed.

(** "After set_dependency(d) no callback sees an older dependency" is false: if
    the guard refuses, it is asked again with the old one. *)
Theorem C28_old_dependency_gone_refuted : exists V W (cb : cbfun V W) env root m vnone s s' d k,
  compile env root = Some m /\ reachable cb m vnone [0] 0 s /\
  run cb m vnone 300 [KSetDep d; k] s = Done [OUnit; OBool false] s' /\
  rt_trace s = [] /\ map (fun k => a_dep (k_args k)) (rt_trace s') = [d; 0] /\ d <> 0.
Proof.
  assert (D : demo_state ex_cb Guards.env 50 [] (fun m s =>
    rt_trace s = [] /\ exists s', run ex_cb m 0 300 [KSetDep 7; pe 3] s = Done [OUnit; OBool false] s' /\
    map (fun k => a_dep (k_args k)) (rt_trace s') = [7; 0])).
  { apply demo_intro. vm_compute. split; [reflexivity|]. split; [reflexivity|]. eexists. auto. }
  destruct D as (m & s & Hm & _ & R & H0 & s' & H1 & H2).
  exists nat, nat, ex_cb, Guards.env, 50, m, 0, s, s', 7, (pe 3).
  repeat (split; [eassumption|]). discriminate.
Qed.
Print Assumptions C28_old_dependency_gone_refuted.

(** C29. At most 255 regions: an event is offered to every active region once, in
    order (unless a region stops the processing). *)
Theorem C29_each_region_once : forall V W env root m, compile env root = Some m ->
  forall (cb : cbfun V W) vnone, few_regions env root ->
  forall fuel ds d0 s e v, reachable cb m vnone ds d0 s ->
  match region_loop cb m fuel (active m s) 0 true true e v s with
  | Done _ s' | Threw _ s' =>
      exists vds v1, regions_run cb m ds e (active m s) 0 v s vds v1 s' /\
        (existsb stops vds = false -> length vds = active m s) /\
        length vds <= active m s /\ active m s <= 255
  | Undef _ => True
  | Timeout => fuel <= active m s
  end.
Proof. exact @each_region_once. Qed.
Print Assumptions C29_each_region_once.

(** 256 or more initial states of the root: the constructor never returns. *)
Theorem C29_constructor_diverges : forall V W env root m, compile env root = Some m ->
  forall fuel d (w : W), anchored env root -> 256 <= length (initial_states env root) ->
  construct (V:=V) m fuel d w = Timeout.
Proof. exact @construct_wraps. Qed.
Print Assumptions C29_constructor_diverges.

(** Such machines are accepted: there is one for every number of regions. *)
Example C29_applies : forall n, 0 < n -> (N.of_nat (S n) < two64)%N -> exists m,
  compile (wide_env n) 0 = Some m /\ anchored (wide_env n) 0 /\
  length (initial_states (wide_env n) 0) = n.
Proof. exact wide_accepted. Qed.
Example C29_applies_small : demo_state ex_cb Regions.env Regions.Main [pe 1] (fun m s =>
  active m s = 2 /\ exists s', process_event ex_cb m 0 300 (EUser 1) 0 s = Done (true, 0) s').
Proof. apply demo_intro. vm_compute. split; [reflexivity|]. split; [reflexivity|]. eexists. reflexivity. Qed.
