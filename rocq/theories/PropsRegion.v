(** Properties of the handling of one region: the choice of a candidate (C05,
    C36), calls and their arguments (C09, C32, C34, C35, C38), internal
    transitions (C10), targets (C13).  Vocabulary: Spec.v, Semantics.v, Reach.v. *)

From Coq Require Import List Arith NArith Bool.
From Verif Require Import Types Static Dispatch Runtime Dsl Examples Spec DispatchFacts Semantics Reach
  StaticFacts TableFacts ProcessFacts RegionFacts QueueFacts CallFacts Demo.
Import ListNotations.

(** C05. The guards are asked in order; the first candidate that agrees is taken,
    no guard behind it is asked. *)
Theorem C05_first_enabled : forall V W (cb : cbfun V W) env root m vnone ds d0 s,
  handling cb env root m vnone ds d0 s ->
  forall r e v pl cs, at_place m s r = Some pl -> candidate_list env root e pl cs ->
  let bs := bind_all ds cs in
  match try_region cb m r e v s with
  | Done (None, v') s' => cs = [] /\ v' = v /\ s' = s
  | Done (Some Refused, v') s' => cs <> [] /\
      exists ks w', scan cb m e bs v (rt_world s) ks VNone v' w' /\ s' = after s w' ks
  | Done (Some Deferred, v') s' => exists pre d rest ks w', bs = pre ++ (d, CDefer) :: rest /\
      scan cb m e pre v (rt_world s) ks VNone v' w' /\
      s' = with_queue (after s w' ks) (rt_queue s ++ [(e, v')])
  | Done (Some Fired, v') s' => exists pre d x o rest k1 k2 v1 w1 v2 w2,
      bs = pre ++ (d, CRow x o) :: rest /\
      scan cb m e pre v (rt_world s) k1 VNone v1 w1 /\
      accepts cb m e d x o v1 w1 k2 v2 w2 /\
      executes cb m r e d x o v2 (after s w2 (k1 ++ k2)) None v' s'
  | Threw ex s' => exists n pre d x o rest k1 v1 w1, ex = XUser n /\
      bs = pre ++ (d, CRow x o) :: rest /\
      scan cb m e pre v (rt_world s) k1 VNone v1 w1 /\
      ((exists ty val v2 w2, x_guard x = Guard ty val /\
          cb (CGuard ty val) (guard_args m e d x o) v1 w1 = Raise n v2 w2 /\
          s' = after s w2 (k1 ++ [mkCall (CGuard ty val) (guard_args m e d x o) v1])) \/
       (exists k2 v2 w2 v', accepts cb m e d x o v1 w1 k2 v2 w2 /\
          executes cb m r e d x o v2 (after s w2 (k1 ++ k2)) (Some n) v' s'))
  | Undef _ => True
  | Timeout => False
  end.
Proof. exact @first_enabled. Qed.
Print Assumptions C05_first_enabled.

(** When every guard refuses, each of them was asked once, in order. *)
Theorem C05_refusals_ask_all : forall V W (cb : cbfun V W) m e bs v w ks v' w',
  scan cb m e bs v w ks VNone v' w' ->
  map signature ks = flat_map (asks m e) bs /\
  forall b, In b bs -> exists x o ty val, snd b = CRow x o /\ x_guard x = Guard ty val.
Proof. exact @scan_none_asks. Qed.
Print Assumptions C05_refusals_ask_all.

(** The same in the other direction, for the outcomes decided by the guards. *)
Theorem C05_decides : forall V W (cb : cbfun V W) env root m vnone ds d0 s,
  handling cb env root m vnone ds d0 s ->
  forall r e v pl cs ks vd v' w', event_of env root e ->
  at_place m s r = Some pl -> candidate_list env root e pl cs ->
  guards_ready m s (bind_all ds cs) -> scan cb m e (bind_all ds cs) v (rt_world s) ks vd v' w' ->
  match vd with
  | VNone => try_region cb m r e v s =
      Done (if Nat.eqb (length cs) 0 then None else Some Refused, v') (after s w' ks)
  | VDefer => try_region cb m r e v s =
      Done (Some Deferred, v') (with_queue (after s w' ks) (rt_queue s ++ [(e, v')]))
  | VRaise n => try_region cb m r e v s = Threw (XUser n) (after s w' ks)
  | VPick _ _ _ => True
  end.
Proof. exact @region_decides. Qed.
Print Assumptions C05_decides.

(** The chosen row is unique. *)
Theorem C05_one_choice : forall V W (cb : cbfun V W) m ds r e v s d x o v1 s1 d' x' o' v1' s1',
  takes cb m ds r e v s d x o v1 s1 -> takes cb m ds r e v s d' x' o' v1' s1' ->
  d' = d /\ x' = x /\ o' = o /\ v1' = v1 /\ s1' = s1.
Proof.
  intros V W cb m ds r e v s d x o v1 s1 d' x' o' v1' s1' H1 H2.
  eapply takes_det; eassumption.
Qed.
Print Assumptions C05_one_choice.

Example C05_applies : demo_state ex_cb Guards.env 50 [] (fun m s =>
  at_place m s 0 = Some (50, SState 1) /\
  exists v' s' x, try_region ex_cb m 0 (EUser 9) 5 s = Done (Some Fired, v') s' /\
    (* two candidates; the one declared last is tried first and accepts *)
    map (fun c => match c with CRow x _ => x_guard x | CDefer => NoGuard end)
        (cands m (EUser 9) (50, SState 1)) = [ok; fail] /\
    map k_callee (rt_trace s') = [CGuard 1 0] /\ at_place m s' 0 = Some (50, x) /\ x = SState 2).
Proof. apply demo_intro. vm_compute. split; [reflexivity|]. split; [reflexivity|]. do 3 eexists. repeat split. Qed.

(** C36. With guards that only look at their arguments, the first enabled
    candidate is taken; copies of candidates (such as those produced by flattening
    a sub table once per targeting row) do not matter. *)
Theorem C36_copies : forall V W (cb : cbfun V W) env root m vnone ds d0 s,
  handling cb env root m vnone ds d0 s ->
  forall G r e v pl cs bs, pure_guards cb G ->
  at_place m s r = Some pl -> candidate_list env root e pl cs -> drops_copies [] (bind_all ds cs) bs ->
  match try_region cb m r e v s with
  | Done (None, v') s' => bs = [] /\ v' = v /\ s' = s
  | Done (Some Refused, v') s' => bs <> [] /\ find (enabled G m e) bs = None /\ v' = v /\
      exists ks, s' = after s (rt_world s) ks
  | Done (Some Deferred, v') s' => v' = v /\ exists d ks, find (enabled G m e) bs = Some (d, CDefer) /\
      s' = with_queue (after s (rt_world s) ks) (rt_queue s ++ [(e, v)])
  | Done (Some Fired, v') s' => exists d x o ks, find (enabled G m e) bs = Some (d, CRow x o) /\
      executes cb m r e d x o v (after s (rt_world s) ks) None v' s'
  | Threw ex s' => exists n d x o ks v', ex = XUser n /\ find (enabled G m e) bs = Some (d, CRow x o) /\
      executes cb m r e d x o v (after s (rt_world s) ks) (Some n) v' s'
  | Undef _ => True
  | Timeout => False
  end.
Proof. exact @pure_choice. Qed.
Print Assumptions C36_copies.

(** The sub machine is entered by two rows, so its row is there twice. *)
Example C36_applies : demo_state ex_cb Basic.env 12 [pe 4] (fun m s => exists x o,
  cands m (EUser 5) (11, SState 1) = [CRow x o; CRow x o] /\
  drops_copies [] (bind_all [0] [CRow x o; CRow x o]) [(0, CRow x o)] /\
  at_place m s 0 = Some (11, SState 1) /\ pure_guards ex_cb (fun ty _ _ => negb (Nat.eqb ty 0))).
Proof.
  apply demo_intro. vm_compute. split; [reflexivity|]. do 2 eexists. repeat split; auto.
  apply dc_keep, dc_drop; [now left|constructor].
Qed.

(** With guards that are not pure the copies do matter: a guard that refuses the
    first time and accepts the second time. *)
Definition flip_cb : cbfun nat nat := fun c a v w =>
  match c with CGuard _ _ => Ret (Nat.eqb w 1) v (S w) | _ => Ret true v w end.
Definition flip_env (copies : nat) : cenv :=
 [ (11, tbl [ mkRow (SInitial WState 1) (EUser 1) ok NoAction (SState 2) ]);
   (50, tbl (mkRow (SInitial WState 1) (EUser 2) NoGuard NoAction (SState 11) ::
             repeat (mkRow (SState 2) (EUser 3) NoGuard NoAction (SState 11)) copies)) ].
Theorem C36_without_purity_refuted : exists V W (cb : cbfun V W) env env' root m m' vnone ds d0 s s' pl e v c t t',
  handling cb env root m vnone ds d0 s /\ handling cb env' root m' vnone ds d0 s' /\
  rt_world s = rt_world s' /\ at_place m s 0 = Some pl /\ at_place m' s' 0 = Some pl /\
  candidate_list env root e pl [c] /\ candidate_list env' root e pl [c; c] /\
  try_region cb m 0 e v s = Done (Some Refused, v) t /\ try_region cb m' 0 e v s' = Done (Some Fired, v) t'.
Proof.
  assert (D : demo_state flip_cb (flip_env 0) 50 [pe 2] (fun m s =>
    rt_world s = 0 /\ at_place m s 0 = Some (11, SState 1) /\
    cands m (EUser 1) (11, SState 1) = [CRow (mkXrow 11 (SInitial WState 1) (EUser 1) ok NoAction (SState 2) false) (SState 1)] /\
    exists t, try_region flip_cb m 0 (EUser 1) 5 s = Done (Some Refused, 5) t)).
  { apply demo_intro. vm_compute. repeat split. eexists. reflexivity. }
  assert (D' : demo_state flip_cb (flip_env 1) 50 [pe 2] (fun m s =>
    rt_world s = 0 /\ at_place m s 0 = Some (11, SState 1) /\
    cands m (EUser 1) (11, SState 1) = repeat (CRow (mkXrow 11 (SInitial WState 1) (EUser 1) ok NoAction (SState 2) false) (SState 1)) 2 /\
    exists t, try_region flip_cb m 0 (EUser 1) 5 s = Done (Some Fired, 5) t)).
  { apply demo_intro. vm_compute. repeat split. eexists. reflexivity. }
  destruct D as (m & s & A1 & A2 & A3 & A4 & A5 & A6 & t & A7).
  destruct D' as (m' & s' & B1 & B2 & B3 & B4 & B5 & B6 & t' & B7).
  exists nat, nat, flip_cb, (flip_env 0), (flip_env 1), 50, m, m', 0, [0], 0, s, s', (11, SState 1), (EUser 1), 5.
  do 3 eexists. split; [apply running_handling; repeat split; assumption|].
  split; [apply running_handling; repeat split; assumption|]. split; [congruence|].
  do 2 (split; [assumption|]). split; [eapply demo_candidates; eauto|]. split; [eapply demo_candidates; eauto|].
  split; eassumption.
Qed.
Print Assumptions C36_without_purity_refuted.

(** C09, C35. The calls made by a fired transition: on_exit, action, on_entry,
    on_entry of the initial state, with the event, the source object, the target
    object and the dependencies of the row. *)
Theorem C09_calls : forall V W (cb : cbfun V W) env root m vnone ds d0 s,
  handling cb env root m vnone ds d0 s ->
  forall r e v v' s', try_region cb m r e v s = Done (Some Fired, v') s' ->
  exists d x o v1 s1 ks, takes cb m ds r e v s d x o v1 s1 /\ executes cb m r e d x o v1 s1 None v' s' /\
    rt_trace s' = rt_trace s1 ++ ks /\ map signature ks = row_signature env e d x o.
Proof. exact @fired_calls. Qed.
Print Assumptions C09_calls.

(** Before that only guards of candidates are called. *)
Theorem C35_guards : forall V W (cb : cbfun V W) env root m vnone ds d0 s,
  handling cb env root m vnone ds d0 s ->
  forall r e v d x o v1 s1, takes cb m ds r e v s d x o v1 s1 ->
  exists ks w1, s1 = after s w1 ks /\
    forall k, In k ks -> exists d' x' o' ty val, In d' ds /\ x_guard x' = Guard ty val /\
      (exists pl, at_place m s r = Some pl /\ candidate env root e pl (CRow x' o')) /\
      signature k = (CGuard ty val, guard_args m e d' x' o').
Proof. exact @takes_after. Qed.
Print Assumptions C35_guards.

(** Every call of user code ever made has a reason. *)
Theorem C35_every_call : forall V W (cb : cbfun V W) env root m vnone, compile env root = Some m ->
  forall ds d0 s, few_regions env root -> reachable cb m vnone ds d0 s ->
  Forall (justified env root m ds d0) (rt_trace s).
Proof. exact @reachable_justified. Qed.
Print Assumptions C35_every_call.

Example C09_applies : demo_state ex_cb EntryExit.env EntryExit.Main [pe 2] (fun m s =>
  exists v' s', try_region ex_cb m 0 (EUser 2) 5 s = Done (Some Fired, v') s' /\
    map signature (rt_trace s') =
      map signature (rt_trace s) ++
      [(CExit EntryExit.Sub, mkArgs (EUser 2) (SState EntryExit.Sub) (TObj (SState 1)) 0)]).
Proof. apply demo_intro. vm_compute. split; [reflexivity|]. do 2 eexists. split; reflexivity. Qed.
Definition order_env : cenv :=
 [ (1, EntryExit.ee None); (2, EntryExit.ee None);
   (11, EntryExit.ee (Some [ mkRow (SInitial WState 2) (EUser 1) NoGuard NoAction (SState 1) ]));
   (50, tbl [ mkRow (SInitial WState 1) (EUser 9) NoGuard NoAction (SState 1);
              mkRow (SState 1) (EUser 1) ok act (SState 11) ]) ].
Example C09_order : demo_state ex_cb order_env 50 [] (fun m s =>
  exists v' s', try_region ex_cb m 0 (EUser 1) 5 s = Done (Some Fired, v') s' /\
    map k_callee (rt_trace s') = [CGuard 1 0; CExit 1; CAction 0; CEntry 11; CEntry 2]).
Proof. apply demo_intro. vm_compute. split; [reflexivity|]. do 2 eexists. split; reflexivity. Qed.

(** C38. Which on_exit is called: of the class written as plain state<S> source, or
    of the parent of an exit pseudo state. *)
Theorem C38_exit_called : forall V W (cb : cbfun V W) env root m vnone ds d0 s,
  handling cb env root m vnone ds d0 s ->
  forall r e v v' s' c, try_region cb m r e v s = Done (Some Fired, v') s' ->
  exists d x o v1 s1 ks, takes cb m ds r e v s d x o v1 s1 /\ executes cb m r e d x o v1 s1 None v' s' /\
    rt_trace s' = rt_trace s1 ++ ks /\
    (x_int x = false ->
      ((exists k, In k ks /\ k_callee k = CExit c) <->
       has_exit env c = true /\ (x_src x = SState c \/ exists w q, x_src x = SExit w c q))).
Proof. exact @fired_exits. Qed.
Print Assumptions C38_exit_called.

(** A row of a state marked initial leaves the state without calling on_exit. *)
Theorem C38_always_exit_refuted : exists V W (cb : cbfun V W) env root m vnone ds d0 s c c' v fuel e s',
  compile env root = Some m /\ few_regions env root /\ reachable cb m vnone ds d0 s /\
  at_place m s 0 = Some (root, SState c) /\ has_exit env c = true /\
  process_event cb m vnone fuel e v s = Done (true, v) s' /\
  at_place m s' 0 = Some (root, SState c') /\ c' <> c /\ rt_trace s' = rt_trace s.
Proof.
  assert (D : demo_state ex_cb
     [ (1, EntryExit.ee None);
       (50, tbl [ mkRow (SInitial WState 1) (EUser 1) NoGuard NoAction (SState 2) ]) ] 50 []
     (fun m s => at_place m s 0 = Some (50, SState 1) /\ exists s',
        process_event ex_cb m 0 300 (EUser 1) 5 s = Done (true, 5) s' /\
        at_place m s' 0 = Some (50, SState 2) /\ rt_trace s' = rt_trace s)).
  { apply demo_intro. vm_compute. split; [reflexivity|]. split; [reflexivity|]. eexists. repeat split. }
  destruct D as (m & s & Hm & Hf & Hr & Hp & s' & H1 & H2 & H3).
  exists nat, nat, ex_cb. do 3 eexists. exists 0, [0], 0, s, 1, 2, 5. do 3 eexists.
  repeat (split; [eassumption || reflexivity || discriminate|]). assumption.
Qed.
Print Assumptions C38_always_exit_refuted.

(** C10. *)
Theorem C10_internal : forall V W (cb : cbfun V W) env root m vnone ds d0 s,
  handling cb env root m vnone ds d0 s ->
  forall r e v v' s', try_region cb m r e v s = Done (Some Fired, v') s' ->
  exists d x o v1 s1, takes cb m ds r e v s d x o v1 s1 /\ executes cb m r e d x o v1 s1 None v' s' /\
    (x_int x = true ->
       rt_cur s' = rt_cur s /\ rt_hist s' = rt_hist s /\ rt_regions s' = rt_regions s /\ rt_queue s' = rt_queue s /\
       exists ks, rt_trace s' = rt_trace s1 ++ ks /\
         map signature ks = map (fun c => (c, call_args env e d x o c)) (action_calls x ++ initial_entry_call env x)).
Proof. exact @fired_internal. Qed.
Print Assumptions C10_internal.

Example C10_applies : demo_state ex_cb Internal.env Internal.Main [pe 3; pe 1] (fun m s =>
  at_place m s 0 = Some (Internal.Sub, SState 2) /\
  exists v' s' x, try_region ex_cb m 0 (EUser 8) 5 s = Done (Some Fired, v') s' /\
    cands m (EUser 8) (Internal.Sub, SState 2) = [CRow x (SState 2)] /\ x_int x = true /\
    map k_callee (rt_trace s') = map k_callee (rt_trace s) ++ [CAction 7]).
Proof. apply demo_intro. vm_compute. split; [reflexivity|]. split; [reflexivity|]. do 3 eexists. repeat split. Qed.

(** An internal transition of a state that is a composite runs on_entry of the
    composite's initial state although nothing is entered (a machine stands on a
    composite when the composite is an initial state). *)
Definition inner_env : cenv :=
 [ (1, EntryExit.ee None);
   (10, tbl [ mkRow (SInitial WState 1) (EUser 1) NoGuard NoAction (SState 2) ]);
   (11, mkCdef (Some [ mkRow (SInitial WState 10) (EUser 3) NoGuard NoAction (SState 3);
                       mkRow (SState 3) (EUser 4) NoGuard NoAction (SState 10) ])
               (Some [ plus_ea (event_action (EUser 8) act) ]) false false false None true);
   (50, tbl [ mkRow (SInitial WState 3) (EUser 3) NoGuard NoAction (SState 11) ]) ].
Theorem C10_no_entry_refuted : exists V W (cb : cbfun V W) env root m vnone ds d0 s c fuel e v s' pl x o y o' k1 k2,
  compile env root = Some m /\ few_regions env root /\ reachable cb m vnone ds d0 s /\
  at_place m s 0 = Some pl /\ candidate_list env root e pl [CRow x o; CRow y o'] /\
  x_int x = true /\ x_int y = true /\
  process_event cb m vnone fuel e v s = Done (true, v) s' /\ at_place m s' 0 = Some pl /\
  rt_trace s' = rt_trace s ++ [k1; k2] /\ k_callee k2 = CEntry c.
Proof.
  assert (D : demo_state ex_cb inner_env 50 [pe 3] (fun m s => at_place m s 0 = Some (11, SState 10) /\
    exists s' x o y o' k1 k2, process_event ex_cb m 0 300 (EUser 8) 5 s = Done (true, 5) s' /\
      cands m (EUser 8) (11, SState 10) = [CRow x o; CRow y o'] /\ x_int x = true /\ x_int y = true /\
      at_place m s' 0 = Some (11, SState 10) /\ rt_trace s' = rt_trace s ++ [k1; k2] /\ k_callee k2 = CEntry 1)).
  { apply demo_intro. vm_compute. split; [reflexivity|]. split; [reflexivity|]. do 7 eexists. repeat split. }
  destruct D as (m & s & Hm & Hf & Hr & Hp & s' & x & o & y & o' & k1 & k2 & H1 & H2 & H3 & H3' & H4 & H5 & H6).
  exists nat, nat, ex_cb. do 3 eexists. exists 0, [0], 0, s, 1, 300, (EUser 8), 5, s', (11, SState 10), x, o, y, o', k1, k2.
  split; [exact Hm|]. repeat (split; [assumption|]). split; [eapply demo_candidates; eauto|].
  repeat (split; [assumption|]). assumption.
Qed.
Print Assumptions C10_no_entry_refuted.

(** C13. Where a taken external row leads (whether or not its effects throw).
    History targets: C16. *)
Theorem C13_target : forall V W (cb : cbfun V W) env root m vnone ds d0 s,
  handling cb env root m vnone ds d0 s ->
  forall r e v d x o v1 s1 n v' s', takes cb m ds r e v s d x o v1 s1 ->
  executes cb m r e d x o v1 s1 n v' s' -> x_int x = false ->
  (forall c, x_tgt x = SState c -> ~ composite env c -> at_place m s' r = Some (x_parent x, SState c)) /\
  (forall c, x_tgt x = SState c -> composite env c ->
     exists i, first_initial env c = Some i /\ at_place m s' r = Some (c, i)) /\
  (forall w c, x_tgt x = SInitial w c -> at_place m s' r = Some (x_parent x, SState c)) /\
  (forall w p q, x_tgt x = SExit w p q -> at_place m s' r = Some (x_parent x, SExit w p q)) /\
  (forall w p q, x_tgt x = SEntry w p q \/ x_tgt x = SDirect w p q ->
     (table env p <> [] -> at_place m s' r = Some (p, SState q)) /\
     (table env p = [] -> at_place m s' r = None)).
Proof. exact @taken_target. Qed.
Print Assumptions C13_target.

Theorem C13_fired : forall V W (cb : cbfun V W) env root m vnone ds d0 s,
  handling cb env root m vnone ds d0 s ->
  forall r e v v' s', try_region cb m r e v s = Done (Some Fired, v') s' ->
  exists d x o v1 s1, takes cb m ds r e v s d x o v1 s1 /\ executes cb m r e d x o v1 s1 None v' s'.
Proof. exact @fired_takes. Qed.
Print Assumptions C13_fired.

Example C13_applies : demo_state ex_cb Pseudo.env Pseudo.Main [] (fun m s =>
  exists v' s' v'' s'', try_region ex_cb m 0 (EUser 1) 5 s = Done (Some Fired, v') s' /\
    at_place m s' 0 = Some (Pseudo.Sub, SState 3) /\
    try_region ex_cb m 0 (EUser 2) 5 s = Done (Some Fired, v'') s'' /\
    at_place m s'' 0 = Some (Pseudo.Sub, SState 1)).
Proof. apply demo_intro. vm_compute. split; [reflexivity|]. do 4 eexists. repeat split. Qed.

(** C32. chain_actions: one after the other; nesting does not matter; an
    exception ends the chain ([bind] passes on what is not [Done]). *)
Theorem C32_chain : forall V W (cb : cbfun V W) l1 l2 t e v (s : rt V W),
  exec_body cb (AChain (l1 ++ l2)) t e v s =
  bind (exec_body cb (AChain l1) t e v s) (fun v s => exec_body cb (AChain l2) t e v s).
Proof. exact @chain_app. Qed.
Print Assumptions C32_chain.
Theorem C32_chain_one : forall V W (cb : cbfun V W) b t e v (s : rt V W),
  exec_body cb (AChain [b]) t e v s = exec_body cb b t e v s.
Proof. exact @chain_one. Qed.
Print Assumptions C32_chain_one.

(** A fired row whose action is a chain of plain actions. *)
Theorem C32_calls : forall V W (cb : cbfun V W) env root m vnone ds d0 s,
  handling cb env root m vnone ds d0 s ->
  forall r e v v' s', try_region cb m r e v s = Done (Some Fired, v') s' ->
  exists d x o v1 s1, takes cb m ds r e v s d x o v1 s1 /\
    forall ty fs, x_act x = Action ty (AChain (map ACall fs)) ->
    exists k1 k2 k3, rt_trace s' = rt_trace s1 ++ k1 ++ k2 ++ k3 /\
      map signature k2 = map (fun f => (CAction f, mkArgs e o (action_target env x o) d)) fs.
Proof. exact @fired_chain. Qed.
Print Assumptions C32_calls.

Example C32_applies : demo_state throw_cb Internal.env Internal.Main [] (fun m s =>
  exists s', try_region throw_cb m 0 (EUser 8) 5 s = Threw (XUser 7) s' /\
    map k_callee (rt_trace s') = [CAction 7; CAction 666]).
Proof. apply demo_intro. vm_compute. split; [reflexivity|]. eexists. split; reflexivity. Qed.

(** C34. create_state: the factory gets event and source; its result is the new
    target object (none, if it returns a null pointer); no other object changes. *)
Theorem C34_create : forall V W (cb : cbfun V W) m r e d x o v s v' s' ty f,
  executes cb m r e d x o v s None v' s' -> x_act x = Action ty (ACreate f) ->
  exists u w b u' w', cb (CFactory f) (mkArgs e o TNone d) u w = Ret b u' w' /\
    (In (target_state (mc_env m) x) (rt_live s') <-> b = true) /\
    forall t, t <> target_state (mc_env m) x -> (In t (rt_live s') <-> In t (rt_live s)).
Proof. exact @executes_create. Qed.
Print Assumptions C34_create.

(** Objects that do not exist: reuse_state and guards. *)
Theorem C34_dead_reuse : forall V W (cb : cbfun V W) env root m vnone ds d0 s r e v pl x o cs ty f,
  handling cb env root m vnone ds d0 s -> event_of env root e ->
  at_place m s r = Some pl -> candidate_list env root e pl (CRow x o :: cs) -> x_guard x = NoGuard ->
  x_act x = Action ty (AReuse f) -> ~ In (target_state env x) (rt_live s) ->
  forall tv s', try_region cb m r e v s <> Done tv s'.
Proof. exact @region_dead_reuse. Qed.
Print Assumptions C34_dead_reuse.
Theorem C34_dead_guard : forall V W (cb : cbfun V W) env root m vnone ds d0 s,
  handling cb env root m vnone ds d0 s ->
  forall r e v pl x o cs, event_of env root e ->
  at_place m s r = Some pl -> candidate_list env root e pl (CRow x o :: cs) -> x_guard x <> NoGuard ->
  ~ In o (rt_live s) \/ ~ In (if x_int x then o else target_state env x) (rt_live s) ->
  try_region cb m r e v s = Undef UBNull.
Proof. exact @region_dead_guard. Qed.
Print Assumptions C34_dead_guard.

Example C34_applies : demo_state ex_cb Custom.env 50 [] (fun m s =>
  ~ In (SState 2) (rt_live s) /\ try_region ex_cb m 0 (EUser 2) 5 s = Undef UBNull /\
  exists v' s' v'' s'' v3 s3, try_region ex_cb m 0 (EUser 1) 5 s = Done (Some Fired, v') s' /\ In (SState 2) (rt_live s') /\
    try_region ex_cb m 0 (EUser 2) 5 s' = Done (Some Fired, v'') s'' /\
    try_region ex_cb m 0 (EUser 2) 5 s'' = Done (Some Fired, v3) s3).
Proof.
  apply demo_intro. vm_compute. split; [reflexivity|]. split; [intros H; repeat destruct H as [H|H]; discriminate || contradiction|].
  split; [reflexivity|]. do 6 eexists. repeat split. auto.
Qed.
