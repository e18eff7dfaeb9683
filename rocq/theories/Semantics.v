(** Name-level big-step semantics of a state machine: the specification the
    run-time part of the library is compared with.  It speaks about rows, places
    and callbacks; numbers appear only through [code], the fixed naming of places.

    It does not decide undefined behaviour: it says what happens if there is
    none. *)

From Coq Require Import List Arith NArith Bool.
From Verif Require Import Types Static Dispatch Runtime ListFacts IndexFacts Spec DispatchFacts.
Import ListNotations.

(** * Targets *)

(** Initial states of a class: the references marked initial, each once, in order
    of appearance. *)
Definition marked (s : sref) : bool := match s with SInitial _ _ => true | _ => false end.
Definition initial_states (env : cenv) (c : cls) : list sref :=
  map unmarked (dedup (filter marked (mentioned env c))).
Definition first_initial (env : cenv) (c : cls) : option sref := hd_error (initial_states env c).
(** At most 255 parallel regions everywhere. *)
Definition few_regions (env : cenv) (root : cls) : Prop :=
  forall p, is_parent env root p -> length (initial_states env p) <= 255.

(** Region [r] exists: some class of the machine has that many initial states. *)
Definition region_exists (env : cenv) (root : cls) (r : nat) : Prop :=
  exists p, is_parent env root p /\ r < length (initial_states env p).

(** Where a row leads (for history: where it leads the first time). *)
Definition target_place (env : cenv) (x : xrow) : option place :=
  match x_tgt x with
  | SState c => if is_composite env c
                then option_map (pair c) (first_initial env c)
                else Some (x_parent x, SState c)
  | SInitial _ c => Some (x_parent x, SState c)
  | SEntry _ p s => Some (p, SState s)
  | SDirect _ p s => Some (p, SState s)
  | SHistory _ p => option_map (pair p) (first_initial env p)
  | SExit w p s => Some (x_parent x, SExit w p s)
  end.
Definition target_state (env : cenv) (x : xrow) : sref :=
  match target_place env x with Some (_, s) => s | None => x_tgt x end.

(** * What compiles *)
Definition default_constructible (env : cenv) (s : sref) : bool :=
  match s with SState c => cd_defctor (lookup env c) | _ => true end.

Record row_fine (env : cenv) (root : cls) (x : xrow) : Prop := mkRowFine {
  rf_target : exists pl, target_place env x = Some pl /\ is_state env root (snd pl);
  rf_source : is_state env root (snd (source_place x));
  rf_history : forall w p, x_tgt x = SHistory w p -> composite env p;
  rf_pointer : forall ty b, x_act x = Action ty b -> needs_pointer b ->
     default_constructible env (target_state env x) = false }.

Record compiles (env : cenv) (root : cls) : Prop := mkCompiles {
  co_root : table env root <> [];
  co_nesting : ~ recursive env root;
  co_initial : exists p, is_parent env root p /\ initial_states env p <> [];
  co_root_initial : forall c, In (SState c) (initial_states env root) ->
     ~ composite env c /\ cd_internal (lookup env c) = None;
  co_rows : forall x, declared env root x -> row_fine env root x;
  co_internal : forall flat ints x, visits env root (table env root) flat ->
     keeps_first same_cpp_type [] (internal_rows env root flat) ints -> In x ints ->
     row_fine env root x;
  co_deferred : forall x e, declared env root x -> In e (deferred_by env x) ->
     exists y, (declared env root y \/ declared_internal env root y) /\ x_ev y = e;
  co_fresh_root : forall p, used env root p -> ~ child env p (SState root);
  co_size : forall ps ss, NoDup ps -> NoDup ss -> (forall p, In p ps -> is_parent env root p) ->
     (forall s, In s ss -> is_state env root s) ->
     (N.of_nat (length ps) * N.of_nat (length ss) < two64)%N }.

(** * Effects of a row *)

(** A call of user code made by a transition. [p_keep]: changes of the event
    object survive the call. [p_makes]: the returned object becomes this state's
    object. *)
Record prim := mkPrim {
  p_callee : callee;
  p_targ : targ;
  p_keep : bool;
  p_makes : option sref }.

(** The target argument of actions, on_entry and on_exit of row [x] with source
    object [o]. *)
Definition action_target (env : cenv) (x : xrow) (o : sref) : targ :=
  if default_constructible env (target_state env x)
  then TObj (if x_int x then o else target_state env x)
  else TPtr (target_state env x).

Fixpoint body_calls (at_ : targ) (t : sref) (b : abody) : list prim :=
  match b with
  | ACall f => [mkPrim (CAction f) at_ true None]
  | ACreate f => [mkPrim (CFactory f) TNone false (Some t)]
  | AReuse f => [mkPrim (CReuse f) (TObj t) false None]
  | AChain l => flat_map (body_calls at_ t) l
  end.

(** The calls made by one step of a table entry. *)
Definition step_prims (at_ : targ) (t : sref) (st : step) : list prim :=
  match st with
  | StExit c => [mkPrim (CExit c) at_ true None]
  | StAct b => body_calls at_ t b
  | StEntry c | StInit c => [mkPrim (CEntry c) at_ true None]
  end.

(** The callbacks of an action, in order. *)
Fixpoint callees (b : abody) : list callee :=
  match b with
  | ACall f => [CAction f]
  | ACreate f => [CFactory f]
  | AReuse f => [CReuse f]
  | AChain l => flat_map callees l
  end.
Definition action_calls (x : xrow) : list callee :=
  match x_act x with NoAction => [] | Action _ b => callees b end.

Section Effects.
Variable env : cenv.

Definition has_entry (c : cls) : bool := cd_entry (lookup env c).
Definition has_exit (c : cls) : bool := cd_exit (lookup env c).

(** The class whose on_exit runs: a plain source, or the parent named by an exit
    pseudo state.  (Not: sources marked initial, direct sources.) *)
Definition exit_call (x : xrow) : list callee :=
  if x_int x then []
  else match x_src x with
       | SState c => if has_exit c then [CExit c] else []
       | SExit _ p _ => if has_exit p then [CExit p] else []
       | _ => []
       end.
(** The class whose on_entry runs: a plain target. *)
Definition entry_call (x : xrow) : list callee :=
  if x_int x then []
  else match x_tgt x with
       | SState c => if has_entry c then [CEntry c] else []
       | _ => []
       end.
(** Entering a composite also runs on_entry of its first initial state. *)
Definition initial_entry_call (x : xrow) : list callee :=
  match x_tgt x with
  | SState c =>
      match (if is_composite env c then first_initial env c else None) with
      | Some (SState i) => if has_entry i then [CEntry i] else []
      | _ => []
      end
  | _ => []
  end.

(** The callbacks of a row in order, and the arguments each of them gets. *)
Definition row_calls (x : xrow) : list callee :=
  exit_call x ++ action_calls x ++ entry_call x ++ initial_entry_call x.
Definition call_args (e : ev) (d : dep) (x : xrow) (o : sref) (c : callee) : args :=
  mkArgs e o
    (match c with
     | CFactory _ => TNone
     | CReuse _ => TObj (target_state env x)
     | _ => action_target env x o
     end) d.
Definition row_signature (e : ev) (d : dep) (x : xrow) (o : sref) : list (callee * args) :=
  map (fun c => (c, call_args e d x o c)) (row_calls x).

Definition effects (x : xrow) (o : sref) : list prim :=
  let at_ := action_target env x o in
  let plain_call := fun c => mkPrim c at_ true None in
  map plain_call (exit_call x)
  ++ match x_act x with NoAction => [] | Action _ b => body_calls at_ (target_state env x) b end
  ++ map plain_call (entry_call x)
  ++ map plain_call (initial_entry_call x).
End Effects.

Section Semantics.
Context {V W : Type}.
Variable cb : cbfun V W.
Variable m : machine.
Notation env := (mc_env m).
Notation st := (rt V W).

(** * Views of a run-time state *)
Definition code (pl : place) : N := N.of_nat (pos place_eq_dec pl (places m)).
Definition at_place (s : st) (r : nat) : option place :=
  match nth_error (rt_cur s) r with
  | Some (Some c) => nth_error (places m) (N.to_nat c)
  | _ => None
  end.
Definition after (s : st) (w : W) (ks : list (called V)) : st :=
  with_user s w (rt_trace s ++ ks).

(** A call without the payload. *)
Definition signature (k : called V) : callee * args := (k_callee k, k_args k).

(** Nothing but the places of the regions differs. *)
Definition only_places_differ (s s' : st) : Prop := s' = with_cur s (rt_cur s').
Definition uninitialised (s : st) (r : nat) : Prop := nth_error (rt_cur s) r = Some None.

(** * Choosing a candidate *)

(** A candidate bound to the dependencies it was registered with. *)
Definition bcand := (dep * cand)%type.
Definition bound (ds : list dep) (e : ev) (pl : place) : list bcand :=
  flat_map (fun d => map (pair d) (cands m e pl)) ds.

Definition bind_all (ds : list dep) (cs : list cand) : list bcand :=
  flat_map (fun d => map (pair d) cs) ds.

(** What the entry of a dispatch table says about a candidate. *)
Definition describes (b : bcand) (en : entry) : Prop :=
  match snd b with
  | CDefer => en_defer en = true
  | CRow x o =>
      en_defer en = false /\ en_int en = x_int x /\ en_hist en = is_history (x_tgt x) /\
      (exists pl, target_place env x = Some pl /\ en_to en = code pl) /\
      exists t, en_tr en = Some t /\ t_guard t = x_guard x /\ t_src t = o /\
        t_tgt t = target_state env x /\ t_dep t = fst b /\ t_int t = x_int x /\
        t_ptr t = negb (default_constructible env (target_state env x)) /\
        effects env x o =
          flat_map (step_prims (action_target env x o) (target_state env x))
                   (match t_act t with Some l => l | None => [] end)
  end.

Inductive verdict := VNone | VPick (d : dep) (x : xrow) (o : sref) | VDefer | VRaise (n : nat).

Definition guard_args (e : ev) (d : dep) (x : xrow) (o : sref) : args :=
  mkArgs e o (TObj (if x_int x then o else target_state env x)) d.

(** Guards are asked in order until one agrees; a row without guard always
    agrees; a deferral is always taken. *)
Inductive scan (e : ev) : list bcand -> V -> W -> list (called V) -> verdict -> V -> W -> Prop :=
| scan_nil v w : scan e [] v w [] VNone v w
| scan_defer d bs v w : scan e ((d, CDefer) :: bs) v w [] VDefer v w
| scan_free d x o bs v w :
    x_guard x = NoGuard -> scan e ((d, CRow x o) :: bs) v w [] (VPick d x o) v w
| scan_yes d x o bs v w ty val v' w' :
    x_guard x = Guard ty val ->
    cb (CGuard ty val) (guard_args e d x o) v w = Ret true v' w' ->
    scan e ((d, CRow x o) :: bs) v w [mkCall (CGuard ty val) (guard_args e d x o) v]
         (VPick d x o) v' w'
| scan_no d x o bs v w ty val v1 w1 ks vd v' w' :
    x_guard x = Guard ty val ->
    cb (CGuard ty val) (guard_args e d x o) v w = Ret false v1 w1 ->
    scan e bs v1 w1 ks vd v' w' ->
    scan e ((d, CRow x o) :: bs) v w (mkCall (CGuard ty val) (guard_args e d x o) v :: ks) vd v' w'
| scan_raise d x o bs v w ty val n v' w' :
    x_guard x = Guard ty val ->
    cb (CGuard ty val) (guard_args e d x o) v w = Raise n v' w' ->
    scan e ((d, CRow x o) :: bs) v w [mkCall (CGuard ty val) (guard_args e d x o) v]
         (VRaise n) v w'.

(** The question put to a candidate: its guard, if it has one. *)
Definition asks (e : ev) (b : bcand) : list (callee * args) :=
  match snd b with
  | CDefer => []
  | CRow x o => match x_guard x with
                | NoGuard => []
                | Guard ty val => [(CGuard ty val, guard_args e (fst b) x o)]
                end
  end.

(** A guarded candidate that can be asked (its objects exist) and always says no. *)
Definition refuses (ds : list dep) (s : st) (e : ev) (c : cand) : Prop :=
  exists x o ty val, c = CRow x o /\ x_guard x = Guard ty val /\
    In o (rt_live s) /\ In (if x_int x then o else target_state env x) (rt_live s) /\
    forall d v w, In d ds ->
      exists v' w', cb (CGuard ty val) (guard_args e d x o) v w = Ret false v' w'.

(** The row agrees to be taken: it has no guard or its guard says yes. *)
Inductive accepts (e : ev) (d : dep) (x : xrow) (o : sref) (v : V) (w : W)
  : list (called V) -> V -> W -> Prop :=
| acc_free : x_guard x = NoGuard -> accepts e d x o v w [] v w
| acc_guard ty val v' w' :
    x_guard x = Guard ty val ->
    cb (CGuard ty val) (guard_args e d x o) v w = Ret true v' w' ->
    accepts e d x o v w [mkCall (CGuard ty val) (guard_args e d x o) v] v' w'.

(** * Moving *)
Fixpoint set_nth {A} (n : nat) (a : A) (l : list A) : list A :=
  match l, n with
  | [], _ => []
  | _ :: l', O => a :: l'
  | b :: l', S n' => b :: set_nth n' a l'
  end.

(** Region [r] is put into the place with number [c]; the number of active
    regions becomes that of region 0's parent. *)
Definition relocate (r : nat) (c : N) (s : st) : st :=
  let s1 := with_cur s (set_nth r (Some c) (rt_cur s)) in
  if parallel m
  then match at_place s1 0 with
       | Some (p, _) => with_regions s1 (length (initial_states env p))
       | None => s1
       end
  else s1.

Definition parent_pos (p : cls) : nat := pos Nat.eq_dec p (parents m).
Definition history_of (s : st) (p : cls) (r : nat) : option N :=
  match nth_error (rt_hist s) (parent_pos p) with
  | Some l => nth_error l r
  | None => None
  end.
(** The place of region [r] is remembered for the parent of region 0. *)
Definition remember (r : nat) (s : st) : st :=
  match at_place s 0, nth_error (rt_cur s) r with
  | Some (p, _), Some (Some c) =>
      match nth_error (rt_hist s) (parent_pos p) with
      | Some l => with_hist s (set_nth (parent_pos p) (set_nth r c l) (rt_hist s))
      | None => s
      end
  | _, _ => s
  end.

(** With parallel regions region 0 must be in a place of the machine. *)
Definition settled (s : st) : Prop := parallel m = true -> at_place s 0 <> None.

Inductive moves (r : nat) (x : xrow) : st -> st -> Prop :=
| mv_internal s : x_int x = true -> moves r x s s
| mv_plain s pl : x_int x = false -> has_history m = false ->
    target_place env x = Some pl -> settled (relocate r (code pl) s) ->
    moves r x s (relocate r (code pl) s)
| mv_remember s pl : x_int x = false -> has_history m = true -> is_history (x_tgt x) = false ->
    target_place env x = Some pl -> settled (relocate r (code pl) (remember r s)) ->
    moves r x s (relocate r (code pl) (remember r s))
| mv_history s w p c : x_int x = false -> has_history m = true -> x_tgt x = SHistory w p ->
    history_of (remember r s) p r = Some c -> settled (relocate r c (remember r s)) ->
    moves r x s (relocate r c (remember r s)).

(** * Performing the effects *)
Definition assign (live : list sref) (t : sref) (some_object : bool) : list sref :=
  if some_object then (if in_dec sref_eq_dec t live then live else t :: live)
  else filter (fun s => if sref_eq_dec s t then false else true) live.

Inductive perform (e : ev) (d : dep) (o : sref)
  : list prim -> V -> list sref -> W -> list (called V) -> option nat -> V -> list sref -> W -> Prop :=
| pf_nil v live w : perform e d o [] v live w [] None v live w
| pf_call p ps v live w b v1 w1 ks n v' live' w' :
    cb (p_callee p) (mkArgs e o (p_targ p) d) v w = Ret b v1 w1 ->
    perform e d o ps (if p_keep p then v1 else v)
            (match p_makes p with Some t => assign live t b | None => live end) w1
            ks n v' live' w' ->
    perform e d o (p :: ps) v live w
            (mkCall (p_callee p) (mkArgs e o (p_targ p) d) v :: ks) n v' live' w'
| pf_raise p ps v live w n v1 w1 :
    cb (p_callee p) (mkArgs e o (p_targ p) d) v w = Raise n v1 w1 ->
    perform e d o (p :: ps) v live w
            [mkCall (p_callee p) (mkArgs e o (p_targ p) d) v] (Some n) v live w1.

(** Executing a chosen row: first the move, then the effects. *)
Inductive executes (r : nat) (e : ev) (d : dep) (x : xrow) (o : sref)
  : V -> st -> option nat -> V -> st -> Prop :=
| ex_intro v s s1 ks n v' live' w' :
    moves r x s s1 ->
    perform e d o (effects env x o) v (rt_live s1) (rt_world s1) ks n v' live' w' ->
    executes r e d x o v s n v' (with_live (after s1 w' ks) live').

(** * One region *)
Variable ds : list dep.

Inductive rverdict :=
| RNothing                  (* no candidate *)
| RRefused                  (* all guards refused *)
| RFired (x : xrow)         (* the row was executed *)
| RDeferred                 (* the event was queued *)
| RGuardThrew (n : nat)     (* a guard threw *)
| REffectThrew (x : xrow) (n : nat). (* the row was taken, one of its effects threw *)

Inductive region_step (r : nat) (e : ev) : V -> st -> rverdict -> V -> st -> Prop :=
| rs_nothing v s pl :
    at_place s r = Some pl -> bound ds e pl = [] -> region_step r e v s RNothing v s
| rs_refused v s pl ks v' w' :
    at_place s r = Some pl -> bound ds e pl <> [] ->
    scan e (bound ds e pl) v (rt_world s) ks VNone v' w' ->
    region_step r e v s RRefused v' (after s w' ks)
| rs_fired v s pl ks d x o v1 w1 v' s' :
    at_place s r = Some pl ->
    scan e (bound ds e pl) v (rt_world s) ks (VPick d x o) v1 w1 ->
    executes r e d x o v1 (after s w1 ks) None v' s' ->
    region_step r e v s (RFired x) v' s'
| rs_deferred v s pl ks v' w' :
    at_place s r = Some pl ->
    scan e (bound ds e pl) v (rt_world s) ks VDefer v' w' ->
    region_step r e v s RDeferred v' (with_queue (after s w' ks) (rt_queue s ++ [(e, v')]))
| rs_guard_threw v s pl ks n v' w' :
    at_place s r = Some pl ->
    scan e (bound ds e pl) v (rt_world s) ks (VRaise n) v' w' ->
    region_step r e v s (RGuardThrew n) v' (after s w' ks)
| rs_effect_threw v s pl ks d x o v1 w1 n v' s' :
    at_place s r = Some pl ->
    scan e (bound ds e pl) v (rt_world s) ks (VPick d x o) v1 w1 ->
    executes r e d x o v1 (after s w1 ks) (Some n) v' s' ->
    region_step r e v s (REffectThrew x n) v' s'.

(** Region [r] chooses row [x] with source object [o] and dependencies [d]; [s1]
    is the state after the guards. *)
Definition takes (r : nat) (e : ev) (v : V) (s : st) (d : dep) (x : xrow) (o : sref)
    (v1 : V) (s1 : st) : Prop :=
  exists pl ks w1, at_place s r = Some pl /\
    scan e (bound ds e pl) v (rt_world s) ks (VPick d x o) v1 w1 /\ s1 = after s w1 ks.

Definition threw (vd : rverdict) : option nat :=
  match vd with RGuardThrew n | REffectThrew _ n => Some n | _ => None end.
Definition fired (vd : rverdict) : bool := match vd with RFired _ => true | _ => false end.
Definition deferred (vd : rverdict) : bool := match vd with RDeferred => true | _ => false end.
Definition stops (vd : rverdict) : bool :=
  match vd with RDeferred | RGuardThrew _ | REffectThrew _ _ => true | _ => false end.

(** Nothing happened. *)
Definition quiet (vd : rverdict) : Prop := vd = RNothing \/ vd = RRefused.

(** * All regions, in order, until one stops the processing *)
Inductive regions_run (e : ev) (limit : nat) : nat -> V -> st -> list rverdict -> V -> st -> Prop :=
| rr_end r v s : limit <= r -> regions_run e limit r v s [] v s
| rr_stop r v s vd v' s' :
    r < limit -> region_step r e v s vd v' s' -> stops vd = true ->
    regions_run e limit r v s [vd] v' s'
| rr_next r v s vd v1 s1 vds v' s' :
    r < limit -> region_step r e v s vd v1 s1 -> stops vd = false ->
    regions_run e limit (S r) v1 s1 vds v' s' ->
    regions_run e limit r v s (vd :: vds) v' s'.

(** Number of active regions. *)
Definition active (s : st) : nat := if parallel m then rt_regions s else 1.

(** * Anonymous transitions *)

(** One pass over the regions: it ends at the first region without anonymous
    row. *)
Inductive pass_end := PeComplete | PeEmptyRegion | PeThrew (n : nat).
Inductive anon_pass (limit : nat)
  : nat -> V -> st -> list rverdict -> pass_end -> V -> st -> Prop :=
| ap_end r v s : limit <= r -> anon_pass limit r v s [] PeComplete v s
| ap_empty r v s : r < limit -> region_step r ENone v s RNothing v s ->
    anon_pass limit r v s [RNothing] PeEmptyRegion v s
| ap_threw r v s vd n v' s' :
    r < limit -> region_step r ENone v s vd v' s' -> threw vd = Some n ->
    anon_pass limit r v s [vd] (PeThrew n) v' s'
| ap_next r v s vd v1 s1 vds pe v' s' :
    r < limit -> region_step r ENone v s vd v1 s1 -> stops vd = false -> vd <> RNothing ->
    anon_pass limit (S r) v1 s1 vds pe v' s' ->
    anon_pass limit r v s (vd :: vds) pe v' s'.

(** Passes are repeated until one is cut short or fires nothing. The list
    collects the verdicts of every pass. *)
Inductive anonymous : V -> st -> list (list rverdict) -> option nat -> st -> Prop :=
| an_empty v s vds v' s' :
    anon_pass (active s) 0 v s vds PeEmptyRegion v' s' -> anonymous v s [vds] None s'
| an_threw v s vds n v' s' :
    anon_pass (active s) 0 v s vds (PeThrew n) v' s' -> anonymous v s [vds] (Some n) s'
| an_quiet v s vds v' s' :
    anon_pass (active s) 0 v s vds PeComplete v' s' -> existsb fired vds = false ->
    anonymous v s [vds] None s'
| an_again v s vds v1 s1 rest n s' :
    anon_pass (active s) 0 v s vds PeComplete v1 s1 -> existsb fired vds = true ->
    anonymous v1 s1 rest n s' -> anonymous v s (vds :: rest) n s'.

(** * Offering an event to the machine *)
Variable vnone : V.

Inductive offer_end := OfUnhandled | OfRefused | OfHandled | OfDeferred | OfThrew (n : nat).
Definition unhandled (vds : list rverdict) : bool :=
  forallb (fun vd => match vd with RNothing => true | _ => false end) vds.

Inductive offer (e : ev) : V -> st -> list rverdict -> list (list rverdict) -> offer_end -> V -> st -> Prop :=
| of_unhandled v s vds v' s' :
    regions_run e (active s) 0 v s vds v' s' -> unhandled vds = true ->
    offer e v s vds [] OfUnhandled v' s'
| of_refused v s vds v' s' :
    regions_run e (active s) 0 v s vds v' s' -> existsb stops vds = false ->
    unhandled vds = false -> existsb fired vds = false ->
    offer e v s vds [] OfRefused v' s'
| of_deferred v s vds v' s' :
    regions_run e (active s) 0 v s vds v' s' -> existsb deferred vds = true ->
    offer e v s vds [] OfDeferred v' s'
| of_threw v s vds vd n v' s' :
    regions_run e (active s) 0 v s (vds ++ [vd]) v' s' -> threw vd = Some n ->
    offer e v s (vds ++ [vd]) [] (OfThrew n) v' s'
| of_handled v s vds v' s1 avds s' :
    regions_run e (active s) 0 v s vds v' s1 -> existsb stops vds = false ->
    existsb fired vds = true ->
    (if has_anonymous m then anonymous vnone s1 avds None s' else avds = [] /\ s' = s1) ->
    offer e v s vds avds OfHandled v' s'
| of_anon_threw v s vds v' s1 avds n s' :
    regions_run e (active s) 0 v s vds v' s1 -> existsb stops vds = false ->
    existsb fired vds = true ->
    has_anonymous m = true -> anonymous vnone s1 avds (Some n) s' ->
    offer e v s vds avds (OfThrew n) v' s'.

(** * process_event *)

(** Recall of the oldest deferred event. *)
Inductive recall : st -> option nat -> st -> Prop :=
| rc_none s : rt_queue s = [] -> recall s None s
| rc_some s e v q vds avds oe v' s' :
    rt_queue s = (e, v) :: q ->
    offer e v (with_queue s q) vds avds oe v' s' ->
    recall s (match oe with OfThrew n => Some n | _ => None end) s'.

(** The dependencies given to the constructor. *)
Variable d0 : dep.

Inductive unexpected (e : ev) : V -> st -> option nat -> V -> st -> Prop :=
| ux_no_handler v s : cd_unexpected (lookup env (mc_root m)) = false -> unexpected e v s None v s
| ux_handled v s pl b v' w' :
    cd_unexpected (lookup env (mc_root m)) = true ->
    at_place s 0 = Some pl ->
    cb CHandler (mkArgs e (snd pl) TNone d0) v (rt_world s) = Ret b v' w' ->
    unexpected e v s None v' (after s w' [mkCall CHandler (mkArgs e (snd pl) TNone d0) v])
| ux_threw v s pl n v' w' :
    cd_unexpected (lookup env (mc_root m)) = true ->
    at_place s 0 = Some pl ->
    cb CHandler (mkArgs e (snd pl) TNone d0) v (rt_world s) = Raise n v' w' ->
    unexpected e v s (Some n) v (after s w' [mkCall CHandler (mkArgs e (snd pl) TNone d0) v]).

Inductive reply := Returned (b : bool) (v : V) | Exception (n : nat).

Inductive process (e : ev) : V -> st -> list rverdict -> reply -> st -> Prop :=
| pr_unhandled v s vds v1 s1 n v' s' :
    offer e v s vds [] OfUnhandled v1 s1 -> unexpected e v1 s1 n v' s' ->
    process e v s vds (match n with None => Returned false v' | Some k => Exception k end) s'
| pr_not_taken v s vds oe v' s' :
    offer e v s vds [] oe v' s' -> (oe = OfRefused \/ oe = OfDeferred) ->
    process e v s vds (Returned false v') s'
| pr_threw v s vds avds n v' s' :
    offer e v s vds avds (OfThrew n) v' s' -> process e v s vds (Exception n) s'
| pr_handled v s vds avds v' s1 n s' :
    offer e v s vds avds OfHandled v' s1 ->
    (if has_deferred m then recall s1 n s' else n = None /\ s' = s1) ->
    process e v s vds (match n with None => Returned true v' | Some k => Exception k end) s'.
End Semantics.

(** The second list is the first without some copies of earlier elements. *)
Inductive drops_copies {A} : list A -> list A -> list A -> Prop :=
| dc_nil seen : drops_copies seen [] []
| dc_keep seen a l l' : drops_copies (a :: seen) l l' -> drops_copies seen (a :: l) (a :: l')
| dc_drop seen a l l' : In a seen -> drops_copies seen l l' -> drops_copies seen (a :: l) l'.

(** Guards that only look at their arguments, and what they say. *)
Definition pure_guards {V W} (cb : cbfun V W) (G : nat -> nat -> args -> bool) : Prop :=
  forall ty val a v w, cb (CGuard ty val) a v w = Ret (G ty val a) v w.
Definition enabled (G : nat -> nat -> args -> bool) (m : machine) (e : ev) (b : bcand) : bool :=
  match snd b with
  | CDefer => true
  | CRow x o => match x_guard x with
                | NoGuard => true
                | Guard ty val => G ty val (guard_args m e (fst b) x o)
                end
  end.

(** The objects the guards of these candidates look at exist. *)
Definition guards_ready {V W} (m : machine) (s : rt V W) (bs : list bcand) : Prop :=
  forall d x o, In (d, CRow x o) bs -> x_guard x <> NoGuard ->
    In o (rt_live s) /\ In (if x_int x then o else target_state (mc_env m) x) (rt_live s).
