(** Run-time part: class sm (details/sm.h), the objects it owns, and the
    callbacks it calls. *)

From Coq Require Import List Arith NArith Bool.
From Verif Require Import Types Static Dispatch.
Import ListNotations.

(** * Callbacks *)

(** The target argument of a callback: a reference to the object, the pointer
    (dispatch_table.h 77), or no such argument. *)
Inductive targ := TObj (s : sref) | TPtr (s : sref) | TNone.

(** Arguments of a callback besides the event payload: event type, source object,
    target, dependencies. Objects are named by the state whose object they are
    (make_states_map.h 21-27: one object per state typeid). *)
Record args := mkArgs {
  a_ev : ev;
  a_src : sref;
  a_tgt : targ;
  a_dep : dep }.

(** User code that can be called. *)
Inductive callee :=
| CGuard (ty val : nat)
| CAction (f : nat)
| CFactory (f : nat)      (* the factory of create_state(f) *)
| CReuse (f : nat)        (* the action of reuse_state(f) *)
| CEntry (c : cls)
| CExit (c : cls)
| CHandler.

(** Undefined behaviour. *)
Inductive ub :=
| UBUninit        (* read of a never written element of m_currentCombinedState *)
| UBIndex         (* operator[] outside of an array / vector *)
| UBNull          (* dereference of a null pointer *)
| UBIllformed.    (* the call does not compile (static_assert sm.h 90-94, 145-150) *)

Inductive exn :=
| XUser (n : nat)     (* thrown by user code *)
| XOutOfRange         (* std::out_of_range of .at() *)
| XRuntime.           (* std::runtime_error of variant_queue::visit *)

Section Runtime.
(** [V]: event payloads; [W]: everything user code can read and write (state
    objects' data members, dependencies, globals). *)
Context {V W : Type}.

(** Result of user code: a boolean (guard verdict; factory: a non-null object was
    returned; ignored otherwise), the event object and the world after the call;
    or an exception. Simplification: user code does not call back into the same
    state machine; [Reentry.v] has the interpreter without this simplification. *)
Inductive cbres :=
| Ret (b : bool) (v : V) (w : W)
| Raise (n : nat) (v : V) (w : W).

Definition cbfun := callee -> args -> V -> W -> cbres.

(** A recorded call of user code. *)
Record called := mkCall {
  k_callee : callee;
  k_args : args;
  k_payload : V }.

(** The data members of class sm (sm.h 37-44). [m_initial_states] is constant
    after construction and equals [initial_table m]. [rt_live]: states whose
    object pointer is not null. [rt_world], [rt_trace]: user state and the record
    of the calls of user code, oldest first (ghost). *)
Record rt := mkRt {
  rt_cur : list (option N);              (* m_currentCombinedState, None = indeterminate *)
  rt_hist : list (list N);               (* m_history *)
  rt_queue : list (ev * V);              (* m_defer_queue, front first *)
  rt_regions : nat;                      (* m_currentRegions *)
  rt_live : list sref;                   (* m_statesMap: non-null objects *)
  rt_tabs : tables;                      (* m_dispatchTables *)
  rt_htabs : handler_tables;             (* m_unexpectedEventHandlerTables *)
  rt_world : W;
  rt_trace : list called }.

Definition with_cur s c := mkRt c (rt_hist s) (rt_queue s) (rt_regions s) (rt_live s)
  (rt_tabs s) (rt_htabs s) (rt_world s) (rt_trace s).
Definition with_hist s h := mkRt (rt_cur s) h (rt_queue s) (rt_regions s) (rt_live s)
  (rt_tabs s) (rt_htabs s) (rt_world s) (rt_trace s).
Definition with_queue s q := mkRt (rt_cur s) (rt_hist s) q (rt_regions s) (rt_live s)
  (rt_tabs s) (rt_htabs s) (rt_world s) (rt_trace s).
Definition with_regions s n := mkRt (rt_cur s) (rt_hist s) (rt_queue s) n (rt_live s)
  (rt_tabs s) (rt_htabs s) (rt_world s) (rt_trace s).
Definition with_live s l := mkRt (rt_cur s) (rt_hist s) (rt_queue s) (rt_regions s) l
  (rt_tabs s) (rt_htabs s) (rt_world s) (rt_trace s).
Definition with_tabs s t := mkRt (rt_cur s) (rt_hist s) (rt_queue s) (rt_regions s) (rt_live s)
  t (rt_htabs s) (rt_world s) (rt_trace s).
Definition with_user s w tr := mkRt (rt_cur s) (rt_hist s) (rt_queue s) (rt_regions s) (rt_live s)
  (rt_tabs s) (rt_htabs s) w tr.

(** Outcome of a (member) function call. *)
Inductive res (A : Type) :=
| Done (a : A) (s : rt)
| Threw (x : exn) (s : rt)
| Undef (u : ub)
| Timeout.

Definition bind {A B} (r : res A) (f : A -> rt -> res B) : res B :=
  match r with
  | Done _ a s => f a s
  | Threw _ x s => Threw _ x s
  | Undef _ u => Undef _ u
  | Timeout _ => Timeout _
  end.

(** * Calling user code *)

Variable cb : cbfun.

Definition invoke (c : callee) (a : args) (v : V) (s : rt) : res (bool * V) :=
  let tr := rt_trace s ++ [mkCall c a v] in
  match cb c a v (rt_world s) with
  | Ret b v' w' => Done _ (b, v') (with_user s w' tr)
  | Raise n _ w' => Threw _ (XUser n) (with_user s w' tr)
  end.

(** [**ptr] on an element of m_statesMap. *)
Definition alive (s : rt) (o : sref) : bool :=
  if in_dec sref_eq_dec o (rt_live s) then true else false.

(** executeGuard, dispatch_table.h 85-115. *)
Definition execute_guard (t : trans) (e : ev) (v : V) (s : rt) : res (bool * V) :=
  match t_guard t with
  | NoGuard => Done _ (true, v) s
  | Guard ty val =>
      let tgt := if t_int t then t_src t else t_tgt t in
      if alive s (t_src t) && alive s tgt
      then invoke (CGuard ty val) (mkArgs e (t_src t) (TObj tgt) (t_dep t)) v s
      else Undef _ UBNull
  end.

(** The arguments handed to the action functor, dispatch_table.h 67-78. *)
Definition action_args (t : trans) (e : ev) : args :=
  mkArgs e (t_src t)
    (if t_ptr t then TPtr (t_tgt t)
     else if t_int t then TObj (t_src t) else TObj (t_tgt t))
    (t_dep t).

(** [*target = ...] in create_state.h 15. *)
Definition set_live (s : rt) (o : sref) (b : bool) : rt :=
  with_live s
    (if b then (if in_dec sref_eq_dec o (rt_live s) then rt_live s else o :: rt_live s)
     else filter (fun x => if sref_eq_dec x o then false else true) (rt_live s)).

Definition drop_payload (v : V) (r : res (bool * V)) : res V :=
  bind r (fun _ s => Done _ v s).
Definition keep_payload (r : res (bool * V)) : res V :=
  bind r (fun bv s => Done _ (snd bv) s).

(** An action functor applied to the arguments.
    ACall: a user callable, gets the event by reference.
    ACreate: create_state.h 12-16, parameters by value, so changes to the event
    are lost. AReuse: reuse_state.h 12-16, [**target]. AChain: chain_actions.h
    12-16, left to right with the same arguments. *)
Fixpoint exec_body (b : abody) (t : trans) (e : ev) (v : V) (s : rt) : res V :=
  match b with
  | ACall f => keep_payload (invoke (CAction f) (action_args t e) v s)
  | ACreate f =>
      bind (invoke (CFactory f) (mkArgs e (t_src t) TNone (t_dep t)) v s)
           (fun bv s' => Done _ v (set_live s' (t_tgt t) (fst bv)))
  | AReuse f =>
      if alive s (t_tgt t)
      then drop_payload v (invoke (CReuse f) (mkArgs e (t_src t) (TObj (t_tgt t)) (t_dep t)) v s)
      else Undef _ UBNull
  | AChain l =>
      (fix go (l : list abody) (v : V) (s : rt) : res V :=
         match l with
         | [] => Done _ v s
         | b :: l' => bind (exec_body b t e v s) (fun v' s' => go l' v' s')
         end) l v s
  end.

Definition exec_step (st : step) (t : trans) (e : ev) (v : V) (s : rt) : res V :=
  match st with
  | StExit c => keep_payload (invoke (CExit c) (action_args t e) v s)
  | StAct b => exec_body b t e v s
  | StEntry c | StInit c => keep_payload (invoke (CEntry c) (action_args t e) v s)
  end.

Fixpoint exec_steps (l : list step) (t : trans) (e : ev) (v : V) (s : rt) : res V :=
  match l with
  | [] => Done _ v s
  | st :: l' => bind (exec_step st t e v s) (fun v' s' => exec_steps l' t e v' s')
  end.

(** executeAction, dispatch_table.h 54-83, with the composed functor of
    resolve_state.h 138-149. *)
Definition execute_action (t : trans) (e : ev) (v : V) (s : rt) : res V :=
  match t_act t with
  | None => Done _ v s
  | Some steps =>
      if alive s (t_src t) && (t_ptr t || t_int t || alive s (t_tgt t))
      then exec_steps steps t e v s
      else Undef _ UBNull
  end.

(** * State bookkeeping *)

Variable m : machine.

(** [m_currentCombinedState[r]] as an rvalue. *)
Definition read_cur (s : rt) (r : nat) : res N :=
  match nth_error (rt_cur s) r with
  | None => Undef _ UBIndex
  | Some None => Undef _ UBUninit
  | Some (Some c) => Done _ c s
  end.

(** [m_currentCombinedState.at(r)]. *)
Definition at_cur (s : rt) (r : nat) : res N :=
  match nth_error (rt_cur s) r with
  | None => Threw _ XOutOfRange s
  | Some None => Undef _ UBUninit
  | Some (Some c) => Done _ c s
  end.

Definition write_cur (s : rt) (r : nat) (c : N) : res unit :=
  match upd_nth r (fun _ => Some c) (rt_cur s) with
  | None => Undef _ UBIndex
  | Some cur => Done _ tt (with_cur s cur)
  end.

(** currentParentState, sm.h 342-345 (always region 0). *)
Definition current_parent (s : rt) : res N :=
  bind (read_cur s 0) (fun c s => Done _ (calc_parent_idx (n_states m) c) s).

(** currentState, sm.h 337-340. *)
Definition current_state (s : rt) (r : nat) : res N :=
  bind (at_cur s r) (fun c s => Done _ (calc_state_idx (n_states m) c) s).

(** update_current_regions, sm.h 310-316. *)
Definition update_current_regions (s : rt) : res unit :=
  if parallel m
  then bind (current_parent s)
         (fun p s =>
            match nth_at p (initial_table m) with
            | None => Undef _ UBIndex
            | Some l => Done _ tt (with_regions s (length l))
            end)
  else Done _ tt s.

(** current_regions, sm.h 318-325. *)
Definition current_regions (s : rt) : nat :=
  if parallel m then rt_regions s else 1.

(** [m_history[p][r] = c] and [m_history[p][r]], unchecked. *)
Definition write_hist (s : rt) (p : N) (r : nat) (c : N) : res unit :=
  match nth_at p (rt_hist s) with
  | None => Undef _ UBIndex
  | Some l =>
      match upd_nth r (fun _ => c) l with
      | None => Undef _ UBIndex
      | Some l' =>
          match upd_at p (fun _ => l') (rt_hist s) with
          | None => Undef _ UBIndex
          | Some h => Done _ tt (with_hist s h)
          end
      end
  end.
Definition read_hist (s : rt) (p : N) (r : nat) : res N :=
  match nth_at p (rt_hist s) with
  | None => Undef _ UBIndex
  | Some l => match nth_error l r with
              | None => Undef _ UBIndex
              | Some c => Done _ c s
              end
  end.

(** update_current_state, sm.h 280-308. *)
Definition update_current_state (r : nat) (en : entry) (s : rt) : res unit :=
  if en_int en then Done _ tt s
  else
    bind
      (if has_history m
       then
         bind (current_parent s) (fun p s =>
         bind (read_cur s r) (fun c s =>
         bind (write_hist s p r c) (fun _ s =>
         if en_hist en
         then bind (read_hist s (calc_parent_idx (n_states m) (en_to en)) r)
                   (fun c' s => write_cur s r c')
         else write_cur s r (en_to en))))
       else write_cur s r (en_to en))
      (fun _ s => update_current_regions s).

(** get_dispatch_table_entry, sm.h 357-362. *)
Definition get_entries (e : ev) (r : nat) (s : rt) : res (list entry) :=
  match get_table (rt_tabs s) e with
  | None => Undef _ UBIllformed
  | Some arr =>
      bind (read_cur s r) (fun c s =>
        match nth_at c arr with
        | None => Undef _ UBIndex
        | Some l => Done _ l s
        end)
  end.

(** The region counter is a std::uint8_t (sm.h 32): ++ wraps at 256. *)
Definition next_region (r : nat) : nat := if Nat.eqb r 255 then 0 else S r.

(** * Event processing *)

Inductive tried := Refused | Fired | Deferred.

(** The loop over the candidates of one region, sm.h 198-216. *)
Fixpoint try_entries (ens : list entry) (r : nat) (e : ev) (v : V) (s : rt)
  : res (tried * V) :=
  match ens with
  | [] => Done _ (Refused, v) s
  | en :: ens' =>
      if en_defer en
      then Done _ (Deferred, v) (with_queue s (rt_queue s ++ [(e, v)]))
      else
        match en_tr en with
        | None => Undef _ UBNull
        | Some t =>
            bind (execute_guard t e v s) (fun bv s =>
              if fst bv
              then bind (update_current_state r en s) (fun _ s =>
                   bind (execute_action t e (snd bv) s) (fun v' s =>
                   Done _ (Fired, v') s))
              else try_entries ens' r e (snd bv) s)
        end
  end.

(** One region, sm.h 188-219: the candidates of its place, tried in turn; [None]
    if there are none. *)
Definition try_region (r : nat) (e : ev) (v : V) (s : rt) : res (option tried * V) :=
  bind (get_entries e r s) (fun ens s =>
    match ens with
    | [] => Done _ (None, v) s
    | _ => bind (try_entries ens r e v s) (fun tv s => Done _ (Some (fst tv), snd tv) s)
    end).

(** ProcessEventResult, sm.h 176-181. *)
Inductive pres := PInvalid | PGuardsFailed | PProcessed | PDeferred.

(** The loop over the regions, sm.h 185-225; [agf], [ati] are allGuardsFailed and
    allTransitionsInvalid; [PProcessed] here means "continue at line 227". *)
Fixpoint region_loop (fuel : nat) (limit r : nat) (agf ati : bool)
    (e : ev) (v : V) (s : rt) : res (pres * V) :=
  match fuel with
  | O => Timeout _
  | S fuel' =>
      if Nat.ltb r limit
      then
        bind (try_region r e v s) (fun tv s =>
          match fst tv with
          | None => region_loop fuel' limit (next_region r) agf ati e (snd tv) s
          | Some Deferred => Done _ (PDeferred, snd tv) s
          | Some Refused => region_loop fuel' limit (next_region r) agf false e (snd tv) s
          | Some Fired => region_loop fuel' limit (next_region r) false false e (snd tv) s
          end)
      else Done _ (if ati then PInvalid else if agf then PGuardsFailed else PProcessed, v) s
  end.

(** The loop over the candidates in process_anonymous_transitions, sm.h 255-264:
    no deferral check, so a deferral entry dereferences a null pointer. *)
Fixpoint try_anonymous (ens : list entry) (r : nat) (v : V) (s : rt)
  : res (bool * V) :=
  match ens with
  | [] => Done _ (false, v) s
  | en :: ens' =>
      match en_tr en with
      | None => Undef _ UBNull
      | Some t =>
          bind (execute_guard t ENone v s) (fun bv s =>
            if fst bv
            then bind (update_current_state r en s) (fun _ s =>
                 bind (execute_action t ENone (snd bv) s) (fun v' s =>
                 Done _ (true, v') s))
            else try_anonymous ens' r (snd bv) s)
      end
  end.

(** One region, sm.h 246-264; [None] if there are no candidates (line 252). *)
Definition anonymous_region (r : nat) (v : V) (s : rt) : res (option bool * V) :=
  bind (get_entries ENone r s) (fun ens s =>
    match ens with
    | [] => Done _ (None, v) s
    | _ => bind (try_anonymous ens r v s) (fun bv s => Done _ (Some (fst bv), snd bv) s)
    end).

(** One execution of the for loop of process_anonymous_transitions, sm.h 244-265.
    Result [None]: the function returned (line 252); [Some agf] otherwise. *)
Fixpoint anonymous_pass (fuel : nat) (limit r : nat) (agf : bool) (v : V) (s : rt)
  : res (option bool * V) :=
  match fuel with
  | O => Timeout _
  | S fuel' =>
      if Nat.ltb r limit
      then
        bind (anonymous_region r v s) (fun bv s =>
          match fst bv with
          | None => Done _ (None, snd bv) s
          | Some b => anonymous_pass fuel' limit (next_region r) (if b then false else agf)
                                     (snd bv) s
          end)
      else Done _ (Some agf, v) s
  end.

(** The while(true) loop, sm.h 243-270; [rfuel] bounds the inner loops. *)
Fixpoint anonymous_loop (rfuel fuel : nat) (v : V) (s : rt) : res unit :=
  match fuel with
  | O => Timeout _
  | S fuel' =>
      bind (anonymous_pass rfuel (current_regions s) 0 true v s) (fun ov s =>
        match fst ov with
        | None => Done _ tt s
        | Some true => Done _ tt s
        | Some false => anonymous_loop rfuel fuel' (snd ov) s
        end)
  end.

(** The payload of the [noneEvent {}] temporary (sm.h 227). *)
Variable vnone : V.

(** process_anonymous_transitions, sm.h 240-272. *)
Definition process_anonymous (fuel : nat) (s : rt) : res unit :=
  if has_anonymous m then anonymous_loop fuel fuel vnone s else Done _ tt s.

(** process_event_internal, sm.h 183-229. *)
Definition process_event_internal (fuel : nat) (e : ev) (v : V) (s : rt)
  : res (pres * V) :=
  bind (region_loop fuel (current_regions s) 0 true true e v s) (fun pv s =>
    match fst pv with
    | PProcessed => bind (process_anonymous fuel s) (fun _ s => Done _ pv s)
    | _ => Done _ pv s
    end).

(** process_deferred_events, sm.h 231-238, with variant_queue::visit
    (variant_queue.h 49-62: copy of the front, pop, call). *)
Definition process_deferred (fuel : nat) (s : rt) : res unit :=
  if has_deferred m
  then match rt_queue s with
       | [] => Done _ tt s
       | (e, v) :: q =>
           bind (process_event_internal fuel e v (with_queue s q)) (fun _ s => Done _ tt s)
       end
  else Done _ tt s.

(** call_unexpected_event_handler, sm.h 327-335; executeHandler,
    make_unexpected_event_handler_tables.h 38-43. *)
Definition call_handler (e : ev) (v : V) (s : rt) : res V :=
  if cd_unexpected (lookup (mc_env m) (mc_root m))
  then
    bind (at_cur s 0) (fun c s =>
      match get_table (rt_htabs s) e with
      | None => Undef _ UBIllformed
      | Some arr =>
          match nth_at c arr with
          | None => Threw _ XOutOfRange s
          | Some None => Undef _ UBNull
          | Some (Some (o, d)) =>
              if alive s o
              then keep_payload (invoke CHandler (mkArgs e o TNone d) v s)
              else Undef _ UBNull
          end
      end)
  else Done _ v s.

(** process_event, sm.h 88-107. *)
Definition process_event (fuel : nat) (e : ev) (v : V) (s : rt) : res (bool * V) :=
  if in_dec ev_eq_dec e (events m)
  then
    bind (process_event_internal fuel e v s) (fun pv s =>
      match fst pv with
      | PInvalid => bind (call_handler e (snd pv) s) (fun v' s => Done _ (false, v') s)
      | PDeferred | PGuardsFailed => Done _ (false, snd pv) s
      | PProcessed => bind (process_deferred fuel s) (fun _ s => Done _ (true, snd pv) s)
      end)
  else Undef _ UBIllformed.

(** * Other members *)

(** Implicit conversion of a region argument to std::uint8_t. *)
Definition to_region (r : nat) : nat := Nat.modulo r 256.

(** is(region, parent, state), sm.h 109-125 (the shorter forms use region 0;
    [q_is0] is the one-argument form). Simplification: the parent argument is a
    plain state<P>. *)
Definition q_is0 (st : sref) (s : rt) : res bool :=
  bind (current_state s 0) (fun c s => Done _ (N.eqb c (state_idx m st)) s).
Definition q_is (r : nat) (p : cls) (st : sref) (s : rt) : res bool :=
  bind (current_parent s) (fun cp s =>
    if N.eqb cp (parent_idx m p)
    then bind (current_state s (to_region r)) (fun c s =>
           Done _ (N.eqb c (state_idx m st)) s)
    else Done _ false s).

(** parent_is, sm.h 127-130. *)
Definition q_parent_is (p : cls) (s : rt) : res bool :=
  bind (current_parent s) (fun cp s => Done _ (N.eqb cp (parent_idx m p)) s).

(** set(region, parent, state), sm.h 132-154. *)
Definition set_state (r : nat) (p : cls) (st : sref) (s : rt) : res unit :=
  if in_dec sref_eq_dec st (states m)
  then if in_dec Nat.eq_dec p (parents m)
       then match upd_nth (to_region r) (fun _ => Some (combined_idx m p st)) (rt_cur s) with
            | None => Threw _ XOutOfRange s
            | Some cur => Done _ tt (with_cur s cur)
            end
       else Undef _ UBIllformed
  else Undef _ UBIllformed.

(** status, sm.h 156-167: the numbers written for each region (region, combined,
    parent, state); StatusText.v makes the text of them. *)
Fixpoint status_loop (fuel limit r : nat) (s : rt) : res (list (nat * N * N * N)) :=
  match fuel with
  | O => Timeout _
  | S fuel' =>
      if Nat.ltb r limit
      then bind (read_cur s r) (fun c s =>
           bind (current_parent s) (fun p s =>
           bind (current_state s r) (fun st s =>
           bind (status_loop fuel' limit (next_region r) s) (fun l s =>
             Done _ ((r, c, p, st) :: l) s))))
      else Done _ [] s
  end.
Definition status (fuel : nat) (s : rt) : res (list (nat * N * N * N)) :=
  status_loop fuel (current_regions s) 0 s.

(** set_dependency, sm.h 169-173. *)
Definition set_dependency (d : dep) (s : rt) : res unit :=
  match fill_dispatch m d (rt_tabs s) with
  | None => Undef _ UBIndex
  | Some t => Done _ tt (with_tabs s t)
  end.

(** init_current_state, sm.h 347-355. *)
Fixpoint init_loop (fuel : nat) (l : list N) (r : nat) (s : rt) : res unit :=
  match fuel with
  | O => Timeout _
  | S fuel' =>
      if Nat.ltb r (length l)
      then match nth_error l r with
           | None => Undef _ UBIndex
           | Some c => bind (write_cur s r c) (fun _ s => init_loop fuel' l (next_region r) s)
           end
      else Done _ tt s
  end.
Definition init_current_state (fuel : nat) (s : rt) : res unit :=
  match nth_at (parent_idx m (mc_root m)) (initial_table m) with
  | None => Undef _ UBIndex
  | Some l => init_loop fuel l 0 s
  end.

(** The constructor, sm.h 47-86; unwrap_typeid_to_shared_ptr, traits.h 51-58,
    gives every default-constructible state an object. *)
Definition construct (fuel : nat) (d : dep) (w : W) : res unit :=
  match (if cd_unexpected (lookup (mc_env m) (mc_root m)) then fill_handlers m d else Some []) with
  | None => Undef _ UBIndex
  | Some h =>
      match fill_dispatch m d (empty_tables m) with
      | None => Undef _ UBIndex
      | Some t =>
          let s := mkRt (repeat None (max_initials m)) (initial_table m) [] 0
                        (filter (defctor (mc_env m)) (states m)) t h w [] in
          bind (init_current_state fuel s) (fun _ s => update_current_regions s)
      end
  end.

(** * Client programs *)

(** One use of the object by a client. *)
Inductive call :=
| KProcess (e : ev) (v : V)
| KIs (r : nat) (p : cls) (st : sref)
| KParentIs (p : cls)
| KSet (r : nat) (p : cls) (st : sref)
| KSetDep (d : dep)
| KStatus.

(** What the client sees of a call. *)
Inductive out :=
| OBool (b : bool)
| OUnit
| OStatus (l : list (nat * N * N * N))
| OExn (x : exn).

Definition do_call (fuel : nat) (k : call) (s : rt) : res out :=
  match k with
  | KProcess e v => bind (process_event fuel e v s) (fun bv s => Done _ (OBool (fst bv)) s)
  | KIs r p st => bind (q_is r p st s) (fun b s => Done _ (OBool b) s)
  | KParentIs p => bind (q_parent_is p s) (fun b s => Done _ (OBool b) s)
  | KSet r p st => bind (set_state r p st s) (fun _ s => Done _ OUnit s)
  | KSetDep d => bind (set_dependency d s) (fun _ s => Done _ OUnit s)
  | KStatus => bind (status fuel s) (fun l s => Done _ (OStatus l) s)
  end.

(** A client that catches every exception and goes on. *)
Definition do_call_catch (fuel : nat) (k : call) (s : rt) : res out :=
  match do_call fuel k s with
  | Threw _ x s' => Done _ (OExn x) s'
  | r => r
  end.

Fixpoint run (fuel : nat) (ks : list call) (s : rt) : res (list out) :=
  match ks with
  | [] => Done _ [] s
  | k :: ks' =>
      bind (do_call_catch fuel k s) (fun o s =>
      bind (run fuel ks' s) (fun os s => Done _ (o :: os) s))
  end.

(** Construction followed by client calls. *)
Definition session (fuel : nat) (d : dep) (w : W) (ks : list call) : res (list out) :=
  bind (construct fuel d w) (fun _ s => run fuel ks s).
End Runtime.

Arguments Done {V W A}.
Arguments Threw {V W A}.
Arguments Undef {V W A}.
Arguments Timeout {V W A}.
Arguments mkRt {V W}.
Arguments Ret {V W}.
Arguments Raise {V W}.
Arguments rt : clear implicits.
Arguments res : clear implicits.
Arguments cbres : clear implicits.
Arguments cbfun : clear implicits.
Arguments called : clear implicits.
Arguments call : clear implicits.
