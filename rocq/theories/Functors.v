(** Guards with data members of their own.  A guard is called on the copy that the table
    entry owns (dispatch_table.h 84-115: [m_guard] is not const there), so what a guard
    such as a mutable lambda changes in itself is there in the next call of the same
    entry.  Actions are called through const copies (resolve_state.h 138-149: captured by
    a lambda that is not mutable), so they cannot do this.

    The functions here are those of Runtime.v with [execute_guard] replaced; everything
    that calls no guard is taken from Runtime.v. *)

From Coq Require Import List Arith NArith Bool.
From Verif Require Import Types Static Dispatch Runtime Spec.
Import ListNotations.

(** A table entry: the event, the place and the number of entries behind it in the deque.
    New entries are pushed to the front, so the number of an entry never changes. *)
Definition eid := (ev * N * nat)%type.
Definition eid_eq_dec : forall a b : eid, {a = b} + {a <> b} :=
  pair_eq_dec (pair_eq_dec ev_eq_dec N.eq_dec) Nat.eq_dec.

Section Functors.
(** [G]: data members of guards. *)
Context {V W G : Type}.

(** What a call of a guard does, with the functor's data members after it. *)
Inductive gres :=
| GRet (b : bool) (v : V) (w : W) (g : G)
| GRaise (n : nat) (v : V) (w : W) (g : G).
Definition kept (r : gres) : G := match r with GRet _ _ _ g => g | GRaise _ _ _ g => g end.
Definition gfun := nat -> nat -> args -> V -> W -> G -> gres.

(** A recorded call of a guard: the entry, the functor's type and value, the inputs, the
    result. *)
Record gcall := mkGcall {
  gc_id : eid;
  gc_ty : nat;
  gc_val : nat;
  gc_args : args;
  gc_payload : V;
  gc_world : W;
  gc_result : gres }.

(** The world of Runtime.v becomes: what user code can read and write otherwise, the data
    members of the functors in the entries (absent: as copied from the row), and the
    record of the calls of guards, oldest first (ghost). *)
Record gworld := mkGworld {
  gw_user : W;
  gw_mem : list (eid * G);
  gw_calls : list gcall }.
Definition with_gw (gw : gworld) (w : W) : gworld := mkGworld w (gw_mem gw) (gw_calls gw).

(** Other user code does not reach these members. *)
Definition lift (cb : cbfun V W) : cbfun V gworld := fun c a v gw =>
  match cb c a v (gw_user gw) with
  | Ret b v' w' => Ret b v' (with_gw gw w')
  | Raise n v' w' => Raise n v' (with_gw gw w')
  end.

Variable cb : cbfun V W.
Variable gcb : gfun.
(** The functor in the row. *)
Variable g0 : nat -> nat -> G.

Fixpoint find_mem (l : list (eid * G)) (i : eid) : option G :=
  match l with
  | [] => None
  | (j, g) :: l' => if eid_eq_dec i j then Some g else find_mem l' i
  end.
Definition memory (gw : gworld) (i : eid) (ty val : nat) : G :=
  match find_mem (gw_mem gw) i with Some g => g | None => g0 ty val end.

Notation gst := (rt V gworld).
Notation gr := (res V gworld).
Notation lcb := (lift cb).

(** executeGuard, dispatch_table.h 85-115, of the entry [i]. *)
Definition gw_after (gw : gworld) (w : W) (i : eid) (c : gcall) : gworld :=
  mkGworld w ((i, kept (gc_result c)) :: gw_mem gw) (gw_calls gw ++ [c]).
Definition invoke_guard (i : eid) (ty val : nat) (a : args) (v : V) (s : gst) : gr (bool * V) :=
  let gw := rt_world s in
  let r := gcb ty val a v (gw_user gw) (memory gw i ty val) in
  let c := mkGcall i ty val a v (gw_user gw) r in
  let tr := rt_trace s ++ [mkCall (CGuard ty val) a v] in
  match r with
  | GRet b v' w' _ => Done (b, v') (with_user s (gw_after gw w' i c) tr)
  | GRaise n _ w' _ => Threw (XUser n) (with_user s (gw_after gw w' i c) tr)
  end.
Definition g_execute_guard (i : eid) (t : trans) (e : ev) (v : V) (s : gst) : gr (bool * V) :=
  match t_guard t with
  | NoGuard => Done (true, v) s
  | Guard ty val =>
      let tgt := if t_int t then t_src t else t_tgt t in
      if alive s (t_src t) && alive s tgt
      then invoke_guard i ty val (mkArgs e (t_src t) (TObj tgt) (t_dep t)) v s
      else Undef UBNull
  end.

Variable m : machine.

(** The loop over the candidates, sm.h 198-216; [c]: the place whose entries they are. *)
Fixpoint g_try_entries (ens : list entry) (c : N) (r : nat) (e : ev) (v : V) (s : gst) : gr (tried * V) :=
  match ens with
  | [] => Done (Refused, v) s
  | en :: ens' =>
      if en_defer en
      then Done (Deferred, v) (with_queue s (rt_queue s ++ [(e, v)]))
      else
        match en_tr en with
        | None => Undef UBNull
        | Some t =>
            bind (g_execute_guard (e, c, length ens') t e v s) (fun bv s =>
              if fst bv
              then bind (update_current_state m r en s) (fun _ s =>
                   bind (execute_action lcb t e (snd bv) s) (fun v' s =>
                   Done (Fired, v') s))
              else g_try_entries ens' c r e (snd bv) s)
        end
  end.
Definition g_try_region (r : nat) (e : ev) (v : V) (s : gst) : gr (option tried * V) :=
  bind (get_entries e r s) (fun ens s =>
    match ens with
    | [] => Done (None, v) s
    | _ => bind (read_cur s r) (fun c s =>
           bind (g_try_entries ens c r e v s) (fun tv s => Done (Some (fst tv), snd tv) s))
    end).

(** The loop over the regions, sm.h 185-225. *)
Fixpoint g_region_loop (fuel : nat) (limit r : nat) (agf ati : bool) (e : ev) (v : V) (s : gst) : gr (pres * V) :=
  match fuel with
  | O => Timeout
  | S fuel' =>
      if Nat.ltb r limit
      then
        bind (g_try_region r e v s) (fun tv s =>
          match fst tv with
          | None => g_region_loop fuel' limit (next_region r) agf ati e (snd tv) s
          | Some Deferred => Done (PDeferred, snd tv) s
          | Some Refused => g_region_loop fuel' limit (next_region r) agf false e (snd tv) s
          | Some Fired => g_region_loop fuel' limit (next_region r) false false e (snd tv) s
          end)
      else Done (if ati then PInvalid else if agf then PGuardsFailed else PProcessed, v) s
  end.

(** process_anonymous_transitions, sm.h 240-272. *)
Fixpoint g_try_anonymous (ens : list entry) (c : N) (r : nat) (v : V) (s : gst) : gr (bool * V) :=
  match ens with
  | [] => Done (false, v) s
  | en :: ens' =>
      match en_tr en with
      | None => Undef UBNull
      | Some t =>
          bind (g_execute_guard (ENone, c, length ens') t ENone v s) (fun bv s =>
            if fst bv
            then bind (update_current_state m r en s) (fun _ s =>
                 bind (execute_action lcb t ENone (snd bv) s) (fun v' s =>
                 Done (true, v') s))
            else g_try_anonymous ens' c r (snd bv) s)
      end
  end.
Definition g_anonymous_region (r : nat) (v : V) (s : gst) : gr (option bool * V) :=
  bind (get_entries ENone r s) (fun ens s =>
    match ens with
    | [] => Done (None, v) s
    | _ => bind (read_cur s r) (fun c s =>
           bind (g_try_anonymous ens c r v s) (fun bv s => Done (Some (fst bv), snd bv) s))
    end).
Fixpoint g_anonymous_pass (fuel : nat) (limit r : nat) (agf : bool) (v : V) (s : gst) : gr (option bool * V) :=
  match fuel with
  | O => Timeout
  | S fuel' =>
      if Nat.ltb r limit
      then
        bind (g_anonymous_region r v s) (fun bv s =>
          match fst bv with
          | None => Done (None, snd bv) s
          | Some b => g_anonymous_pass fuel' limit (next_region r) (if b then false else agf) (snd bv) s
          end)
      else Done (Some agf, v) s
  end.
Fixpoint g_anonymous_loop (rfuel fuel : nat) (v : V) (s : gst) : gr unit :=
  match fuel with
  | O => Timeout
  | S fuel' =>
      bind (g_anonymous_pass rfuel (current_regions m s) 0 true v s) (fun ov s =>
        match fst ov with
        | None => Done tt s
        | Some true => Done tt s
        | Some false => g_anonymous_loop rfuel fuel' (snd ov) s
        end)
  end.

Variable vnone : V.
Definition g_process_anonymous (fuel : nat) (s : gst) : gr unit :=
  if has_anonymous m then g_anonymous_loop fuel fuel vnone s else Done tt s.

(** process_event_internal, process_deferred_events, process_event: sm.h 183-229,
    231-238, 88-107. *)
Definition g_process_event_internal (fuel : nat) (e : ev) (v : V) (s : gst) : gr (pres * V) :=
  bind (g_region_loop fuel (current_regions m s) 0 true true e v s) (fun pv s =>
    match fst pv with
    | PProcessed => bind (g_process_anonymous fuel s) (fun _ s => Done pv s)
    | _ => Done pv s
    end).
Definition g_process_deferred (fuel : nat) (s : gst) : gr unit :=
  if has_deferred m
  then match rt_queue s with
       | [] => Done tt s
       | (e, v) :: q =>
           bind (g_process_event_internal fuel e v (with_queue s q)) (fun _ s => Done tt s)
       end
  else Done tt s.
Definition g_process_event (fuel : nat) (e : ev) (v : V) (s : gst) : gr (bool * V) :=
  if in_dec ev_eq_dec e (events m)
  then
    bind (g_process_event_internal fuel e v s) (fun pv s =>
      match fst pv with
      | PInvalid => bind (call_handler lcb m e (snd pv) s) (fun v' s => Done (false, v') s)
      | PDeferred | PGuardsFailed => Done (false, snd pv) s
      | PProcessed => bind (g_process_deferred fuel s) (fun _ s => Done (true, snd pv) s)
      end)
  else Undef UBIllformed.

(** Clients.  The other members call no guard. *)
Definition g_do_call (fuel : nat) (k : call V) (s : gst) : gr out :=
  match k with
  | KProcess e v => bind (g_process_event fuel e v s) (fun bv s => Done (OBool (fst bv)) s)
  | _ => do_call lcb m vnone fuel k s
  end.
Definition g_do_call_catch (fuel : nat) (k : call V) (s : gst) : gr out :=
  match g_do_call fuel k s with
  | Threw x s' => Done (OExn x) s'
  | r => r
  end.
Fixpoint g_run (fuel : nat) (ks : list (call V)) (s : gst) : gr (list out) :=
  match ks with
  | [] => Done [] s
  | k :: ks' =>
      bind (g_do_call_catch fuel k s) (fun o s =>
      bind (g_run fuel ks' s) (fun os s => Done (o :: os) s))
  end.
Definition g_session (fuel : nat) (d : dep) (w : W) (ks : list (call V)) : gr (list out) :=
  bind (construct m fuel d (mkGworld w [] [])) (fun _ s => g_run fuel ks s).

(** * Vocabulary *)

(** The run as Runtime.v has it. *)
Definition strip (s : gst) : rt V W :=
  mkRt (rt_cur s) (rt_hist s) (rt_queue s) (rt_regions s) (rt_live s) (rt_tabs s) (rt_htabs s)
       (gw_user (rt_world s)) (rt_trace s).
Definition strip_res {A} (r : gr A) : res V W A :=
  match r with
  | Done a s => Done a (strip s)
  | Threw x s => Threw x (strip s)
  | Undef u => Undef u
  | Timeout => Timeout
  end.
(** The data members have no influence: the guards of [gcb] are those of [cb]. *)
Definition memoryless : Prop := forall ty val a v w g,
  match gcb ty val a v w g with
  | GRet b v' w' _ => Ret b v' w'
  | GRaise n v' w' _ => Raise n v' w'
  end = cb (CGuard ty val) a v w.

(** The state after [r], also after an exception. *)
Definition ends_in {A} (r : gr A) (s : gst) : Prop :=
  match r with Done _ s' => s' = s | Threw _ s' => s' = s | _ => False end.

(** The data members of entry [i] after the calls [l]: those of its last call, else those
    of the functor in the row. *)
Definition left_by (l : list gcall) (i : eid) (ty val : nat) : G :=
  fold_left (fun g c => if eid_eq_dec (gc_id c) i then kept (gc_result c) else g) l (g0 ty val).
(** Every call is a call with the data members that the last call of the same entry left. *)
Definition own_memory (l : list gcall) : Prop :=
  forall l1 c l2, l = l1 ++ c :: l2 ->
  gc_result c = gcb (gc_ty c) (gc_val c) (gc_args c) (gc_payload c) (gc_world c)
                    (left_by l1 (gc_id c) (gc_ty c) (gc_val c)).
(** Calls of one entry are calls of one functor. *)
Definition one_functor (l : list gcall) : Prop :=
  forall c c', In c l -> In c' l -> gc_id c = gc_id c' -> gc_ty c = gc_ty c' /\ gc_val c = gc_val c'.

(** The record has all calls of guards that the trace has. *)
Definition is_guard_call (k : called V) : bool := match k_callee k with CGuard _ _ => true | _ => false end.
Definition recorded (s : gst) : Prop :=
  map (fun c => mkCall (CGuard (gc_ty c) (gc_val c)) (gc_args c) (gc_payload c)) (gw_calls (rt_world s)) =
  filter is_guard_call (rt_trace s).

(** The calls of entry [i] that agreed. *)
Definition agreed (i : eid) (c : gcall) : bool :=
  if eid_eq_dec (gc_id c) i then match gc_result c with GRet b _ _ _ => b | _ => false end else false.
Definition times (i : eid) (l : list gcall) : nat := length (filter (agreed i) l).
(** A guard that agrees at most [n] times in its life. *)
Definition at_most (n : nat) (count : G -> nat) (ty val : nat) : Prop :=
  count (g0 ty val) = 0 /\
  forall a v w g, match gcb ty val a v w g with
                  | GRet true _ _ g' => count g < n /\ count g' = S (count g)
                  | GRet false _ _ g' | GRaise _ _ _ g' => count g' = count g
                  end.

(** The calls of the functor [ty], [val], whatever the entry, that agreed. *)
Definition agreed_of (ty val : nat) (c : gcall) : bool :=
  Nat.eqb (gc_ty c) ty && Nat.eqb (gc_val c) val && agreed (gc_id c) c.
Definition times_of (ty val : nat) (l : list gcall) : nat := length (filter (agreed_of ty val) l).
End Functors.

(** The entries of the tables that own a copy of the functor [ty], [val]. *)
Definition owns (ty val : nat) (en : entry) : bool :=
  match en_tr en with
  | Some t => match t_guard t with Guard ty' val' => Nat.eqb ty' ty && Nat.eqb val' val | NoGuard => false end
  | None => false
  end.
Fixpoint owners_here (ty val : nat) (e : ev) (c : N) (l : list entry) : list eid :=
  match l with
  | [] => []
  | en :: l' => (if owns ty val en then [(e, c, length l')] else []) ++ owners_here ty val e c l'
  end.
Fixpoint owners_from (ty val : nat) (e : ev) (c : N) (arr : list (list entry)) : list eid :=
  match arr with
  | [] => []
  | l :: arr' => owners_here ty val e c l ++ owners_from ty val e (N.succ c) arr'
  end.
Definition owners (ty val : nat) (t : tables) : list eid :=
  flat_map (fun ea => owners_from ty val (fst ea) 0 (snd ea)) t.

(** How many copies the constructor makes: one for each place in which each row with
    that functor is tried. *)
Definition guarded_by (ty val : nat) (x : xrow) : bool :=
  match x_guard x with Guard ty' val' => Nat.eqb ty' ty && Nat.eqb val' val | NoGuard => false end.
Definition copies (env : cenv) (root : cls) (ty val : nat) (n : nat) : Prop :=
  exists flat ints,
    visits env root (table env root) flat /\
    keeps_first same_cpp_type [] (internal_rows env root flat) ints /\
    n = list_sum (map (fun x => length (offers (is_composite env) (children env) x))
                      (filter (guarded_by ty val) (ints ++ flat))).
Definition new_tables {V} (ks : list (call V)) : nat :=
  length (filter (fun k => match k with KSetDep _ => true | _ => false end) ks).

Arguments gfun : clear implicits.
Arguments gres : clear implicits.
Arguments gworld : clear implicits.
Arguments gcall : clear implicits.
