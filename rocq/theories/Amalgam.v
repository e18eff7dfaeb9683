(** The single-header version of the library, include/hsm/gen/hsm.h (all line numbers in
    this file are lines of that header, unless another one is named).

    It is a snapshot of the headers from an earlier state of the library.  A comparison
    line by line gives these differences in code that a state machine uses; everything
    else is the same text, so that the definitions of Static, Dispatch and Runtime are
    used for it:
    - internal rows are collected per state (1391-1422) and not per pair of parent and
      state, only for states with a transition table, and rows of one type are not
      merged;
    - the constructor has no assertions about the initial states (2318-2349);
    - process_event and process_event_internal (2351-2365, 2410-2456) return nothing
      and a bool;
    - process_anonymous_transitions makes a new noneEvent for every region (2467-2503);
    - there is no member set. *)

From Coq Require Import List Arith NArith Bool.
From Verif Require Import Types Static Dispatch Runtime Spec.
Import ListNotations.

(** * Compile time *)

(** collect_states_recursive, 1281-1297: all sources and targets, the root at the
    end, without repetitions. *)
Definition am_states (m : machine) : list sref :=
  unique sref_eq_dec
    (flat_map (fun x => [unwrap_initial (x_src x); x_tgt x]) (mc_flat m) ++ [SState (mc_root m)]).

(** get_internal_transitions for one state, 1391-1411, with
    get_internal_transition_table and extend_internal_transition, 1346-1384. *)
Definition am_internal_of (env : cenv) (s : sref) : list xrow :=
  match s with
  | SState c =>
      match cd_internal (lookup env c) with
      | None => []
      | Some irows =>
          flat_map
            (fun i =>
               if has_table env s
               then map (fun ch => mkXrow c ch (i_ev i) (i_guard i) (i_act i) ch true)
                        (child_states env c)
               else [])
            irows
      end
  | _ => []
  end.

(** flatten_internal_transition_table, 1418-1423. *)
Definition am_internal (m : machine) : list xrow :=
  flat_map (am_internal_of (mc_env m)) (am_states m).

(** collect_event_typeids_recursive on these rows. *)
Definition am_events (m : machine) : list ev := events_of (mc_flat m ++ am_internal m).

(** The checks of the compiler, see [Static.accepted]; without the assertions of
    sm.h 61-68. *)
Definition am_accepted (m : machine) : bool :=
  is_some (cd_table (lookup (mc_env m) (mc_root m)))
  && negb (Nat.eqb (length (mc_flat m)) 0)
  && negb (Nat.eqb (max_initials m) 0)
  && forallb (row_accepted m) (mc_flat m ++ am_internal m)
  && forallb (fun x => forallb (fun e => if in_dec ev_eq_dec e (am_events m) then true else false)
                               (deferred_events m x)) (deferring m)
  && (if in_dec sref_eq_dec (SState (mc_root m)) (child_states_rec m) then false else true)
  && N.ltb (N.of_nat (n_parents m) * n_states m) two64.
Definition am_compile (env : cenv) (root : cls) : option machine :=
  match flatten (S (length env)) env root with
  | None => None
  | Some fl =>
      let m := mkMachine env root fl in
      if am_accepted m then Some m else None
  end.

(** * Tables *)

Definition am_empty_tables (m : machine) : tables :=
  map (fun e => (e, repeat [] (N.to_nat (n_states m) * n_parents m))) (am_events m).

(** fill_dispatch_table, 2593-2602. *)
Definition am_fill_dispatch (m : machine) (d : dep) (t : tables) : option tables :=
  match fill_transitions m d (am_internal m) t with
  | None => None
  | Some t1 =>
      match fill_transitions m d (mc_flat m) t1 with
      | None => None
      | Some t2 => fill_deferred m t2
      end
  end.

Definition am_fill_handlers (m : machine) (d : dep) : option handler_tables :=
  foldM (fun e t =>
           match foldM (fun (pr : place) arr =>
                          upd_at (combined_idx m (fst pr) (snd pr))
                                 (fun _ => Some (snd pr, d)) arr)
                       (handler_places m)
                       (repeat None (N.to_nat (n_states m) * n_parents m)) with
           | Some arr => Some (t ++ [(e, arr)])
           | None => None
           end)
        (am_events m) [].

(** * Run time *)

Section Amalgam.
Context {V W : Type}.
Variable cb : @cbfun V W.
Variable m : machine.
Variable vnone : V.
Notation res := (res V W).
Notation rt := (rt V W).

(** The loop over the regions in process_anonymous_transitions, 2474-2498: the event
    object is made inside of the loop (2476). *)
Fixpoint am_anonymous_pass (fuel : nat) (limit r : nat) (agf : bool) (s : rt) : res (option bool) :=
  match fuel with
  | O => Timeout
  | S fuel' =>
      if Nat.ltb r limit
      then
        bind (anonymous_region cb m r vnone s) (fun bv s =>
          match fst bv with
          | None => Done None s
          | Some b => am_anonymous_pass fuel' limit (next_region r) (if b then false else agf) s
          end)
      else Done (Some agf) s
  end.
(** The while(true) loop, 2470-2503. *)
Fixpoint am_anonymous_loop (rfuel fuel : nat) (s : rt) : res unit :=
  match fuel with
  | O => Timeout
  | S fuel' =>
      bind (am_anonymous_pass rfuel (current_regions m s) 0 true s) (fun o s =>
        match o with
        | None => Done tt s
        | Some true => Done tt s
        | Some false => am_anonymous_loop rfuel fuel' s
        end)
  end.
Definition am_process_anonymous (fuel : nat) (s : rt) : res unit :=
  if has_anonymous m then am_anonymous_loop fuel fuel s else Done tt s.

(** process_event_internal, 2410-2456: false if no region has a candidate, true
    otherwise, also if the event was deferred or all guards refused. *)
Definition am_process_internal (fuel : nat) (e : ev) (v : V) (s : rt) : res (bool * V) :=
  bind (region_loop cb m fuel (current_regions m s) 0 true true e v s) (fun pv s =>
    match fst pv with
    | PInvalid => Done (false, snd pv) s
    | PDeferred | PGuardsFailed => Done (true, snd pv) s
    | PProcessed => bind (am_process_anonymous fuel s) (fun _ s => Done (true, snd pv) s)
    end).

(** process_deferred_events, 2458-2465. *)
Definition am_process_deferred (fuel : nat) (s : rt) : res unit :=
  if has_deferred m
  then match rt_queue s with
       | [] => Done tt s
       | (e, v) :: q =>
           bind (am_process_internal fuel e v (with_queue s q)) (fun _ s => Done tt s)
       end
  else Done tt s.

(** process_event, 2351-2365; the result is the event object afterwards. *)
Definition am_process_event (fuel : nat) (e : ev) (v : V) (s : rt) : res V :=
  if in_dec ev_eq_dec e (am_events m)
  then
    bind (am_process_internal fuel e v s) (fun bv s =>
      if fst bv
      then bind (am_process_deferred fuel s) (fun _ s => Done (snd bv) s)
      else call_handler cb m e (snd bv) s)
  else Undef UBIllformed.

(** set_dependency, 2403-2407. *)
Definition am_set_dependency (d : dep) (s : rt) : res unit :=
  match am_fill_dispatch m d (rt_tabs s) with
  | None => Undef UBIndex
  | Some t => Done tt (with_tabs s t)
  end.

(** The constructor, 2318-2349. *)
Definition am_construct (fuel : nat) (d : dep) (w : W) : res unit :=
  match (if cd_unexpected (lookup (mc_env m) (mc_root m)) then am_fill_handlers m d else Some []) with
  | None => Undef UBIndex
  | Some h =>
      match am_fill_dispatch m d (am_empty_tables m) with
      | None => Undef UBIndex
      | Some t =>
          let s := mkRt (repeat None (max_initials m)) (initial_table m) [] 0
                        (filter (defctor (mc_env m)) (states m)) t h w [] in
          bind (init_current_state m fuel s) (fun _ s => update_current_regions m s)
      end
  end.

(** * Clients.  There is no member set. *)
Definition am_do_call (fuel : nat) (k : call V) (s : rt) : res out :=
  match k with
  | KProcess e v => bind (am_process_event fuel e v s) (fun _ s => Done OUnit s)
  | KIs r p st => bind (q_is m r p st s) (fun b s => Done (OBool b) s)
  | KParentIs p => bind (q_parent_is m p s) (fun b s => Done (OBool b) s)
  | KSet _ _ _ => Undef UBIllformed
  | KSetDep d => bind (am_set_dependency d s) (fun _ s => Done OUnit s)
  | KStatus => bind (status m fuel s) (fun l s => Done (OStatus l) s)
  end.
Definition am_do_call_catch (fuel : nat) (k : call V) (s : rt) : res out :=
  match am_do_call fuel k s with
  | Threw x s' => Done (OExn x) s'
  | r => r
  end.
Fixpoint am_run (fuel : nat) (ks : list (call V)) (s : rt) : res (list out) :=
  match ks with
  | [] => Done [] s
  | k :: ks' =>
      bind (am_do_call_catch fuel k s) (fun o s =>
      bind (am_run fuel ks' s) (fun os s => Done (o :: os) s))
  end.
Definition am_session (fuel : nat) (d : dep) (w : W) (ks : list (call V)) : res (list out) :=
  bind (am_construct fuel d w) (fun _ s => am_run fuel ks s).
End Amalgam.

(** * For the properties *)

(** The place in which an internal row of class [c] for the state [s], written in the
    table of [c], is offered. *)
Definition place_in (c : cls) (s : sref) : place :=
  match s with
  | SInitial _ k => (c, SState k)
  | SExit _ p k | SDirect _ p k => (p, SState k)
  | _ => (c, s)
  end.

(** Machines whose two versions agree: only composites have internal rows; no two
    internal rows of a class have the same type; no place has internal rows for one
    event from the root and from another class; nothing is deferred. *)
Definition only_composites (env : cenv) (root : cls) : Prop :=
  forall c i, is_state env root (SState c) -> In i (internals env c) -> composite env c.
Definition distinct_types (env : cenv) (root : cls) : Prop :=
  forall c, is_state env root (SState c) ->
  NoDup (map (fun i => (i_ev i, guard_ty (i_guard i), action_ty (i_act i))) (internals env c)).
Definition root_apart (env : cenv) (root : cls) : Prop :=
  forall c i j s t, is_state env root (SState c) -> c <> root ->
  In i (internals env root) -> In j (internals env c) -> i_ev i = i_ev j ->
  written_in env root s -> written_in env c t -> place_in root s <> place_in c t.
Definition nothing_deferred (env : cenv) (root : cls) : Prop :=
  forall c e, is_state env root (SState c) -> ~ In e (defers env c).
Record alike (env : cenv) (root : cls) : Prop := mkAlike {
  al_leaf : only_composites env root;
  al_types : distinct_types env root;
  al_apart : root_apart env root;
  al_defer : nothing_deferred env root }.

(** The same on all classes of the program text, as a computation. *)
Definition composites_check (env : cenv) : bool :=
  forallb (fun cd => match cd_table (snd cd), cd_internal (snd cd) with
                     | None, Some (_ :: _) => false
                     | _, _ => true
                     end) env.
Definition irow_type (i : irow) : ev * option nat * option nat := (i_ev i, guard_ty (i_guard i), action_ty (i_act i)).
Definition irow_type_dec (a b : ev * option nat * option nat) : {a = b} + {a <> b}.
Proof. repeat decide equality. Defined.
Fixpoint repetition_free (l : list (ev * option nat * option nat)) : bool :=
  match l with
  | [] => true
  | a :: l' => (if in_dec irow_type_dec a l' then false else true) && repetition_free l'
  end.
Definition types_check (env : cenv) : bool :=
  forallb (fun cd => repetition_free (map irow_type (internals env (fst cd)))) env.
Definition ends (env : cenv) (c : cls) : list sref :=
  flat_map (fun r => [r_src r; r_tgt r]) (table env c).
Definition apart_check (env : cenv) (root : cls) : bool :=
  forallb (fun cd => Nat.eqb (fst cd) root ||
    forallb (fun i => forallb (fun j => negb (if ev_eq_dec (i_ev i) (i_ev j) then true else false) ||
      forallb (fun s => forallb (fun t => if place_eq_dec (place_in root s) (place_in (fst cd) t) then false else true)
        (ends env (fst cd))) (ends env root)) (internals env (fst cd))) (internals env root)) env.
Definition defer_check (env : cenv) : bool :=
  forallb (fun cd => match cd_defer (snd cd) with Some (_ :: _) => false | _ => true end) env.
Definition alike_check (env : cenv) (root : cls) : bool :=
  composites_check env && types_check env && apart_check env root && defer_check env.

(** noneEvent has no data members (event.h): user code leaves it as it is. *)
Definition none_has_no_data {V W} (cb : cbfun V W) : Prop :=
  forall c a v w b v' w', a_ev a = ENone -> cb c a v w = Ret b v' w' -> v' = v.

(** What the two versions have in common of an answer: the amalgamated process_event
    returns nothing. *)
Definition answers_like {V} (k : call V) (o o' : out) : Prop :=
  match k, o with
  | KProcess _ _, OBool _ => o' = OUnit
  | _, _ => o' = o
  end.
Inductive answers_alike {V} : list (call V) -> list out -> list out -> Prop :=
| aa_nil : answers_alike [] [] []
| aa_cons k ks o os o' os' : answers_like k o o' -> answers_alike ks os os' ->
    answers_alike (k :: ks) (o :: os) (o' :: os').
Definition without_set {V} (k : call V) : Prop := match k with KSet _ _ _ => False | _ => True end.

(** States that differ in the tables at most. *)
Record same_state {V W} (s s' : rt V W) : Prop := mkSameState {
  ss_cur : rt_cur s' = rt_cur s;
  ss_hist : rt_hist s' = rt_hist s;
  ss_queue : rt_queue s' = rt_queue s;
  ss_regions : rt_regions s' = rt_regions s;
  ss_live : rt_live s' = rt_live s;
  ss_world : rt_world s' = rt_world s;
  ss_trace : rt_trace s' = rt_trace s }.
Inductive same_result {V W A A'} (R : A -> A' -> Prop) : res V W A -> res V W A' -> Prop :=
| sr_done a a' s s' : R a a' -> same_state s s' -> same_result R (Done a s) (Done a' s')
| sr_threw x s s' : same_state s s' -> same_result R (Threw x s) (Threw x s')
| sr_undef u : same_result R (Undef u) (Undef u)
| sr_timeout : same_result R Timeout Timeout.

(** Some program of client and user code tells the two versions apart. *)
Definition told_apart (env : cenv) (root : cls) : Prop :=
  exists V W (cb : cbfun V W) vnone m fuel d w ks,
  compile env root = Some m /\ am_compile env root = Some m /\ none_has_no_data cb /\
  (forall k, In k ks -> without_set k) /\
  ~ same_result (answers_alike ks) (session cb m vnone fuel d w ks) (am_session cb m vnone fuel d w ks).
