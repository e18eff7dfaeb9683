(** Compile-time part of the library: flattening of the tables, collection of
    states / parents / events / initial states, index computation, resolution of
    sources, targets and effects, and the static assertions. *)

From Coq Require Import List Arith NArith Bool.
From Verif Require Import Types.
Import ListNotations.

(** * Generic helpers *)

(** boost::mp11::mp_unique as used by remove_duplicates
    (details/remove_duplicates.h 19-22): keeps the first occurrence of each
    element, in order. *)
Fixpoint unique_acc {A} (dec : forall a b : A, {a = b} + {a <> b})
    (seen : list A) (l : list A) : list A :=
  match l with
  | [] => []
  | a :: l' => if in_dec dec a seen then unique_acc dec seen l'
               else a :: unique_acc dec (a :: seen) l'
  end.
Definition unique {A} (dec : forall a b : A, {a = b} + {a <> b}) (l : list A) :=
  unique_acc dec [] l.

(** remove_duplicate_types (details/remove_duplicates.h 24-27): [bh::to_map] on
    (typeid, value) pairs and [bh::values]: the first value of each type, in
    order. *)
Fixpoint unique_by_acc {A K} (dec : forall a b : K, {a = b} + {a <> b})
    (key : A -> K) (seen : list K) (l : list A) : list A :=
  match l with
  | [] => []
  | a :: l' => if in_dec dec (key a) seen then unique_by_acc dec key seen l'
               else a :: unique_by_acc dec key (key a :: seen) l'
  end.
Definition unique_by {A K} (dec : forall a b : K, {a = b} + {a <> b})
    (key : A -> K) (l : list A) := unique_by_acc dec key [] l.

(** std::size_t / std::uint64_t arithmetic. *)
Definition two64 : N := 18446744073709551616%N.
Definition wadd (a b : N) : N := ((a + b) mod two64)%N.
Definition wsub (a b : N) : N := ((a + (two64 - b mod two64)) mod two64)%N.

(** details/index_map.h 14-49 [GetIdx::find_idx] / [index_of]:
    [seq.size() + ((is_same<X,T> ? idx - seq.size() : 0) + ...)] in std::size_t.
    [idx_sum] is the fold expression; [i] is the running index. *)
Fixpoint idx_sum {A} (dec : forall a b : A, {a = b} + {a <> b})
    (x : A) (l : list A) (i size : N) : N :=
  match l with
  | [] => 0%N
  | a :: l' =>
      wadd (if dec x a then wsub i size else 0%N)
           (idx_sum dec x l' (i + 1)%N size)
  end.
Definition index_of {A} (dec : forall a b : A, {a = b} + {a <> b})
    (l : list A) (x : A) : N :=
  let size := N.of_nat (length l) in
  wadd size (idx_sum dec x l 0%N size).

(** details/idx.h 62-71. *)
Definition calc_combined_idx (nstates p s : N) : N := wadd ((p * nstates) mod two64) s.
Definition calc_parent_idx (nstates c : N) : N := (c / nstates)%N.
Definition calc_state_idx (nstates c : N) : N := (c mod nstates)%N.

(** * Traits (details/traits.h) *)

Section Traits.
Variable env : cenv.

(** has_transition_table, traits.h 70-72: only [state_t<C>] can have one; the
    pseudo-state classes have no such member. *)
Definition table_of (s : sref) : option (list row) :=
  match s with SState c => cd_table (lookup env c) | _ => None end.
Definition has_table (s : sref) : bool :=
  match table_of s with Some _ => true | None => false end.

(** has_internal_transition_table, traits.h 74-76. *)
Definition internal_of (s : sref) : option (list irow) :=
  match s with SState c => cd_internal (lookup env c) | _ => None end.
Definition has_internal (s : sref) : bool :=
  match internal_of s with Some _ => true | None => false end.

(** has_entry_action / has_exit_action, traits.h 78-84; the result is the class
    whose on_entry / on_exit is meant. *)
Definition entry_of (s : sref) : option cls :=
  match s with SState c => if cd_entry (lookup env c) then Some c else None | _ => None end.
Definition exit_of (s : sref) : option cls :=
  match s with SState c => if cd_exit (lookup env c) then Some c else None | _ => None end.

(** has_deferred_events / get_defer_events, traits.h 90-92, 147-148. *)
Definition defer_of (s : sref) : option (list ev) :=
  match s with SState c => cd_defer (lookup env c) | _ => None end.

(** is_default_constructable, traits.h 31-32; pseudo-state classes are default
    constructible (pseudo_states.h 50-97). *)
Definition defctor (s : sref) : bool :=
  match s with SState c => cd_defctor (lookup env c) | _ => true end.
End Traits.

(** is_initial_state / is_history_state, traits.h 112-123. *)
Definition is_initial (s : sref) : bool :=
  match s with SInitial _ _ => true | _ => false end.
Definition is_history (s : sref) : bool :=
  match s with SHistory _ _ => true | _ => false end.

(** resolveInitialState / resolveExtentedInitialState, collect_states.h 23-37
    (get_state of Initial<state_t<S>> is state_t<S>). *)
Definition unwrap_initial (s : sref) : sref :=
  match s with SInitial _ c => SState c | _ => s end.

(** * Flattening *)

(** resolveSubStateParent, resolve_state.h 13-25: the state whose sub table is
    appended after a row. *)
Definition sub_state_parent (t : sref) : sref :=
  match t with
  | SEntry _ p _ | SDirect _ p _ | SHistory _ p => SState p
  | _ => t
  end.

(** details::extended_transition, transition.h 139-153. *)
Definition extend (p : cls) (r : row) : xrow :=
  mkXrow p (r_src r) (r_ev r) (r_guard r) (r_act r) (r_tgt r) false.

Fixpoint concat_opt {A} (l : list (option (list A))) : option (list A) :=
  match l with
  | [] => Some []
  | o :: l' =>
      match o, concat_opt l' with
      | Some a, Some b => Some (a ++ b)
      | _, _ => None
      end
  end.

(** flatten_transition_table / flatten_sub_transition_table,
    flatten_transition_table.h 32-56.  The template recursion gets fuel; [None]
    means the recursion does not end (compilation fails) or the class has no
    table (make_transition_table2, traits.h 67-68, does not compile). *)
Fixpoint flatten (fuel : nat) (env : cenv) (c : cls) : option (list xrow) :=
  match fuel with
  | O => None
  | S fuel' =>
      match cd_table (lookup env c) with
      | None => None
      | Some rows =>
          concat_opt
            (map (fun r =>
                    match sub_state_parent (r_tgt r) with
                    | SState p =>
                        if has_table env (SState p)
                        then match flatten fuel' env p with
                             | Some sub => Some (extend c r :: sub)
                             | None => None
                             end
                        else Some [extend c r]
                    | _ => Some [extend c r]
                    end) rows)
      end
  end.

(** A machine type: [sm<Root>] in a program [env], with its flattened table. *)
Record machine := mkMachine {
  mc_env : cenv;
  mc_root : cls;
  mc_flat : list xrow }.

(** * Collections (all functions of the machine) *)

(** make_transition_table2(state). *)
Definition rows_of (env : cenv) (c : cls) : list row :=
  match cd_table (lookup env c) with Some l => l | None => [] end.

(** collect_child_states, collect_states.h 94-98 (raw sources, incl. Initial
    wrappers, and targets). *)
Definition child_states (env : cenv) (c : cls) : list sref :=
  unique sref_eq_dec (flat_map (fun r => [r_src r; r_tgt r]) (rows_of env c)).

(** collect_child_state_typeids, collect_states.h 86-92. *)
Definition child_typeids (env : cenv) (c : cls) : list sref :=
  unique sref_eq_dec
    (flat_map (fun r => [unwrap_initial (r_src r); r_tgt r]) (rows_of env c)).

(** collect_initial_states, collect_initial_states.h 25-30. *)
Definition initials (env : cenv) (c : cls) : list sref :=
  map unwrap_initial (filter is_initial (child_states env c)).

(** collect_child_state_typeids_recursive + append of the root,
    collect_states.h 61-67, 74-79. *)
Definition child_states_rec (m : machine) : list sref :=
  unique sref_eq_dec
    (flat_map (fun x => [unwrap_initial (x_src x); x_tgt x]) (mc_flat m)).
Definition states (m : machine) : list sref :=
  child_states_rec m ++ [SState (mc_root m)].

(** collect_parent_state_typeids, collect_parent_states.h 17-24. *)
Definition parents (m : machine) : list cls :=
  unique Nat.eq_dec (map x_parent (mc_flat m)).

(** collect_state_parentstate_pairs_recursively, collect_states.h 55-59, 100-105. *)
Definition state_pairs (m : machine) : list place :=
  unique place_eq_dec
    ((mc_root m, SState (mc_root m)) ::
     flat_map (fun x => [(x_parent x, unwrap_initial (x_src x));
                         (x_parent x, x_tgt x)]) (mc_flat m)).

(** flatten_internal_transition_table.h 39-132 (get_internal_transition_table,
    extend_internal_transition, extend_internal_transition2,
    get_internal_transitions) for one (parent,state) pair. *)
Definition internal_of_pair (env : cenv) (pr : place) : list xrow :=
  let (p, s) := pr in
  match s with
  | SState c =>
      match cd_internal (lookup env c) with
      | None => []
      | Some irows =>
          flat_map
            (fun i =>
               if has_table env s
               then map (fun ch => mkXrow c ch (i_ev i) (i_guard i) (i_act i) ch true)
                        (child_states env c)
               else [mkXrow p s (i_ev i) (i_guard i) (i_act i) s true])
            irows
      end
  | _ => []
  end.

(** The C++ type of an ExtendedTransition (transition.h 77-85): everything but
    the functor values. *)
Definition xkey := (cls * sref * ev * option nat * option nat * sref)%type.
Definition xrow_key (x : xrow) : xkey :=
  (x_parent x, x_src x, x_ev x, guard_ty (x_guard x), action_ty (x_act x), x_tgt x).
Definition xkey_eq_dec : forall a b : xkey, {a = b} + {a <> b} :=
  pair_eq_dec (pair_eq_dec (pair_eq_dec (pair_eq_dec (pair_eq_dec
    Nat.eq_dec sref_eq_dec) ev_eq_dec) onat_eq_dec) onat_eq_dec) sref_eq_dec.

(** flatten_internal_transition_table, flatten_internal_transition_table.h
    139-145. *)
Definition internal_flat (m : machine) : list xrow :=
  unique_by xkey_eq_dec xrow_key
    (flat_map (internal_of_pair (mc_env m)) (state_pairs m)).

(** collect_event_typeids_recursive(_from_transitions), collect_events.h 28-39. *)
Definition events_of (l : list xrow) : list ev := unique ev_eq_dec (map x_ev l).
Definition events (m : machine) : list ev :=
  events_of (mc_flat m ++ internal_flat m).

(** nStates / nParentStates, fill_dispatch_table.h 33-41. *)
Definition n_states (m : machine) : N := N.of_nat (length (states m)).
Definition n_parents (m : machine) : nat := length (parents m).

(** initialStateSizes / maxInitialStates, collect_initial_states.h 131-145. *)
Definition max_initials (m : machine) : nat :=
  fold_right Nat.max 0 (map (fun p => length (initials (mc_env m) p)) (parents m)).

(** hasParallelRegions, fill_dispatch_table.h 48-51. *)
Definition parallel (m : machine) : bool := Nat.ltb 1 (max_initials m).

(** has_anonymous_transition / has_history, transition_table_traits.h 15-33. *)
Definition is_anonymous (x : xrow) : bool :=
  if ev_eq_dec (x_ev x) ENone then true else false.
Definition has_anonymous (m : machine) : bool := existsb is_anonymous (mc_flat m).
Definition has_history (m : machine) : bool :=
  existsb (fun x => is_history (x_tgt x)) (mc_flat m).

(** * Indices *)

(** getParentStateIdx / getStateIdx, idx.h 32-38. *)
Definition parent_idx (m : machine) (p : cls) : N := index_of Nat.eq_dec (parents m) p.
Definition state_idx (m : machine) (s : sref) : N := index_of sref_eq_dec (states m) s.

(** getCombinedStateTypeids / getCombinedStateIdx, idx.h 40-60:
    bh::cartesian_product of (parents, states), first factor major. *)
Definition combined_idx (m : machine) (p : cls) (s : sref) : N :=
  index_of place_eq_dec (list_prod (parents m) (states m)) (p, s).

(** * Resolution (resolve_state.h) *)

(** resolveDst 27-44. [None]: bh::at_c<0> of an empty tuple (does not compile). *)
Definition resolve_dst (env : cenv) (x : xrow) : option sref :=
  match x_tgt x with
  | SState c =>
      if has_table env (SState c) then hd_error (initials env c) else Some (SState c)
  | SEntry _ _ s | SDirect _ _ s => Some (SState s)
  | SHistory _ p => hd_error (initials env p)
  | SInitial _ c => Some (SState c)
  | SExit w p s => Some (SExit w p s)
  end.

(** resolveDstParent 46-61. *)
Definition resolve_dst_parent (env : cenv) (x : xrow) : cls :=
  match x_tgt x with
  | SState c => if has_table env (SState c) then c else x_parent x
  | SEntry _ p _ | SDirect _ p _ | SHistory _ p => p
  | _ => x_parent x
  end.

(** resolveSrc 63-76. *)
Definition resolve_src (x : xrow) : sref :=
  match x_src x with
  | SInitial _ c => SState c
  | SExit _ _ s | SDirect _ _ s => SState s
  | s => s
  end.

(** resolveSrcParent 78-89. *)
Definition resolve_src_parent (x : xrow) : cls :=
  match x_src x with
  | SExit _ p _ | SDirect _ p _ => p
  | _ => x_parent x
  end.

(** resolveHistory 162-169. *)
Definition resolve_history (x : xrow) : bool := is_history (x_tgt x).

(** One callable invoked by a resolved action. *)
Inductive step :=
| StExit (c : cls)       (* on_exit of class c *)
| StAct (b : abody)      (* the row's action *)
| StEntry (c : cls)      (* on_entry of class c *)
| StInit (c : cls).      (* on_entry of the first initial state c of the target *)

Definition opt_step (o : option cls) (f : cls -> step) : list step :=
  match o with Some c => [f c] | None => [] end.

(** has_substate_initial_state_entry_action, has_action.h 18-24, and
    resolveInitialStateEntryAction, resolve_state.h 102-109. *)
Definition initial_entry_of (env : cenv) (t : sref) : option cls :=
  match t with
  | SState c =>
      if has_table env t
      then match hd_error (initials env c) with
           | Some i => entry_of env i
           | None => None
           end
      else None
  | _ => None
  end.

(** has_pseudo_exit_action, has_action.h 26-29. *)
Definition pseudo_exit_of (env : cenv) (x : xrow) : option cls :=
  match x_src x with
  | SExit _ p _ => exit_of env (SState p)
  | _ => None
  end.

Definition is_some {A} (o : option A) : bool :=
  match o with Some _ => true | None => false end.

(** has_action, has_action.h 31-38 (not guarded by the internal flag). *)
Definition has_action (env : cenv) (x : xrow) : bool :=
  is_some (action_ty (x_act x))
  || is_some (entry_of env (x_tgt x))
  || is_some (initial_entry_of env (x_tgt x))
  || is_some (exit_of env (x_src x))
  || is_some (pseudo_exit_of env x).

(** resolveExitAction, resolve_state.h 111-125. *)
Definition resolve_exit_action (env : cenv) (x : xrow) : list step :=
  if x_int x then []
  else match exit_of env (x_src x) with
       | Some c => [StExit c]
       | None => opt_step (pseudo_exit_of env x) StExit
       end.

(** resolveNoAction 127-136. *)
Definition resolve_no_action (x : xrow) : list step :=
  match x_act x with NoAction => [] | Action _ b => [StAct b] end.

(** resolveEntryAction 91-100. *)
Definition resolve_entry_action (env : cenv) (x : xrow) : list step :=
  if x_int x then [] else opt_step (entry_of env (x_tgt x)) StEntry.

(** resolveInitialStateEntryAction 102-109. *)
Definition resolve_initial_entry_action (env : cenv) (x : xrow) : list step :=
  opt_step (initial_entry_of env (x_tgt x)) StInit.

(** resolveEntryExitAction 138-149 and resolveAction 151-160. [None] is the bare
    [noAction] (nothing is executed, nothing is dereferenced). *)
Definition resolve_action (env : cenv) (x : xrow) : option (list step) :=
  if has_action env x
  then Some (resolve_exit_action env x ++ resolve_no_action x
             ++ resolve_entry_action env x ++ resolve_initial_entry_action env x)
  else None.

(** * Acceptance by the compiler *)

(** create_state / reuse_state dereference the target argument
    (create_state.h 15, reuse_state.h 15), which is a pointer only if the target
    is not default constructible (dispatch_table.h 67-78). *)
Fixpoint needs_ptr (b : abody) : bool :=
  match b with
  | ACall _ => false
  | ACreate _ | AReuse _ => true
  | AChain l => existsb needs_ptr l
  end.

Definition row_accepted (m : machine) (x : xrow) : bool :=
  match resolve_dst (mc_env m) x with
  | None => false
  | Some d =>
      (if in_dec sref_eq_dec d (states m) then true else false)
      && (if in_dec sref_eq_dec (resolve_src x) (states m) then true else false)
      && match x_tgt x with
         | SHistory _ p => has_table (mc_env m) (SState p)
         | _ => true
         end
      && match x_act x with
         | NoAction => true
         | Action _ b => negb (needs_ptr b) || negb (defctor (mc_env m) d)
         end
  end.

(** Rows that contribute deferrals: getDeferingTransitions,
    fill_dispatch_table.h 225-231. *)
Definition deferring (m : machine) : list xrow :=
  filter (fun x => is_some (defer_of (mc_env m) (unwrap_initial (x_src x)))) (mc_flat m).
Definition deferred_events (m : machine) (x : xrow) : list ev :=
  match defer_of (mc_env m) (unwrap_initial (x_src x)) with Some l => l | None => [] end.

(** hasDeferedEvents, fill_dispatch_table.h 233-235. *)
Definition has_deferred (m : machine) : bool :=
  negb (Nat.eqb 0 (length (deferring m))).

(** Everything the compiler checks, as far as modelled: the static assertions of
    sm.h 53-68, the lookups [bh::find(statesMap, ..).value()] and
    [bh::at_c<0>] (fill_dispatch_table.h 94-98, resolve_state.h 32, 38), history
    parents need a table (collect_initial_states.h 27), deferred events need a
    dispatch table (fill_dispatch_table.h 246), [bh::zip] in make_states_map.h 26
    needs the root not to be a state of its own machine, and array sizes fit
    std::size_t. *)
Definition accepted (m : machine) : bool :=
  is_some (cd_table (lookup (mc_env m) (mc_root m)))
  && negb (Nat.eqb (length (mc_flat m)) 0)
  && negb (Nat.eqb (max_initials m) 0)
  && forallb (fun s => negb (has_table (mc_env m) s)) (initials (mc_env m) (mc_root m))
  && forallb (fun s => negb (has_internal (mc_env m) s)) (initials (mc_env m) (mc_root m))
  && forallb (row_accepted m) (mc_flat m ++ internal_flat m)
  && forallb (fun x => forallb (fun e => if in_dec ev_eq_dec e (events m) then true else false)
                               (deferred_events m x)) (deferring m)
  && (if in_dec sref_eq_dec (SState (mc_root m)) (child_states_rec m) then false else true)
  && N.ltb (N.of_nat (n_parents m) * n_states m) two64.

(** Compilation of [sm<Root>]: flatten (the number of classes bounds the depth of
    a non-recursive nesting) and check. *)
Definition compile (env : cenv) (root : cls) : option machine :=
  match flatten (S (length env)) env root with
  | None => None
  | Some fl =>
      let m := mkMachine env root fl in
      if accepted m then Some m else None
  end.
