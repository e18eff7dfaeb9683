(** Dispatch tables and unexpected-event-handler tables. *)

From Coq Require Import List Arith NArith Bool.
From Verif Require Import Types Static.
Import ListNotations.

(** The tuple of dependencies passed to the constructor / set_dependency
    (sm.h 70, 171), as an opaque identity. *)
Definition dep := nat.

(** details/dispatch_table.h 38-123 [DispatchTableEntry]: what a table entry
    executes. [t_ptr]: the target type is not default constructible, so actions
    get the pointer (67, 77). [t_act = None]: noAction. *)
Record trans := mkTrans {
  t_guard : guard;
  t_act : option (list step);
  t_src : sref;
  t_tgt : sref;
  t_dep : dep;
  t_int : bool;
  t_ptr : bool }.

(** details/dispatch_table.h 155-162 [NextState]. [en_tr = None]: the null
    dunique_ptr of a deferral entry. The [valid] member is never read. *)
Record entry := mkEntry {
  en_to : N;
  en_hist : bool;
  en_defer : bool;
  en_int : bool;
  en_tr : option trans }.

(** fill_dispatch_table.h 250-251: [push_front({})] and [defer = true]. *)
Definition defer_entry : entry := mkEntry 0%N false true false None.

(** std::array<std::deque<NextState>, n> per event,
    make_dispatch_tables.h 20-31. *)
Definition tables := list (ev * list (list entry)).

Definition empty_tables (m : machine) : tables :=
  map (fun e => (e, repeat [] (N.to_nat (n_states m) * n_parents m))) (events m).

Fixpoint get_table {A} (t : list (ev * A)) (e : ev) : option A :=
  match t with
  | [] => None
  | (e', a) :: t' => if ev_eq_dec e e' then Some a else get_table t' e
  end.

Fixpoint upd_nth {A} (n : nat) (f : A -> A) (l : list A) : option (list A) :=
  match l, n with
  | [], _ => None
  | a :: l', O => Some (f a :: l')
  | a :: l', S n' => option_map (cons a) (upd_nth n' f l')
  end.

(** An index into a container: numbers beyond the container are out of range
    (kept as a comparison so that huge numbers are never turned into [nat]). *)
Definition upd_at {A} (i : N) (f : A -> A) (l : list A) : option (list A) :=
  if N.ltb i (N.of_nat (length l)) then upd_nth (N.to_nat i) f l else None.
Definition nth_at {A} (i : N) (l : list A) : option A :=
  if N.ltb i (N.of_nat (length l)) then nth_error l (N.to_nat i) else None.

(** [dispatchTables[event][i].push_front(en)]; [None]: out-of-range array access
    (undefined behaviour), or no table for the event (does not compile). *)
Fixpoint push_front_at (t : tables) (e : ev) (i : N) (en : entry) : option tables :=
  match t with
  | [] => None
  | (e', arr) :: t' =>
      if ev_eq_dec e e'
      then option_map (fun arr' => (e', arr') :: t') (upd_at i (cons en) arr)
      else option_map (cons (e', arr)) (push_front_at t' e i en)
  end.

(** The entry built for a row with source object [src]: make_transition,
    dispatch_table.h 133-153, and fill_dispatch_table.h 80-92, 146-162. *)
Definition entry_of_row (m : machine) (d : dep) (x : xrow) (src dst : sref) : entry :=
  mkEntry (combined_idx m (resolve_dst_parent (mc_env m) x) dst)
          (resolve_history x) false (x_int x)
          (Some (mkTrans (x_guard x) (resolve_action (mc_env m) x) src dst d (x_int x)
                         (negb (defctor (mc_env m) dst)))).

(** addDispatchTableEntry, fill_dispatch_table.h 60-103. *)
Definition add_entry (m : machine) (d : dep) (x : xrow) (t : tables) : option tables :=
  match resolve_dst (mc_env m) x with
  | None => None
  | Some dst =>
      push_front_at t (x_ev x) (combined_idx m (resolve_src_parent x) (resolve_src x))
                    (entry_of_row m d x (resolve_src x) dst)
  end.

Fixpoint foldM {A S} (f : A -> S -> option S) (l : list A) (s : S) : option S :=
  match l with
  | [] => Some s
  | a :: l' => match f a s with Some s' => foldM f l' s' | None => None end
  end.

(** addDispatchTableEntryOfSubMachineExits, fill_dispatch_table.h 112-175. *)
Definition add_exits (m : machine) (d : dep) (x : xrow) (t : tables) : option tables :=
  if x_int x then Some t
  else match x_src x, resolve_dst (mc_env m) x with
       | SState c, Some dst =>
           if has_table (mc_env m) (SState c)
           then foldM (fun ch t =>
                         push_front_at t (x_ev x) (combined_idx m c ch)
                                       (entry_of_row m d x (SState c) dst))
                      (child_typeids (mc_env m) c) t
           else Some t
       | _, _ => Some t
       end.

(** filter_transitions and fill_dispatch_table_with_transitions,
    fill_dispatch_table.h 177-223. *)
Definition filter_ev (e : ev) (l : list xrow) : list xrow :=
  filter (fun x => if ev_eq_dec (x_ev x) e then true else false) l.

Definition add_row (m : machine) (d : dep) (x : xrow) (t : tables) : option tables :=
  match add_entry m d x t with
  | Some t' => add_exits m d x t'
  | None => None
  end.

Definition fill_transitions (m : machine) (d : dep) (l : list xrow) (t : tables)
  : option tables :=
  foldM (fun e t => foldM (add_row m d) (filter_ev e l) t) (events_of l) t.

(** fill_dispatch_table_with_deferred_events, fill_dispatch_table.h 237-254. *)
Definition fill_deferred (m : machine) (t : tables) : option tables :=
  foldM (fun x t =>
           foldM (fun e t =>
                    push_front_at t e (combined_idx m (resolve_src_parent x) (resolve_src x))
                                  defer_entry)
                 (deferred_events m x) t)
        (deferring m) t.

(** fill_dispatch_table, sm.h 364-372: internal, external, deferred. *)
Definition fill_dispatch (m : machine) (d : dep) (t : tables) : option tables :=
  match fill_transitions m d (internal_flat m) t with
  | None => None
  | Some t1 =>
      match fill_transitions m d (mc_flat m) t1 with
      | None => None
      | Some t2 => fill_deferred m t2
      end
  end.

(** make_unexpected_event_handler_tables.h 51-65 and
    fill_unexpected_event_handler_tables.h 42-74: per event and combined index the
    state object handed to the handler and the dependencies. *)
Definition handler_tables := list (ev * list (option (sref * dep))).

Definition handler_places (m : machine) : list place := list_prod (parents m) (states m).

Definition fill_handlers (m : machine) (d : dep) : option handler_tables :=
  foldM (fun e t =>
           match foldM (fun (pr : place) arr =>
                          upd_at (combined_idx m (fst pr) (snd pr))
                                 (fun _ => Some (snd pr, d)) arr)
                       (handler_places m)
                       (repeat None (N.to_nat (n_states m) * n_parents m)) with
           | Some arr => Some (t ++ [(e, arr)])
           | None => None
           end)
        (events m) [].

(** fill_initial_state_table, collect_initial_states.h 40-104: for each parent the
    combined indices of its initial states. *)
Definition initial_table (m : machine) : list (list N) :=
  map (fun p => map (fun s => combined_idx m p s) (initials (mc_env m) p)) (parents m).
