(** The maps that class sm builds at compile time: states, dispatch tables, handler tables. *)

From Coq Require Import List Arith NArith Bool.
From Verif Require Import Types Static Dispatch Helpers.
Import ListNotations.

(** [bh::zip] of two sequences; [None]: different lengths, does not compile. *)
Definition zip {A B} (l : list A) (l' : list B) : option (list (A * B)) :=
  if Nat.eqb (length l) (length l') then Some (combine l l') else None.

(** to_pairs.h 11-15: the first two components of every tuple. *)
Definition to_pairs {A B} (l : list (A * B)) : list (A * B) := map (fun t => (fst t, snd t)) l.

(** hsm::to_map, to_map.h 12-16, is [bh::make_map] (not [bh::to_map]): the keys have to be
    distinct; [None]: they are not. *)
Fixpoint distinct {K} (dec : forall a b : K, {a = b} + {a <> b}) (l : list K) : bool :=
  match l with [] => true | k :: l' => (if in_dec dec k l' then false else true) && distinct dec l' end.
Definition make_map {K B} (dec : forall a b : K, {a = b} + {a <> b}) (l : list (K * B)) : option (list (K * B)) :=
  if distinct dec (map fst l) then Some l else None.

(** unwrap_typeid_to_shared_ptr, traits.h 51-58: a pointer to a pointer to an object of the
    state's class, null if the class has no default constructor. *)
Record object := mkObject { o_class : sref; o_null : bool }.
Definition make_object (env : cenv) (s : sref) : object := mkObject s (negb (defctor env s)).

(** extractExtendedStates and collect_child_states_recursive, collect_states.h 42-44, 69-72, and collect_states_recursive,
    81-84: the root is appended before duplicates are removed; in
    collect_state_typeids_recursive (74-79, [states]) after. *)
Definition child_states_all (m : machine) : list sref :=
  flat_map (fun x => [unwrap_initial (x_src x); x_tgt x]) (mc_flat m).
Definition collect_states_recursive (m : machine) : list sref :=
  unique sref_eq_dec (child_states_all m ++ [SState (mc_root m)]).

(** make_states_map.h 21-27. *)
Definition make_states_map (m : machine) : option (list (sref * object)) :=
  match zip (states m) (map (make_object (mc_env m)) (collect_states_recursive m)) with
  | Some l => make_map sref_eq_dec (to_pairs l)
  | None => None
  end.

(** make_dispatch_tables.h 20-31 and make_unexpected_event_handler_tables.h 51-65: for each
    event an array of nStates * nParentStates elements. *)
Definition make_tables {A} (m : machine) (a : A) : option (list (ev * list A)) :=
  make_map ev_eq_dec
    (map (fun e => (e, repeat a (N.to_nat (n_states m * N.of_nat (n_parents m))))) (events m)).
Definition make_dispatch_tables (m : machine) : option tables := make_tables m [].
Definition make_handler_tables (m : machine) : option handler_tables := make_tables m None.

(** [tables[eventTypeid]], changed in place. *)
Fixpoint upd_event {A} (e : ev) (f : list A -> option (list A)) (t : list (ev * list A)) : option (list (ev * list A)) :=
  match t with
  | [] => None
  | (e', arr) :: t' =>
      if ev_eq_dec e e' then match f arr with Some arr' => Some ((e', arr') :: t') | None => None end
      else match upd_event e f t' with Some t'' => Some ((e', arr) :: t'') | None => None end
  end.

(** fill_unexpected_event_handler_tables.h 42-74, as written: three loops that assign to the
    tables of the machine; [bh::find(statesMap, stateTypeid).value()] does not compile for a
    state that is not in the map ([None]). *)
Definition fill_handlers_in (m : machine) (mp : list (sref * object)) (d : dep) (t : handler_tables) : option handler_tables :=
  foldM (fun e => foldM (fun p => foldM (fun s t =>
      match map_find sref_eq_dec s mp with
      | Some o => upd_event e (upd_at (combined_idx m p s) (fun _ => Some (o_class o, d))) t
      | None => None
      end) (states m)) (parents m)) (events m) t.
