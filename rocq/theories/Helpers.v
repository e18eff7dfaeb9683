(** Headers that the tests use directly and the state machine only partly:
    switch.h, for_each.h, for_each_idx.h, make_index_map, collect_actions.h; and the
    loops of fill_initial_state_table.

    collect_guards.h is not modelled: [collectGuard] applies [bh::at_c<3>] to a
    [details::ExtendedTransition] (collect_guards.h 19, transition.h 77-131), which is
    not a sequence, so [collect_guards_recursive] does not compile for a table with
    rows. *)

From Coq Require Import List Arith NArith Bool.
From Verif Require Import Types Static Dispatch.
Import ListNotations.

(** * switch.h *)

(** [case_(p, f)] is a pair; the predicate is a compile-time constant.  [switch_],
    switch.h 21-24: [find_if] on the tuple of cases, then the second component of the
    value found.  [None]: no case holds, [value()] of an empty optional does not
    compile. *)
Definition switch_ {A} (cases : list (bool * A)) : option A :=
  option_map snd (find fst cases).
(** [otherwise], switch.h 20. *)
Definition otherwise : bool := true.

(** [lazy_switch_], switch.h 29-32: the predicate is a lazy value, evaluated by
    [bh::eval]. *)
Definition lazy_switch_ {A} (cases : list ((unit -> bool) * A)) : option A :=
  option_map snd (find (fun c => fst c tt) cases).
Definition lazy_otherwise : unit -> bool := fun _ => true.

(** * for_each.h, for_each_idx.h *)

Section ForEach.
Context {A S X : Type}.

(** [hsm::for_each], for_each.h 14-18: a fold expression over the comma operator.  The
    closure works on a state (what it captured by reference) and may throw, which
    ends the expression. *)
Fixpoint for_each (closure : A -> S -> S * option X) (sequence : list A) (s : S) : S * option X :=
  match sequence with
  | [] => (s, None)
  | a :: sequence' =>
      match closure a s with
      | (s', None) => for_each closure sequence' s'
      | (s', Some x) => (s', Some x)
      end
  end.

(** For the properties: the closure with a log of the elements it was called with. *)
Definition logged (closure : A -> S -> S * option X) (a : A) (ls : list A * S) : (list A * S) * option X :=
  let '(log, s) := ls in let '(s', x) := closure a s in ((log ++ [a], s'), x).
End ForEach.

(** [for_each_idx], for_each_idx.h 10-16: [bh::for_each] with a counter captured by
    reference.  Simplification: the counter does not wrap (a tuple has fewer than
    2^64 elements). *)
Definition for_each_idx {A S X} (closure : A -> N -> S -> S * option X) (l : list A) (s : S) : S * option X :=
  let '((s, _), x) :=
    for_each (fun elem '(s, index) =>
                match closure elem index s with
                | (s, None) => ((s, N.succ index), None)
                | (s, Some x) => ((s, index), Some x)
                end) l (s, 0%N) in (s, x).

(** * index_map.h *)

(** [bh::to_map]: the first pair of a key is kept; [bh::find] on the map. *)
Definition to_map {K B} (dec : forall a b : K, {a = b} + {a <> b}) (l : list (K * B)) : list (K * B) :=
  unique_by dec fst l.
Fixpoint map_find {K B} (dec : forall a b : K, {a = b} + {a <> b}) (k : K) (l : list (K * B)) : option B :=
  match l with
  | [] => None
  | (k', b) :: l' => if dec k k' then Some b else map_find dec k l'
  end.

(** [make_index_map], index_map.h 51-57: the type ids zipped with the range
    [0, size). *)
Definition make_index_map {K} (dec : forall a b : K, {a = b} + {a <> b}) (typeids : list K) : list (K * N) :=
  to_map dec (combine typeids (map N.of_nat (seq 0 (length typeids)))).

(** * collect_actions.h *)

(** [collect_actions_recursive] and [collect_action_typeids_recursive],
    collect_actions.h 22-28, of the root of a machine. *)
Definition collect_actions (m : machine) : list action :=
  unique_by onat_eq_dec action_ty (map x_act (mc_flat m)).
Definition collect_action_typeids (m : machine) : list (option nat) :=
  map action_ty (collect_actions m).

(** * fill_initial_state_table *)

(** [std::out_of_range] of [array::at], or a parent that is not in the map (does not
    compile). *)
Inductive fill_error := OutOfRange | NoSuchParent.

(** [make_initial_state_map], collect_initial_states.h 65-70 with 38-52. *)
Definition initial_state_map (m : machine) : list (cls * list N) :=
  to_map Nat.eq_dec
    (combine (parents m)
             (map (fun p => map (combined_idx m p) (initials (mc_env m) p)) (parents m))).

(** collect_initial_states.h 83-105.  [table] is [std::array<std::vector<size_t>, n>];
    the vector starts with zeros. *)
Definition fill_initial_state_table (m : machine) (table : list (list N)) : list (list N) * option fill_error :=
  for_each_idx
    (fun p parent_id table =>
       match map_find Nat.eq_dec p (initial_state_map m) with
       | None => (table, Some NoSuchParent)
       | Some initial_states =>
           let '(v, x) :=
             for_each_idx
               (fun state_idx region_id v =>
                  match upd_at region_id (fun _ => state_idx) v with
                  | Some v => (v, None)
                  | None => (v, Some OutOfRange)
                  end)
               initial_states (repeat 0%N (length initial_states)) in
           match x with
           | Some x => (table, Some x)
           | None =>
               match upd_at parent_id (fun _ => v) table with
               | Some table => (table, None)
               | None => (table, Some OutOfRange)
               end
           end
       end)
    (parents m) table.
