(** User-facing data of the library: class definitions, state references,
    events, guards, actions and transition-table rows.

    All citations are to /repo/include/hsm at the pinned commit. *)

From Coq Require Import List Arith NArith Bool.
Import ListNotations.

(** A user class used as a state (struct with optional static member
    functions).  Two classes are the same type iff the numbers agree. *)
Definition cls := nat.

(** Which C++ wrapper carries a pseudo state.
    details/state.h 20-136: [WOwn] is the dedicated wrapper ([initial_t],
    [direct_t], [entry_t], [exit_t], [history_t]); [WState] is
    [state_t<Initial<..>>], [state_t<Entry<..>>] ..., which the DSL builds for
    every source and for prefix targets ([state_t<Source>{}], [state_t<Type>{}]).
    The two are different C++ types, hence different typeids. *)
Inductive wrap := WState | WOwn.

(** A state reference as it appears in a table: details/state.h 98-135,
    details/pseudo_states.h 47-104. Simplification: the parameters of pseudo
    states are plain user classes. *)
Inductive sref :=
| SState (c : cls)                    (* state<C> *)
| SInitial (w : wrap) (c : cls)       (* *state<C>, initial<C> *)
| SDirect (w : wrap) (p s : cls)      (* direct<P,S> *)
| SEntry (w : wrap) (p s : cls)       (* entry<P,S> *)
| SExit (w : wrap) (p s : cls)        (* exit<P,S> *)
| SHistory (w : wrap) (p : cls).      (* history<P> *)

(** details/event.h 16-40: an event type; [ENone] is [noneEvent], the event of
    anonymous transitions. *)
Inductive ev := ENone | EUser (n : nat).

(** details/pseudo_states.h 5-9 [noGuard]/[noAction]; otherwise a functor with a
    type [ty] and a value [val] (two functors of the same type may be different
    values, e.g. function pointers or capturing lambdas). *)
Inductive guard := NoGuard | Guard (ty val : nat).

(** Action functors: a plain callable, [create_state(f)] (details/create_state.h
    5-25), [reuse_state(f)] (details/reuse_state.h 5-25) or [chain_actions(...)]
    (details/chain_actions.h 12-21). *)
Inductive abody :=
| ACall (f : nat)
| ACreate (f : nat)
| AReuse (f : nat)
| AChain (l : list abody).

(** The action slot of a row; [ty] is the C++ type of the functor. *)
Inductive action := NoAction | Action (ty : nat) (b : abody).

(** details/transition.h 13-48: one row of a transition table. *)
Record row := mkRow {
  r_src : sref;
  r_ev : ev;
  r_guard : guard;
  r_act : action;
  r_tgt : sref }.

(** details/transition.h 50-75: one row of an internal transition table. *)
Record irow := mkIrow {
  i_ev : ev;
  i_guard : guard;
  i_act : action }.

(** details/transition.h 77-131: a row with its parent and its internal flag.
    The parent is always [state_t<C>] for a user class C
    (flatten_transition_table.h 37, flatten_internal_transition_table.h 67-68,
    88-89), so a class number suffices. *)
Record xrow := mkXrow {
  x_parent : cls;
  x_src : sref;
  x_ev : ev;
  x_guard : guard;
  x_act : action;
  x_tgt : sref;
  x_int : bool }.

(** The static members of a user class that the library looks for:
    details/traits.h 70-92 (has_* predicates) and 31-32 (default constructible). *)
Record cdef := mkCdef {
  cd_table : option (list row);          (* make_transition_table *)
  cd_internal : option (list irow);      (* make_internal_transition_table *)
  cd_entry : bool;                       (* on_entry *)
  cd_exit : bool;                        (* on_exit *)
  cd_unexpected : bool;                  (* on_unexpected_event *)
  cd_defer : option (list ev);           (* defer_events *)
  cd_defctor : bool }.                   (* default constructible *)

(** A class without any of these members. *)
Definition plain : cdef := mkCdef None None false false false None true.

(** The program text: definitions of finitely many classes; every other class
    is plain. *)
Definition cenv := list (cls * cdef).

Fixpoint lookup (env : cenv) (c : cls) : cdef :=
  match env with
  | [] => plain
  | (c', d) :: env' => if Nat.eq_dec c c' then d else lookup env' c
  end.

(** Type identity ([std::is_same], [bh::typeid_] equality). *)
Definition wrap_eq_dec : forall a b : wrap, {a = b} + {a <> b}.
Proof. decide equality. Defined.

Definition sref_eq_dec : forall a b : sref, {a = b} + {a <> b}.
Proof. decide equality; try apply Nat.eq_dec; apply wrap_eq_dec. Defined.

Definition ev_eq_dec : forall a b : ev, {a = b} + {a <> b}.
Proof. decide equality; apply Nat.eq_dec. Defined.

Definition pair_eq_dec {A B : Type}
  (da : forall a b : A, {a = b} + {a <> b})
  (db : forall a b : B, {a = b} + {a <> b})
  : forall x y : A * B, {x = y} + {x <> y}.
Proof. decide equality. Defined.

(** A place: a state inside an enclosing parent. *)
Definition place := (cls * sref)%type.
Definition place_eq_dec : forall x y : place, {x = y} + {x <> y} :=
  pair_eq_dec Nat.eq_dec sref_eq_dec.

(** The C++ type of a guard / action slot: [noGuard] / [noAction] or the functor
    type. *)
Definition guard_ty (g : guard) : option nat :=
  match g with NoGuard => None | Guard ty _ => Some ty end.
Definition action_ty (a : action) : option nat :=
  match a with NoAction => None | Action ty _ => Some ty end.

Definition onat_eq_dec : forall x y : option nat, {x = y} + {x <> y}.
Proof. decide equality; apply Nat.eq_dec. Defined.
