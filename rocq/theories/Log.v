(** The action hsm::log, log.h 8-12, and what its output says. *)

From Coq Require Import List Arith NArith Bool.
From Verif Require Import Types Static Dispatch Runtime Spec Semantics Graph.
Import ListNotations.

(** One line of the output: the types of source, event and target.  (For a target without
    default constructor the action gets a pointer; its type names the target too.) *)
Definition line := (sref * ev * sref)%type.
Definition named (t : targ) : option sref := match t with TObj q | TPtr q => Some q | TNone => None end.
(** [f] is the number of hsm::log among the user's functions. *)
Definition written {V} (f : nat) (k : called V) : list line :=
  match k_callee k with
  | CAction g => if Nat.eqb g f
                 then match named (a_tgt (k_args k)) with Some q => [(a_src (k_args k), a_ev (k_args k), q)] | None => [] end
                 else []
  | _ => []
  end.
Definition output {V} (f : nat) (tr : list (called V)) : list line := flat_map (written f) tr.

(** A program that logs its transitions: the action of every row is hsm::log, or a chain of
    actions that begins with it and has it once.  Internal rows may have it or not; if they
    do, their states are to be default constructible. *)
Definition logs_transitions (env : cenv) (root : cls) (f : nat) : Prop :=
  (forall x, declared env root x -> exists rest, action_calls x = CAction f :: rest /\ ~ In (CAction f) rest) /\
  (forall x, declared_internal env root x -> In (CAction f) (action_calls x) ->
     default_constructible env (target_state env x) = true).
Definition exits_quietly {V W} (cb : cbfun V W) : Prop := forall c a v w n v' w', cb (CExit c) a v w <> Raise n v' w'.

(** A walk along the rows of the program and its lines: the source of a line is the state
    that is left or the composite around it (see [candidate]), the target is the state that
    is entered.  An internal row stays: its line says so. *)
Inductive walk (env : cenv) (root : cls) (start : place) : list line -> place -> Prop :=
| wa_start : walk env root start [] start
| wa_row l pl e x o pl' : walk env root start l pl ->
    candidate env root e pl (CRow x o) -> x_int x = false -> target_place env x = Some pl' ->
    walk env root start (l ++ [(o, e, snd pl')]) pl'
| wa_stay l pl e x : walk env root start l pl ->
    candidate env root e pl (CRow x (snd pl)) -> x_int x = true ->
    walk env root start (l ++ [(snd pl, e, snd pl)]) pl.

(** The lines of one region, if every line is marked with its region. *)
Definition of_region (r : nat) (l : list (nat * line)) : list line :=
  map snd (filter (fun t => Nat.eqb (fst t) r) l).

(** Each line starts where the line before ended. *)
Fixpoint connected (q : sref) (l : list line) (q' : sref) : Prop :=
  match l with
  | [] => q = q'
  | (a, _, b) :: l' => a = q /\ connected b l' q'
  end.
Definition no_composite_source (env : cenv) (root : cls) : Prop :=
  forall x c, declared env root x -> x_src x = SState c -> ~ composite env c.
