(** UML state machines, as far as the programs of this library can be read as such: nested
    states with one region each, rows between the states of one table, internal rows,
    completion transitions, on_entry and on_exit.  Written without the library in mind, for
    any depth of nesting. *)

From Coq Require Import List Arith Bool.
From Verif Require Import Types Static Dispatch Runtime Spec Semantics.
Import ListNotations.

(** * UML *)
Section Uml.
Variable env : cenv.
Variable root : cls.

(** The active states, outermost first. *)
Definition config := list cls.

(** What is entered below [s]: the initial states, down to a state without table. *)
Inductive default_path : cls -> config -> Prop :=
| dp_leaf s : ~ composite env s -> default_path s []
| dp_down s i l : composite env s -> initial_states env s = [SState i] -> default_path i l -> default_path s (i :: l).

Definition exits (l : config) : list callee := flat_map (fun c => if has_exit env c then [CExit c] else []) (rev l).
Definition entries (l : config) : list callee := flat_map (fun c => if has_entry env c then [CEntry c] else []) l.
Definition acts (a : action) : list callee := match a with NoAction => [] | Action _ b => callees b end.

(** A transition about [e] that starts in the active state [s], [n] levels down: its guard,
    its calls and the active states afterwards.  All states from the innermost up to [s] are
    left, then comes the action, then all states from the target down are entered.  Completion
    transitions start in states without active states below. *)
Inductive transition (e : ev) (k : config) : nat -> guard -> list callee -> config -> Prop :=
| ut_external up s below r t l :
    k = up ++ s :: below -> In r (table env (last up root)) -> unmarked (r_src r) = SState s -> r_ev r = e ->
    (e = ENone -> below = []) -> r_tgt r = SState t -> default_path t l ->
    transition e k (length up) (r_guard r) (exits (s :: below) ++ acts (r_act r) ++ entries (t :: l)) (up ++ t :: l)
| ut_internal up s below i :
    k = up ++ s :: below -> In i (internals env s) -> i_ev i = e -> (e = ENone -> below = []) ->
    transition e k (length up) (i_guard i) (acts (i_act i)) k.

(** [G]: which guards hold.  One of the enabled transitions that start innermost is taken. *)
Definition step (G : guard -> bool) (e : ev) (k : config) (calls : list callee) (k' : config) : Prop :=
  exists n g, transition e k n g calls k' /\ G g = true /\
    forall n' g' calls' k'', transition e k n' g' calls' k'' -> G g' = true -> n' <= n.
Definition stuck (G : guard -> bool) (e : ev) (k : config) : Prop :=
  forall n g calls k', transition e k n g calls k' -> G g = false.

(** ** With user code *)
Context {V W : Type}.
Variable cb : cbfun V W.
Variable says : nat -> nat -> V -> W -> bool.
Variable vnone : V.

(** The guards look at the event and at the data of user code, and change neither. *)
Definition pure : Prop := forall ty val a v w, cb (CGuard ty val) a v w = Ret (says ty val v w) v w.
Definition throws_nothing : Prop := forall k a v w n v' w', cb k a v w <> Raise n v' w'.
Definition holds (v : V) (w : W) (g : guard) : bool := match g with NoGuard => true | Guard ty val => says ty val v w end.

(** User code, called one after the other.  What it does to the event is seen by the calls
    that follow; factories get a copy. *)
Definition keeps (k : callee) : bool := match k with CFactory _ | CReuse _ => false | _ => true end.
Inductive plays : list (called V) -> V -> W -> V -> W -> Prop :=
| pl_nil v w : plays [] v w v w
| pl_call k t w b v1 w1 v' w' : cb (k_callee k) (k_args k) (k_payload k) w = Ret b v1 w1 ->
    plays t (if keeps (k_callee k) then v1 else k_payload k) w1 v' w' -> plays (k :: t) (k_payload k) w v' w'.

Definition does (e : ev) (v : V) (k : config) (w : W) (t : list (called V)) (v' : V) (k' : config) (w' : W) : Prop :=
  step (holds v w) e k (map k_callee t) k' /\ plays t v w v' w'.
(** Completion transitions, until none is enabled. *)
Inductive completes : V -> config -> W -> list (called V) -> config -> W -> Prop :=
| co_stuck v k w : stuck (holds v w) ENone k -> completes v k w [] k w
| co_more v k w t v1 k1 w1 t' k' w' : does ENone v k w t v1 k1 w1 -> completes v1 k1 w1 t' k' w' -> completes v k w (t ++ t') k' w'.
(** An event: a transition and the completion transitions after it. *)
Definition reacts (e : ev) (v : V) (k : config) (w : W) (t : list (called V)) (v' : V) (k' : config) (w' : W) : Prop :=
  exists t1 k1 w1 t2, does e v k w t1 v' k1 w1 /\ completes vnone k1 w1 t2 k' w' /\ t = t1 ++ t2.
End Uml.

(** * The programs that can be read that way *)
Record uml_like (env : cenv) (root : cls) : Prop := {
  (* sources and targets are states *)
  ul_rows : forall p r, used env root p -> In r (table env p) -> (exists s, unmarked (r_src r) = SState s) /\ exists t, r_tgt r = SState t;
  (* only the table of the root mentions states with tables, and each of them is a target *)
  ul_depth : forall p s, used env root p -> child env p (SState s) -> composite env s -> p = root /\ used env root s;
  (* one initial state per table; the marked source has no table and no on_exit *)
  ul_initial : forall p, used env root p -> exists i, initial_states env p = [SState i];
  ul_marked : forall p r w s, used env root p -> In r (table env p) -> r_src r = SInitial w s -> ~ composite env s /\ has_exit env s = false;
  (* a row that leaves a composite does not leave a state with on_exit *)
  ul_exits : forall r c s, In r (table env root) -> r_src r = SState c -> composite env c -> child env c (SState s) -> has_exit env s = false;
  (* the events of a composite are not the events of the states in it *)
  ul_levels_rows : forall r c, In r (table env root) -> unmarked (r_src r) = SState c -> composite env c ->
    (forall r', In r' (table env c) -> r_ev r' <> r_ev r) /\ (forall s i, child env c (SState s) -> In i (internals env s) -> i_ev i <> r_ev r);
  ul_levels_internal : forall i c, child env root (SState c) -> composite env c -> In i (internals env c) ->
    (forall r', In r' (table env c) -> r_ev r' <> i_ev i) /\ (forall s i', child env c (SState s) -> In i' (internals env s) -> i_ev i' <> i_ev i);
  (* completion transitions are external and start neither in composites nor in the first state *)
  ul_named_rows : forall r c, In r (table env root) -> unmarked (r_src r) = SState c -> composite env c -> r_ev r <> ENone;
  ul_named_internal : forall i c, In i (internals env c) -> i_ev i <> ENone;
  ul_start : forall r s, initial_states env root = [SState s] -> In r (table env root) -> unmarked (r_src r) = SState s -> r_ev r <> ENone;
  (* no internal rows of the root, no two internal rows with the same types, no deferral *)
  ul_root : internals env root = [];
  ul_types : forall c i i', In i (internals env c) -> In i' (internals env c) -> i_ev i = i_ev i' -> guard_ty (i_guard i) = guard_ty (i_guard i') ->
    action_ty (i_act i) = action_ty (i_act i') -> i = i';
  ul_defer : forall p s, used env root p -> child env p (SState s) -> defers env s = [] }.

(** The active states of a place. *)
Inductive config_at (root : cls) : place -> config -> Prop :=
| ca_top s : config_at root (root, SState s) [s]
| ca_inner c s : c <> root -> config_at root (c, SState s) [c; s].

(** What remains of the calls without the questions to guards and the report of unexpected events. *)
Definition is_deed (k : callee) : bool := match k with CGuard _ _ | CHandler => false | _ => true end.
Definition deeds {V} (t : list (called V)) : list (called V) := filter (fun k => is_deed (k_callee k)) t.
(** The machine is in configuration [k]. *)
Definition in_config {V W} (m : machine) (root : cls) (s : rt V W) (k : config) : Prop :=
  exists pl, at_place m s 0 = Some pl /\ config_at root pl k.

(** * A check *)
Section Check.
Variables (env : cenv) (root : cls).
Definition comps : list cls := root :: filter (is_composite env) (map fst env).
Definition kids (p : cls) : list sref := flat_map (fun r => [unmarked (r_src r); r_tgt r]) (table env p).
Definition all_kids (p : cls) (f : cls -> bool) : bool := forallb (fun q => match q with SState s => f s | _ => true end) (kids p).
Definition leaf_state (q : sref) (f : cls -> bool) : bool := match q with SState s => f s | _ => false end.
Definition ev_eqb (a b : ev) : bool := if ev_eq_dec a b then true else false.
(** No row and no internal row about [e] in composite [c]. *)
Definition silent_inside (c : cls) (e : ev) : bool :=
  forallb (fun r => negb (ev_eqb (r_ev r) e)) (table env c) && all_kids c (fun s => forallb (fun i => negb (ev_eqb (i_ev i) e)) (internals env s)).
Fixpoint apart_types (l : list irow) : bool :=
  match l with
  | [] => true
  | i :: l' => forallb (fun i' => negb (ev_eqb (i_ev i) (i_ev i') && (if onat_eq_dec (guard_ty (i_guard i)) (guard_ty (i_guard i')) then true else false) &&
      (if onat_eq_dec (action_ty (i_act i)) (action_ty (i_act i')) then true else false))) l' && apart_types l'
  end.
Definition uml_ok : bool :=
  forallb (fun p => forallb (fun r => leaf_state (unmarked (r_src r)) (fun _ => true) && leaf_state (r_tgt r) (fun _ => true)) (table env p)) comps &&
  forallb (fun p => all_kids p (fun s => negb (is_composite env s) || (Nat.eqb p root && existsb (fun r => leaf_state (r_tgt r) (Nat.eqb s)) (table env root)))) comps &&
  forallb (fun p => match initial_states env p with [SState _] => true | _ => false end) comps &&
  forallb (fun p => forallb (fun r => match r_src r with SInitial _ s => negb (is_composite env s) && negb (has_exit env s) | _ => true end) (table env p)) comps &&
  forallb (fun r => match r_src r with SState c => negb (is_composite env c) || all_kids c (fun s => negb (has_exit env s)) | _ => true end) (table env root) &&
  forallb (fun r => match unmarked (r_src r) with SState c => negb (is_composite env c) || (silent_inside c (r_ev r) && negb (ev_eqb (r_ev r) ENone)) | _ => true end) (table env root) &&
  all_kids root (fun c => negb (is_composite env c) || forallb (fun i => silent_inside c (i_ev i)) (internals env c)) &&
  forallb (fun c => forallb (fun i => negb (ev_eqb (i_ev i) ENone)) (internals env c) && apart_types (internals env c)) (map fst env) &&
  match initial_states env root with
  | [SState s] => forallb (fun r => if sref_eq_dec (unmarked (r_src r)) (SState s) then negb (ev_eqb (r_ev r) ENone) else true) (table env root)
  | _ => false
  end &&
  match internals env root with [] => true | _ => false end &&
  forallb (fun p => all_kids p (fun s => match defers env s with [] => true | _ => false end)) comps.
End Check.
