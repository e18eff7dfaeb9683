(** Rows that are never taken: vocabulary for C71.  Nothing here is a model of code of the
    repository. *)

From Coq Require Import List Arith NArith Bool.
From Verif Require Import Types Static Dispatch Runtime ListFacts IndexFacts Spec DispatchFacts Semantics Reorder.
Import ListNotations.

(** * Candidates that are reached *)

(** Whoever is asked takes the event: a deferral or a row without guard. *)
Definition decisive (c : cand) : bool :=
  match c with CDefer => true | CRow x _ => match x_guard x with NoGuard => true | _ => false end end.
(** The candidates up to the first decisive one. *)
Fixpoint live (cs : list cand) : list cand :=
  match cs with
  | [] => []
  | c :: cs' => c :: (if decisive c then [] else live cs')
  end.

(** * Programs with the same names *)

(** The same members of the classes, initial states, parents, states and events; history,
    completion and deferral are used by both or neither. *)
Record same_frame (env env' : cenv) (root : cls) : Prop := mkSameFrame {
  sf_members : forall c, same_members (lookup env c) (lookup env' c);
  sf_composite : forall c, is_composite env' c = is_composite env c;
  sf_initial : forall c, initial_states env' c = initial_states env c;
  sf_parent : forall p, is_parent env' root p <-> is_parent env root p;
  sf_state : forall s, is_state env' root s <-> is_state env root s;
  sf_event : forall e, event_of env' root e <-> event_of env root e;
  sf_anchored : anchored env' root <-> anchored env root;
  sf_history : (exists x w p, declared env' root x /\ x_tgt x = SHistory w p) <->
    (exists x w p, declared env root x /\ x_tgt x = SHistory w p);
  sf_anonymous : (exists x, declared env' root x /\ x_ev x = ENone) <-> (exists x, declared env root x /\ x_ev x = ENone);
  sf_deferred :
    (exists x c l, declared env' root x /\ unmarked (x_src x) = SState c /\ cd_defer (lookup env' c) = Some l) <->
    (exists x c l, declared env root x /\ unmarked (x_src x) = SState c /\ cd_defer (lookup env c) = Some l) }.

(** In each place the same candidates are reached, in the same order. *)
Definition same_live (env env' : cenv) (root : cls) : Prop :=
  forall e pl cs cs', is_place env root pl ->
  candidate_list env root e pl cs -> candidate_list env' root e pl cs' -> live cs' = live cs.

(** * A row that is never taken *)

(** A later row has its source and event, and no guard. *)
Definition overridden (l2 : list row) (r : row) : Prop :=
  exists r2, In r2 l2 /\ r_src r2 = r_src r /\ r_ev r2 = r_ev r /\ r_guard r2 = NoGuard.
(** Its source defers its event, and is not a composite for whose states the row would
    count. *)
Definition postponed (env : cenv) (r : row) : Prop :=
  (exists k, unmarked (r_src r) = SState k /\ In (r_ev r) (defers env k)) /\
  (forall k, r_src r = SState k -> ~ composite env k).

Definition never_taken (env : cenv) (l2 : list row) (r : row) : Prop := overridden l2 r \/ postponed env r.
(** It leads into no composite. *)
Definition enters_nothing (env : cenv) (r : row) : Prop := forall k, leads_into (r_tgt r) k -> ~ composite env k.
(** Its source, target and event are named by other rows. *)
Record named (l : list row) (r : row) : Prop := mkNamed {
  nm_source : exists r0, In r0 l /\ r_src r0 = r_src r;
  nm_target : exists r0, In r0 l /\ mentions r0 (r_tgt r);
  nm_event : exists r0, In r0 l /\ r_ev r0 = r_ev r }.
(** Its states have no internal rows or are named before. *)
Record in_turn (env : cenv) (c : cls) (l1 : list row) (r : row) : Prop := mkInTurn {
  it_inner : forall s, mentions r s ->
    (forall k, s = SState k -> internals env k = []) \/ exists r0, In r0 l1 /\ mentions r0 s;
  it_written : internals env c = [] \/ forall s, writes r s -> exists r0, In r0 l1 /\ writes r0 s }.
(** Row [r] of class [c], between [l1] and [l2], is not needed. *)
Record idle (env : cenv) (c : cls) (l1 : list row) (r : row) (l2 : list row) : Prop := mkIdle {
  id_never : never_taken env l2 r;
  id_outside : enters_nothing env r;
  id_named : named (l1 ++ l2) r;
  id_turn : in_turn env c l1 r }.

(** [env'] is [env] without a row of which [R] holds; the initial states stay in order. *)
Definition without_by (R : cls -> list row -> row -> list row -> Prop) (env env' : cenv) : Prop :=
  exists c l1 r l2,
    cd_table (lookup env c) = Some (l1 ++ r :: l2) /\
    lookup env' c = with_table (lookup env c) (l1 ++ l2) /\
    (forall k, k <> c -> lookup env' k = lookup env k) /\
    R c l1 r l2 /\ initial_states env' c = initial_states env c.

(** Any number of such rows removed. *)
Inductive cleaned : cenv -> cenv -> Prop :=
| cl_refl env : cleaned env env
| cl_step env env' env'' : cleaned env env' -> without_by (idle env') env' env'' -> cleaned env env''.
