(** Machines whose states are not all default constructible: conditions under which
    the objects made by create_state exist when they are needed. *)

From Coq Require Import List Arith NArith Bool.
From Verif Require Import Types Static Dispatch Runtime Spec DispatchFacts Semantics Reach Safe.
Import ListNotations.

Section Creation.
Variables (env : cenv) (root : cls).
(** The objects promised to exist while a region is in a place, besides those of the
    default-constructible states. *)
Variable promise : place -> sref -> Prop.
(** User functions that do not throw. *)
Variable steady : callee -> Prop.

Definition present (pl : place) (q : sref) : Prop :=
  default_constructible env q = true \/ promise pl q.

(** Taking row [x] with source object [o] makes the object of [q], whatever may throw
    after that. *)
Definition makes (x : xrow) (o : sref) (q : sref) : Prop :=
  exists before p after, effects env x o = before ++ p :: after /\ p_makes p = Some q /\
    forall p', In p' (before ++ [p]) -> steady (p_callee p').

(** Every promise is kept:
    - nothing is promised for places the machine starts in or may enter by an
      untouched history;
    - guards find both objects, actions their source object;
    - a reused object exists or is created by an earlier part of the same action;
    - what is promised for the target of a row was promised for its source or is
      made by the row;
    - with an unexpected-event handler the current state always has an object. *)
Record keeps_promises : Prop := mkKeepsPromises {
  kp_start : forall i q, In i (initial_states env root) -> promise (root, i) q ->
     default_constructible env q = true;
  kp_history : (exists x w p, declared env root x /\ x_tgt x = SHistory w p) ->
     forall p i q, is_parent env root p -> In i (initial_states env p) -> promise (p, i) q ->
     default_constructible env q = true;
  kp_guard : forall e pl x o ty val, offered env root e pl (CRow x o) -> x_guard x = Guard ty val ->
     present pl o /\ present pl (if x_int x then o else target_state env x);
  kp_action : forall e pl x o, offered env root e pl (CRow x o) -> touches env x -> present pl o;
  kp_reuse : forall e pl x o before p after f, offered env root e pl (CRow x o) ->
     effects env x o = before ++ p :: after -> p_callee p = CReuse f ->
     present pl (target_state env x) \/
     exists p', In p' before /\ p_makes p' = Some (target_state env x);
  kp_arrive : forall e pl x o pl' q, offered env root e pl (CRow x o) ->
     x_int x = false -> (forall w p, x_tgt x <> SHistory w p) ->
     target_place env x = Some pl' -> promise pl' q -> present pl q \/ makes x o q;
  kp_handler : cd_unexpected (lookup env root) = true ->
     forall pl, is_place env root pl -> present pl (snd pl) }.

(** Calls of set go to places for which nothing is promised. *)
Definition modest {V} (k : call V) : Prop :=
  match k with
  | KSet _ p q => forall q', promise (p, q) q' -> default_constructible env q' = true
  | _ => True
  end.
End Creation.

(** Steady functions do not throw; factories return an object when they return. *)
Definition reliable {V W} (steady : callee -> Prop) (cb : cbfun V W) : Prop :=
  (forall c a v w n v' w', steady c -> cb c a v w <> Raise n v' w') /\
  (forall f a v w b v' w', cb (CFactory f) a v w = Ret b v' w' -> b = true).

(** * The check *)
Section Check.
Variable m : machine.
Notation env := (mc_env m).
Variable promise : place -> list sref.
Variable steady : callee -> bool.

Definition present_b (pl : place) (q : sref) : bool :=
  defctor env q || memb sref_eq_dec q (promise pl).

Definition is_reuse (c : callee) : bool := match c with CReuse _ => true | _ => false end.
Definition makes_it (t : sref) (p : prim) : bool :=
  match p_makes p with Some q => if sref_eq_dec q t then true else false | None => false end.

(** No reuse before the first creation of [t], unless [have]. *)
Fixpoint reuse_check (t : sref) (have : bool) (ps : list prim) : bool :=
  match ps with
  | [] => true
  | p :: ps' => (have || negb (is_reuse (p_callee p))) && reuse_check t (have || makes_it t p) ps'
  end.
(** [t] is created before anything that may throw. *)
Fixpoint makes_check (t : sref) (ps : list prim) : bool :=
  match ps with
  | [] => false
  | p :: ps' => steady (p_callee p) && (makes_it t p || makes_check t ps')
  end.

Definition promise_check (pl : place) (c : cand) : bool :=
  match c with
  | CDefer => true
  | CRow x o =>
      let t := target_state env x in
      match x_guard x with
      | NoGuard => true
      | Guard _ _ => present_b pl o && present_b pl (if x_int x then o else t)
      end
      && (negb (has_action env x) || present_b pl o)
      && reuse_check t (present_b pl t) (effects env x o)
      && (x_int x || is_history (x_tgt x) ||
          match target_place env x with
          | None => true
          | Some pl' => forallb (fun q => present_b pl q || makes_check q (effects env x o)) (promise pl')
          end)
  end.

Definition creation_check : bool :=
  forallb (fun i => forallb (defctor env) (promise (mc_root m, i))) (initials env (mc_root m))
  && (negb (has_history m) ||
      forallb (fun p => forallb (fun i => forallb (defctor env) (promise (p, i))) (initials env p)) (parents m))
  && forallb (fun e => forallb (fun pl => forallb (promise_check pl) (cands m e pl))
                               (list_prod (parents m) (states m))) (events m)
  && (negb (cd_unexpected (lookup env (mc_root m)))
      || forallb (fun pl => present_b pl (snd pl)) (list_prod (parents m) (states m))).
End Check.
