(** Where the regions of a machine can be: graphs on places, and a check for them. *)

From Coq Require Import List Arith NArith Bool.
From Verif Require Import Types Static Dispatch Runtime Spec DispatchFacts Semantics Reach Safe Exact.
Import ListNotations.

Section Graph.
Variables (env : cenv) (root : cls).

(** Where a row can lead region [r] that has not been there before: to its target; if
    the target is a history, to the initial state its parent has for region [r]. *)
Inductive leads (r : nat) (x : xrow) : place -> Prop :=
| le_target pl : (forall w p, x_tgt x <> SHistory w p) -> target_place env x = Some pl -> leads r x pl
| le_history w p i : x_tgt x = SHistory w p -> nth_error (initial_states env p) r = Some i ->
    leads r x (p, i).

(** The places region [r] can get to from the places [start] by rows that can be
    taken: all rows tried before have guards. *)
Inductive visitable (r : nat) (start : place -> Prop) : place -> Prop :=
| vi_start pl : start pl -> visitable r start pl
| vi_row e pl x o pl' : visitable r start pl -> possible env root e pl (CRow x o) -> x_int x = false ->
    leads r x pl' -> visitable r start pl'.

(** The places the constructor and the client put region [r] into.  (The argument of
    set is a size_t, the library's region counter is eight bits wide.) *)
Inductive put {V} (ks : list (call V)) (r : nat) : place -> Prop :=
| pu_initial i : nth_error (initial_states env root) r = Some i -> put ks r (root, i)
| pu_set r' p q : In (KSet r' p q) ks -> to_region r' = r -> put ks r (p, q).

(** * One region, exactly *)
Definition single : Prop := forall p, is_parent env root p -> length (initial_states env p) <= 1.
Definition no_history : Prop := ~ exists x w p, declared env root x /\ x_tgt x = SHistory w p.

Definition goes (x : xrow) (pl pl' : place) : Prop :=
  if x_int x then pl' = pl else target_place env x = Some pl'.
Definition completion : Prop := exists x, declared env root x /\ x_ev x = ENone.

(** [arrives pl]: the region can be in [pl] after a row was taken and before the
    anonymous rows have been asked there; [stays pl]: it can be there between two
    events. *)
Inductive arrives : place -> Prop :=
| av_event e pl x o pl' : stays pl -> possible env root e pl (CRow x o) -> goes x pl pl' -> arrives pl'
| av_anonymous pl x o pl' : arrives pl -> completion -> possible env root ENone pl (CRow x o) ->
    goes x pl pl' -> arrives pl'
with stays : place -> Prop :=
| sy_start i : first_initial env root = Some i -> stays (root, i)
| sy_incomplete pl : arrives pl -> ~ completion -> stays pl
| sy_refused pl cs : arrives pl -> candidate_list env root ENone pl cs -> Forall guarded cs -> stays pl.
End Graph.

(** The states of a machine after the calls [ks], between calls and during a call. *)
Section Client.
Context {V W : Type}.
Variable cb : cbfun V W.
Variable m : machine.
Variable vnone : V.

Inductive client : list (call V) -> list dep -> dep -> rt V W -> Prop :=
| cl_new fuel d w s : construct m fuel d w = Done tt s -> client [] [d] d s
| cl_call fuel ks ds d0 s k o s' :
    client ks ds d0 s -> do_call_catch cb m vnone fuel k s = Done o s' ->
    client (ks ++ [k]) (deps_after k ds) d0 s'.

Inductive amid (ks : list (call V)) (ds : list dep) (d0 : dep) : rt V W -> Prop :=
| am_start s : client ks ds d0 s -> amid ks ds d0 s
| am_region s r e v tv s' :
    amid ks ds d0 s -> try_region cb m r e v s = Done tv s' -> amid ks ds d0 s'
| am_anonymous s r v bv s' :
    amid ks ds d0 s -> anonymous_region cb m r v s = Done bv s' -> amid ks ds d0 s'
| am_recall s e v q :
    amid ks ds d0 s -> rt_queue s = (e, v) :: q -> amid ks ds d0 (with_queue s q).
End Client.

(** User code that throws nothing. *)
Definition never_throws {V W} (cb : cbfun V W) : Prop :=
  forall c a v w n v' w', cb c a v w <> Raise n v' w'.
Definition never_sets {V} (ks : list (call V)) : Prop := forall r p q, ~ In (KSet r p q) ks.

(** * The check *)
Definition leads_in (env : cenv) (r : nat) (R : list place) (x : xrow) : bool :=
  match x_tgt x with
  | SHistory _ p => match nth_error (initial_states env p) r with
                    | Some i => memb place_eq_dec (p, i) R
                    | None => true
                    end
  | _ => match target_place env x with Some pl => memb place_eq_dec pl R | None => true end
  end.
(** [R] contains the place region [r] starts in and is closed under the rows that can
    be taken. *)
Definition closed_check (m : machine) (r : nat) (R : list place) : bool :=
  match nth_error (initial_states (mc_env m) (mc_root m)) r with
  | Some i => memb place_eq_dec (mc_root m, i) R
  | None => true
  end
  && forallb (fun pl => forallb (fun e => forallb (fun c =>
       match c with
       | CRow x _ => x_int x || leads_in (mc_env m) r R x
       | CDefer => true
       end) (reached_at m e pl)) (events m)) R.

(** [A] and [S] contain the places where the only region arrives and stays. *)
Definition goes_in (env : cenv) (A : list place) (pl : place) (c : cand) : bool :=
  match c with
  | CRow x _ => if x_int x then memb place_eq_dec pl A
                else match target_place env x with Some pl' => memb place_eq_dec pl' A | None => true end
  | CDefer => true
  end.
Definition rest_check (m : machine) (A S : list place) : bool :=
  match first_initial (mc_env m) (mc_root m) with
  | Some i => memb place_eq_dec (mc_root m, i) S
  | None => true
  end
  && forallb (fun pl => forallb (fun e => forallb (goes_in (mc_env m) A pl) (reached_at m e pl)) (events m)) S
  && forallb (fun pl =>
       if has_anonymous m
       then forallb (goes_in (mc_env m) A pl) (reached_at m ENone pl)
            && (negb (forallb guarded_b (cands m ENone pl)) || memb place_eq_dec pl S)
       else memb place_eq_dec pl S) A.
