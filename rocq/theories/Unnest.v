(** A program with composites as a program with one table: a state for every place,
    and in every state a row for every row that can be tried there. For programs in
    which no class has more than one region, without history and without functions
    that create or reuse states. *)

From Coq Require Import List Arith NArith Bool.
From Verif Require Import Types Static Dispatch Runtime ListFacts Spec Semantics EquivUse Interp.
Import ListNotations.

Section Unnest.
Variable env : cenv.
Variable root : cls.
Notation outer := (outer_rows env root).
Notation inner := (inner_rows env root).

(** * Places, events, candidates *)
Definition spots : list place :=
  list_prod (nodup Nat.eq_dec (map x_parent outer))
            (nodup sref_eq_dec (SState root :: flat_map (fun x => [unmarked (x_src x); x_tgt x]) outer)).
(** An anonymous internal row is never looked at in a program that has no anonymous
    row in a table. *)
Definition occasions : list ev :=
  filter (fun e => if ev_eq_dec e ENone then any_anonymous outer else true)
         (nodup ev_eq_dec (map x_ev (outer ++ inner))).
Definition tries (e : ev) (pl : place) : list cand := choices env outer inner e pl.
Definition is_row (c : cand) : bool := match c with CRow _ _ => true | CDefer => false end.
Definition put_off (e : ev) (pl : place) : bool := existsb (fun c => negb (is_row c)) (tries e pl).
Definition begins : place := (root, match initial_states env root with s :: _ => s | [] => SState root end).
Definition leads (pl : place) (x : xrow) : place :=
  if x_int x then pl else match target_place env x with Some t => t | None => pl end.

(** * Code
    What a row tells its guard and what its effects call with which arguments. *)
Definition asked (x : xrow) (o : sref) : nat * nat * sref * sref :=
  match x_guard x with
  | Guard ty val => (ty, val, o, if x_int x then o else target_state env x)
  | NoGuard => (0, 0, o, o)
  end.
Definition called_with (x : xrow) (o : sref) : list (callee * sref * targ) :=
  map (fun p => (p_callee p, o, p_targ p)) (effects env x o).
Definition ask_dec : forall a b : nat * nat * sref * sref, {a = b} + {a <> b}.
Proof. repeat decide equality. Defined.
Definition call_dec : forall a b : callee * sref * targ, {a = b} + {a <> b}.
Proof. decide equality; [apply targ_eq_dec|decide equality; [apply sref_eq_dec|apply callee_eq_dec]]. Defined.
Definition bound_rows : list (xrow * sref) :=
  flat_map (fun x => map (fun po => (x, snd po)) (offers (is_composite env) (children env) x)) (outer ++ inner).
Definition all_asked : list (nat * nat * sref * sref) := map (fun xo => asked (fst xo) (snd xo)) bound_rows.
Definition all_called : list (callee * sref * targ) := flat_map (fun xo => called_with (fst xo) (snd xo)) bound_rows.

(** * The new program *)
Definition one : cls := length spots.
Definition alias (pl : place) : cls := pos place_eq_dec pl spots.
Definition alias_source (pl : place) : sref :=
  if place_eq_dec pl begins then SInitial WState (alias pl) else SState (alias pl).
Definition alias_guard (x : xrow) (o : sref) : guard :=
  match x_guard x with NoGuard => NoGuard | Guard _ _ => Guard (pos ask_dec (asked x o) all_asked) 0 end.
Definition alias_action (x : xrow) (o : sref) : action :=
  match called_with x o with
  | [] => NoAction
  | l => Action 0 (AChain (map (fun c => ACall (pos call_dec c all_called)) l))
  end.
Definition alias_row (e : ev) (pl : place) (c : cand) : list row :=
  match c with
  | CRow x o => [mkRow (alias_source pl) e (alias_guard x o) (alias_action x o) (SState (alias (leads pl x)))]
  | CDefer => []
  end.
Definition rows_here (e : ev) (pl : place) : list row := flat_map (alias_row e pl) (rev (tries e pl)).
Definition one_rows : list row := flat_map (fun pl => flat_map (fun e => rows_here e pl) occasions) spots.
Definition postponed (pl : place) : option (list ev) :=
  match filter (fun e => put_off e pl) occasions with [] => None | l => Some l end.
Definition unnested : cenv :=
  (one, mkCdef (Some one_rows) None false false (cd_unexpected (lookup env root)) None true) ::
  map (fun pl => (alias pl, mkCdef None None false false false (postponed pl) true)) spots.

(** * Which programs *)
Record one_region : Prop := mkOneRegion {
  or_width : forall p, is_parent env root p -> length (initial_states env p) <= 1;
  or_begins : exists r, In r (table env root) /\ marked (r_src r) = true;
  or_history : forall x w p, declared env root x -> x_tgt x <> SHistory w p;
  or_places : forall x pl, declared env root x -> target_place env x = Some pl -> is_parent env root (fst pl);
  or_pointer : forall x ty b, declared env root x \/ declared_internal env root x -> x_act x = Action ty b -> ~ needs_pointer b }.

(** * User code
    The functions of the new program are those of the old one, told what they were
    told there. *)
Definition meant (c : callee) (a : args) : callee * args :=
  match c with
  | CGuard n _ => match nth_error all_asked n with
                  | Some (ty, val, o, t) => (CGuard ty val, mkArgs (a_ev a) o (TObj t) (a_dep a))
                  | None => (c, a)
                  end
  | CAction n => match nth_error all_called n with
                 | Some (c', o, t) => (c', mkArgs (a_ev a) o t (a_dep a))
                 | None => (c, a)
                 end
  | CHandler => match a_src a with
                | SState k => match nth_error spots k with
                              | Some pl => (CHandler, mkArgs (a_ev a) (snd pl) TNone (a_dep a))
                              | None => (c, a)
                              end
                | _ => (c, a)
                end
  | _ => (c, a)
  end.
Definition translated {V W} (cb : cbfun V W) : cbfun V W :=
  fun c a v w => cb (fst (meant c a)) (snd (meant c a)) v w.
Definition in_old_words {V} (k : called V) : called V :=
  mkCall (fst (meant (k_callee k) (k_args k))) (snd (meant (k_callee k) (k_args k))) (k_payload k).
End Unnest.

(** Events of the client and new dependencies: the calls that name no state. *)
Definition plain_call {V} (k : call V) : bool :=
  match k with KProcess (EUser _) _ | KSetDep _ => true | _ => false end.
