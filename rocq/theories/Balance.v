(** Entries and exits: how often on_entry and on_exit of a class are called, and how many
    regions are in it. *)

From Coq Require Import List Arith NArith Bool.
From Verif Require Import Types Static Dispatch Runtime Spec DispatchFacts Semantics.
Import ListNotations.

Definition who_dec : forall a b : callee, {a = b} + {a <> b}.
Proof. decide equality; apply Nat.eq_dec. Defined.

(** How often user code [k] is called. *)
Definition times {V} (k : callee) (t : list (called V)) : nat := count_occ who_dec (map k_callee t) k.

(** A place in class [c]: the state is [c], or the enclosing composite is. *)
Definition at_class (c : cls) (pl : place) : bool :=
  Nat.eqb (fst pl) c || match snd pl with SState d => Nat.eqb d c | _ => false end.
(** The number of regions that are in class [c]. *)
Definition regions_at {V W} (m : machine) (s : rt V W) (c : cls) : nat :=
  length (filter (fun r => match at_place m s r with Some pl => at_class c pl | None => false end)
                 (seq 0 (length (rt_cur s)))).

(** Only guards and the handler of unexpected events throw. *)
Definition only_guards_throw {V W} (cb : cbfun V W) : Prop := forall k a v w n v' w',
  cb k a v w = Raise n v' w' -> (exists ty val, k = CGuard ty val) \/ k = CHandler.

(** Every row that leads into [c] is written with target state<c>, or with target state<p>
    for a composite p whose first initial state is [c]: not with *state<c>, entry<..> or
    direct<..>, not with a history state, and not in the table of [c] itself with a source
    outside of [c]. *)
Record entered_by_name (env : cenv) (root c : cls) : Prop := mkEntered {
  eb_entry : has_entry env c = true;
  eb_history : forall x w p, declared env root x -> x_tgt x <> SHistory w p;
  eb_targets : forall x, declared env root x ->
    match x_tgt x with
    | SInitial _ d => d <> c
    | SEntry _ p d | SDirect _ p d => p <> c /\ d <> c
    | _ => True
    end;
  eb_inner : forall x, declared env root x -> x_parent x = c ->
    match x_src x with
    | SState d => ~ composite env d
    | SExit _ _ _ => False
    | SDirect _ p _ => p = c
    | _ => True
    end }.

(** Every row that leads out of [c] is written with source state<c>, or exit<c,..> if [c] is
    a composite: not with *state<c>, direct<..>, exit<p,c>, not with a composite around [c]
    as source, and not in the table of [c] itself; and no internal row runs on_entry of
    [c]. *)
Record left_by_name (env : cenv) (root c : cls) : Prop := mkLeft {
  lb_exit : has_exit env c = true;
  lb_history : forall x w p, declared env root x -> x_tgt x <> SHistory w p;
  lb_sources : forall x, declared env root x ->
    match x_src x with
    | SInitial _ d | SExit _ _ d => d <> c
    | SDirect _ p d => p <> c /\ d <> c
    | SState d => d = c \/ (composite env d -> ~ child env d (SState c))
    | _ => True
    end;
  lb_targets : forall x w, declared env root x -> x_tgt x <> SInitial w c;
  lb_inner : forall x, declared env root x -> x_parent x = c ->
    match x_tgt x with
    | SState d => ~ composite env d
    | SEntry _ p _ | SDirect _ p _ => p = c
    | _ => True
    end;
  lb_internal : forall x d, declared_internal env root x -> x_tgt x = SState d -> composite env d ->
    first_initial env d <> Some (SState c) }.

(** The checks, for a compiled machine. *)
Definition entered_ok (m : machine) (c : cls) : bool :=
  has_entry (mc_env m) c &&
  forallb (fun x =>
    match x_tgt x with
    | SInitial _ d => negb (Nat.eqb d c)
    | SEntry _ p d | SDirect _ p d => negb (Nat.eqb p c) && negb (Nat.eqb d c)
    | SHistory _ _ => false
    | _ => true
    end &&
    (negb (Nat.eqb (x_parent x) c) ||
     match x_src x with
     | SState d => negb (is_composite (mc_env m) d)
     | SExit _ _ _ => false
     | SDirect _ p _ => Nat.eqb p c
     | _ => true
     end)) (mc_flat m).
Definition left_ok (m : machine) (c : cls) : bool :=
  has_exit (mc_env m) c &&
  forallb (fun x =>
    match x_src x with
    | SInitial _ d | SExit _ _ d => negb (Nat.eqb d c)
    | SDirect _ p d => negb (Nat.eqb p c) && negb (Nat.eqb d c)
    | SState d => Nat.eqb d c || negb (is_composite (mc_env m) d) ||
        negb (if in_dec sref_eq_dec (SState c) (child_typeids (mc_env m) d) then true else false)
    | _ => true
    end &&
    match x_tgt x with SInitial _ d => negb (Nat.eqb d c) | SHistory _ _ => false | _ => true end &&
    (negb (Nat.eqb (x_parent x) c) ||
     match x_tgt x with
     | SState d => negb (is_composite (mc_env m) d)
     | SEntry _ p _ | SDirect _ p _ => Nat.eqb p c
     | _ => true
     end)) (mc_flat m) &&
  forallb (fun x => match x_tgt x with
    | SState d => negb (is_composite (mc_env m) d) ||
        match first_initial (mc_env m) d with Some i => negb (if sref_eq_dec i (SState c) then true else false) | None => true end
    | _ => true
    end) (internal_flat m).
