(** The past of a machine: which places were left, and when. *)

From Coq Require Import List Arith NArith Bool.
From Verif Require Import Types Static Dispatch Runtime Spec Semantics Reach.
Import ListNotations.

(** An external row was taken (its effects may have thrown). *)
Definition took (vd : rverdict) : bool :=
  match vd with RFired x | REffectThrew x _ => negb (x_int x) | _ => false end.

(** One departure: the class the machine was in (the parent of region 0), the
    region, the place it left. *)
Record departure := mkDeparture { dp_owner : cls; dp_region : nat; dp_place : place }.

Section Journey.
Context {V W : Type}.
Variable cb : cbfun V W.
Variable m : machine.
Variable vnone : V.

Definition departs (s : rt V W) (r : nat) (vd : rverdict) : list departure :=
  if took vd
  then match at_place m s 0, at_place m s r with
       | Some (p, _), Some pl => [mkDeparture p r pl]
       | _, _ => []
       end
  else [].

(** [journey ds d0 s L]: the machine is in state [s], [L] lists all departures so
    far, newest first.  Steps: construction, one region's turn with some event, a
    change of the queue, user code outside of transitions (the handler of
    unexpected events), set(), set_dependency(). *)
Inductive journey : list dep -> dep -> rt V W -> list departure -> Prop :=
| jo_new fuel d w s : construct m fuel d w = Done tt s -> journey [d] d s []
| jo_turn ds d0 s L r e v vd v' s' : journey ds d0 s L ->
    region_step cb m ds r e v s vd v' s' -> journey ds d0 s' (departs s r vd ++ L)
| jo_queue ds d0 s L q : journey ds d0 s L -> journey ds d0 (with_queue s q) L
| jo_user ds d0 s L w ks : journey ds d0 s L -> journey ds d0 (after s w ks) L
| jo_set ds d0 s L r p q : journey ds d0 s L ->
    is_place (mc_env m) (mc_root m) (p, q) -> r < length (rt_cur s) ->
    journey ds d0 (with_cur s (set_nth r (Some (code m (p, q))) (rt_cur s))) L
| jo_dep ds d0 s L d t : journey ds d0 s L -> fill_dispatch m d (rt_tabs s) = Some t ->
    journey (d :: ds) d0 (with_tabs s t) L.
End Journey.

(** Where class [p] was last left in region [r]: the newest departure with this
    owner and region, else the [r]-th initial state. *)
Definition left_in (p : cls) (r : nat) (a : departure) : bool :=
  Nat.eqb (dp_owner a) p && Nat.eqb (dp_region a) r.
Definition last_left (env : cenv) (p : cls) (r : nat) (L : list departure) : option place :=
  match nth_error (initial_states env p) r with
  | None => None
  | Some i => Some (match find (left_in p r) L with Some a => dp_place a | None => (p, i) end)
  end.
