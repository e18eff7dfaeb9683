(** Data members of states: what user code makes of the world, and whose data a call can
    reach. *)

From Coq Require Import List Arith NArith Bool.
From Verif Require Import Types Static Dispatch Runtime Spec DispatchFacts Semantics.
Import ListNotations.

(** What one call of user code makes of the world, and what a list of calls does. *)
Definition world_after {V W} (cb : cbfun V W) (w : W) (k : called V) : W :=
  match cb (k_callee k) (k_args k) (k_payload k) w with Ret _ _ w' | Raise _ _ w' => w' end.
Definition world_after_all {V W} (cb : cbfun V W) (ks : list (called V)) (w : W) : W := fold_left (world_after cb) ks w.

(** The object of state [q] is an argument: the source, or the target (the object or the
    pointer to it). *)
Definition given (a : args) (q : sref) : Prop := a_src a = q \/ a_tgt a = TObj q \/ a_tgt a = TPtr q.
(** Factory [f] makes objects of state [q]: create_state(f) is an action of a row with this
    target. *)
Definition makes (env : cenv) (root : cls) (f : nat) (q : sref) : Prop :=
  exists x, (declared env root x \/ declared_internal env root x) /\ In (CFactory f) (action_calls x) /\ target_state env x = q.
(** A call that can reach the data of [q]. *)
Definition reaches {V} (env : cenv) (root : cls) (q : sref) (k : called V) : Prop :=
  given (k_args k) q \/ exists f, k_callee k = CFactory f /\ makes env root f q.

(** [data] are the data members of the object of state [q]: only user code that gets the
    object, or makes it, changes them. *)
Definition members {V W D} (cb : cbfun V W) (env : cenv) (root : cls) (q : sref) (data : W -> D) : Prop :=
  forall k w, ~ reaches env root q k -> data (world_after cb w k) = data w.

(** Row [x] with source object [o] is about [q]: source, target, or an action that creates
    an object of [q]. *)
Definition about (env : cenv) (root : cls) (x : xrow) (o q : sref) : Prop :=
  o = q \/ target_state env x = q \/ exists f, In (CFactory f) (action_calls x) /\ makes env root f q.

(** No row has the object of [q] as source or target, and there is no handler of unexpected
    events: the check, for a compiled machine. *)
Definition out_of_reach (m : machine) (q : sref) : bool :=
  forallb (fun x => (if sref_eq_dec (snd (source_place x)) q then false else true) &&
                    (if sref_eq_dec (target_state (mc_env m) x) q then false else true))
          (mc_flat m ++ flat_map (internal_of_pair (mc_env m)) (state_pairs m)) &&
  negb (cd_unexpected (lookup (mc_env m) (mc_root m))).
