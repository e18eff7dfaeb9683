(** Saving a machine and restoring it in a new one with set and set_dependency (sm.h 132-154 and 169-173,
    modelled by set_state and set_dependency in Runtime.v). set writes the place of one
    region and nothing else. *)

From Coq Require Import List Arith NArith Bool.
From Verif Require Import Types Static Dispatch Runtime Spec DispatchFacts Semantics Reach Graph.
Import ListNotations.

Inductive makes : abody -> Prop :=
| ma_create f : makes (ACreate f)
| ma_chain b l : In b l -> makes b -> makes (AChain l).

(** No history states and no create_state: a machine that keeps nothing but its places,
    its dependencies and the waiting events. *)
Record restorable (env : cenv) (root : cls) : Prop := mkRestorable {
  re_history : no_history env root;
  re_makes : forall x ty b, declared env root x \/ declared_internal env root x -> x_act x = Action ty b -> ~ makes b }.

(** The calls that bring a new machine, made with the first dependencies, into state [s]:
    the later dependencies [ds] in their order, then every region to its place. *)
Definition restoring {V W} (m : machine) (ds : list dep) (s : rt V W) : list (call V) :=
  map KSetDep (tl (rev ds)) ++
  flat_map (fun r => match at_place m s r with Some pl => [KSet r (fst pl) (snd pl)] | None => [] end)
           (seq 0 (length (rt_cur s))).

(** [s] with user data [w] and without what happened before. *)
Definition anew {V W} (w : W) (s : rt V W) : rt V W :=
  mkRt (rt_cur s) (rt_hist s) (rt_queue s) (rt_regions s) (rt_live s) (rt_tabs s) (rt_htabs s) w [].

(** A run seen without the first [n] calls of user code, after the results [os]. *)
Definition later {V W} (n : nat) (os : list out) (r : res V W (list out)) : res V W (list out) :=
  match r with
  | Done os' s => Done (os ++ os') (mkRt (rt_cur s) (rt_hist s) (rt_queue s) (rt_regions s) (rt_live s) (rt_tabs s) (rt_htabs s)
                                        (rt_world s) (skipn n (rt_trace s)))
  | Threw x s => Threw x s
  | Undef u => Undef u
  | Timeout => Timeout
  end.
