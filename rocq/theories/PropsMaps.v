(** C94: the maps built at compile time. *)

From Coq Require Import List Arith NArith Bool.
From Verif Require Import Types Static Dispatch Runtime Spec DispatchFacts Semantics Reach ReachFacts Helpers Dsl Examples Demo
  Maps MapsFacts.
Import ListNotations.

(** make_states_map is defined exactly if no table of the machine names the root. *)
Theorem C94_defined : forall env root fuel flat, flatten fuel env root = Some flat ->
  (exists mp, make_states_map (mkMachine env root flat) = Some mp) <->
  (forall p, used env root p -> ~ child env p (SState root)).
Proof. exact states_map_iff. Qed.
Print Assumptions C94_defined.

(** In a program that compiles it maps every state, and nothing else, to an object of that
    state's class; the pointer is null exactly if the class has no default constructor. *)
Theorem C94_states : forall env root m, compile env root = Some m -> exists mp, make_states_map m = Some mp /\
  (forall s, map_find sref_eq_dec s mp = Some (mkObject s (negb (default_constructible env s))) <-> is_state env root s) /\
  (forall s, map_find sref_eq_dec s mp = None <-> ~ is_state env root s).
Proof. exact states_map_compiled. Qed.
Print Assumptions C94_states.

(** These are the objects of a new machine. *)
Theorem C94_objects : forall env root m, compile env root = Some m ->
  forall V W fuel d w (s : rt V W), construct m fuel d w = Done tt s ->
  exists mp, make_states_map m = Some mp /\
  forall q, (exists o, map_find sref_eq_dec q mp = Some o /\ o_null o = false) <-> In q (rt_live s).
Proof. exact made_live. Qed.
Print Assumptions C94_objects.

(** There is one table for each event; its elements are in the initial state, and its
    indices are the indices of the places. *)
Theorem C94_tables : forall env root m, compile env root = Some m -> forall A (a : A),
  exists t, make_tables m a = Some t /\
  (forall e, (exists arr, get_table t e = Some arr) <-> event_of env root e) /\
  (forall e arr, get_table t e = Some arr -> (forall x, In x arr -> x = a) /\
     forall i, i < length arr <-> exists p q, is_place env root (p, q) /\ N.to_nat (combined_idx m p q) = i).
Proof. exact tables_made. Qed.
Print Assumptions C94_tables.

(** The tables that the constructor fills. *)
Theorem C94_filled : forall m, make_dispatch_tables m = Some (empty_tables m).
Proof. exact dispatch_tables_made. Qed.
Print Assumptions C94_filled.
(** The loops that fill the tables of handlers of unexpected events find every state's
    object, leave at every place the handler with the object of its state, and these are the
    tables that the model fills at once. *)
Theorem C94_handlers : forall env root m, compile env root = Some m -> forall d, exists mp t0 t,
  make_states_map m = Some mp /\ make_handler_tables m = Some t0 /\
  fill_handlers_in m mp d t0 = Some t /\ fill_handlers m d = Some t /\
  (forall e p q, event_of env root e -> is_place env root (p, q) -> exists arr,
     get_table t e = Some arr /\ nth_error arr (N.to_nat (combined_idx m p q)) = Some (Some (q, d))).
Proof. exact handlers_placed. Qed.
Print Assumptions C94_handlers.

(** A composite, and a state without default constructor. *)
Module Objects.
Definition env : cenv :=
 [ (2, mkCdef None None false false false None false);
   (11, tbl [ se_to (st_event (star_state 1) (EUser 2)) (state 2) ]);
   (50, tbl [ se_to (st_event (star_state 1) (EUser 1)) (state 11) ]) ].
Example compiles : exists m, compile env 50 = Some m /\
  make_states_map m = Some [ (SState 1, mkObject (SState 1) false); (SState 11, mkObject (SState 11) false);
                             (SState 2, mkObject (SState 2) true); (SState 50, mkObject (SState 50) false) ] /\
  exists s : rt nat nat, construct m 10 0 0 = Done tt s /\ rt_live s = [SState 1; SState 11; SState 50].
Proof. eexists. split; [vm_compute; reflexivity|]. split; [vm_compute; reflexivity|]. eexists. split; vm_compute; reflexivity. Qed.
Example tables : exists m t arr, compile env 50 = Some m /\ make_dispatch_tables m = Some t /\
  get_table t (EUser 2) = Some arr /\ length arr = 8 /\ get_table t (EUser 3) = None.
Proof. do 3 eexists. split; [vm_compute; reflexivity|]. split; [vm_compute; reflexivity|]. split; [vm_compute; reflexivity|]. split; reflexivity. Qed.
End Objects.

(** A table with a row that starts in the root: everything else could be built. *)
Module Own.
Definition env : cenv :=
 [ (50, tbl [ se_to (st_event (star_state 1) (EUser 1)) (state 2); se_to (st_event (state 50) (EUser 2)) (state 1) ]) ].
Example named : child env 50 (SState 50).
Proof. eexists. split; [right; left; reflexivity|left; reflexivity]. Qed.
Example rejected : exists flat, flatten 5 env 50 = Some flat /\ make_states_map (mkMachine env 50 flat) = None.
Proof. eexists. split; vm_compute; reflexivity. Qed.
End Own.
