(** C84. What user code can cause, with data. *)

From Coq Require Import List Arith NArith Bool Lia.
From Verif Require Import Types Static Dispatch Runtime Dsl Examples Data DataUse Script Explore SymTree SymEquiv SymUse.
Import ListNotations.

(** C84. A call of a state machine object is a finite tree of questions to user code, the
    same for all user code and for all types of data. [x] is the state of the object with
    numbers in place of data ([fill vals] puts the data in), number 0 for the data of the
    anonymous event; every question passes one of the data the call began with or one
    that user code left in an event at an earlier question. *)
Theorem C84_tree : forall m fuel (k : call nat) n (x : rt nat unit), 0 < n -> (forall q, In q (rt_queue x) -> snd q < n) ->
  match k with KProcess _ i => i < n | _ => True end ->
  exists t : tree (plain out), fits n t /\
  forall V W (cb : cbfun V W) vals w tr, do_call cb m (vals 0) fuel (with_payload vals k) (fill vals x w tr) = interp cb n vals t w tr.
Proof. intros m fuel k n x Hn Hx Hk. exact (call_a m fuel k n x Hn Hk Hn Hx). Qed.
Print Assumptions C84_tree.

(** So which data each question passes and which data wait afterwards is decided by the
    answers [p] of user code (yes, no, which exception) and not by data: there is one list
    of numbers [nums] for the questions and one list [waiting] for the events that wait, for
    all user code that gives these answers and all types of data. [known n vals left] are
    the data the call began with, by number, then those user code left behind. The result
    and the rest of the state are decided too. *)
Theorem C84_flow : forall m fuel (k : call nat) n (x : rt nat unit) (p : list reply), 0 < n -> (forall q, In q (rt_queue x) -> snd q < n) ->
  match k with KProcess _ i => i < n | _ => True end ->
  exists nums o c waiting, forall V W (cb : cbfun V W) vals w,
  match do_call_catch cb m (vals 0) fuel (with_payload vals k) (fill vals x w []) with
  | Done o' s => map fst (replies cb w (rt_trace s)) = p ->
      map k_payload (rt_trace s) = map (known n vals (map snd (replies cb w (rt_trace s)))) nums /\ o' = o /\ config_of s = c /\
      map snd (rt_queue s) = map (known n vals (map snd (replies cb w (rt_trace s)))) waiting
  | _ => True
  end.
Proof. exact call_flow. Qed.
Print Assumptions C84_flow.

(** Two events wait, the machine of the test of deferred events gets a third: with numbers
    as data and with lists as data the actions see, in this order, the data of the third and
    of the first, and the data of the second still wait. *)
Definition counts : cbfun nat nat := fun _ _ v w => Ret true (v + 100) (w + v).
Definition lists : cbfun (list bool) unit := fun _ _ v w => Ret true (true :: v) w.
Definition flows {V W} (cb : cbfun V W) (vals : nat -> V) (w : W) : option (list out * list V * list V) :=
  match compile Defer.env 50 with
  | Some m => match construct m 300 0 w with
    | Done _ s => match run cb m (vals 0) 300 (map (with_payload vals) [KProcess (EUser 2) 1; KProcess (EUser 2) 2; KProcess (EUser 1) 3]) s with
      | Done o s => Some (o, map k_payload (rt_trace s), map snd (rt_queue s))
      | _ => None end
    | _ => None end
  | None => None
  end.
Example C84_applies :
  flows counts (fun i => 10 * i) 0 = Some ([F; F; T], [30; 10], [20]) /\
  flows lists (fun i => repeat false i) tt = Some ([F; F; T], [repeat false 3; repeat false 1], [repeat false 2]).
Proof. vm_compute. split; reflexivity. Qed.
