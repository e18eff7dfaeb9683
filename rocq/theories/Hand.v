(** State machines written by hand: one variable for the state, one function for each event,
    in it a switch over the states (benchmark/complex/switch.cpp, variant.cpp). *)

From Coq Require Import List Arith NArith Bool.
From Verif Require Import Types Static Dispatch Runtime Spec Semantics Flat.
Import ListNotations.

(** What stands in such a function.  A call is a call of user code with the event, the state
    of the case and the target written there. *)
Inductive stmt :=
| Skip
| Then (a b : stmt)
| Call (c : callee) (t : targ)
| Assign (q : sref)                                   (* state = q; *)
| If (ty val : nat) (t : targ) (a b : stmt).        (* if (guard()) { a } else { b } *)

(** switch (state) { case q: ...; default: ... } *)
Record switch := mkSwitch { sw_cases : list (sref * stmt); sw_default : stmt }.
Fixpoint case_of (l : list (sref * stmt)) (q : sref) : option stmt :=
  match l with
  | [] => None
  | (q', a) :: l' => if sref_eq_dec q q' then Some a else case_of l' q
  end.
Definition branch (s : switch) (q : sref) : stmt :=
  match case_of (sw_cases s) q with Some a => a | None => sw_default s end.

Section Run.
Context {V W : Type}.
Variable cb : cbfun V W.
Variable d : dep.

(** [q0]: the state of the case.  An exception leaves the function at once; the variable
    keeps the value it has.  The result: the exception, the calls, the variable, the event
    object, user data. *)
Fixpoint exec (q0 : sref) (e : ev) (a : stmt) (q : sref) (v : V) (w : W) : option nat * list (called V) * sref * V * W :=
  match a with
  | Skip => (None, [], q, v, w)
  | Then a b =>
      let '(n, ks, q1, v1, w1) := exec q0 e a q v w in
      match n with
      | Some n => (Some n, ks, q1, v1, w1)
      | None => let '(n, ks', q2, v2, w2) := exec q0 e b q1 v1 w1 in (n, ks ++ ks', q2, v2, w2)
      end
  | Call c t =>
      let x := mkArgs e q0 t d in
      match cb c x v w with
      | Ret _ v1 w1 => (None, [mkCall c x v], q, v1, w1)
      | Raise n v1 w1 => (Some n, [mkCall c x v], q, v1, w1)
      end
  | Assign q1 => (None, [], q1, v, w)
  | If ty val t a b =>
      let x := mkArgs e q0 t d in
      let k := mkCall (CGuard ty val) x v in
      match cb (CGuard ty val) x v w with
      | Ret true v1 w1 => let '(n, ks, q1, v2, w2) := exec q0 e a q v1 w1 in (n, k :: ks, q1, v2, w2)
      | Ret false v1 w1 => let '(n, ks, q1, v2, w2) := exec q0 e b q v1 w1 in (n, k :: ks, q1, v2, w2)
      | Raise n v1 w1 => (Some n, [k], q, v1, w1)
      end
  end.

(** A program: the function of each event.  The caller of [handle] catches exceptions and
    goes on with the next event. *)
Definition program := ev -> switch.
Definition handle (p : program) (q : sref) (e : ev) (v : V) (w : W) : option nat * list (called V) * sref * W :=
  let '(n, ks, q', _, w') := exec q e (branch (p e) q) q v w in (n, ks, q', w').
Fixpoint handles (p : program) (q : sref) (l : list (ev * V)) (w : W) : list (option nat) * list (called V) * sref * W :=
  match l with
  | [] => ([], [], q, w)
  | (e, v) :: l' =>
      let '(n, ks, q1, w1) := handle p q e v w in
      let '(ns, ks', q2, w2) := handles p q1 l' w1 in
      (n :: ns, ks ++ ks', q2, w2)
  end.
End Run.

(** What the client of the library sees of an exception. *)
Definition thrown (o : out) : option nat := match o with OExn (XUser n) => Some n | _ => None end.

(** The program a table stands for, in two versions: the variable is assigned before the
    actions or, as in benchmark/complex/switch.cpp 174-186, after them. *)
Inductive version := Before | After.

Section Written.
Variables (env : cenv) (root : cls).

Fixpoint calls (t : sref) (cs : list callee) : stmt :=
  match cs with [] => Skip | c :: cs' => Then (Call c (TObj t)) (calls t cs') end.
Definition body (o : version) (r : row) : stmt :=
  match o with
  | Before => Then (Assign (r_tgt r)) (calls (r_tgt r) (deeds env r))
  | After => Then (calls (r_tgt r) (deeds env r)) (Assign (r_tgt r))
  end.
Fixpoint chain (o : version) (rs : list row) : stmt :=
  match rs with
  | [] => Skip
  | r :: rs' =>
      match r_guard r with
      | NoGuard => body o r
      | Guard ty val => If ty val (TObj (r_tgt r)) (body o r) (chain o rs')
      end
  end.
Definition cases (e : ev) : list sref :=
  nodup sref_eq_dec (map (fun r => unmarked (r_src r)) (filter (fun r => if ev_eq_dec (r_ev r) e then true else false) (table env root))).
(** The last row of the table is the first if. *)
Definition by_hand (o : version) : program := fun e =>
  mkSwitch (map (fun q => (q, chain o (rows_for env root q e))) (cases e))
           (if cd_unexpected (lookup env root) then Call CHandler TNone else Skip).
End Written.

(** User code that lets no exception out of on_exit, actions and on_entry (guards and the
    handler of unexpected events may throw). *)
Definition deeds_return {V W} (cb : cbfun V W) : Prop :=
  forall c a v w, match c with CGuard _ _ => True | CHandler => True | _ => exists b v' w', cb c a v w = Ret b v' w' end.

(** benchmark/complex/switch.cpp 112-873, with [n] instead of 50 states (S1 is 0) and events:
    handle(const ek&) has the one case Sk:
      if (guard()) { action(); state = S(k+1); }
    and the last leads to S1.  (main, 875-877, declares c sm; which leaves the variable without
    a value, and reads it: undefined.  Here it starts as S1.) *)
Definition bench_next (n k : nat) : sref := SState (if Nat.eq_dec k n then 0 else k).
Definition bench_switch (n : nat) : program := fun e =>
  match e with
  | EUser (S k) => mkSwitch [ (SState k, If 1 0 (TObj (bench_next n (S k)))
                     (Then (Call (CAction 0) (TObj (bench_next n (S k)))) (Assign (bench_next n (S k)))) Skip) ] Skip
  | _ => mkSwitch [] Skip
  end.
(** benchmark/complex/variant.cpp 126-889: std::visit instead of switch, and
      if (guard()) action();
      state = S(k+1) {}; *)
Definition bench_variant (n : nat) : program := fun e =>
  match e with
  | EUser (S k) => mkSwitch [ (SState k, Then (If 1 0 (TObj (bench_next n (S k)))
                     (Call (CAction 0) (TObj (bench_next n (S k)))) Skip) (Assign (bench_next n (S k)))) ] Skip
  | _ => mkSwitch [] Skip
  end.
