(** Programs with one table and one region, and the machine such a table describes: the
    state is one variable, an event is handled by the rows for it, last row first. *)

From Coq Require Import List Arith NArith Bool.
From Verif Require Import Types Static Dispatch Runtime Spec Semantics.
Import ListNotations.

Record flat (env : cenv) (root : cls) : Prop := mkFlat {
  fl_rows : forall r, In r (table env root) -> r_ev r <> ENone /\
    (exists a, unmarked (r_src r) = SState a /\ ~ composite env a) /\
    exists b, r_tgt r = SState b /\ ~ composite env b;
  fl_one : length (initial_states env root) = 1;
  fl_classes : forall c, internals env c = [] /\ cd_defer (lookup env c) = None /\ cd_defctor (lookup env c) = true }.

(** The same with one region or more. *)
Record one_table (env : cenv) (root : cls) : Prop := mkOneTable {
  ot_rows : forall r, In r (table env root) -> r_ev r <> ENone /\
    (exists a, unmarked (r_src r) = SState a /\ ~ composite env a) /\
    exists b, r_tgt r = SState b /\ ~ composite env b;
  ot_regions : 0 < length (initial_states env root) <= 255;
  ot_classes : forall c, internals env c = [] /\ cd_defer (lookup env c) = None /\ cd_defctor (lookup env c) = true }.

Section Flat.
Context {V W : Type}.
Variable cb : cbfun V W.
Variables (env : cenv) (root : cls) (d : dep).

Definition row_for (q : sref) (e : ev) (r : row) : bool :=
  if sref_eq_dec (unmarked (r_src r)) q then (if ev_eq_dec (r_ev r) e then true else false) else false.
Definition rows_for (q : sref) (e : ev) : list row := rev (filter (row_for q e) (table env root)).

(** The guards are asked in turn. *)
Inductive choice := Nobody | Chosen (r : row) | Objection (n : nat).
Fixpoint choose (q : sref) (e : ev) (rs : list row) (v : V) (w : W) : choice * list (called V) * V * W :=
  match rs with
  | [] => (Nobody, [], v, w)
  | r :: rs' =>
      match r_guard r with
      | NoGuard => (Chosen r, [], v, w)
      | Guard ty val =>
          let a := mkArgs e q (TObj (r_tgt r)) d in
          let k := mkCall (CGuard ty val) a v in
          match cb (CGuard ty val) a v w with
          | Ret true v1 w1 => (Chosen r, [k], v1, w1)
          | Ret false v1 w1 => let '(c, ks, v2, w2) := choose q e rs' v1 w1 in (c, k :: ks, v2, w2)
          | Raise n _ w1 => (Objection n, [k], v, w1)
          end
      end
  end.

(** on_exit of the source (not if it is marked initial), the actions, on_entry of the target. *)
Definition deeds (r : row) : list callee :=
  match r_src r with SState a => if cd_exit (lookup env a) then [CExit a] else [] | _ => [] end ++
  match r_act r with NoAction => [] | Action _ b => callees b end ++
  match r_tgt r with SState b => if cd_entry (lookup env b) then [CEntry b] else [] | _ => [] end.
Fixpoint carry_out (q : sref) (e : ev) (t : sref) (cs : list callee) (v : V) (w : W) : option nat * list (called V) * W :=
  match cs with
  | [] => (None, [], w)
  | c :: cs' =>
      let a := mkArgs e q (TObj t) d in
      match cb c a v w with
      | Ret _ v1 w1 => let '(n, ks, w2) := carry_out q e t cs' v1 w1 in (n, mkCall c a v :: ks, w2)
      | Raise n _ w1 => (Some n, [mkCall c a v], w1)
      end
  end.

(** One event: what the client sees, the calls, the next state. *)
Definition react (q : sref) (e : ev) (v : V) (w : W) : out * list (called V) * sref * W :=
  match rows_for q e with
  | [] =>
      if cd_unexpected (lookup env root)
      then let a := mkArgs e q TNone d in
           match cb CHandler a v w with
           | Ret _ _ w1 => (OBool false, [mkCall CHandler a v], q, w1)
           | Raise n _ w1 => (OExn (XUser n), [mkCall CHandler a v], q, w1)
           end
      else (OBool false, [], q, w)
  | rs =>
      let '(c, ks, v1, w1) := choose q e rs v w in
      match c with
      | Nobody => (OBool false, ks, q, w1)
      | Objection n => (OExn (XUser n), ks, q, w1)
      | Chosen r =>
          let '(n, ks', w2) := carry_out q e (r_tgt r) (deeds r) v1 w1 in
          (match n with None => OBool true | Some n => OExn (XUser n) end, ks ++ ks', r_tgt r, w2)
      end
  end.
Fixpoint reacts (q : sref) (l : list (ev * V)) (w : W) : list out * list (called V) * sref * W :=
  match l with
  | [] => ([], [], q, w)
  | (e, v) :: l' =>
      let '(o, ks, q1, w1) := react q e v w in
      let '(os, ks', q2, w2) := reacts q1 l' w1 in
      (o :: os, ks ++ ks', q2, w2)
  end.
End Flat.

(** The last row for an event decides where it leads. *)
Definition next (env : cenv) (root : cls) (q : sref) (e : ev) : sref :=
  match rows_for env root q e with [] => q | r :: _ => r_tgt r end.

(** The automaton with output: for each event, was there a row; the calls. *)
Fixpoint automaton (env : cenv) (root : cls) (q : sref) (l : list ev) : list bool * list callee * sref :=
  match l with
  | [] => ([], [], q)
  | e :: l' =>
      let '(b, cs) := match rows_for env root q e with [] => (false, []) | r :: _ => (true, deeds env r) end in
      let '(bs, cs', q') := automaton env root (next env root q e) l' in
      (b :: bs, cs ++ cs', q')
  end.
