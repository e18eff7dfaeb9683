(** One table with several regions: the states of the regions are a list; an event is given
    to the regions in turn (cf. Flat.v). *)

From Coq Require Import List Arith NArith Bool.
From Verif Require Import Types Static Dispatch Runtime Spec Semantics Flat.
Import ListNotations.

(** What one region does with an event. *)
Inductive turn := Idle | Refusing | Moving | Failing (n : nat).
Definition moving (t : turn) : bool := match t with Moving => true | _ => false end.
Definition idle (t : turn) : bool := match t with Idle => true | _ => false end.
Fixpoint failure (ts : list turn) : option nat :=
  match ts with [] => None | Failing n :: _ => Some n | _ :: ts' => failure ts' end.

Section Joint.
Context {V W : Type}.
Variable cb : cbfun V W.
Variables (env : cenv) (root : cls) (d : dep).

Fixpoint carry_on (q : sref) (e : ev) (t : sref) (cs : list callee) (v : V) (w : W) : option nat * list (called V) * V * W :=
  match cs with
  | [] => (None, [], v, w)
  | c :: cs' =>
      let a := mkArgs e q (TObj t) d in
      match cb c a v w with
      | Ret _ v1 w1 => let '(n, ks, v2, w2) := carry_on q e t cs' v1 w1 in (n, mkCall c a v :: ks, v2, w2)
      | Raise n _ w1 => (Some n, [mkCall c a v], v, w1)
      end
  end.
Definition turn_of (q : sref) (e : ev) (v : V) (w : W) : turn * list (called V) * sref * V * W :=
  match rows_for env root q e with
  | [] => (Idle, [], q, v, w)
  | rs =>
      let '(c, ks, v1, w1) := choose cb d q e rs v w in
      match c with
      | Nobody => (Refusing, ks, q, v1, w1)
      | Objection n => (Failing n, ks, q, v1, w1)
      | Chosen r =>
          let '(n, ks', v2, w2) := carry_on q e (r_tgt r) (deeds env r) v1 w1 in
          (match n with None => Moving | Some n => Failing n end, ks ++ ks', r_tgt r, v2, w2)
      end
  end.
(** The regions in turn; the event object goes from one to the next; an exception ends the
    round. *)
Fixpoint round (qs : list sref) (e : ev) (v : V) (w : W) : list turn * list (called V) * list sref * V * W :=
  match qs with
  | [] => ([], [], [], v, w)
  | q :: qs' =>
      let '(t, ks, q1, v1, w1) := turn_of q e v w in
      match t with
      | Failing _ => ([t], ks, q1 :: qs', v1, w1)
      | _ => let '(ts, ks', qs1, v2, w2) := round qs' e v1 w1 in (t :: ts, ks ++ ks', q1 :: qs1, v2, w2)
      end
  end.
Definition joint (qs : list sref) (e : ev) (v : V) (w : W) : out * list (called V) * list sref * W :=
  let '(ts, ks, qs', v', w') := round qs e v w in
  match failure ts with
  | Some n => (OExn (XUser n), ks, qs', w')
  | None =>
      if existsb moving ts then (OBool true, ks, qs', w')
      else if forallb idle ts && cd_unexpected (lookup env root)
      then let a := mkArgs e (hd (SState root) qs) TNone d in
           match cb CHandler a v' w' with
           | Ret _ _ w1 => (OBool false, ks ++ [mkCall CHandler a v'], qs', w1)
           | Raise n _ w1 => (OExn (XUser n), ks ++ [mkCall CHandler a v'], qs', w1)
           end
      else (OBool false, ks, qs', w')
  end.
Fixpoint joints (qs : list sref) (l : list (ev * V)) (w : W) : list out * list (called V) * list sref * W :=
  match l with
  | [] => ([], [], qs, w)
  | (e, v) :: l' =>
      let '(o, ks, qs1, w1) := joint qs e v w in
      let '(os, ks', qs2, w2) := joints qs1 l' w1 in
      (o :: os, ks ++ ks', qs2, w2)
  end.
End Joint.

(** * Guards that only look at their arguments (they may change the event and the user data) *)
Definition guards_say {V W} (cb : cbfun V W) (G : nat -> nat -> args -> bool) : Prop :=
  forall ty val a v w, exists v' w', cb (CGuard ty val) a v w = Ret (G ty val a) v' w'.
Section Apart.
Variables (env : cenv) (root : cls) (d : dep).
Variable G : nat -> nat -> args -> bool.

Definition says_yes (q : sref) (e : ev) (r : row) : bool :=
  match r_guard r with NoGuard => true | Guard ty val => G ty val (mkArgs e q (TObj (r_tgt r)) d) end.
Definition chosen (q : sref) (e : ev) : option row := find (says_yes q e) (rows_for env root q e).
(** Where one region goes. *)
Definition go (q : sref) (e : ev) : sref := match chosen q e with Some r => r_tgt r | None => q end.
(** What it calls. *)
Fixpoint asked (q : sref) (e : ev) (rs : list row) : list callee :=
  match rs with
  | [] => []
  | r :: rs' =>
      match r_guard r with
      | NoGuard => []
      | Guard ty val => CGuard ty val :: if says_yes q e r then [] else asked q e rs'
      end
  end.
Definition calls_of (q : sref) (e : ev) : list callee :=
  asked q e (rows_for env root q e) ++ match chosen q e with Some r => deeds env r | None => [] end.

(** All regions: each on its own. *)
Definition answers (qs : list sref) (e : ev) : bool := existsb (fun q => match chosen q e with Some _ => true | None => false end) qs.
Definition nobody (qs : list sref) (e : ev) : bool := forallb (fun q => match rows_for env root q e with [] => true | _ => false end) qs.
Definition all_calls (qs : list sref) (e : ev) : list callee :=
  flat_map (fun q => calls_of q e) qs ++ if nobody qs e && cd_unexpected (lookup env root) then [CHandler] else [].
Fixpoint product (qs : list sref) (l : list ev) : list bool * list callee :=
  match l with
  | [] => ([], [])
  | e :: l' => let (bs, cs) := product (map (fun q => go q e) qs) l' in (answers qs e :: bs, all_calls qs e ++ cs)
  end.
End Apart.

(** Tables that differ in the marks of initial states only. *)
Definition unmark (r : row) : row := mkRow (unmarked (r_src r)) (r_ev r) (r_guard r) (r_act r) (r_tgt r).

(** A program with one region that has the rows of this one and starts in i. *)
Record alone (env : cenv) (root : cls) (i : sref) (env' : cenv) (root' : cls) : Prop := mkAlone {
  al_flat : flat env' root';
  al_rows : map unmark (table env' root') = map unmark (table env root);
  al_initial : first_initial env' root' = Some i }.
(** One program for each region. *)
Definition parts_of (env : cenv) (root : cls) (parts : list (cenv * cls * machine)) : Prop :=
  Forall2 (fun i p => let '(env', root', m') := p in alone env root i env' root' /\ compile env' root' = Some m') (initial_states env root) parts.
(** The k-th answer is true. *)
Definition says (os : list out) (k : nat) : bool := match nth_error os k with Some (OBool b) => b | _ => false end.
