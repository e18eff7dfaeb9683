(** Merging the states of a one-table program that no client and no user code can tell
    apart. *)

From Coq Require Import List Arith NArith Bool.
From Verif Require Import Types Static Dispatch Runtime Spec Semantics Flat EquivUse.
Import ListNotations.

(** User code that is not told the states. [lab] says which code a name stands for: two
    states can have the same on_entry. The code sees the event, its data, the dependency
    and all data of the program. *)
Definition naming := callee -> callee.
Definition code (V W : Type) := callee -> ev -> dep -> V -> W -> @cbres V W.
Definition behind {V W} (lab : naming) (f : code V W) : cbfun V W := fun c a v w => f (lab c) (a_ev a) (a_dep a) v w.
(** What such code is told. *)
Definition told {V} (lab : naming) (k : called V) : callee * ev * dep * V :=
  (lab (k_callee k), a_ev (k_args k), a_dep (k_args k), k_payload k).

(** A row as such code sees it: the guard, the calls, the target. *)
Definition move := (option callee * list callee * sref)%type.
Definition guard_name (lab : naming) (g : guard) : option callee :=
  match g with NoGuard => None | Guard ty val => Some (lab (CGuard ty val)) end.

Section Merge.
Variables (lab : naming) (env : cenv) (root : cls).

Definition move_of (r : row) : move := (guard_name lab (r_guard r), map lab (deeds env r), r_tgt r).
(** What follows a row without a guard is never tried. *)
Fixpoint cut (l : list move) : list move :=
  match l with
  | [] => []
  | x :: l' => match fst (fst x) with None => [x] | Some _ => x :: cut l' end
  end.
Definition moves (q : sref) (e : ev) : list move := cut (map move_of (rows_for env root q e)).
Definition entries (q : sref) : list callee :=
  match q with SState b => if cd_entry (lookup env b) then [lab (CEntry b)] else [] | _ => [] end.

Definition all_states : list sref :=
  match first_initial env root with Some i => i :: children env root | None => children env root end.
Definition all_events : list ev := map r_ev (table env root).

Definition pair_dec : forall a b : sref * sref, {a = b} + {a <> b}.
Proof. decide equality; apply sref_eq_dec. Defined.
Definition names_dec : forall a b : option callee * list callee, {a = b} + {a <> b}.
Proof. decide equality; [apply list_eq_dec, callee_eq_dec|]. decide equality; apply callee_eq_dec. Defined.

(** Two lists of rows are alike if they lead to pairs of [P]. *)
Fixpoint agree (P : list (sref * sref)) (l1 l2 : list move) : bool :=
  match l1, l2 with
  | [], [] => true
  | x :: l1', y :: l2' =>
      (if names_dec (fst x) (fst y) then true else false) &&
      (if in_dec pair_dec (snd x, snd y) P then true else false) && agree P l1' l2'
  | _, _ => false
  end.
Definition consistent (P : list (sref * sref)) (p : sref * sref) : bool :=
  forallb (fun e => agree P (moves (fst p) e) (moves (snd p) e)) all_events.
(** Pairs of states that can be told apart are removed until none is left. *)
Fixpoint settle (n : nat) (P : list (sref * sref)) : list (sref * sref) :=
  match n with
  | 0 => P
  | S n' =>
      let P' := filter (consistent P) P in
      if Nat.eqb (length P') (length P) then P else settle n' P'
  end.
Definition start : list (sref * sref) :=
  filter (fun p => if list_eq_dec callee_eq_dec (entries (fst p)) (entries (snd p)) then true else false) (list_prod all_states all_states).
Definition equals : list (sref * sref) := settle (length start) start.

(** Each state is replaced by the first state it cannot be told from. *)
Definition stand_in (P : list (sref * sref)) (q : sref) : sref :=
  match find (fun x => if in_dec pair_dec (q, x) P then true else false) all_states with Some x => x | None => q end.
Definition merged_row (P : list (sref * sref)) (r : row) : row :=
  mkRow (r_src r) (r_ev r) (r_guard r) (r_act r) (stand_in P (r_tgt r)).
Definition keeps_row (P : list (sref * sref)) (r : row) : bool :=
  if sref_eq_dec (stand_in P (unmarked (r_src r))) (unmarked (r_src r)) then true else false.
Definition merged_table : list row :=
  let P := equals in map (merged_row P) (filter (keeps_row P) (table env root)).
(** The program with the merged table. *)
Definition merged : cenv :=
  let c := lookup env root in
  (root, mkCdef (Some merged_table) (cd_internal c) (cd_entry c) (cd_exit c) (cd_unexpected c) (cd_defer c) (cd_defctor c)) :: env.
End Merge.

(** User code whose guards read their verdicts from the data of the event. *)
Definition is_guard (c : callee) : bool := match c with CGuard _ _ => true | _ => false end.
Definition keeps_kind (lab : naming) : Prop := forall c, is_guard (lab c) = is_guard c.
Definition verdicts : code (list bool) unit := fun c _ _ v w =>
  if is_guard c then match v with [] => Ret true [] w | b :: v' => Ret b v' w end else Ret true v w.
(** A second program that answers all clients as the first does, at least with this
    user code. *)
Definition imitates (lab : naming) (env : cenv) (root : cls) (m : machine) (lab' : naming) (m' : machine) : Prop :=
  exists enough, forall fuel l, enough <= fuel -> Forall (fun ev => event_of env root (fst ev)) l ->
  exists outs s s',
    session (behind lab verdicts) m [] fuel 0 tt (map (fun ev => KProcess (fst ev) (snd ev)) l) = Done outs s /\
    session (behind lab' verdicts) m' [] fuel 0 tt (map (fun ev => KProcess (fst ev) (snd ev)) l) = Done outs s' /\
    map (told lab') (rt_trace s') = map (told lab) (rt_trace s).
(** The states some rows lead to, from the initial state on. *)
Inductive led_to (lab : naming) (env : cenv) (root : cls) : sref -> Prop :=
| led_start i : first_initial env root = Some i -> led_to lab env root i
| led_row q e x : led_to lab env root q -> In x (moves lab env root q e) -> led_to lab env root (snd x).
