(** Properties of the helper headers: case selection (C55), iteration and the table of
    initial states (C56), index maps (C57), collection of actions (C58). *)

From Coq Require Import List Arith NArith Bool.
From Verif Require Import Types Static Dispatch Dsl Examples Spec Semantics Helpers HelperFacts.
Import ListNotations.

(** C55. switch_ returns the function of the first case whose predicate holds; it
    compiles if there is one.  lazy_switch_ does the same with the evaluated
    predicates. *)
Theorem C55_first_case : forall A (cases : list (bool * A)) f,
  switch_ cases = Some f <->
  exists before after, cases = before ++ (true, f) :: after /\ forall c, In c before -> fst c = false.
Proof. exact switch_first. Qed.
Print Assumptions C55_first_case.

Theorem C55_no_case : forall A (cases : list (bool * A)),
  switch_ cases = None <-> forall c, In c cases -> fst c = false.
Proof. exact switch_none. Qed.
Print Assumptions C55_no_case.

Theorem C55_lazy : forall A (cases : list ((unit -> bool) * A)),
  lazy_switch_ cases = switch_ (map (fun c => (fst c tt, snd c)) cases).
Proof. exact lazy_switch_eval. Qed.
Print Assumptions C55_lazy.

(** A switch that ends with otherwise compiles and falls back on its function exactly if
    no other case holds. *)
Theorem C55_otherwise : forall A (cases : list (bool * A)) f,
  switch_ (cases ++ [(otherwise, f)]) = Some (match switch_ cases with Some g => g | None => f end).
Proof. exact @switch_otherwise. Qed.
Print Assumptions C55_otherwise.

Theorem C55_lazy_otherwise : forall A (cases : list ((unit -> bool) * A)) f,
  lazy_switch_ (cases ++ [(lazy_otherwise, f)]) = Some (match lazy_switch_ cases with Some g => g | None => f end).
Proof. exact @lazy_switch_otherwise. Qed.
Print Assumptions C55_lazy_otherwise.

(** unit/switch_tests.cpp, and a switch with two true cases. *)
Example C55_applies :
  switch_ [(true, 1); (otherwise, 2)] = Some 1 /\ switch_ [(false, 1); (otherwise, 2)] = Some 2 /\
  lazy_switch_ [(fun _ => true, 1); (lazy_otherwise, 2)] = Some 1 /\
  lazy_switch_ [(fun _ => false, 1); (lazy_otherwise, 2)] = Some 2 /\
  switch_ [(false, 1); (true, 2); (true, 3); (otherwise, 4)] = Some 2 /\ switch_ [(false, 1)] = None.
Proof. repeat split. Qed.

(** C56. for_each calls the closure once per element, in order, and stops at the first
    exception, which it passes on. *)
Theorem C56_for_each : forall A S X (closure : A -> S -> S * option X) l log s,
  exists done rest,
  for_each (logged closure) l (log, s) =
    ((log ++ done, fst (for_each closure l s)), snd (for_each closure l s)) /\
  l = done ++ rest /\
  match snd (for_each closure l s) with
  | None => rest = []
  | Some x => exists before a s0, done = before ++ [a] /\ for_each closure before s = (s0, None) /\
              closure a s0 = (fst (for_each closure l s), Some x)
  end.
Proof. exact @for_each_logged. Qed.
Print Assumptions C56_for_each.

(** for_each_idx does the same with the elements numbered from 0. *)
Theorem C56_for_each_idx : forall A S X (closure : A -> N -> S -> S * option X) l s,
  for_each_idx closure l s =
  for_each (fun p => closure (fst p) (snd p)) (combine l (map N.of_nat (seq 0 (length l)))) s.
Proof. exact for_each_idx_numbered. Qed.
Print Assumptions C56_for_each_idx.

(** The loops that fill the table of initial states end without exception and leave,
    at the number of every parent, the numbers of its initial states in order, whatever
    was in the table before. *)
Theorem C56_initial_table : forall env root m, compile env root = Some m ->
  forall table, length table = n_parents m ->
  exists result, fill_initial_state_table m table = (result, None) /\ length result = n_parents m /\
  forall p, is_parent env root p ->
    nth_error result (N.to_nat (parent_idx m p)) = Some (map (combined_idx m p) (initial_states env p)).
Proof. exact fill_initial_names. Qed.
Print Assumptions C56_initial_table.

(** The table that the run-time model uses is the one the loops leave. *)
Theorem C56_model_table : forall m table, length table = n_parents m ->
  fill_initial_state_table m table = (initial_table m, None).
Proof. exact fill_initial. Qed.
Print Assumptions C56_model_table.

(** unit/for_each_tests.cpp; an exception at the third element; two parents with two
    and one initial states. *)
Example C56_applies :
  for_each (X := unit) (fun a l => (l ++ [a], None)) [0; 1; 2; 3; 4] [] = ([0; 1; 2; 3; 4], None) /\
  for_each (fun a l => (l ++ [a], if Nat.eqb a 2 then Some tt else None)) [0; 1; 2; 3; 4] [] = ([0; 1; 2], Some tt) /\
  for_each_idx (X := unit) (fun a i l => (l ++ [(a, i)], None)) [7; 7; 5] [] = ([(7, 0%N); (7, 1%N); (5, 2%N)], None).
Proof. repeat split. Qed.
Example C56_fills :
  let env := [ (50, tbl [se_to (st_event (star_state 1) (EUser 0)) (state 60);
                         se_to (st_event (star_state 2) (EUser 0)) (state 1)]);
               (60, tbl [se_to (st_event (star_state 3) (EUser 0)) (state 4)]) ] in
  match compile env 50 with
  | Some m => fill_initial_state_table m [[9%N]; []] = ([[0%N; 4%N]; [8%N]], None) /\ n_states m = 6%N
  | None => False
  end.
Proof. vm_compute. split; reflexivity. Qed.

(** C57. make_index_map sends every type to its first position, and agrees with index_of
    on tuples without repetition. *)
Theorem C57_first_position : forall K dec (l : list K) k n,
  map_find dec k (make_index_map dec l) = Some n <->
  exists i, n = N.of_nat i /\ nth_error l i = Some k /\ forall j, j < i -> nth_error l j <> Some k.
Proof. exact index_map_first. Qed.
Print Assumptions C57_first_position.

Theorem C57_absent : forall K dec (l : list K) k,
  map_find dec k (make_index_map dec l) = None <-> ~ In k l.
Proof. exact index_map_absent. Qed.
Print Assumptions C57_absent.

Theorem C57_index_of : forall K dec (l : list K) k, NoDup l -> (N.of_nat (length l) < two64)%N -> In k l ->
  map_find dec k (make_index_map dec l) = Some (index_of dec l k).
Proof. exact index_map_index_of. Qed.
Print Assumptions C57_index_of.

(** With repetitions index_of adds the positions up and is not an index. *)
Theorem C57_repeated_refuted : exists l : list nat,
  map_find Nat.eq_dec 7 (make_index_map Nat.eq_dec l) = Some 0%N /\
  index_of Nat.eq_dec l 7 = 18446744073709551615%N.
Proof. exists [7; 7]. vm_compute. split; reflexivity. Qed.
Print Assumptions C57_repeated_refuted.

(** unit/index_map_tests.cpp. *)
Example C57_applies :
  map_find Nat.eq_dec 1 (make_index_map Nat.eq_dec [1; 2]) = Some 0%N /\
  map_find Nat.eq_dec 2 (make_index_map Nat.eq_dec [1; 2]) = Some 1%N /\
  index_of Nat.eq_dec [1; 2] 1 = 0%N /\ index_of Nat.eq_dec [1; 2] 2 = 1%N.
Proof. vm_compute. repeat split. Qed.

(** C58. The collected actions are, of every type of action, the first one in the order
    in which the rows are visited; no type is collected twice, no row is left out. *)
Theorem C58_first_of_type : forall env root m, compile env root = Some m ->
  forall flat, visits env root (table env root) flat ->
  forall a, In a (collect_actions m) <->
  exists l1 x l2, flat = l1 ++ x :: l2 /\ x_act x = a /\ forall y, In y l1 -> action_ty (x_act y) <> action_ty a.
Proof. exact actions_first. Qed.
Print Assumptions C58_first_of_type.

Theorem C58_no_repetition : forall env root m, compile env root = Some m -> NoDup (collect_action_typeids m).
Proof. exact actions_once. Qed.
Print Assumptions C58_no_repetition.

Theorem C58_complete : forall env root m, compile env root = Some m ->
  forall p r, used env root p -> In r (table env p) ->
  exists a, In a (collect_actions m) /\ action_ty a = action_ty (r_act r).
Proof. exact actions_cover. Qed.
Print Assumptions C58_complete.

(** Two functors of one type (the first wins), a sub machine, and a row without action. *)
Example C58_applies :
  let env := [ (50, tbl [sea_to (st_ea (star_state 1) (event_action (EUser 0) (Action 4 (ACall 1)))) (state 60);
                         se_to (st_event (state 60) (EUser 0)) (state 1)]);
               (60, tbl [sea_to (st_ea (star_state 3) (event_action (EUser 0) (Action 4 (ACall 2)))) (state 3);
                         sea_to (st_ea (state 3) (event_action (EUser 1) (Action 5 (ACall 2)))) (state 3)]) ] in
  match compile env 50 with
  | Some m => collect_actions m = [Action 4 (ACall 1); Action 5 (ACall 2); NoAction]
  | None => False
  end.
Proof. vm_compute. reflexivity. Qed.
