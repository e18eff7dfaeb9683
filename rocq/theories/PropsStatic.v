(** Properties of the compile-time part: acceptance (C37), numbering of places
    (C30), which rows are tried where (C03, C14, C15, C41) and in which order
    (C04).  Vocabulary: Spec.v, Semantics.v. *)

From Coq Require Import List Arith NArith Bool.
From Verif Require Import Types Static Dispatch Runtime Dsl Examples Spec DispatchFacts Semantics Reach
  StaticFacts TableFacts Demo.
Import ListNotations.

(** C37. A program is accepted exactly if it satisfies the listed conditions:
    non-empty root table, no recursive nesting, an initial state, leaf initial
    states of the root without internal table, all endpoints are states of the
    machine, history parents are composites, deferred events are used, the root is
    not one of its own states, and the places can be counted in 64 bits. *)
Theorem C37_acceptance : forall env root,
  (exists m, compile env root = Some m) <-> compiles env root.
Proof. exact compile_compiles. Qed.
Print Assumptions C37_acceptance.

Example C37_accepts : compiles Basic.env Basic.Main.
Proof. apply C37_acceptance. eexists. vm_compute. reflexivity. Qed.
(** A composite that contains itself. *)
Example C37_rejects : ~ compiles [(1, tbl [se_to (st_event (star_state 2) (EUser 1)) (state 1)])] 1.
Proof. intros H. apply C37_acceptance in H. destruct H as [m H]. vm_compute in H. discriminate. Qed.

(** C30. *)
Theorem C30_index_of_place : forall env root m, compile env root = Some m -> forall p s,
  is_parent env root p -> is_state env root s ->
  combined_idx m p s = (parent_idx m p * n_states m + state_idx m s)%N /\
  calc_combined_idx (n_states m) (parent_idx m p) (state_idx m s) = combined_idx m p s /\
  calc_parent_idx (n_states m) (combined_idx m p s) = parent_idx m p /\
  calc_state_idx (n_states m) (combined_idx m p s) = state_idx m s /\
  (combined_idx m p s < N.of_nat (n_parents m) * n_states m)%N.
Proof. exact index_facts. Qed.
Print Assumptions C30_index_of_place.

Theorem C30_index_injective : forall env root m, compile env root = Some m -> forall p s q t,
  is_place env root (p, s) -> combined_idx m p s = combined_idx m q t -> p = q /\ s = t.
Proof. exact index_inj. Qed.
Print Assumptions C30_index_injective.

Theorem C30_index_onto : forall env root m, compile env root = Some m -> forall k,
  (k < N.of_nat (n_parents m) * n_states m)%N ->
  exists p s, is_place env root (p, s) /\ combined_idx m p s = k.
Proof. exact index_onto. Qed.
Print Assumptions C30_index_onto.

(** Places that do not exist get the first number behind the array. *)
Theorem C30_index_absent : forall env root m, compile env root = Some m -> forall p s,
  ~ is_place env root (p, s) -> combined_idx m p s = (N.of_nat (n_parents m) * n_states m)%N.
Proof. exact index_absent. Qed.
Print Assumptions C30_index_absent.

(** The two factors are the numbers of parents and of states. *)
Theorem C30_index_range : forall env root m, compile env root = Some m -> exists ps ss,
  NoDup ps /\ NoDup ss /\
  (forall p, In p ps <-> is_parent env root p) /\ (forall s, In s ss <-> is_state env root s) /\
  n_parents m = length ps /\ n_states m = N.of_nat (length ss) /\
  (N.of_nat (length ps) * N.of_nat (length ss) < two64)%N.
Proof. exact index_sizes. Qed.
Print Assumptions C30_index_range.

Example C30_applies : exists m, compile Basic.env Basic.Main = Some m /\
  (n_parents m, n_states m, combined_idx m Basic.Sub (SState Basic.S3)) = (3, 6%N, 8%N).
Proof. eexists. split; vm_compute; reflexivity. Qed.

(** C03. In every reachable state the dispatch table lists, for every event and
    place, the candidates of that place, once per dependency given so far (newest
    first), ... *)
Theorem C03_rows_tried : forall V W (cb : cbfun V W) env root m vnone,
  compile env root = Some m -> few_regions env root ->
  forall ds d0 s e p q, reachable cb m vnone ds d0 s ->
  In e (events m) -> is_place env root (p, q) ->
  exists cs l, candidate_list env root e (p, q) cs /\
    tget (rt_tabs s) e (combined_idx m p q) = Some l /\
    Forall2 (describes m) (flat_map (fun d => map (pair d) cs) ds) l.
Proof. exact @rows_tried. Qed.
Print Assumptions C03_rows_tried.

(** ... that list is determined by the program, ... *)
Theorem C03_list_exists : forall env root m, compile env root = Some m ->
  forall e pl, exists cs, candidate_list env root e pl cs.
Proof. exact list_exists. Qed.
Print Assumptions C03_list_exists.
Theorem C03_list_unique : forall env root m, compile env root = Some m ->
  forall e pl cs cs', candidate_list env root e pl cs -> candidate_list env root e pl cs' -> cs' = cs.
Proof. exact list_unique. Qed.
Print Assumptions C03_list_unique.

(** ... contains only what the tables declare for the place, ... *)
Theorem C03_sound : forall env root m, compile env root = Some m ->
  forall e pl cs c, candidate_list env root e pl cs -> In c cs -> candidate env root e pl c.
Proof. exact list_sound. Qed.
Print Assumptions C03_sound.

(** ... and all of it; an internal row may be represented by one of the same C++
    type (C41). *)
Theorem C03_complete : forall env root m, compile env root = Some m ->
  forall e pl cs c, candidate_list env root e pl cs -> candidate env root e pl c ->
  In c cs \/ exists x y o, c = CRow x o /\ x_int x = true /\ same_cpp_type y x /\ In (CRow y o) cs.
Proof. exact list_complete. Qed.
Print Assumptions C03_complete.

(** In state S1 of Sub, e2 is declared by the enclosing row Sub + e2 = S1 only. *)
Example C03_applies : demo_state ex_cb Basic.env Basic.Main [pe 4] (fun m s =>
  at_place m s 0 = Some (Basic.Sub, SState Basic.S1) /\
  match cands m (EUser 2) (Basic.Sub, SState Basic.S1) with
  | [CRow x o] => x_parent x = Basic.Main /\ x_src x = SState Basic.Sub /\ o = SState Basic.Sub
  | _ => False
  end).
Proof. apply demo_intro. vm_compute. auto. Qed.

(** C04. Deferrals (rank 0) come before external rows (1), these before internal
    rows (2). *)
Theorem C04_kinds : forall env root m, compile env root = Some m ->
  forall e pl cs c1 c2, candidate_list env root e pl cs -> before c1 c2 cs ->
  cand_rank c1 <= cand_rank c2.
Proof. exact list_ranked. Qed.
Print Assumptions C04_kinds.

(** Within a kind, a row tried before another one comes later in the order of
    declaration (tables depth first). *)
Theorem C04_last_declared_first : forall env root m, compile env root = Some m ->
  forall e pl cs flat ints x o y o',
  candidate_list env root e pl cs ->
  visits env root (table env root) flat ->
  keeps_first same_cpp_type [] (internal_rows env root flat) ints ->
  before (CRow x o) (CRow y o') cs -> x_int x = x_int y ->
  x = y \/ before y x (if x_int x then ints else flat).
Proof. exact list_last_first. Qed.
Print Assumptions C04_last_declared_first.

(** A place with a deferral, two external rows and an internal row for one event. *)
Definition order_env : cenv :=
 [ (2, mkCdef None (Some [mkIrow (EUser 2) ok act]) false false false (Some [EUser 2]) true);
   (50, tbl [ mkRow (SInitial WState 1) (EUser 1) NoGuard NoAction (SState 2);
              mkRow (SState 2) (EUser 2) ok NoAction (SState 1);
              mkRow (SState 2) (EUser 2) fail NoAction (SState 1) ]) ].
Example C04_applies : exists m, compile order_env 50 = Some m /\
  map cand_rank (cands m (EUser 2) (50, SState 2)) = [0; 0; 1; 1; 2] /\
  map (fun c => match c with CRow x _ => guard_ty (x_guard x) | CDefer => None end)
      (cands m (EUser 2) (50, SState 2)) = [None; None; Some 0; Some 1; Some 1].
Proof. eexists. split; [vm_compute; reflexivity|]. vm_compute. auto. Qed.

(** The UML rule "the row of the innermost state wins" is therefore false: in
    state S1 of Sub an e1 row of the enclosing machine declared later is tried
    before Sub's own row. *)
Definition outer_env : cenv :=
 [ (11, tbl [ mkRow (SInitial WState 1) (EUser 1) NoGuard NoAction (SState 2) ]);
   (50, tbl [ mkRow (SInitial WState 1) (EUser 4) NoGuard NoAction (SState 11);
              mkRow (SState 11) (EUser 1) NoGuard NoAction (SState 3) ]) ].
Theorem C04_inner_first_refuted : exists env root m e pl x y o o',
  compile env root = Some m /\ before (CRow x o) (CRow y o') (cands m e pl) /\
  x_src x = SState (fst pl) /\ x_parent x <> fst pl /\ x_parent y = fst pl.
Proof.
  exists outer_env, 50. eexists. exists (EUser 1), (11, SState 1).
  eexists. eexists. eexists. eexists. split; [vm_compute; reflexivity|]. split.
  - exists [], [], []. vm_compute. reflexivity.
  - vm_compute. split; [reflexivity|]. split; [discriminate|reflexivity].
Qed.
Print Assumptions C04_inner_first_refuted.

(** C14. *)
Theorem C14_composite_source : forall env root m, compile env root = Some m ->
  forall e pl cs x c o, candidate_list env root e pl cs ->
  declared env root x -> x_ev x = e -> x_src x = SState c -> composite env c ->
  (In (CRow x o) cs <->
   (pl = (x_parent x, SState c) \/ exists s, child env c s /\ pl = (c, s)) /\ o = SState c).
Proof. exact list_composite_source. Qed.
Print Assumptions C14_composite_source.

(** Two levels below (state S1 of SubSub) the row Sub + e2 = S1 of Main is not a
    candidate, while SubSub + e2 = S1 of Sub is (registered twice, since two rows
    of Main lead into Sub). *)
Example C14_applies : demo_state ex_cb Basic.env Basic.Main [pe 4; pe 1; pe 1] (fun m s =>
  at_place m s 0 = Some (Basic.SubSub, SState Basic.S1) /\
  map (fun c => match c with CRow x _ => x_parent x | CDefer => 0 end)
      (cands m (EUser 2) (Basic.SubSub, SState Basic.S1)) = [Basic.Sub; Basic.Sub]).
Proof. apply demo_intro. vm_compute. auto. Qed.

(** C15. *)
Theorem C15_named_source : forall env root m, compile env root = Some m ->
  forall e pl cs x p s o, candidate_list env root e pl cs ->
  declared env root x -> x_ev x = e ->
  ((exists w, x_src x = SExit w p s) \/ (exists w, x_src x = SDirect w p s)) ->
  (In (CRow x o) cs <-> pl = (p, SState s) /\ o = SState s).
Proof. exact list_named_source. Qed.
Print Assumptions C15_named_source.

Example C15_applies : demo_state ex_cb Direct.env Direct.Main [pe 3] (fun m s =>
  at_place m s 0 = Some (Direct.Sub, SState 1) /\
  map (fun c => match c with CRow x _ => Some (x_src x) | CDefer => None end)
      (cands m (EUser 2) (Direct.Sub, SState 1)) = [Some (SDirect WState Direct.Sub 1)]).
Proof. apply demo_intro. vm_compute. auto. Qed.

(** Rows from a leaf (or from any state marked initial) apply in that state of the
    row's own table only. *)
Theorem C15_leaf_source : forall env root m, compile env root = Some m ->
  forall e pl cs x c o, candidate_list env root e pl cs ->
  declared env root x -> x_ev x = e -> unmarked (x_src x) = SState c ->
  (marked (x_src x) = true \/ ~ composite env c) ->
  (In (CRow x o) cs <-> pl = (x_parent x, SState c) /\ o = SState c).
Proof. exact list_leaf_source. Qed.
Print Assumptions C15_leaf_source.

(** C41. *)
Theorem C41_internal_rows_merged : forall env root m, compile env root = Some m ->
  exists flat kept,
  visits env root (table env root) flat /\
  (forall x, In x (internal_rows env root flat) <-> declared_internal env root x) /\
  keeps_first same_cpp_type [] (internal_rows env root flat) kept /\
  (forall x y, before x y kept -> ~ same_cpp_type x y) /\
  (forall x, declared_internal env root x -> exists y, In y kept /\ same_cpp_type y x) /\
  (forall e pl cs, candidate_list env root e pl cs -> forall x o, x_int x = true ->
     (In (CRow x o) cs <->
      In x kept /\ x_ev x = e /\ pl = source_place x /\ o = snd (source_place x))).
Proof. exact internal_merge. Qed.
Print Assumptions C41_internal_rows_merged.

(** So a declared internal row can be lost: two rows whose guards are two values
    (e.g. two function pointers) of one type. *)
Definition merge_env : cenv :=
 [ (2, mkCdef None (Some [mkIrow (EUser 2) (Guard 5 0) act; mkIrow (EUser 2) (Guard 5 1) act])
       false false false None true);
   (50, tbl [ mkRow (SInitial WState 1) (EUser 1) NoGuard NoAction (SState 2) ]) ].
Theorem C41_all_internal_rows_kept_refuted : exists env root m e pl c,
  compile env root = Some m /\ candidate env root e pl c /\ ~ In c (cands m e pl).
Proof.
  exists merge_env, 50. eexists. exists (EUser 2), (50, SState 2).
  exists (CRow (mkXrow 50 (SState 2) (EUser 2) (Guard 5 1) act (SState 2) true) (SState 2)).
  split; [vm_compute; reflexivity|]. split.
  - apply (cand_internal merge_env 50 (EUser 2)
             (mkXrow 50 (SState 2) (EUser 2) (Guard 5 1) act (SState 2) true)); [|reflexivity].
    apply (di_leaf merge_env 50 50 2 (mkIrow (EUser 2) (Guard 5 1) act)).
    + apply occ_child; [constructor|]. eexists. split; [left; reflexivity|]. now right.
    + intros H. apply H. reflexivity.
    + right. left. reflexivity.
  - vm_compute. intuition discriminate.
Qed.
Print Assumptions C41_all_internal_rows_kept_refuted.
