(** Programs that differ in the order of rows: vocabulary for C67.  Nothing here is a
    model of code of the repository. *)

From Coq Require Import List Arith NArith Bool.
From Verif Require Import Types Static Dispatch Runtime ListFacts IndexFacts Spec DispatchFacts Semantics.
Import ListNotations.

(** * Programs *)

(** The two classes differ at most in their tables. *)
Record same_members (d d' : cdef) : Prop := mkSameMembers {
  sb_internal : cd_internal d' = cd_internal d;
  sb_entry : cd_entry d' = cd_entry d;
  sb_exit : cd_exit d' = cd_exit d;
  sb_unexpected : cd_unexpected d' = cd_unexpected d;
  sb_defer : cd_defer d' = cd_defer d;
  sb_defctor : cd_defctor d' = cd_defctor d }.

(** The same rows in each table, in any order and however often; the initial states of
    each class in the same order. *)
Record same_rows (env env' : cenv) : Prop := mkSameRows {
  sw_members : forall c, same_members (lookup env c) (lookup env' c);
  sw_composite : forall c, is_composite env' c = is_composite env c;
  sw_rows : forall c r, In r (table env' c) <-> In r (table env c);
  sw_initial : forall c, initial_states env' c = initial_states env c }.

(** In each place the same is tried for each event, in the same order. *)
Definition same_candidates (env env' : cenv) (root : cls) : Prop :=
  forall e pl cs, is_place env root pl ->
  (candidate_list env root e pl cs <-> candidate_list env' root e pl cs).

(** Every row leads to a place of the machine. *)
Definition stays_inside (env : cenv) (root : cls) : Prop :=
  forall x pl, declared env root x -> target_place env x = Some pl -> is_parent env root (fst pl).

(** * Two neighbouring rows in exchanged order *)

(** A place in which row [r] of class [c] can be tried. *)
Definition tried_at (env : cenv) (c : cls) (r : row) (pl : place) : Prop :=
  pl = source_place (row_in c r) \/
  exists k s, r_src r = SState k /\ composite env k /\ child env k s /\ pl = (k, s).
(** Source or target of the row, as written or without the mark of the source. *)
Definition writes (r : row) (s : sref) : Prop := s = r_src r \/ s = r_tgt r.
Definition mentions (r : row) (s : sref) : Prop := s = unmarked (r_src r) \/ s = r_tgt r.
(** The place that is meant by [s] in the table of [c]. *)
Definition meant (c : cls) (s : sref) : place :=
  match s with
  | SInitial _ k => (c, SState k)
  | SExit _ p k => (p, SState k)
  | SDirect _ p k => (p, SState k)
  | s => (c, s)
  end.
(** A place in which internal rows of state [s] of class [c] are tried. *)
Definition internal_at (env : cenv) (c : cls) (s : sref) (pl : place) : Prop :=
  exists k, s = SState k /\ internals env k <> [] /\
    ((~ composite env k /\ pl = (c, s)) \/
     (composite env k /\ exists t, written_in env k t /\ pl = meant k t)).

(** The rows [r1] and [r2] of class [c] are about different events or nowhere tried both; *)
Definition apart (env : cenv) (c : cls) (r1 r2 : row) : Prop :=
  r_ev r1 <> r_ev r2 \/ forall pl, tried_at env c r1 pl -> ~ tried_at env c r2 pl.
(** they do not lead into composites; *)
Definition outside (env : cenv) (r1 r2 : row) : Prop :=
  forall r k, r = r1 \/ r = r2 -> leads_into (r_tgt r) k -> ~ composite env k.
(** the internal rows of different states of them are nowhere tried both; *)
Definition inner_apart (env : cenv) (c : cls) (r1 r2 : row) : Prop :=
  forall s1 s2 pl, mentions r1 s1 -> mentions r2 s2 ->
  internal_at env c s1 pl -> internal_at env c s2 pl -> s1 = s2.
(** a place that both name is written alike in both, unless [c] has no internal rows. *)
Definition written_alike (env : cenv) (c : cls) (r1 r2 : row) : Prop :=
  internals env c = [] \/
  forall s1 s2, writes r1 s1 -> writes r2 s2 -> meant c s1 = meant c s2 -> s1 = s2.
Record independent (env : cenv) (c : cls) (r1 r2 : row) : Prop := mkIndependent {
  in_apart : apart env c r1 r2;
  in_outside : outside env r1 r2;
  in_inner : inner_apart env c r1 r2;
  in_written : written_alike env c r1 r2 }.

Definition with_table (d : cdef) (l : list row) : cdef :=
  mkCdef (Some l) (cd_internal d) (cd_entry d) (cd_exit d) (cd_unexpected d) (cd_defer d) (cd_defctor d).
(** [env'] is [env] with the rows [r1] and [r2] of class [c] in exchanged order; [R c r1 r2]
    holds. *)
Definition exchanged_by (R : cls -> row -> row -> Prop) (env env' : cenv) : Prop :=
  exists c l1 r1 r2 l2,
    cd_table (lookup env c) = Some (l1 ++ r1 :: r2 :: l2) /\
    lookup env' c = with_table (lookup env c) (l1 ++ r2 :: r1 :: l2) /\
    (forall k, k <> c -> lookup env' k = lookup env k) /\
    R c r1 r2.
Definition exchanged (env env' : cenv) : Prop :=
  exchanged_by (independent env) env env' /\ forall c, initial_states env' c = initial_states env c.

(** Any number of exchanges. *)
Inductive reordered : cenv -> cenv -> Prop :=
| ro_refl env : reordered env env
| ro_step env env' env'' : reordered env env' -> exchanged env' env'' -> reordered env env''.

(** * Runs *)
Section Runs.
Variable m m' : machine.

(** Lines of status: the numbers of the same region, place and parent in the numbering of
    either machine. *)
Definition line_of (n : machine) (r : nat) (p : cls) (q : sref) (p0 : cls) : nat * N * N * N :=
  (r, combined_idx n p q, parent_idx n p0, state_idx n q).
Definition matching_line (l l' : nat * N * N * N) : Prop :=
  exists r p q p0, is_place (mc_env m) (mc_root m) (p, q) /\ is_parent (mc_env m) (mc_root m) p0 /\
    l = line_of m r p q p0 /\ l' = line_of m' r p q p0.
Definition matching_output (o o' : out) : Prop :=
  match o, o' with
  | OStatus l, OStatus l' => Forall2 matching_line l l'
  | _, _ => o' = o
  end.

(** The place remembered for region [r] of class [p]. *)
Definition remembered {V W} (n : machine) (s : rt V W) (p : cls) (r : nat) : option place :=
  match history_of n s p r with Some c => nth_error (places n) (N.to_nat c) | None => None end.

(** The same calls of user code, world, waiting events, regions, places and objects. *)
Record matching_state {V W} (s s' : rt V W) : Prop := mkMatchingState {
  ms_trace : rt_trace s' = rt_trace s;
  ms_world : rt_world s' = rt_world s;
  ms_queue : rt_queue s' = rt_queue s;
  ms_regions : rt_regions s' = rt_regions s;
  ms_length : length (rt_cur s') = length (rt_cur s);
  ms_place : forall r, at_place m' s' r = at_place m s r;
  ms_history : forall p r, is_parent (mc_env m) (mc_root m) p -> remembered m' s' p r = remembered m s p r;
  ms_live : forall o, In o (rt_live s') <-> In o (rt_live s) }.

(** The same outputs and states; or the same undefined behaviour; or both out of fuel. *)
Inductive matching_run {V W} : res V W (list out) -> res V W (list out) -> Prop :=
| mr_done os os' s s' : Forall2 matching_output os os' -> matching_state s s' -> matching_run (Done os s) (Done os' s')
| mr_threw x s s' : matching_state s s' -> matching_run (Threw x s) (Threw x s')
| mr_undef u : matching_run (Undef u) (Undef u)
| mr_timeout : matching_run Timeout Timeout.
End Runs.

(** Some client of some user code can tell the programs apart. *)
Definition told_apart (env env' : cenv) (root : cls) : Prop :=
  exists V W (cb : cbfun V W) vnone m m' fuel d w ks,
    compile env root = Some m /\ compile env' root = Some m' /\
    ~ matching_run m m' (session cb m vnone fuel d w ks) (session cb m' vnone fuel d w ks).
