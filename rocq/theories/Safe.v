(** Conditions under which a machine never runs into undefined behaviour, on
    names, and a boolean check for them. *)

From Coq Require Import List Arith NArith Bool.
From Verif Require Import Types Static Dispatch Runtime Spec DispatchFacts Semantics Reach.
Import ListNotations.

(** The candidate [c] is tried for event [e] in place [pl]. *)
Definition offered (env : cenv) (root : cls) (e : ev) (pl : place) (c : cand) : Prop :=
  exists cs, candidate_list env root e pl cs /\ In c cs.

(** * Places *)

(** Sources and targets are places of the machine; at most 255 regions; no class
    has more initial states than the root, and all have equally many if the
    machine uses history. *)
Record well_placed (env : cenv) (root : cls) : Prop := mkWellPlaced {
  wp_sources : anchored env root;
  wp_targets : forall x pl, declared env root x -> target_place env x = Some pl ->
     is_parent env root (fst pl);
  wp_few : few_regions env root;
  wp_regions : forall p, is_parent env root p ->
     length (initial_states env p) <= length (initial_states env root);
  wp_history : (exists x w p, declared env root x /\ x_tgt x = SHistory w p) ->
     forall p, is_parent env root p ->
     length (initial_states env p) = length (initial_states env root) }.

(** * Objects *)

(** The row calls user code besides its guard if it is taken as an external row:
    has_action (has_action.h 31-38) ignores the internal flag. *)
Definition touches (env : cenv) (x : xrow) : Prop :=
  let ext := mkXrow (x_parent x) (x_src x) (x_ev x) (x_guard x) (x_act x) (x_tgt x) false in
  x_act x <> NoAction \/ exit_call env ext <> [] \/ entry_call env ext <> [] \/
  initial_entry_call env x <> [].

Inductive reuses : abody -> Prop :=
| re_reuse f : reuses (AReuse f)
| re_chain b l : In b l -> reuses b -> reuses (AChain l).

(** The objects handed to user code are always there: they are default
    constructible. *)
Record objects_exist (env : cenv) (root : cls) : Prop := mkObjectsExist {
  ob_guard : forall e pl x o ty val, offered env root e pl (CRow x o) -> x_guard x = Guard ty val ->
     default_constructible env o = true /\
     default_constructible env (if x_int x then o else target_state env x) = true;
  ob_action : forall e pl x o, offered env root e pl (CRow x o) -> touches env x ->
     default_constructible env o = true;
  ob_reuse : forall e pl x o ty b, offered env root e pl (CRow x o) -> x_act x = Action ty b -> ~ reuses b;
  ob_handler : cd_unexpected (lookup env root) = true ->
     forall s, is_state env root s -> default_constructible env s = true }.

(** With anonymous rows nothing defers the anonymous event. *)
Definition no_anonymous_deferral (env : cenv) (root : cls) : Prop :=
  (exists x, declared env root x /\ x_ev x = ENone) ->
  forall pl, ~ offered env root ENone pl CDefer.

Record well_formed (env : cenv) (root : cls) : Prop := mkWellFormed {
  wf_placed : well_placed env root;
  wf_objects : objects_exist env root;
  wf_anonymous : no_anonymous_deferral env root }.

(** * The check *)
Definition memb {A} (dec : forall a b : A, {a = b} + {a <> b}) (a : A) (l : list A) : bool :=
  if in_dec dec a l then true else false.

Definition placed_check (m : machine) : bool :=
  let env := mc_env m in
  let regions := fun p => length (initials env p) in
  match fill_dispatch m 0 (empty_tables m) with Some _ => true | None => false end
  && forallb (fun x => memb Nat.eq_dec (resolve_dst_parent env x) (parents m)) (mc_flat m)
  && forallb (fun p => Nat.leb (regions p) 255) (parents m)
  && forallb (fun p => Nat.leb (regions p) (regions (mc_root m))) (parents m)
  && (negb (has_history m)
      || forallb (fun p => Nat.eqb (regions p) (regions (mc_root m))) (parents m)).

Fixpoint reuses_b (b : abody) : bool :=
  match b with
  | AReuse _ => true
  | AChain l => existsb reuses_b l
  | _ => false
  end.

Definition cand_check (env : cenv) (c : cand) : bool :=
  match c with
  | CDefer => true
  | CRow x o =>
      match x_guard x with
      | NoGuard => true
      | Guard _ _ => defctor env o &&
          defctor env (if x_int x then o
                       else match resolve_dst env x with Some d => d | None => x_tgt x end)
      end
      && (negb (has_action env x) || defctor env o)
      && match x_act x with NoAction => true | Action _ b => negb (reuses_b b) end
  end.

Definition objects_check (m : machine) : bool :=
  forallb (fun e => forallb (fun pl => forallb (cand_check (mc_env m)) (cands m e pl))
                            (list_prod (parents m) (states m))) (events m)
  && (negb (cd_unexpected (lookup (mc_env m) (mc_root m)))
      || forallb (defctor (mc_env m)) (states m)).

Definition anonymous_check (m : machine) : bool :=
  negb (has_anonymous m)
  || forallb (fun pl => forallb (fun c => negb (is_defer_cand c)) (cands m ENone pl))
             (list_prod (parents m) (states m)).

Definition check (m : machine) : bool :=
  placed_check m && objects_check m && anonymous_check m.

(** * Calls a compiler accepts *)
Definition well_typed {V} (env : cenv) (root : cls) (k : call V) : Prop :=
  match k with
  | KProcess e _ => event_of env root e
  | KSet _ p q => is_parent env root p /\ is_state env root q
  | _ => True
  end.

(** * The invariant *)

(** Every region of the machine is in a place of the machine, as is every history
    entry (in a place of its own parent for region 0); the arrays have the sizes
    they were constructed with; no more regions are active than exist; only events
    of the machine are deferred. *)
Record sound_state {V W} (env : cenv) (root : cls) (m : machine) (s : rt V W) : Prop := mkSoundState {
  so_places : forall r, region_exists env root r ->
     exists pl, at_place m s r = Some pl /\ is_place env root pl;
  so_history : forall p r c, is_parent env root p -> history_of m s p r = Some c ->
     exists pl, c = code m pl /\ is_place env root pl /\ (r = 0 -> fst pl = p);
  so_cur : forall r, nth_error (rt_cur s) r <> None <-> region_exists env root r;
  so_hist : forall p r, is_parent env root p ->
     (history_of m s p r <> None <-> r < length (initial_states env p));
  so_active : forall r, r < current_regions m s -> region_exists env root r;
  so_queue : forall e v, In (e, v) (rt_queue s) -> event_of env root e }.
