(** The exact conditions under which a machine never runs into undefined
    behaviour, on names, and a boolean check for them.  They differ from those of
    Safe.v in asking something only of rows that can be taken, and of parents in
    which the machine can be. *)

From Coq Require Import List Arith NArith Bool.
From Verif Require Import Types Static Dispatch Runtime Spec DispatchFacts Semantics Reach Safe.
Import ListNotations.

Definition guarded (c : cand) : Prop :=
  match c with CRow x _ => x_guard x <> NoGuard | CDefer => False end.

(** [c] is reached for [e] in [pl]: everything tried before it is a row with a
    guard, which may refuse. *)
Definition possible (env : cenv) (root : cls) (e : ev) (pl : place) (c : cand) : Prop :=
  exists l1 l2, candidate_list env root e pl (l1 ++ c :: l2) /\ Forall guarded l1.

(** Region 0 can be in a place of [p0] after its turn for event [e]: everything
    there may refuse, or an internal row can be taken there, or a row leads there. *)
Inductive rests_in (env : cenv) (root : cls) (e : ev) (p0 : cls) : Prop :=
| ri_refused q cs : is_place env root (p0, q) -> candidate_list env root e (p0, q) cs ->
    Forall guarded cs -> rests_in env root e p0
| ri_internal q x o : possible env root e (p0, q) (CRow x o) -> x_int x = true ->
    rests_in env root e p0
| ri_external pl x o q : possible env root e pl (CRow x o) -> x_int x = false ->
    target_place env x = Some (p0, q) -> rests_in env root e p0.

(** The number of active regions can become 0: there are several regions, and a
    row is taken while region 0 is in a class without initial states. *)
Definition can_sleep (env : cenv) (root : cls) : Prop :=
  1 < length (initial_states env root) /\
  exists e pl x o p0, possible env root e pl (CRow x o) /\ x_int x = false /\
    rests_in env root e p0 /\ initial_states env p0 = [].

Record exactly_safe (env : cenv) (root : cls) : Prop := mkExactlySafe {
  (* every registration is in a place of the machine *)
  ex_sources : anchored env root;
  (* no class has more initial states than the root *)
  ex_regions : forall p, is_parent env root p ->
     length (initial_states env p) <= length (initial_states env root);
  (* rows that can be taken lead to places of the machine *)
  ex_targets : forall e pl x o pl', possible env root e pl (CRow x o) -> x_int x = false ->
     target_place env x = Some pl' -> is_parent env root (fst pl');
  (* with history, a row that can be taken finds an element of the history array *)
  ex_history : (exists x w p, declared env root x /\ x_tgt x = SHistory w p) ->
     forall e pl x o, possible env root e pl (CRow x o) -> x_int x = false ->
     initial_states env (fst pl) <> [] /\
     forall r p0, 0 < r < length (initial_states env root) -> rests_in env root e p0 ->
       r < length (initial_states env p0);
  (* objects that are looked at are default constructible *)
  ex_guard : forall e pl x o ty val, possible env root e pl (CRow x o) -> x_guard x = Guard ty val ->
     default_constructible env o = true /\
     default_constructible env (if x_int x then o else target_state env x) = true;
  ex_action : forall e pl x o, possible env root e pl (CRow x o) -> touches env x ->
     default_constructible env o = true;
  ex_reuse : forall e pl x o ty b, possible env root e pl (CRow x o) -> x_act x = Action ty b -> ~ reuses b;
  (* in a state in which an event is unexpected the handler finds an object *)
  ex_handler : cd_unexpected (lookup env root) = true ->
     forall e pl, event_of env root e -> is_place env root pl ->
     candidate_list env root e pl [] \/ can_sleep env root ->
     default_constructible env (snd pl) = true }.

(** No legal use of the machine, with whatever user code, is undefined. *)
Definition never_undefined (env : cenv) (root : cls) (m : machine) : Prop :=
  forall V W (cb : cbfun V W) vnone fuel d w ks, Forall (well_typed env root) ks ->
  forall u, session cb m vnone fuel d w ks <> Undef u.

(** * The check *)
Definition guarded_b (c : cand) : bool :=
  match c with CRow x _ => match x_guard x with NoGuard => false | _ => true end | CDefer => false end.

(** The candidates that are reached. *)
Fixpoint reached_of (cs : list cand) : list cand :=
  match cs with
  | [] => []
  | c :: cs' => c :: (if guarded_b c then reached_of cs' else [])
  end.

Section Check.
Variable m : machine.
Notation env := (mc_env m).
Let all_places : list place := list_prod (parents m) (states m).
Let regions (p : cls) : nat := length (initials env p).

Definition external_b (c : cand) : bool := match c with CRow x _ => negb (x_int x) | CDefer => false end.
Definition internal_b (c : cand) : bool := match c with CRow x _ => x_int x | CDefer => false end.

Definition reached_at (e : ev) (pl : place) : list cand := reached_of (cands m e pl).
Definition rests_check (e : ev) (p0 : cls) : bool :=
  existsb (fun q => forallb guarded_b (cands m e (p0, q)) || existsb internal_b (reached_at e (p0, q))) (states m)
  || existsb (fun pl => existsb (fun c => match c with
       | CRow x _ => negb (x_int x) && Nat.eqb (resolve_dst_parent env x) p0
       | CDefer => false end) (reached_at e pl)) all_places.

Definition any_external (e : ev) : bool :=
  existsb (fun pl => existsb external_b (reached_at e pl)) all_places.
Definition sleep_check : bool :=
  Nat.ltb 1 (regions (mc_root m)) &&
  existsb (fun e => any_external e &&
    existsb (fun p0 => rests_check e p0 && Nat.eqb (regions p0) 0) (parents m)) (events m).

Definition target_ok (c : cand) : bool :=
  match c with
  | CRow x _ => x_int x || memb Nat.eq_dec (resolve_dst_parent env x) (parents m)
  | CDefer => true
  end.
Definition history_ok (e : ev) : bool :=
  forallb (fun pl => negb (existsb external_b (reached_at e pl)) || Nat.ltb 0 (regions (fst pl))) all_places
  && (negb (any_external e)
      || forallb (fun p0 => negb (rests_check e p0) || Nat.leb (regions (mc_root m)) (Nat.max 1 (regions p0))) (parents m)).
Definition handler_ok : bool :=
  forallb (fun e => forallb (fun pl =>
     match cands m e pl with [] => defctor env (snd pl) | _ => negb sleep_check || defctor env (snd pl) end)
     all_places) (events m).

Definition exact_check : bool :=
  match fill_dispatch m 0 (empty_tables m) with Some _ => true | None => false end
  && forallb (fun p => Nat.leb (regions p) (regions (mc_root m))) (parents m)
  && forallb (fun e => forallb (fun pl => forallb (fun c => target_ok c && cand_check env c) (reached_at e pl))
                               all_places) (events m)
  && (negb (has_history m) || forallb history_ok (events m))
  && (negb (cd_unexpected (lookup env (mc_root m))) || handler_ok).
End Check.
