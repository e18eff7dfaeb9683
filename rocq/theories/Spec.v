(** Specification vocabulary: what a machine is supposed to do, stated on names
    (classes, rows, places), without any index arithmetic or tables. *)

From Coq Require Import List Arith NArith Bool.
From Verif Require Import Types.
Import ListNotations.

(** * Which rows a machine consists of *)

(** The table of a class; empty if it has none. *)
Definition table (env : cenv) (c : cls) : list row :=
  match cd_table (lookup env c) with Some l => l | None => [] end.
Definition composite (env : cenv) (c : cls) : Prop := cd_table (lookup env c) <> None.
Definition internals (env : cenv) (c : cls) : list irow :=
  match cd_internal (lookup env c) with Some l => l | None => [] end.
Definition defers (env : cenv) (c : cls) : list ev :=
  match cd_defer (lookup env c) with Some l => l | None => [] end.

(** A row with target [t] leads into class [c]. *)
Inductive leads_into : sref -> cls -> Prop :=
| li_state c : leads_into (SState c) c
| li_entry w p s : leads_into (SEntry w p s) p
| li_direct w p s : leads_into (SDirect w p s) p
| li_history w p : leads_into (SHistory w p) p.

(** The classes whose tables belong to the machine of [root]. *)
Inductive used (env : cenv) (root : cls) : cls -> Prop :=
| used_root : used env root root
| used_sub p r c : used env root p -> In r (table env p) -> leads_into (r_tgt r) c ->
    composite env c -> used env root c.

(** Row [r] written in the table of [p]. *)
Definition row_in (p : cls) (r : row) : xrow :=
  mkXrow p (r_src r) (r_ev r) (r_guard r) (r_act r) (r_tgt r) false.

(** The rows of the machine. *)
Definition declared (env : cenv) (root : cls) (x : xrow) : Prop :=
  exists p r, used env root p /\ In r (table env p) /\ x = row_in p r.

(** The initial marker is not part of the state's name. *)
Definition unmarked (s : sref) : sref :=
  match s with SInitial _ c => SState c | _ => s end.

(** [s] appears in the table of [c] (as written / without the marker). *)
Definition written_in (env : cenv) (c : cls) (s : sref) : Prop :=
  exists r, In r (table env c) /\ (s = r_src r \/ s = r_tgt r).
Definition child (env : cenv) (c : cls) (s : sref) : Prop :=
  exists r, In r (table env c) /\ (s = unmarked (r_src r) \/ s = r_tgt r).

(** [s] occurs in the machine with enclosing class [p]. *)
Inductive occurs (env : cenv) (root : cls) : cls -> sref -> Prop :=
| occ_root : occurs env root root (SState root)
| occ_child p s : used env root p -> child env p s -> occurs env root p s.

(** Internal rows as rows from a state to itself: those of a composite [c] are
    offered in every state written in [c]'s table, those of a leaf in the leaf. *)
Inductive declared_internal (env : cenv) (root : cls) : xrow -> Prop :=
| di_composite p c i s :
    occurs env root p (SState c) -> composite env c -> In i (internals env c) ->
    written_in env c s ->
    declared_internal env root (mkXrow c s (i_ev i) (i_guard i) (i_act i) s true)
| di_leaf p c i :
    occurs env root p (SState c) -> ~ composite env c -> In i (internals env c) ->
    declared_internal env root
      (mkXrow p (SState c) (i_ev i) (i_guard i) (i_act i) (SState c) true).

(** Some row is about event [e]. *)
Definition event_of (env : cenv) (root : cls) (e : ev) : Prop :=
  exists x, (declared env root x \/ declared_internal env root x) /\ x_ev x = e.

(** * Candidates *)

(** Where a row's source is: exit and direct pseudo states name parent and state,
    every other source is in the row's own table. *)
Definition source_place (x : xrow) : place :=
  match x_src x with
  | SInitial _ c => (x_parent x, SState c)
  | SExit _ p s => (p, SState s)
  | SDirect _ p s => (p, SState s)
  | s => (x_parent x, s)
  end.

(** What may be tried for an event in a place: deferral, or a row together with
    the state whose object is its source. *)
Inductive cand := CDefer | CRow (x : xrow) (obj : sref).

Inductive candidate (env : cenv) (root : cls) (e : ev) : place -> cand -> Prop :=
| cand_source x :                       (* the row starts here *)
    declared env root x -> x_ev x = e ->
    candidate env root e (source_place x) (CRow x (snd (source_place x)))
| cand_enclosing x c s :                (* the row starts at the enclosing composite *)
    declared env root x -> x_ev x = e -> x_src x = SState c -> composite env c ->
    child env c s ->
    candidate env root e (c, s) (CRow x (SState c))
| cand_internal x :                     (* internal row *)
    declared_internal env root x -> x_ev x = e ->
    candidate env root e (source_place x) (CRow x (snd (source_place x)))
| cand_defer x c :                      (* the state's class defers the event *)
    declared env root x -> unmarked (x_src x) = SState c -> In e (defers env c) ->
    candidate env root e (source_place x) CDefer.

Definition is_internal_cand (c : cand) : bool :=
  match c with CRow x _ => x_int x | CDefer => false end.
Definition is_external_cand (c : cand) : bool :=
  match c with CRow x _ => negb (x_int x) | CDefer => false end.
Definition is_defer_cand (c : cand) : bool :=
  match c with CDefer => true | _ => false end.

(** ** Order of candidates.  Registration order of the rows: tables are visited
    depth first (a row, then the table of the composite it leads into); per row
    the row's own source, then the children of a composite source. *)
Section Order.
Variable composite_b : cls -> bool.
Variable children : cls -> list sref.

Definition offers (x : xrow) : list (place * sref) :=
  (source_place x, snd (source_place x))
  :: (if x_int x then []
      else match x_src x with
           | SState c => if composite_b c
                         then map (fun s => ((c, s), SState c)) (children c) else []
           | _ => []
           end).

Definition rows_at (e : ev) (pl : place) (l : list xrow) : list cand :=
  flat_map (fun x => if ev_eq_dec (x_ev x) e
                     then flat_map (fun po => if place_eq_dec (fst po) pl
                                              then [CRow x (snd po)] else [])
                                   (offers x)
                     else []) l.

Definition defers_at (def : xrow -> list ev) (e : ev) (pl : place) (l : list xrow) : list cand :=
  flat_map (fun x => if place_eq_dec (source_place x) pl
                     then flat_map (fun e' => if ev_eq_dec e' e then [CDefer] else []) (def x)
                     else []) l.

(** Last registered first: deferrals, then external rows, then internal rows. *)
Definition priority (def : xrow -> list ev) (e : ev) (pl : place)
    (ext int dfr : list xrow) : list cand :=
  rev (defers_at def e pl dfr) ++ rev (rows_at e pl ext) ++ rev (rows_at e pl int).
End Order.

(** * Places of a machine *)

(** A class that can enclose the active state, and a state of the machine. *)
Definition is_parent (env : cenv) (root p : cls) : Prop := used env root p /\ table env p <> [].
Definition is_state (env : cenv) (root : cls) (s : sref) : Prop :=
  s = SState root \/ exists p, used env root p /\ child env p s.
Definition is_place (env : cenv) (root : cls) (pl : place) : Prop :=
  is_parent env root (fst pl) /\ is_state env root (snd pl).

(** Everything that is registered somewhere is registered in a place of the
    machine. *)
Definition anchored (env : cenv) (root : cls) : Prop :=
  forall e pl c, candidate env root e pl c -> is_place env root pl.

(** * Order of the rows of a machine *)

(** Depth first: a row, then (again, every time) the rows of the composite it
    leads into. *)
Inductive visits (env : cenv) : cls -> list row -> list xrow -> Prop :=
| vis_nil c : visits env c [] []
| vis_leaf c r rs l :
    (forall c', leads_into (r_tgt r) c' -> ~ composite env c') ->
    visits env c rs l -> visits env c (r :: rs) (row_in c r :: l)
| vis_sub c r rs c' sub l :
    leads_into (r_tgt r) c' -> composite env c' ->
    visits env c' (table env c') sub ->
    visits env c rs l -> visits env c (r :: rs) (row_in c r :: sub ++ l).

(** ** Internal rows, in order of the places in which their classes occur *)
Fixpoint dedup_places (l : list place) : list place :=
  match l with
  | [] => []
  | a :: l' => a :: filter (fun b => if place_eq_dec b a then false else true) (dedup_places l')
  end.
Fixpoint dedup (l : list sref) : list sref :=
  match l with
  | [] => []
  | s :: l' => s :: filter (fun t => if sref_eq_dec t s then false else true) (dedup l')
  end.
Definition mentioned (env : cenv) (c : cls) : list sref :=
  flat_map (fun r => [r_src r; r_tgt r]) (table env c).
Definition is_composite (env : cenv) (c : cls) : bool :=
  match cd_table (lookup env c) with Some _ => true | None => false end.

Definition occurrences (root : cls) (rows : list xrow) : list place :=
  dedup_places ((root, SState root) ::
    flat_map (fun x => [(x_parent x, unmarked (x_src x)); (x_parent x, x_tgt x)]) rows).

Definition internal_rows_of (env : cenv) (pl : place) : list xrow :=
  match snd pl with
  | SState c =>
      flat_map (fun i =>
        map (fun ps => mkXrow (fst ps) (snd ps) (i_ev i) (i_guard i) (i_act i) (snd ps) true)
            (if is_composite env c then map (pair c) (dedup (mentioned env c))
             else [(fst pl, SState c)]))
        (internals env c)
  | _ => []
  end.
Definition internal_rows (env : cenv) (root : cls) (rows : list xrow) : list xrow :=
  flat_map (internal_rows_of env) (occurrences root rows).

(** Two rows of one C++ type: they can differ in the functor values only. *)
Definition same_cpp_type (x y : xrow) : Prop :=
  x_parent x = x_parent y /\ x_src x = x_src y /\ x_ev x = x_ev y /\
  guard_ty (x_guard x) = guard_ty (x_guard y) /\ action_ty (x_act x) = action_ty (x_act y) /\
  x_tgt x = x_tgt y.

(** [k] keeps of [l], in order, exactly the elements without an earlier element
    related by [same]. *)
Inductive keeps_first {A} (same : A -> A -> Prop) : list A -> list A -> list A -> Prop :=
| kf_nil pre : keeps_first same pre [] []
| kf_keep pre a l k : (forall b, In b pre -> ~ same b a) ->
    keeps_first same (pre ++ [a]) l k -> keeps_first same pre (a :: l) (a :: k)
| kf_drop pre a l k : (exists b, In b pre /\ same b a) ->
    keeps_first same (pre ++ [a]) l k -> keeps_first same pre (a :: l) k.

Definition children (env : cenv) (c : cls) : list sref :=
  dedup (flat_map (fun r => [unmarked (r_src r); r_tgt r]) (table env c)).
Definition deferred_by (env : cenv) (x : xrow) : list ev :=
  match unmarked (x_src x) with SState c => defers env c | _ => [] end.

(** The candidates of a place for an event, in the order in which they are tried. *)
Definition candidate_list (env : cenv) (root : cls) (e : ev) (pl : place) (cs : list cand) : Prop :=
  exists flat ints,
    visits env root (table env root) flat /\
    keeps_first same_cpp_type [] (internal_rows env root flat) ints /\
    cs = priority (is_composite env) (children env) (deferred_by env) e pl flat ints flat.

(** [a] stands somewhere before [b]. *)
Definition before {A} (a b : A) (l : list A) : Prop :=
  exists l1 l2 l3, l = l1 ++ a :: l2 ++ b :: l3.

(** ** Nesting *)

(** A row of [p] leads into the composite [c]; a composite is entered again
    inside itself. *)
Definition steps_to (env : cenv) (p c : cls) : Prop :=
  exists r, In r (table env p) /\ leads_into (r_tgt r) c /\ composite env c.
Definition recursive (env : cenv) (root : cls) : Prop :=
  exists p c, used env root p /\ steps_to env p c /\ used env c p.

(** Actions that dereference the target pointer. *)
Inductive needs_pointer : abody -> Prop :=
| np_create f : needs_pointer (ACreate f)
| np_reuse f : needs_pointer (AReuse f)
| np_chain b l : In b l -> needs_pointer b -> needs_pointer (AChain l).
