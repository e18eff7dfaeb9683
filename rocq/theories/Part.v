(** A composite as a machine of its own: vocabulary for C72.  Nothing here is a model of
    code of the repository. *)

From Coq Require Import List Arith NArith Bool.
From Verif Require Import Types Static Dispatch Runtime ListFacts IndexFacts Spec DispatchFacts Semantics Reach Reorder Dead.
Import ListNotations.

(** * Candidates *)

(** The same candidates are reached in both lists; if [again], the first list may contain
    further copies of candidates that were asked before. *)
Inductive same_choice (again : bool) : list cand -> list cand -> list cand -> Prop :=
| sc_nil seen : same_choice again seen [] []
| sc_last seen c l l' : decisive c = true -> same_choice again seen (c :: l) (c :: l')
| sc_keep seen c l l' : same_choice again (c :: seen) l l' -> same_choice again seen (c :: l) (c :: l')
| sc_copy seen c l l' : again = true -> In c seen -> same_choice again seen l l' -> same_choice again seen (c :: l) l'.

(** * The part *)

(** A state of both machines, a place of both. *)
Definition inner (env : cenv) (root c : cls) (q : sref) : Prop := is_state env root q /\ is_state env c q.
Definition inside (env : cenv) (root c : cls) (pl : place) : Prop := is_place env root pl /\ is_place env c pl.

Definition completes (env : cenv) (c : cls) : Prop := exists x, declared env c x /\ x_ev x = ENone.
Definition remembers (env : cenv) (c : cls) : Prop := exists x w p, declared env c x /\ x_tgt x = SHistory w p.
Definition parallels (env : cenv) (c : cls) : Prop := exists p, is_parent env c p /\ 1 < length (initial_states env p).

(** In the places of the part the events [E] and completion have the candidates they have in
    the machine of [c]. *)
Definition own_choices (again : bool) (E : ev -> Prop) (env : cenv) (root c : cls) : Prop :=
  forall e pl cs cs', E e \/ e = ENone /\ completes env root -> inside env root c pl ->
    candidate_list env root e pl cs -> candidate_list env c e pl cs' -> same_choice again [] cs cs'.
(** If there is completion in the machine of [root], then also in that of [c], or nothing
    could complete there. *)
Definition own_completion (env : cenv) (root c : cls) : Prop :=
  completes env root -> completes env c \/ forall pl cs, inside env root c pl -> candidate_list env c ENone pl cs -> cs = [].
(** Every class of the part has one initial state, or history and parallel regions are used
    in the part if they are used at all. *)
Definition own_regions (env : cenv) (root c : cls) : Prop :=
  (forall p, is_parent env c p -> length (initial_states env p) = 1) \/
  (remembers env root -> remembers env c) /\ (parallels env root -> parallels env c).
Definition own_handler (env : cenv) (root c : cls) : Prop := cd_unexpected (lookup env root) = cd_unexpected (lookup env c).
Definition own_events (E : ev -> Prop) (env : cenv) (root c : cls) : Prop := forall e, E e -> event_of env root e /\ event_of env c e.
Record self_contained (again : bool) (E : ev -> Prop) (env : cenv) (root c : cls) : Prop := mkSelfContained {
  pt_used : used env root c;
  pt_events : own_events E env root c;
  pt_choice : own_choices again E env root c;
  pt_completion : own_completion env root c;
  pt_regions : own_regions env root c;
  pt_stays : stays_inside env c;
  pt_handler : own_handler env root c }.

(** ** Where to look for this in a program *)

(** A class of the machine whose table does not belong to the part. *)
Definition outer (env : cenv) (root c p : cls) : Prop := used env root p /\ ~ used env c p.
(** The tables outside lead into the part through [c] only. *)
Definition one_entrance (env : cenv) (root c : cls) : Prop :=
  forall p r k, outer env root c p -> In r (table env p) -> leads_into (r_tgt r) k -> composite env k -> used env c k -> k = c.
(** Their rows about the events [E] and completion do not start at the part's composites, nor
    at pseudo states of these. *)
Definition no_rows_at (E : ev -> Prop) (env : cenv) (root c : cls) : Prop :=
  forall p r k, outer env root c p -> In r (table env p) -> E (r_ev r) \/ r_ev r = ENone -> r_src r = SState k -> ~ used env c k.
Definition no_rows_at_pseudo (E : ev -> Prop) (env : cenv) (root c : cls) : Prop :=
  forall p r w q s, outer env root c p -> In r (table env p) -> E (r_ev r) \/ r_ev r = ENone ->
    r_src r = SExit w q s \/ r_src r = SDirect w q s -> ~ used env c q.
(** No internal rows about these are offered inside. *)
Definition no_internal_rows (E : ev -> Prop) (env : cenv) (root c : cls) : Prop :=
  forall x, declared_internal env root x \/ declared_internal env c x -> E (x_ev x) \/ x_ev x = ENone ->
    ~ inside env root c (source_place x).
Record closed (E : ev -> Prop) (env : cenv) (root c : cls) : Prop := mkClosed {
  cl_used : used env root c;
  cl_within : ~ used env c root;
  cl_door : one_entrance env root c;
  cl_composite : no_rows_at E env root c;
  cl_pseudo : no_rows_at_pseudo E env root c;
  cl_quiet : no_internal_rows E env root c }.
(** What remains to be asked. *)
Record fitting (E : ev -> Prop) (env : cenv) (root c : cls) : Prop := mkFitting {
  ft_events : own_events E env root c;
  ft_completion : own_completion env root c;
  ft_regions : own_regions env root c;
  ft_stays : stays_inside env c;
  ft_handler : own_handler env root c }.
(** How often the table of [c] is visited from the rows [rs] of class [p]. *)
Inductive doors (env : cenv) (c : cls) : cls -> list row -> nat -> Prop :=
| do_nil p : doors env c p [] 0
| do_leaf p r rs n : (forall k, leads_into (r_tgt r) k -> ~ composite env k) -> doors env c p rs n -> doors env c p (r :: rs) n
| do_here p r rs n : leads_into (r_tgt r) c -> composite env c -> doors env c p rs n -> doors env c p (r :: rs) (S n)
| do_sub p r rs k i n : leads_into (r_tgt r) k -> composite env k -> k <> c -> doors env c k (table env k) i ->
    doors env c p rs n -> doors env c p (r :: rs) (i + n).

(** * Runs side by side *)

(** The calls of user code that count: if guards may be asked again, all but guards. *)
Definition is_guard_call {V} (k : called V) : bool := match k_callee k with CGuard _ _ => true | _ => false end.
Definition counted {V} (again : bool) (l : list (called V)) : list (called V) :=
  if again then filter (fun k => negb (is_guard_call k)) l else l.
(** Guards that change nothing and do not throw. *)
Definition guards_look {V W} (cb : cbfun V W) : Prop :=
  forall ty val a v w, exists b, cb (CGuard ty val) a v w = Ret b v w.

Section Runs.
Variable again : bool.
Variable E : ev -> Prop.
Variable env : cenv.
Variable root c : cls.
Variable m m' : machine.
Context {V W : Type}.

(** The whole ([m], [s]) is where the part ([m'], [s']) is; [pre] was called before. *)
Record in_step (pre : list (called V)) (s s' : rt V W) : Prop := mkInStep {
  is_place_of : forall r, r < length (rt_cur s') ->
    (exists pl, inside env root c pl /\ at_place m s r = Some pl /\ at_place m' s' r = Some pl) \/
    (uninitialised s r /\ uninitialised s' r);
  is_somewhere : ~ uninitialised s' 0;
  is_history_of : remembers env c -> forall p r, is_parent env c p -> r < length (initial_states env p) ->
    exists pl, inside env root c pl /\ remembered m s p r = Some pl /\ remembered m' s' p r = Some pl;
  is_waiting : rt_queue s = rt_queue s';
  is_own : forall e v, In (e, v) (rt_queue s') -> E e;
  is_active : active m s = active m' s';
  is_objects : forall o, inner env root c o -> (In o (rt_live s) <-> In o (rt_live s'));
  is_world : rt_world s = rt_world s';
  is_calls : counted again (rt_trace s) = pre ++ counted again (rt_trace s') }.

(** The whole is where a new machine of [c] with [n] regions begins: the first regions in
    [c]'s initial states, the others nowhere; nothing waits, nothing of the part is
    remembered; of the part's states exactly the default constructible ones have objects. *)
Record just_entered (n : nat) (s : rt V W) : Prop := mkJustEntered {
  je_place : forall r i, nth_error (initial_states env c) r = Some i -> at_place m s r = Some (c, i);
  je_nowhere : forall r, length (initial_states env c) <= r < n -> uninitialised s r;
  je_waiting : rt_queue s = [];
  je_active : active m s = length (initial_states env c);
  je_history : remembers env c -> forall p r i, is_parent env c p -> nth_error (initial_states env p) r = Some i ->
    remembered m s p r = Some (p, i);
  je_objects : forall o, inner env root c o -> (In o (rt_live s) <-> default_constructible env o = true) }.

(** What a client of the part may do: offer the events [E], ask for and set places of the
    part's regions, change the dependencies.  (Not: status, which shows numbers.) *)
Definition own_call (n : nat) (k : call V) : Prop :=
  match k with
  | KProcess e _ => E e
  | KIs r _ _ => r mod 256 < n
  | KParentIs _ => True
  | KSet r p q => r mod 256 < n /\ inside env root c (p, q)
  | KSetDep _ => True
  | KStatus => False
  end.

(** The same outputs, in step at the end; or the same undefined behaviour; or both out of
    fuel. *)
Inductive same_run (pre : list (called V)) : res V W (list out) -> res V W (list out) -> Prop :=
| sr_done os s s' : in_step pre s s' -> same_run pre (Done os s) (Done os s')
| sr_undef u : same_run pre (Undef u) (Undef u)
| sr_timeout : same_run pre Timeout Timeout.
End Runs.

(** The whole can be where a new machine of [c] begins, and from there on some use of the
    part's events tells them apart, even if calls of guards do not count. *)
Definition parts_company (looking : bool) (E : ev -> Prop) (env : cenv) (root c : cls) : Prop :=
  exists V W (cb : cbfun V W) vnone m m' fuel0 fuel d ks s s',
    (looking = true -> guards_look cb) /\
    running cb env root m vnone [d] d s /\ few_regions env c /\ compile env c = Some m' /\
    construct m' fuel0 d (rt_world s) = Done tt s' /\
    just_entered env root c m (length (rt_cur s')) s /\ Forall (own_call E env root c (length (rt_cur s'))) ks /\
    ~ same_run true E env root c m m' (counted true (rt_trace s)) (run cb m vnone fuel ks s) (run cb m' vnone fuel ks s').
