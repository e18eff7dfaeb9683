(** A state machine library without tables: an interpreter that walks the rows
    of the program for every event, keeps the places of the regions by name, and
    knows neither indices nor dispatch tables nor flattening at compile time.
    [InterpFacts.v] proves that the library does the same, undefined behaviour
    and non-termination included.

    From Runtime.v it takes the vocabulary of calls only (callbacks and their
    arguments, kinds of undefined behaviour and exceptions, client calls); from
    Spec.v and Semantics.v what a row means (its offers, target, effects). *)

From Coq Require Import List Arith NArith Bool.
From Verif Require Import Types Static Dispatch Runtime IndexFacts Spec Semantics.
Import ListNotations.

(** Where a region is: in a place of the machine, or beyond (a row led to a class
    that encloses nothing). *)
Inductive spot := Nowhere | At (pl : place).

Section Interp.
Context {V W : Type}.
Variable cb : cbfun V W.
Variable env : cenv.
Variable root : cls.
(** The rows of the program: external ones in the order of [visits], internal
    ones. *)
Variables flat ints : list xrow.
Variable vnone : V.

(** * What there is *)
Definition encloses (p : cls) : bool :=
  existsb (fun x => if Nat.eq_dec (x_parent x) p then true else false) flat.
Definition known (s : sref) : bool :=
  (if sref_eq_dec s (SState root) then true else false) ||
  existsb (fun x => (if sref_eq_dec s (unmarked (x_src x)) then true else false) ||
                    (if sref_eq_dec s (x_tgt x) then true else false)) flat.
Definition a_place (pl : place) : bool := encloses (fst pl) && known (snd pl).
Definition spot_of (pl : place) : spot := if a_place pl then At pl else Nowhere.
Definition an_event (e : ev) : bool :=
  existsb (fun x => if ev_eq_dec (x_ev x) e then true else false) (flat ++ ints).
Definition any_history : bool := existsb (fun x => is_history (x_tgt x)) flat.
Definition any_anonymous : bool :=
  existsb (fun x => if ev_eq_dec (x_ev x) ENone then true else false) flat.
(** The most regions any class has. *)
Definition width : nat :=
  fold_right Nat.max 0 (map (fun x => length (initial_states env (x_parent x))) flat).
(** The state mentioned first: what a region that is nowhere is taken for. *)
Definition first_state : sref :=
  match flat with x :: _ => unmarked (x_src x) | [] => SState root end.
(** What is tried for [e] in [pl], in order. *)
Definition choices (e : ev) (pl : place) : list cand :=
  priority (is_composite env) (children env) (deferred_by env) e pl flat ints flat.
(** Every row is offered in places of the machine only. *)
Definition orderly : bool :=
  forallb (fun x => forallb (fun po => a_place (fst po)) (offers (is_composite env) (children env) x))
          (flat ++ ints).

(** * The machine *)
Record mach := mkMach {
  z_at : list (option spot);     (* the regions, [None]: not set yet *)
  z_mem : cls -> list spot;      (* history of each class, by region *)
  z_queue : list (ev * V);       (* deferred events *)
  z_regions : nat;               (* number of active regions *)
  z_live : list sref;            (* states that have an object *)
  z_deps : list dep;             (* dependencies given, newest first *)
  z_first : dep;                 (* dependencies given to the constructor *)
  z_world : W;
  z_trace : list (called V) }.

Definition put_at z a := mkMach a (z_mem z) (z_queue z) (z_regions z) (z_live z) (z_deps z)
  (z_first z) (z_world z) (z_trace z).
Definition put_mem z a := mkMach (z_at z) a (z_queue z) (z_regions z) (z_live z) (z_deps z)
  (z_first z) (z_world z) (z_trace z).
Definition put_queue z a := mkMach (z_at z) (z_mem z) a (z_regions z) (z_live z) (z_deps z)
  (z_first z) (z_world z) (z_trace z).
Definition put_regions z a := mkMach (z_at z) (z_mem z) (z_queue z) a (z_live z) (z_deps z)
  (z_first z) (z_world z) (z_trace z).
Definition put_live z a := mkMach (z_at z) (z_mem z) (z_queue z) (z_regions z) a (z_deps z)
  (z_first z) (z_world z) (z_trace z).
Definition put_deps z a := mkMach (z_at z) (z_mem z) (z_queue z) (z_regions z) (z_live z) a
  (z_first z) (z_world z) (z_trace z).
Definition put_user z w tr := mkMach (z_at z) (z_mem z) (z_queue z) (z_regions z) (z_live z) (z_deps z)
  (z_first z) w tr.

Inductive ans (A : Type) :=
| Ok (a : A) (z : mach)
| Err (x : exn) (z : mach)
| Bad (u : ub)
| Endless.
Arguments Ok {A}.
Arguments Err {A}.
Arguments Bad {A}.
Arguments Endless {A}.

Definition next {A B} (r : ans A) (f : A -> mach -> ans B) : ans B :=
  match r with
  | Ok a z => f a z
  | Err x z => Err x z
  | Bad u => Bad u
  | Endless => Endless
  end.

(** * User code *)
Definition has_object (z : mach) (s : sref) : bool :=
  if in_dec sref_eq_dec s (z_live z) then true else false.

Definition use (c : callee) (a : args) (v : V) (z : mach) : ans (bool * V) :=
  let tr := z_trace z ++ [mkCall c a v] in
  match cb c a v (z_world z) with
  | Ret b v' w' => Ok (b, v') (put_user z w' tr)
  | Raise n _ w' => Err (XUser n) (put_user z w' tr)
  end.

(** The guard of a row. *)
Definition ask (e : ev) (d : dep) (x : xrow) (o : sref) (v : V) (z : mach) : ans (bool * V) :=
  match x_guard x with
  | NoGuard => Ok (true, v) z
  | Guard ty val =>
      let t := if x_int x then o else target_state env x in
      if has_object z o && has_object z t
      then use (CGuard ty val) (mkArgs e o (TObj t) d) v z
      else Bad UBNull
  end.

(** The effects of a row: only reuse_state needs the object of the target. *)
Fixpoint act (e : ev) (d : dep) (o : sref) (ps : list prim) (v : V) (z : mach) : ans V :=
  match ps with
  | [] => Ok v z
  | p :: ps' =>
      if match p_callee p, p_targ p with
         | CReuse _, TObj t => has_object z t
         | _, _ => true
         end
      then next (use (p_callee p) (mkArgs e o (p_targ p) d) v z) (fun bv z =>
           act e d o ps' (if p_keep p then snd bv else v)
               match p_makes p with Some t => put_live z (assign (z_live z) t (fst bv)) | None => z end)
      else Bad UBNull
  end.

(** A row that has no effects touches no object. Internal rows count what they
    would have as external rows. *)
Definition external (x : xrow) : xrow :=
  mkXrow (x_parent x) (x_src x) (x_ev x) (x_guard x) (x_act x) (x_tgt x) false.
Definition some_of {A} (l : list A) : bool := match l with [] => false | _ => true end.
Definition busy (x : xrow) : bool :=
  match x_act x with NoAction => false | Action _ _ => true end
  || some_of (exit_call env (external x)) || some_of (entry_call env (external x))
  || some_of (initial_entry_call env x).

Definition perform_all (e : ev) (d : dep) (x : xrow) (o : sref) (v : V) (z : mach) : ans V :=
  if busy x
  then if has_object z o &&
          (x_int x || negb (default_constructible env (target_state env x))
           || has_object z (target_state env x))
       then act e d o (effects env x o) v z
       else Bad UBNull
  else Ok v z.

(** * Moving *)
Definition spot_at (r : nat) (z : mach) : ans spot :=
  match nth_error (z_at z) r with
  | None => Bad UBIndex
  | Some None => Bad UBUninit
  | Some (Some sp) => Ok sp z
  end.

(** The number of active regions is that of the class region 0 is in. *)
Definition recount (z : mach) : ans unit :=
  if Nat.ltb 1 width
  then next (spot_at 0 z) (fun sp z =>
         match sp with
         | At (p, _) => Ok tt (put_regions z (length (initial_states env p)))
         | Nowhere => Bad UBIndex
         end)
  else Ok tt z.

(** The place of region [r] is remembered for the class region 0 is in. *)
Definition memorise (r : nat) (z : mach) : ans unit :=
  next (spot_at 0 z) (fun sp0 z =>
  next (spot_at r z) (fun sp z =>
    match sp0 with
    | At (p, _) =>
        if Nat.ltb r (length (z_mem z p))
        then Ok tt (put_mem z (fun c => if Nat.eq_dec c p then set_nth r sp (z_mem z p) else z_mem z c))
        else Bad UBIndex
    | Nowhere => Bad UBIndex
    end)).

Definition go_to (r : nat) (sp : spot) (z : mach) : ans unit :=
  if Nat.ltb r (length (z_at z))
  then recount (put_at z (set_nth r (Some sp) (z_at z)))
  else Bad UBIndex.

Definition land (x : xrow) : spot :=
  match target_place env x with Some pl => spot_of pl | None => Nowhere end.

Definition move (r : nat) (x : xrow) (z : mach) : ans unit :=
  if x_int x then Ok tt z
  else if any_history
  then next (memorise r z) (fun _ z =>
         match x_tgt x with
         | SHistory _ p => match nth_error (z_mem z p) r with
                           | Some sp => go_to r sp z
                           | None => Bad UBIndex
                           end
         | _ => go_to r (land x) z
         end)
  else go_to r (land x) z.

(** * Trying the choices *)
Fixpoint attempt (e : ev) (r : nat) (bs : list bcand) (v : V) (z : mach) : ans (tried * V) :=
  match bs with
  | [] => Ok (Refused, v) z
  | (_, CDefer) :: _ => Ok (Deferred, v) (put_queue z (z_queue z ++ [(e, v)]))
  | (d, CRow x o) :: bs' =>
      next (ask e d x o v z) (fun bv z =>
        if fst bv
        then next (move r x z) (fun _ z =>
             next (perform_all e d x o (snd bv) z) (fun v' z => Ok (Fired, v') z))
        else attempt e r bs' (snd bv) z)
  end.

(** One region; [None]: nothing to try. *)
Definition region (e : ev) (r : nat) (v : V) (z : mach) : ans (option tried * V) :=
  if an_event e
  then next (spot_at r z) (fun sp z =>
         match sp with
         | Nowhere => Bad UBIndex
         | At pl =>
             match bind_all (z_deps z) (choices e pl) with
             | [] => Ok (None, v) z
             | bs => next (attempt e r bs v z) (fun tv z => Ok (Some (fst tv), snd tv) z)
             end
         end)
  else Bad UBIllformed.

(** The regions [r], [r+1], ..., [n] of them. [idle]: none had anything to try;
    [none]: none fired. *)
Fixpoint regions (e : ev) (n r : nat) (none idle : bool) (v : V) (z : mach) : ans (pres * V) :=
  match n with
  | O => Ok (if idle then PInvalid else if none then PGuardsFailed else PProcessed, v) z
  | S n' =>
      next (region e r v z) (fun tv z =>
        match fst tv with
        | None => regions e n' (S r) none idle (snd tv) z
        | Some Refused => regions e n' (S r) none false (snd tv) z
        | Some Fired => regions e n' (S r) false false (snd tv) z
        | Some Deferred => Ok (PDeferred, snd tv) z
        end)
  end.

Definition awake (z : mach) : nat := if Nat.ltb 1 width then z_regions z else 1.

(** Anonymous rows: a pass over the regions that ends at the first region with
    nothing to try. A deferral of the anonymous event is a null pointer. *)
Fixpoint attempt_anonymous (r : nat) (bs : list bcand) (v : V) (z : mach) : ans (bool * V) :=
  match bs with
  | [] => Ok (false, v) z
  | (_, CDefer) :: _ => Bad UBNull
  | (d, CRow x o) :: bs' =>
      next (ask ENone d x o v z) (fun bv z =>
        if fst bv
        then next (move r x z) (fun _ z =>
             next (perform_all ENone d x o (snd bv) z) (fun v' z => Ok (true, v') z))
        else attempt_anonymous r bs' (snd bv) z)
  end.
Fixpoint pass (n r : nat) (none : bool) (v : V) (z : mach) : ans (option bool * V) :=
  match n with
  | O => Ok (Some none, v) z
  | S n' =>
      next (spot_at r z) (fun sp z =>
        match sp with
        | Nowhere => Bad UBIndex
        | At pl =>
            match bind_all (z_deps z) (choices ENone pl) with
            | [] => Ok (None, v) z
            | bs => next (attempt_anonymous r bs v z) (fun bv z =>
                      pass n' (S r) (if fst bv then false else none) (snd bv) z)
            end
        end)
  end.
Fixpoint passes (fuel : nat) (v : V) (z : mach) : ans unit :=
  match fuel with
  | O => Endless
  | S fuel' =>
      next (pass (awake z) 0 true v z) (fun ov z =>
        match fst ov with
        | Some false => passes fuel' (snd ov) z
        | _ => Ok tt z
        end)
  end.

(** * Events *)
Definition propose (fuel : nat) (e : ev) (v : V) (z : mach) : ans (pres * V) :=
  next (regions e (awake z) 0 true true v z) (fun pv z =>
    match fst pv with
    | PProcessed => if any_anonymous
                    then next (passes fuel vnone z) (fun _ z => Ok pv z)
                    else Ok pv z
    | _ => Ok pv z
    end).

Definition checked_spot (r : nat) (z : mach) : ans spot :=
  match nth_error (z_at z) r with
  | None => Err XOutOfRange z
  | Some None => Bad UBUninit
  | Some (Some sp) => Ok sp z
  end.

Definition complain (e : ev) (v : V) (z : mach) : ans V :=
  if cd_unexpected (lookup env root)
  then next (checked_spot 0 z) (fun sp z =>
         match sp with
         | Nowhere => Err XOutOfRange z
         | At (_, s) => if has_object z s
                        then next (use CHandler (mkArgs e s TNone (z_first z)) v z)
                                  (fun bv z => Ok (snd bv) z)
                        else Bad UBNull
         end)
  else Ok v z.

Definition dispatch (fuel : nat) (e : ev) (v : V) (z : mach) : ans bool :=
  if an_event e
  then next (propose fuel e v z) (fun pv z =>
         match fst pv with
         | PInvalid => next (complain e (snd pv) z) (fun _ z => Ok false z)
         | PGuardsFailed | PDeferred => Ok false z
         | PProcessed =>
             match z_queue z with
             | [] => Ok true z
             | (e', v') :: q => next (propose fuel e' v' (put_queue z q)) (fun _ z => Ok true z)
             end
         end)
  else Bad UBIllformed.

(** * The other members *)
Definition encloser_is (p : cls) (sp : spot) : bool :=
  match sp with
  | At (p', _) => if Nat.eq_dec p' p then true else false
  | Nowhere => negb (encloses p)
  end.
Definition state_is (s : sref) (sp : spot) : bool :=
  match sp with
  | At (_, s') => if sref_eq_dec s' s then true else false
  | Nowhere => if sref_eq_dec first_state s then true else false
  end.
Definition narrow (r : nat) : nat := Nat.modulo r 256.

(** What a call shows; the status of a region is where it is and where region 0
    is. *)
Inductive zout :=
| ZBool (b : bool)
| ZUnit
| ZStatus (l : list (nat * spot * spot))
| ZExn (x : exn).

Fixpoint report (n r : nat) (z : mach) : ans (list (nat * spot * spot)) :=
  match n with
  | O => Ok [] z
  | S n' => next (spot_at r z) (fun sp z =>
            next (spot_at 0 z) (fun sp0 z =>
            next (report n' (S r) z) (fun l z => Ok ((r, sp, sp0) :: l) z)))
  end.

Definition serve (fuel : nat) (k : call V) (z : mach) : ans zout :=
  match k with
  | KProcess e v => next (dispatch fuel e v z) (fun b z => Ok (ZBool b) z)
  | KIs r p s =>
      next (spot_at 0 z) (fun sp0 z =>
        if encloser_is p sp0
        then next (checked_spot (narrow r) z) (fun sp z => Ok (ZBool (state_is s sp)) z)
        else Ok (ZBool false) z)
  | KParentIs p => next (spot_at 0 z) (fun sp0 z => Ok (ZBool (encloser_is p sp0)) z)
  | KSet r p s =>
      if a_place (p, s)
      then if Nat.ltb (narrow r) (length (z_at z))
           then Ok ZUnit (put_at z (set_nth (narrow r) (Some (At (p, s))) (z_at z)))
           else Err XOutOfRange z
      else Bad UBIllformed
  | KSetDep d => Ok ZUnit (put_deps z (d :: z_deps z))
  | KStatus => next (report (awake z) 0 z) (fun l z => Ok (ZStatus l) z)
  end.

Definition serve_catch (fuel : nat) (k : call V) (z : mach) : ans zout :=
  match serve fuel k z with
  | Err x z' => Ok (ZExn x) z'
  | a => a
  end.
Fixpoint serve_all (fuel : nat) (ks : list (call V)) (z : mach) : ans (list zout) :=
  match ks with
  | [] => Ok [] z
  | k :: ks' => next (serve_catch fuel k z) (fun o z =>
                next (serve_all fuel ks' z) (fun os z => Ok (o :: os) z))
  end.

(** A new machine: every region of the root in its initial state, every class's
    history in its initial states, an object for every state that has a default
    constructor. *)
Definition fresh (d : dep) (w : W) : mach :=
  let start := fun p => map (fun s => At (p, s)) (initial_states env p) in
  mkMach (map Some (start root) ++ repeat None (width - length (start root)))
         start [] 0
         (filter (default_constructible env)
            (dedup (flat_map (fun x => [unmarked (x_src x); x_tgt x]) flat) ++ [SState root]))
         [d] d w [].
Definition interpret (fuel : nat) (d : dep) (w : W) (ks : list (call V)) : ans (list zout) :=
  if orderly
  then next (recount (fresh d w)) (fun _ z => serve_all fuel ks z)
  else Bad UBIndex.
End Interp.

(** * Programs
    The rows of a program: a row, then the rows of the composite it leads into. *)
Definition into (t : sref) : option cls :=
  match t with
  | SState c => Some c
  | SEntry _ p _ => Some p
  | SDirect _ p _ => Some p
  | SHistory _ p => Some p
  | _ => None
  end.
Fixpoint walk (depth : nat) (env : cenv) (c : cls) : list xrow :=
  match depth with
  | O => []
  | S n => flat_map (fun r => row_in c r ::
             match into (r_tgt r) with
             | Some c' => if is_composite env c' then walk n env c' else []
             | None => []
             end) (table env c)
  end.
Definition same_type {A} (dec : forall a b : A, {a = b} + {a <> b}) (a b : A) : bool :=
  if dec a b then true else false.
Definition guard_type (g : guard) : option nat := match g with Guard ty _ => Some ty | NoGuard => None end.
Definition action_type (a : action) : option nat := match a with Action ty _ => Some ty | NoAction => None end.
Definition ty_dec : forall a b : option nat, {a = b} + {a <> b}.
Proof. decide equality. apply Nat.eq_dec. Defined.
Definition alike (x y : xrow) : bool :=
  same_type Nat.eq_dec (x_parent x) (x_parent y) && same_type sref_eq_dec (x_src x) (x_src y) &&
  same_type ev_eq_dec (x_ev x) (x_ev y) && same_type ty_dec (guard_type (x_guard x)) (guard_type (x_guard y)) &&
  same_type ty_dec (action_type (x_act x)) (action_type (x_act y)) && same_type sref_eq_dec (x_tgt x) (x_tgt y).
(** Of rows of one C++ type the first. *)
Fixpoint firsts (seen l : list xrow) : list xrow :=
  match l with
  | [] => []
  | x :: l' => if existsb (alike x) seen then firsts seen l' else x :: firsts (x :: seen) l'
  end.
Definition outer_rows (env : cenv) (root : cls) : list xrow := walk (S (length env)) env root.
Definition inner_rows (env : cenv) (root : cls) : list xrow := firsts [] (internal_rows env root (outer_rows env root)).
Definition interpreter {V W} (cb : cbfun V W) (env : cenv) (root : cls) (vnone : V) (fuel : nat) (d : dep) (w : W)
    (ks : list (call V)) : ans (list zout) :=
  interpret cb env root (outer_rows env root) (inner_rows env root) vnone fuel d w ks.

Arguments Ok {V W A}.
Arguments Err {V W A}.
Arguments Bad {V W A}.
Arguments Endless {V W A}.
Arguments mach : clear implicits.
Arguments ans : clear implicits.

(** * Comparing the two *)
Section Compare.
Context {V W : Type}.
Variable m : machine.

(** The number of a spot; nowhere is just beyond the last place. *)
Definition number (sp : spot) : N :=
  match sp with At pl => code m pl | Nowhere => N.of_nat (length (places m)) end.
Definition parent_number (sp : spot) : N :=
  match sp with At (p, _) => parent_idx m p | Nowhere => N.of_nat (length (parents m)) end.
Definition state_number (sp : spot) : N :=
  match sp with At (_, s) => state_idx m s | Nowhere => 0%N end.

Definition tells (o : out) (z : zout) : Prop :=
  match z with
  | ZBool b => o = OBool b
  | ZUnit => o = OUnit
  | ZStatus l => o = OStatus (map (fun t => match t with (r, sp, sp0) =>
                   (r, number sp, parent_number sp0, state_number sp) end) l)
  | ZExn x => o = OExn x
  end.

(** The data members of the library's object hold what the interpreter's machine
    holds. *)
Record shows (s : rt V W) (z : mach V W) : Prop := mkShows {
  sh_at : rt_cur s = map (option_map number) (z_at z);
  sh_mem : rt_hist s = map (fun p => map number (z_mem z p)) (parents m);
  sh_queue : rt_queue s = z_queue z;
  sh_regions : rt_regions s = z_regions z;
  sh_live : rt_live s = z_live z;
  sh_world : rt_world s = z_world z;
  sh_trace : rt_trace s = z_trace z }.

(** Same outcome, same results, same calls of user code, same state. *)
Definition same_answer {A B} (P : A -> B -> Prop) (r : res V W A) (a : ans V W B) : Prop :=
  match r, a with
  | Done x s, Ok y z => P x y /\ shows s z
  | Threw x s, Err y z => x = y /\ shows s z
  | Undef u, Bad u' => u = u'
  | Timeout, Endless => True
  | _, _ => False
  end.
End Compare.
