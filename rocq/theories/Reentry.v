(** User code that calls back into the state machine it is called from.

    In Runtime.v user code is a function; here it is a program that may use the
    members of the same sm object before it returns or throws.  The definitions of
    this file repeat those of Runtime.v (see there for the line numbers of sm.h)
    with [invoke] replaced by a parameter; ReentryFacts.v proves that they are the
    same for user code without such calls. *)

From Coq Require Import List Arith NArith Bool.
From Verif Require Import Types Static Dispatch Runtime.
Import ListNotations.

(** * User code *)
Section Programs.
Context {V W : Type}.

(** Return, throw, or use the machine and go on with what the call returned and
    the world after it (nested calls of user code change the world).  An exception
    of the nested call is an ordinary result [OExn]; user code that does not catch
    it throws it again. *)
Inductive prog :=
| PRet (b : bool) (v : V) (w : W)
| PRaise (x : exn) (w : W)
| PUse (k : call V) (w : W) (next : out -> W -> prog).

Definition rcbfun := callee -> args -> V -> W -> prog.

Definition with_world (s : rt V W) (w : W) : rt V W := with_user s w (rt_trace s).

Variable use : call V -> rt V W -> res V W out.
Fixpoint run_prog (p : prog) (s : rt V W) : res V W (bool * V) :=
  match p with
  | PRet b v w => Done (b, v) (with_world s w)
  | PRaise x w => Threw x (with_world s w)
  | PUse k w next =>
      bind (use k (with_world s w)) (fun o s' => run_prog (next o (rt_world s')) s')
  end.

Variable cb : rcbfun.
Definition rinvoke (c : callee) (a : args) (v : V) (s : rt V W) : res V W (bool * V) :=
  run_prog (cb c a v (rt_world s)) (with_user s (rt_world s) (rt_trace s ++ [mkCall c a v])).
End Programs.
Arguments prog : clear implicits.
Arguments rcbfun : clear implicits.

(** * The machine, for any way of calling user code *)
Section Generic.
Context {V W : Type}.
Notation st := (rt V W).
Variable inv : callee -> args -> V -> st -> res V W (bool * V).

Definition g_guard (t : trans) (e : ev) (v : V) (s : st) : res V W (bool * V) :=
  match t_guard t with
  | NoGuard => Done (true, v) s
  | Guard ty val =>
      let tgt := if t_int t then t_src t else t_tgt t in
      if alive s (t_src t) && alive s tgt
      then inv (CGuard ty val) (mkArgs e (t_src t) (TObj tgt) (t_dep t)) v s
      else Undef UBNull
  end.

Fixpoint g_body (b : abody) (t : trans) (e : ev) (v : V) (s : st) : res V W V :=
  match b with
  | ACall f => keep_payload (inv (CAction f) (action_args t e) v s)
  | ACreate f =>
      bind (inv (CFactory f) (mkArgs e (t_src t) TNone (t_dep t)) v s)
           (fun bv s' => Done v (set_live s' (t_tgt t) (fst bv)))
  | AReuse f =>
      if alive s (t_tgt t)
      then drop_payload v (inv (CReuse f) (mkArgs e (t_src t) (TObj (t_tgt t)) (t_dep t)) v s)
      else Undef UBNull
  | AChain l =>
      (fix go (l : list abody) (v : V) (s : st) : res V W V :=
         match l with
         | [] => Done v s
         | b :: l' => bind (g_body b t e v s) (fun v' s' => go l' v' s')
         end) l v s
  end.

Definition g_step (a : step) (t : trans) (e : ev) (v : V) (s : st) : res V W V :=
  match a with
  | StExit c => keep_payload (inv (CExit c) (action_args t e) v s)
  | StAct b => g_body b t e v s
  | StEntry c | StInit c => keep_payload (inv (CEntry c) (action_args t e) v s)
  end.
Fixpoint g_steps (l : list step) (t : trans) (e : ev) (v : V) (s : st) : res V W V :=
  match l with
  | [] => Done v s
  | a :: l' => bind (g_step a t e v s) (fun v' s' => g_steps l' t e v' s')
  end.
Definition g_action (t : trans) (e : ev) (v : V) (s : st) : res V W V :=
  match t_act t with
  | None => Done v s
  | Some steps =>
      if alive s (t_src t) && (t_ptr t || t_int t || alive s (t_tgt t))
      then g_steps steps t e v s
      else Undef UBNull
  end.

Variable m : machine.

(** The candidates are the elements of a std::deque; the loops over them (sm.h
    198, 255) hold iterators.  [here]: the number of elements of that deque.
    set_dependency pushes elements in front, which invalidates the iterators: going
    on to the next candidate is then undefined (here [UBIndex]); leaving the loop
    is not, nor is the use of the reference to the current element. *)
Definition count (e : ev) (c : N) (s : st) : nat :=
  match get_table (rt_tabs s) e with
  | Some arr => match nth_at c arr with Some l => length l | None => 0 end
  | None => 0
  end.

Fixpoint g_entries (ens : list entry) (here : N) (r : nat) (e : ev) (v : V) (s : st)
  : res V W (tried * V) :=
  match ens with
  | [] => Done (Refused, v) s
  | en :: ens' =>
      if en_defer en
      then Done (Deferred, v) (with_queue s (rt_queue s ++ [(e, v)]))
      else
        match en_tr en with
        | None => Undef UBNull
        | Some t =>
            bind (g_guard t e v s) (fun bv s1 =>
              if fst bv
              then bind (update_current_state m r en s1) (fun _ s2 =>
                   bind (g_action t e (snd bv) s2) (fun v' s3 =>
                   Done (Fired, v') s3))
              else if Nat.eqb (count e here s1) (count e here s)
                   then g_entries ens' here r e (snd bv) s1
                   else Undef UBIndex)
        end
  end.

Definition g_region (r : nat) (e : ev) (v : V) (s : st) : res V W (option tried * V) :=
  bind (get_entries e r s) (fun ens s =>
    match ens with
    | [] => Done (None, v) s
    | _ => bind (read_cur s r) (fun c s =>
           bind (g_entries ens c r e v s) (fun tv s => Done (Some (fst tv), snd tv) s))
    end).

Fixpoint g_loop (fuel : nat) (limit r : nat) (agf ati : bool)
    (e : ev) (v : V) (s : st) : res V W (pres * V) :=
  match fuel with
  | O => Timeout
  | S fuel' =>
      if Nat.ltb r limit
      then
        bind (g_region r e v s) (fun tv s =>
          match fst tv with
          | None => g_loop fuel' limit (next_region r) agf ati e (snd tv) s
          | Some Deferred => Done (PDeferred, snd tv) s
          | Some Refused => g_loop fuel' limit (next_region r) agf false e (snd tv) s
          | Some Fired => g_loop fuel' limit (next_region r) false false e (snd tv) s
          end)
      else Done (if ati then PInvalid else if agf then PGuardsFailed else PProcessed, v) s
  end.

Fixpoint g_anonymous (ens : list entry) (here : N) (r : nat) (v : V) (s : st) : res V W (bool * V) :=
  match ens with
  | [] => Done (false, v) s
  | en :: ens' =>
      match en_tr en with
      | None => Undef UBNull
      | Some t =>
          bind (g_guard t ENone v s) (fun bv s1 =>
            if fst bv
            then bind (update_current_state m r en s1) (fun _ s2 =>
                 bind (g_action t ENone (snd bv) s2) (fun v' s3 =>
                 Done (true, v') s3))
            else if Nat.eqb (count ENone here s1) (count ENone here s)
                 then g_anonymous ens' here r (snd bv) s1
                 else Undef UBIndex)
      end
  end.
Definition g_anonymous_region (r : nat) (v : V) (s : st) : res V W (option bool * V) :=
  bind (get_entries ENone r s) (fun ens s =>
    match ens with
    | [] => Done (None, v) s
    | _ => bind (read_cur s r) (fun c s =>
           bind (g_anonymous ens c r v s) (fun bv s => Done (Some (fst bv), snd bv) s))
    end).
Fixpoint g_pass (fuel : nat) (limit r : nat) (agf : bool) (v : V) (s : st)
  : res V W (option bool * V) :=
  match fuel with
  | O => Timeout
  | S fuel' =>
      if Nat.ltb r limit
      then
        bind (g_anonymous_region r v s) (fun bv s =>
          match fst bv with
          | None => Done (None, snd bv) s
          | Some b => g_pass fuel' limit (next_region r) (if b then false else agf) (snd bv) s
          end)
      else Done (Some agf, v) s
  end.
Fixpoint g_anonymous_loop (rfuel fuel : nat) (v : V) (s : st) : res V W unit :=
  match fuel with
  | O => Timeout
  | S fuel' =>
      bind (g_pass rfuel (current_regions m s) 0 true v s) (fun ov s =>
        match fst ov with
        | None => Done tt s
        | Some true => Done tt s
        | Some false => g_anonymous_loop rfuel fuel' (snd ov) s
        end)
  end.

Variable vnone : V.
Definition g_completion (fuel : nat) (s : st) : res V W unit :=
  if has_anonymous m then g_anonymous_loop fuel fuel vnone s else Done tt s.
Definition g_internal (fuel : nat) (e : ev) (v : V) (s : st) : res V W (pres * V) :=
  bind (g_loop fuel (current_regions m s) 0 true true e v s) (fun pv s =>
    match fst pv with
    | PProcessed => bind (g_completion fuel s) (fun _ s => Done pv s)
    | _ => Done pv s
    end).
Definition g_deferred (fuel : nat) (s : st) : res V W unit :=
  if has_deferred m
  then match rt_queue s with
       | [] => Done tt s
       | (e, v) :: q => bind (g_internal fuel e v (with_queue s q)) (fun _ s => Done tt s)
       end
  else Done tt s.
Definition g_handler (e : ev) (v : V) (s : st) : res V W V :=
  if cd_unexpected (lookup (mc_env m) (mc_root m))
  then
    bind (at_cur s 0) (fun c s =>
      match get_table (rt_htabs s) e with
      | None => Undef UBIllformed
      | Some arr =>
          match nth_at c arr with
          | None => Threw XOutOfRange s
          | Some None => Undef UBNull
          | Some (Some (o, d)) =>
              if alive s o
              then keep_payload (inv CHandler (mkArgs e o TNone d) v s)
              else Undef UBNull
          end
      end)
  else Done v s.
Definition g_process (fuel : nat) (e : ev) (v : V) (s : st) : res V W (bool * V) :=
  if in_dec ev_eq_dec e (events m)
  then
    bind (g_internal fuel e v s) (fun pv s =>
      match fst pv with
      | PInvalid => bind (g_handler e (snd pv) s) (fun v' s => Done (false, v') s)
      | PDeferred | PGuardsFailed => Done (false, snd pv) s
      | PProcessed => bind (g_deferred fuel s) (fun _ s => Done (true, snd pv) s)
      end)
  else Undef UBIllformed.

(** The members without user code are those of Runtime.v. *)
Definition g_call (fuel : nat) (k : call V) (s : st) : res V W out :=
  match k with
  | KProcess e v => bind (g_process fuel e v s) (fun bv s => Done (OBool (fst bv)) s)
  | KIs r p q => bind (q_is m r p q s) (fun b s => Done (OBool b) s)
  | KParentIs p => bind (q_parent_is m p s) (fun b s => Done (OBool b) s)
  | KSet r p q => bind (set_state m r p q s) (fun _ s => Done OUnit s)
  | KSetDep d => bind (set_dependency m d s) (fun _ s => Done OUnit s)
  | KStatus => bind (status m fuel s) (fun l s => Done (OStatus l) s)
  end.
Definition g_call_catch (fuel : nat) (k : call V) (s : st) : res V W out :=
  match g_call fuel k s with
  | Threw x s' => Done (OExn x) s'
  | r => r
  end.
End Generic.

(** * Re-entrant machines *)
Section Reentrant.
Context {V W : Type}.
Variable cb : rcbfun V W.
Variable m : machine.
Variable vnone : V.

(** [depth] bounds the nesting of calls, [fuel] the loops. *)
Fixpoint r_call (depth fuel : nat) (k : call V) (s : rt V W) : res V W out :=
  match depth with
  | O => Timeout
  | S depth' => g_call_catch (rinvoke (r_call depth' fuel) cb) m vnone fuel k s
  end.
Fixpoint r_run (depth fuel : nat) (ks : list (call V)) (s : rt V W) : res V W (list out) :=
  match ks with
  | [] => Done [] s
  | k :: ks' =>
      bind (r_call depth fuel k s) (fun o s =>
      bind (r_run depth fuel ks' s) (fun os s => Done (o :: os) s))
  end.
Definition r_session (depth fuel : nat) (d : dep) (w : W) (ks : list (call V)) : res V W (list out) :=
  bind (construct m fuel d w) (fun _ s => r_run depth fuel ks s).
End Reentrant.

(** * Conditions on user code *)
Section Conditions.
Context {V W : Type}.

(** Every use of the machine by the program satisfies [P], whatever its outcome. *)
Inductive uses (P : call V -> Prop) : prog V W -> Prop :=
| us_ret b v w : uses P (PRet b v w)
| us_raise x w : uses P (PRaise x w)
| us_use k w next : P k -> (forall o w', uses P (next o w')) -> uses P (PUse k w next).

Definition no_dependency (k : call V) : Prop := forall d, k <> KSetDep d.
Definition no_event (k : call V) : Prop := forall e v, k <> KProcess e v.

(** Nothing changes the dispatch tables while a guard runs: guards do not call
    set_dependency, and if they process events then no user code does. *)
Definition guards_leave_tables (cb : rcbfun V W) : Prop :=
  (forall ty val a v w, uses no_dependency (cb (CGuard ty val) a v w)) /\
  ((forall c a v w, uses no_dependency (cb c a v w)) \/
   (forall ty val a v w, uses no_event (cb (CGuard ty val) a v w))).
End Conditions.
