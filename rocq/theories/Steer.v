(** Bringing a machine to a goal against user code: a client that sees the configuration
    of the machine chooses the calls, user code chooses the answers. *)

From Coq Require Import List Arith NArith Bool Lia.
From Verif Require Import Types Static Dispatch Runtime Data DataUse Script Explore.
Import ListNotations.

(** A client chooses the next call from the configurations seen so far, the newest one
    first. [leads n h s]: with at most [n] calls the client brings the machine from [s] into
    a configuration of the goal; nothing undefined happens on the way. Calls that end
    with an exception count as calls. *)
Section Play.
Context {V W : Type}.
Variable cb : cbfun V W.
Variable m : machine.
Variable vnone : V.
Variable fuel : nat.
Variable client : list config -> call V.
Variable goal : config -> Prop.
Inductive leads : nat -> list config -> rt V W -> Prop :=
  | leads_now n h s : goal (config_of s) -> leads n h s
  | leads_next n h s o s' : do_call_catch cb m vnone fuel (client (config_of s :: h)) s = Done o s' ->
      leads n (config_of s :: h) s' -> leads (S n) h s.
(** From a new machine. *)
Definition leads_new (d : dep) (w : W) (n : nat) : Prop :=
  match construct m fuel d w with Done _ s => leads n [] s | _ => False end.
End Play.

(** The test. A plan says which call to make in which configuration. *)
Definition plan : Type := list (config * call unit).
Fixpoint advice (p : plan) (c : config) : option (call unit) :=
  match p with
  | [] => None
  | (c', k) :: p' => if config_eq_dec c' c then Some k else advice p' c
  end.
Section Steer.
Variable m : machine.
Variables fuel depth : nat.
Variables (tabs : tables) (htabs : handler_tables).
Variable calls : list (call unit).
Variable goal : config -> bool.
Definition won (p : plan) (c : config) : bool :=
  goal c || match advice p c with Some _ => true | None => false end.
(** Whatever user code answers, call [k] leads into what is won. *)
Definition forces (p : plan) (c : config) (k : call unit) : bool :=
  match ends m fuel tabs htabs depth c k [] with
  | Some ns => forallb (fun n => match n with Some c' => won p c' | None => false end) ns
  | None => false
  end.
Definition extend (p : plan) (n : option config) : plan :=
  match n with
  | Some c => if won p c then p else match find (forces p c) calls with Some k => (c, k) :: p | None => p end
  | None => p
  end.
Definition pass (l : list (option config)) (p : plan) : plan := fold_left extend l p.
Fixpoint grow (n : nat) (l : list (option config)) (p : plan) : plan :=
  match n with
  | 0 => p
  | S n' => let p' := pass l p in if Nat.eqb (length p') (length p) then p else grow n' l p'
  end.
End Steer.
Definition steering (m : machine) (fuel depth rounds : nat) (d : dep) (calls : list (call unit)) (goal : config -> bool) : option (list (option config) * plan) :=
  match explore m fuel depth rounds d calls with
  | None => None
  | Some l => match construct (V:=unit) m fuel d tt with
              | Done _ s => Some (l, grow m fuel depth (rt_tabs s) (rt_htabs s) calls goal (S (length l)) l [])
              | _ => Some (l, [])
              end
  end.
(** Can the goal be forced from the beginning? *)
Definition forceable (m : machine) (fuel depth rounds : nat) (d : dep) (calls : list (call unit)) (goal : config -> bool) : option bool :=
  match steering m fuel depth rounds d calls goal with
  | None => None
  | Some (_, p) => match construct (V:=unit) m fuel d tt with
                   | Done _ s => Some (won goal p (config_of s))
                   | _ => Some false
                   end
  end.
(** Can it be forced again whatever happened before? *)
Definition recoverable (m : machine) (fuel depth rounds : nat) (d : dep) (calls : list (call unit)) (goal : config -> bool) : option bool :=
  match steering m fuel depth rounds d calls goal with
  | None => None
  | Some (l, p) => Some (forallb (fun n => match n with Some c => won goal p c | None => false end) l)
  end.
