(** Programs for C98. *)

From Coq Require Import List Arith NArith Bool.
From Verif Require Import Types Static Dispatch Runtime Spec Semantics StaticFacts Interp Probe Dsl Examples Demo SafeDemo InterpDemo.
Import ListNotations.

Definition calls_not_b (f : nat) (env : cenv) : bool :=
  let no a := negb (existsb (fun c => match c with CAction g => Nat.eqb g f | _ => false end) (calls_of a)) in
  forallb (fun cd => forallb (fun r => no (r_act r)) (match cd_table (snd cd) with Some l => l | None => [] end) &&
                     forallb (fun i => no (i_act i)) (match cd_internal (snd cd) with Some l => l | None => [] end)) env.
Lemma calls_not_intro f env : calls_not_b f env = true -> calls_not f env.
Proof.
  intros E.
  assert (A : forall a, negb (existsb (fun c => match c with CAction g => Nat.eqb g f | _ => false end) (calls_of a)) = true ->
              ~ In (CAction f) (calls_of a)).
  { intros a Ha Hi. apply negb_true_iff in Ha. rewrite <- not_true_iff_false in Ha. apply Ha, existsb_exists.
    exists (CAction f). split; [exact Hi|apply Nat.eqb_refl]. }
  intros c. unfold table, internals. induction env as [|[k d] env IH]; [split; intros ? []|].
  unfold calls_not_b in E. cbn [forallb snd] in E. apply andb_true_iff in E. destruct E as [E1 E2].
  apply andb_true_iff in E1. destruct E1 as [E0 E1]. cbn [lookup]. destruct (Nat.eq_dec c k); [|now apply IH].
  rewrite forallb_forall in E0, E1. split; intros r Hr; apply A; auto.
Qed.

(** Results, places, calls. *)
Definition seen {W} (r : res nat W (list out)) : option (list out * list (option N) * list callee) :=
  match r with Done os s => Some (os, rt_cur s, map (@k_callee nat) (rt_trace s)) | _ => None end.
Definition is_undef {W} (r : res nat W (list out)) (u : ub) : Prop := r = Undef u.

(** State 2 has no default constructor and nothing creates it: no row touches it. *)
Definition shy : cenv :=
 [ (2, mkCdef None None false false false None false);
   (50, tbl [ mkRow (SInitial WState 1) (EUser 1) NoGuard NoAction (SState 2);
              mkRow (SState 2) (EUser 2) NoGuard NoAction (SState 1) ]) ].

(** Two internal rows with different actions; all actions put into one type. *)
Definition two_ways (ty1 ty2 : nat) : cenv :=
 [ (1, mkCdef None (Some [ mkIrow (EUser 2) NoGuard (Action ty1 (ACall 1)); mkIrow (EUser 2) NoGuard (Action ty2 (ACall 2)) ])
              false false false None true);
   (50, tbl [ mkRow (SInitial WState 3) (EUser 1) NoGuard NoAction (SState 1) ]) ].
(** No action, no member functions. *)
Definition bare : cenv := [ (50, tbl [ mkRow (SInitial WState 1) (EUser 1) NoGuard NoAction (SState 2) ]) ].
