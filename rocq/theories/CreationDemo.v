(** Machines for PropsCreation.v. *)

From Coq Require Import List Arith NArith Bool.
From Verif Require Import Types Static Dispatch Runtime Dsl Examples Spec DispatchFacts Semantics Reach
  Demo Safe SafeObjects SafeDemo Creation CreationFacts.
Import ListNotations.

Lemma keeps_promises_intro env root promise steady :
  match compile env root with Some m => placed_check m && creation_check m promise steady | None => false end = true ->
  keeps_promises env root (fun pl q => In q (promise pl)) (fun c => steady c = true).
Proof.
  destruct (compile env root) as [m|] eqn:Hm; [|discriminate]. rewrite andb_true_iff. intros [H1 H2].
  apply (placed_check_decides env root m Hm) in H1. now apply (creation_check_decides env root m Hm promise steady H1).
Qed.

(** S2 is made by the first event: the action calls user code and then a factory.
    S2 has an internal row with a guard and is left for S3, from where it is reused.
    There is a handler for unexpected events. Entering S2 may throw. *)
Module Made.
Definition env : cenv :=
 [ (2, mkCdef None None true true false None false);
   (50, mkCdef (Some
     [ sea_to (st_ea (star_state 1) (event_action (EUser 1) (Action 1 (AChain [ACall 1; ACreate 1])))) (state 2);
       sega_to (st_ega (state 2) (eg_action (event_guard (EUser 4) ok) act)) (state 2);
       sea_to (st_ea (state 2) (event_action (EUser 2) act)) (state 3);
       sea_to (st_ea (state 3) (event_action (EUser 1) (Action 3 (AReuse 3)))) (state 2);
       se_to (st_event (state 3) (EUser 5)) (state 1) ])
     None false false true None true) ].
Definition promise (pl : place) : list sref :=
  if in_dec sref_eq_dec (snd pl) [SState 2; SState 3] then [SState 2] else [].
Definition steady (c : callee) : bool :=
  match c with CAction 1 | CFactory 1 => true | _ => false end.
(** on_entry of S2 throws whenever it is called an even number of calls after the start. *)
Definition cb : cbfun nat nat := fun c a v w =>
  match c with
  | CEntry 2 => if Nat.even w then Raise 8 v (S w) else Ret true v (S w)
  | CGuard _ _ => Ret (Nat.even v) v w
  | CHandler => Ret true 99 w
  | _ => Ret true v (S w)
  end.
Lemma reliable : reliable (fun c => steady c = true) cb.
Proof.
  split.
  - intros [ty val|f|f|f|c|c|] a v w n v' w'; cbn; discriminate.
  - intros f a v w b v' w'. cbn. now inversion 1.
Qed.
End Made.

Lemma ex_cb_reliable : forall steady, reliable steady ex_cb.
Proof.
  intros steady. split.
  - intros [ty val|f|f|f|c|c|] a v w n v' w' _; cbn; discriminate.
  - intros f a v w b v' w'. cbn. now inversion 1.
Qed.
