(** The interpreter of Interp.v at work. *)

From Coq Require Import List Arith NArith Bool.
From Verif Require Import Types Static Dispatch Runtime Spec Semantics StaticFacts TableFacts Interp Dsl Examples Demo SafeDemo.
Import ListNotations.

(** What the interpreter shows: results, where the regions are, callees. *)
Definition shown (cb : cbfun nat nat) (env : cenv) (root : cls) (ks : list (call nat))
  : option (list zout * list (option spot) * list callee) :=
  match interpreter cb env root 0 300 0 0 ks with
  | Ok os z => Some (os, z_at z, map (@k_callee nat) (z_trace z))
  | _ => None
  end.
(** It answers with undefined behaviour of kind [u]. *)
Definition refuses (cb : cbfun nat nat) (env : cenv) (root : cls) (ks : list (call nat)) (u : ub) : Prop :=
  interpreter cb env root 0 300 0 0 ks = Bad u.

Definition usable (env : cenv) (root : cls) : Prop := exists m, compile env root = Some m /\ few_regions env root.
Lemma usable_intro env root :
  match compile env root with Some m => Nat.leb (max_initials m) 255 | None => false end = true -> usable env root.
Proof.
  destruct (compile env root) as [m|] eqn:E; [|discriminate]. intros H. exists m. split; [exact E|].
  apply Nat.leb_le in H. eapply max_few; eauto.
Qed.

Module Two.
Definition e s n t := se_to (st_event s (EUser n)) t.
Definition a s n t := sea_to (st_ea s (event_action (EUser n) act)) t.
(** Two regions; the first enters a composite with two regions, leaves it by an exit
    and comes back by history; the second defers event 3 in state 5. *)
Definition env : cenv :=
 [ (5, mkCdef None None true false false (Some [EUser 3]) true);
   (11, mkCdef (Some [ a (star_state 1) 1 (state 2); a (star_state 21) 2 (state 22); e (state 22) 4 (state 21) ])
               (Some [ mkIrow (EUser 6) NoGuard act ]) true true false None true);
   (50, mkCdef (Some [ a (star_state 3) 1 (state 11); e (star_state 4) 2 (state 5); e (state 5) 5 (state 4);
                       a (state 4) 3 (state 6); e (exit 11 2) 5 (state 3); e (state 3) 2 (history 11);
                       sea_to (st_ea (state 6) (event_action (EUser 7) boom)) (state 4) ])
               None false false true None true) ].
(** A completion row from 2 to 2. *)
Definition endless : cenv :=
 [ (50, tbl [ e (star_state 1) 1 (state 2); st_to (state 2) (state 2) ]) ].
End Two.
