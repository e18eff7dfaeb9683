(** Renamed programs, and programs where two things get one name. *)

From Coq Require Import List Arith NArith Bool Lia.
From Verif Require Import Types Static Dispatch Runtime Dsl Examples Demo Rename InterpDemo.
Import ListNotations.

(** Everything is shifted. *)
Definition shift : names :=
  mkNames (plus 7) (plus 1) (plus 3) (plus 2) (plus 5) (plus 4) (plus 6).
Definition back : names :=
  mkNames (fun a => a - 7) (fun a => a - 1) (fun a => a - 3) (fun a => a - 2) (fun a => a - 5) (fun a => a - 4) (fun a => a - 6).
Lemma shift_back : undone_by shift back.
Proof. constructor; intros a; cbn; lia. Qed.

Definition shifted (cb : cbfun nat nat) : cbfun nat nat := fun c a v w => cb (re_callee back c) (re_args back a) v w.

(** One thing of each kind gets the name of another. *)
Definition merge (a b x : nat) : nat := if Nat.eqb x b then a else x.
Definition id : nat -> nat := fun x => x.
Definition one_class := mkNames (merge 2 3) id id id id id id.
Definition one_event := mkNames id (merge 1 2) id id id id id.
Definition one_guard := mkNames id id (merge 1 2) id id id id.
Definition one_action := mkNames id id id id (merge 1 2) id id.

Definition last_out (cb : cbfun nat nat) (env : cenv) (root : cls) (ks : list (call nat)) : option out :=
  match demo cb env root ks with Some (_, os, _) => nth_error os (length ks - 1) | None => None end.
(** Guard values answer for themselves: 1 says no. *)
Definition by_value : cbfun nat nat := fun c _ v w =>
  match c with CGuard _ 1 => Ret false v w | CAction k => Ret true v (w + k) | _ => Ret true v w end.
Lemma by_value_alike n : n_gval n = id -> n_fun n = id -> user_alike n by_value by_value.
Proof. intros H1 H2 c a v w. destruct c; try reflexivity; cbn; [now rewrite H1|now rewrite H2]. Qed.
Module Merged.
Definition e s k t := se_to (st_event s (EUser k)) t.
(** 1 -1-> 2 -2-> 3 -2-> 1. *)
Definition three : cenv := [ (50, tbl [ e (star_state 1) 1 (state 2); e (state 2) 2 (state 3); e (state 3) 2 (state 1) ]) ].
(** State 1 handles event 1 by two internal rows, by different functor types. *)
Definition inside (r1 r2 : irow) : cenv :=
 [ (1, mkCdef None (Some [r1; r2]) false false false None true); (50, tbl [ e (star_state 4) 2 (state 1); e (state 1) 2 (state 4) ]) ].
Definition guards := inside (mkIrow (EUser 1) (Guard 1 1) NoAction) (mkIrow (EUser 1) (Guard 2 2) NoAction).
Definition actions := inside (mkIrow (EUser 1) NoGuard (Action 1 (ACall 1))) (mkIrow (EUser 1) NoGuard (Action 2 (ACall 2))).
End Merged.

(** The same calls have another result, or leave other user data. *)
Definition tells_apart (n : names) : Prop :=
  exists (cb : cbfun nat nat) env root m m' ks outs outs' s s',
    user_alike n cb cb /\ compile env root = Some m /\ compile (renamed n env) (n_cls n root) = Some m' /\
    session cb m 0 300 0 0 ks = Done outs s /\
    session cb m' 0 300 (n_dep n 0) 0 (map (re_call n) ks) = Done outs' s' /\
    (outs' <> outs \/ rt_world s' <> rt_world s).
Lemma tells_apart_intro n env root ks : n_gval n = id -> n_fun n = id ->
  match compile env root, compile (renamed n env) (n_cls n root) with
  | Some m, Some m' =>
      match session by_value m 0 300 0 0 ks, session by_value m' 0 300 (n_dep n 0) 0 (map (re_call n) ks) with
      | Done outs s, Done outs' s' => outs' <> outs \/ rt_world s' <> rt_world s
      | _, _ => False
      end
  | _, _ => False
  end -> tells_apart n.
Proof.
  intros H1 H2 H. destruct (compile env root) as [m|] eqn:Em; [|destruct H].
  destruct (compile (renamed n env) (n_cls n root)) as [m'|] eqn:Em'; [|destruct H].
  destruct (session by_value m 0 300 0 0 ks) as [outs s| | |] eqn:Es; try contradiction.
  destruct (session by_value m' 0 300 (n_dep n 0) 0 (map (re_call n) ks)) as [outs' s'| | |] eqn:Es'; try contradiction.
  exists by_value, env, root, m, m', ks, outs, outs', s, s'. split; [now apply by_value_alike|]. auto 10.
Qed.
Definition injective (g : nat -> nat) : Prop := forall a b, g a = g b -> a = b.
Lemma needed : exists n1 n2 n3 n4,
  (injective (n_event n1) /\ injective (n_gty n1) /\ injective (n_aty n1) /\ tells_apart n1) /\
  (injective (n_cls n2) /\ injective (n_gty n2) /\ injective (n_aty n2) /\ tells_apart n2) /\
  (injective (n_cls n3) /\ injective (n_event n3) /\ injective (n_aty n3) /\ tells_apart n3) /\
  (injective (n_cls n4) /\ injective (n_event n4) /\ injective (n_gty n4) /\ tells_apart n4).
Proof.
  assert (I : injective id) by (intros a b H; exact H).
  exists one_class, one_event, one_guard, one_action.
  split; [|split; [|split]]; (split; [exact I|split; [exact I|split; [exact I|]]]).
  - apply (tells_apart_intro one_class Merged.three 50 [pe 1; pe 2; pe 2]); try reflexivity. vm_compute. left. discriminate.
  - apply (tells_apart_intro one_event Merged.three 50 [pe 1; pe 1]); try reflexivity. vm_compute. left. discriminate.
  - apply (tells_apart_intro one_guard Merged.guards 50 [pe 2; pe 1]); try reflexivity. vm_compute. left. discriminate.
  - apply (tells_apart_intro one_action Merged.actions 50 [pe 2; pe 1]); try reflexivity. vm_compute. right. discriminate.
Qed.
