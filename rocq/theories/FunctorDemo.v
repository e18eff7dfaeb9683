(** Programs for PropsFunctor.v. *)

From Coq Require Import List Arith NArith Bool Lia.
From Verif Require Import Types Static Dispatch Runtime Dsl Examples Functors.
Import ListNotations.
Local Notation "s + e '-->' t" := (se_to (st_event s (EUser e)) t) (at level 50, e at level 49).

(** [[n = 0](...) mutable { return n++ < 1; }], counted up to 1. *)
Definition once : gfun nat nat nat := fun _ _ _ v w g =>
  if Nat.ltb g 1 then GRet true v w (S g) else GRet false v w g.
Definition zero (ty val : nat) : nat := 0.
Lemma once_at_most ty val : at_most once zero 1 (fun g => g) ty val.
Proof.
  split; [reflexivity|]. intros a v w g. unfold once. destruct (Nat.ltb_spec g 1); auto.
Qed.

(** A row from a composite with two states; rows that have the guard. *)
Definition limited (s : sref) (e : nat) (t : sref) : row := seg_to (st_eg s (event_guard (EUser e) (Guard 9 0))) t.
Definition within : cenv :=
 [ (11, tbl [ star_state 7 + 3 --> state 8 ]);
   (50, tbl [ star_state 1 + 2 --> state 11; limited (state 11) 5 (state 1) ]) ].
Definition plain_env : cenv :=
 [ (50, tbl [ limited (star_state 1) 2 (state 2); state 2 + 3 --> state 1 ]) ].
Definition rows_with (ty val : nat) (env : cenv) : list row :=
  filter (fun r => match r_guard r with Guard ty' val' => Nat.eqb ty' ty && Nat.eqb val' val | NoGuard => false end)
         (flat_map (fun kd => match cd_table (snd kd) with Some l => l | None => [] end) env).

Definition within_calls : list (call nat) := [pe 2; pe 5; pe 2; pe 5; pe 3; pe 5; pe 2; pe 3; pe 5].
Definition again_calls : list (call nat) := [pe 2; pe 3; pe 2; KSetDep 1; pe 2; pe 3; pe 2].
Definition is_dep {V} (k : call V) : bool := match k with KSetDep _ => true | _ => false end.

(** Outputs, calls that agreed, copies of the functor. *)
Definition result (env : cenv) (ks : list (call nat)) :=
  match compile env 50 with
  | None => None
  | Some m =>
      match g_session ex_cb once zero m 0 300 0 0 ks with
      | Done o s => Some (o, times_of 9 0 (gw_calls (rt_world s)), length (owners 9 0 (rt_tabs s)))
      | _ => None
      end
  end.
Lemma result_intro env ks o a b : result env ks = Some (o, a, b) -> exists m s, compile env 50 = Some m /\
  g_session ex_cb once zero m 0 300 0 0 ks = Done o s /\ times_of 9 0 (gw_calls (rt_world s)) = a /\ length (owners 9 0 (rt_tabs s)) = b.
Proof.
  unfold result. destruct (compile env 50) as [m|]; [|discriminate].
  destruct (g_session _ _ _ _ _ _ _ _ _) as [o' s| | |] eqn:E; try discriminate.
  intros H. injection H as <- <- <-. exists m, s. auto.
Qed.
Lemma within_result : exists m s, compile within 50 = Some m /\
  g_session ex_cb once zero m 0 300 0 0 within_calls = Done [T; T; T; F; T; T; T; T; F] s /\
  times_of 9 0 (gw_calls (rt_world s)) = 2 /\ length (owners 9 0 (rt_tabs s)) = 3.
Proof. apply result_intro. vm_compute. reflexivity. Qed.
Lemma again_result : exists m s, compile plain_env 50 = Some m /\
  g_session ex_cb once zero m 0 300 0 0 again_calls = Done [T; T; F; OUnit; T; T; F] s /\
  times_of 9 0 (gw_calls (rt_world s)) = 2 /\ length (owners 9 0 (rt_tabs s)) = 2.
Proof. apply result_intro. vm_compute. reflexivity. Qed.
