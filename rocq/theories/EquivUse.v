(** Uses of the comparison. *)

From Coq Require Import List Arith NArith Bool Lia.
From Verif Require Import Types Static Dispatch Runtime Dsl Examples IndexFacts DispatchFacts TermFacts TableFacts Data DataUse Script Explore ExploreUse ExploreTotal ExploreEnds
  Tree Equiv EquivTotal.
Import ListNotations.

Definition targ_eq_dec : forall a b : targ, {a = b} + {a <> b}.
Proof. decide equality; apply sref_eq_dec. Defined.
Definition callee_eq_dec : forall a b : callee, {a = b} + {a <> b}.
Proof. decide equality; apply Nat.eq_dec. Defined.
Definition args_eq_dec : forall a b : args, {a = b} + {a <> b}.
Proof. decide equality; [apply Nat.eq_dec|apply targ_eq_dec|apply sref_eq_dec|apply ev_eq_dec]. Defined.
(** The same function with the same arguments. *)
Definition exactly : likeness := fun x y =>
  if callee_eq_dec (k_callee x) (k_callee y) then if args_eq_dec (k_args x) (k_args y) then true else false else false.
(** The same function with the same event and dependency; the states it is called with may
    differ. *)
Definition same_function : likeness := fun x y =>
  if callee_eq_dec (k_callee x) (k_callee y) then
    if ev_eq_dec (a_ev (k_args x)) (a_ev (k_args y)) then Nat.eqb (a_dep (k_args x)) (a_dep (k_args y)) else false
  else false.
Lemma exactly_eq x y : exactly x y = true -> x = y.
Proof.
  unfold exactly. destruct (callee_eq_dec _ _) as [E|]; [|discriminate]. destruct (args_eq_dec _ _) as [E'|]; [|discriminate]. intros _.
  destruct x as [c a []], y as [c' a' []]. cbn in *. now subst.
Qed.
Lemma blind_exactly {W} (cb : cbfun unit W) : blind exactly cb.
Proof. intros x y w H. now apply exactly_eq in H as ->. Qed.
Lemma exactly_calls a : forall b, same_calls exactly a b = true -> a = b.
Proof. induction a as [|x a IH]; intros [|y b]; cbn; try discriminate; auto. intros H. apply andb_true_iff in H as [H1 H2]. now rewrite (exactly_eq _ _ H1), (IH b H2). Qed.
Lemma blind_scripted alike : blind alike scripted. Proof. now intros x y w H. Qed.

Lemma same_not_differ {W} alike (r1 r2 : res unit W (list out)) : same_run alike r1 r2 -> ~ differ alike r1 r2.
Proof. destruct r1, r2; cbn; try tauto. Qed.
(** More fuel changes nothing. *)
Lemma compare_more alike m1 m2 fuel depth rounds d calls : compare_machines alike m1 m2 fuel depth rounds d calls = Some true ->
  forall W (cb : cbfun unit W) fuel' w ks, fuel <= fuel' -> blind alike cb -> (forall k, In k ks -> In k calls) ->
  same_run alike (session cb m1 tt fuel' d w (map fst ks)) (session cb m2 tt fuel' d w (map snd ks)).
Proof.
  intros H W cb fuel' w ks Hf Hb Hks. pose proof (compare_sound _ _ _ _ _ _ _ _ H W cb w ks Hb Hks) as S.
  rewrite (session_mono cb m1 tt fuel fuel' d w _ Hf), (session_mono cb m2 tt fuel fuel' d w _ Hf); [exact S| |]; intros T; rewrite T in S;
    [destruct (session cb m1 tt fuel d w (map fst ks)); destruct S|destruct S].
Qed.
Lemma compare_exact m1 m2 fuel depth rounds d calls : compare_machines exactly m1 m2 fuel depth rounds d calls = Some true ->
  forall W (cb : cbfun unit W) fuel' w ks, fuel <= fuel' -> (forall k, In k ks -> In k calls) ->
  match session cb m1 tt fuel' d w (map fst ks), session cb m2 tt fuel' d w (map snd ks) with
  | Done outs1 s1, Done outs2 s2 => outs1 = outs2 /\ rt_world s1 = rt_world s2 /\ rt_trace s1 = rt_trace s2
  | Undef _, Undef _ => True
  | _, _ => False
  end.
Proof.
  intros H W cb fuel' w ks Hf Hks. pose proof (compare_more _ _ _ _ _ _ _ _ H W cb fuel' w ks Hf (blind_exactly cb) Hks) as S. unfold same_run in S.
  destruct (session cb m1 tt fuel' d w (map fst ks)), (session cb m2 tt fuel' d w (map snd ks)); auto. destruct S as (A & B & C). now apply exactly_calls in C.
Qed.
(** The verdict is right in both directions. *)
Lemma compare_iff alike m1 m2 fuel depth rounds d calls b : compare_machines alike m1 m2 fuel depth rounds d calls = Some b ->
  (b = true <-> forall W (cb : cbfun unit W) w ks, blind alike cb -> (forall k, In k ks -> In k calls) ->
     same_run alike (session cb m1 tt fuel d w (map fst ks)) (session cb m2 tt fuel d w (map snd ks))).
Proof.
  intros H. split; [intros ->; exact (compare_sound _ _ _ _ _ _ _ _ H)|]. intros S. destruct b; [reflexivity|]. exfalso.
  destruct (compare_complete _ _ _ _ _ _ _ _ H) as (script & ks & Hks & D). revert D. apply same_not_differ. apply S; [apply blind_scripted|exact Hks].
Qed.
Lemma pair_no_deps (calls : list (call unit * call unit)) : (forall d, ~ In (KSetDep d) (map fst calls)) -> (forall d, ~ In (KSetDep d) (map snd calls)) ->
  existsb (fun k => is_set_dep (fst k) || is_set_dep (snd k)) calls = false.
Proof.
  intros H1 H2. destruct (existsb _ calls) eqn:E; [|reflexivity]. exfalso. apply existsb_exists in E as (k & Hk & E). apply orb_true_iff in E as [E|E].
  - destruct (fst k) as [| | | |d|] eqn:Ek; try discriminate. apply (H1 d). rewrite <- Ek. now apply in_map.
  - destruct (snd k) as [| | | |d|] eqn:Ek; try discriminate. apply (H2 d). rewrite <- Ek. now apply in_map.
Qed.
(** There is a verdict if both machines can be explored. *)
Lemma compare_decides alike m1 m2 env1 root1 env2 root2 fuel d calls :
  compile env1 root1 = Some m1 -> compile env2 root2 = Some m2 ->
  (forall d', ~ In (KSetDep d') (map fst calls)) -> (forall d', ~ In (KSetDep d') (map snd calls)) ->
  (exists depth rounds l, explore m1 fuel depth rounds d (map fst calls) = Some l) -> (exists depth rounds l, explore m2 fuel depth rounds d (map snd calls) = Some l) ->
  exists depth rounds b, compare_machines alike m1 m2 fuel depth rounds d calls = Some b.
Proof.
  intros H1 H2 D1 D2 X1 X2. destruct (compile_comp _ _ _ H1) as (C1 & _). destruct (compile_comp _ _ _ H2) as (C2 & _).
  apply explore_ends in X1 as [b1 B1]; [|now apply no_dep_calls|exact C1]. apply explore_ends in X2 as [b2 B2]; [|now apply no_dep_calls|exact C2].
  apply (compare_ends alike m1 m2 fuel d calls b1 b2 C1 C2); auto using pair_no_deps.
Qed.

(** The verdict on two programs. *)
Definition compare_programs (alike : likeness) (env1 : cenv) (root1 : cls) (env2 : cenv) (root2 : cls) (fuel depth rounds : nat) (calls : list (call unit * call unit)) : option bool :=
  match compile env1 root1, compile env2 root2 with
  | Some m1, Some m2 => compare_machines alike m1 m2 fuel depth rounds 0 calls
  | _, _ => None
  end.

(** A machine with a sub machine, and the same by hand in one table. *)
Module Flat.
Local Notation ev n := (KProcess (EUser n) tt).
Local Notation in_ p s := (KIs 0 p (SState s)).
Definition go s e t := se_to (st_event s (EUser e)) (state t).
Definition may s e g t := sega_to (st_ega s (eg_action (event_guard (EUser e) (Guard g 0)) (Action g (ACall g)))) (state t).
Definition deep : cenv :=
 [ (10, tbl [ may (star_state 1) 2 5 2; may (state 2) 2 6 1 ]);
   (50, tbl [ go (star_state 3) 1 10; go (state 10) 3 3; go (state 3) 3 4 ]) ].
Definition flat : cenv :=
 [ (50, tbl [ go (star_state 3) 1 1; may (state 1) 2 5 2; may (state 2) 2 6 1; go (state 1) 3 3; go (state 2) 3 3; go (state 3) 3 4 ]) ].
(** One row forgotten. *)
Definition wrong : cenv :=
 [ (50, tbl [ go (star_state 3) 1 1; may (state 1) 2 5 2; may (state 2) 2 6 1; go (state 1) 3 3; go (state 3) 3 4 ]) ].
Definition calls : list (call unit * call unit) :=
 [ (ev 1, ev 1); (ev 2, ev 2); (ev 3, ev 3); (in_ 10 1, in_ 50 1); (in_ 10 2, in_ 50 2); (in_ 50 3, in_ 50 3); (in_ 50 4, in_ 50 4) ].
End Flat.
