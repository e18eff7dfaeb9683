(** C83. Comparing two machines. *)

From Coq Require Import List Arith NArith Bool Lia.
From Verif Require Import Types Static Dispatch Runtime Dsl Examples Data DataUse Script Explore ExploreUse ExploreTotal Tree Equiv EquivTotal EquivUse.
Import ListNotations.

(** C83. If the comparison of two machines says [true], no client that makes these calls
    can tell them apart: with any user code, the same outcomes, the same calls of the same
    functions with the same arguments in the same order, the same world; undefined
    behaviour in one exactly if in the other. *)
Theorem C83_same : forall m1 m2 fuel depth rounds d calls, compare_machines exactly m1 m2 fuel depth rounds d calls = Some true ->
  forall W (cb : cbfun unit W) fuel' w ks, fuel <= fuel' -> (forall k, In k ks -> In k calls) ->
  match session cb m1 tt fuel' d w (map fst ks), session cb m2 tt fuel' d w (map snd ks) with
  | Done outs1 s1, Done outs2 s2 => outs1 = outs2 /\ rt_world s1 = rt_world s2 /\ rt_trace s1 = rt_trace s2
  | Undef _, Undef _ => True
  | _, _ => False
  end.
Proof. exact compare_exact. Qed.
Print Assumptions C83_same.

(** The same with another idea of which calls of user code count as the same, for user
    code that treats them the same. *)
Theorem C83_same_but : forall alike m1 m2 fuel depth rounds d calls, compare_machines alike m1 m2 fuel depth rounds d calls = Some true ->
  forall W (cb : cbfun unit W) fuel' w ks, fuel <= fuel' ->
  (forall x y w, alike x y = true -> cb (k_callee x) (k_args x) (k_payload x) w = cb (k_callee y) (k_args y) (k_payload y) w) ->
  (forall k, In k ks -> In k calls) ->
  match session cb m1 tt fuel' d w (map fst ks), session cb m2 tt fuel' d w (map snd ks) with
  | Done outs1 s1, Done outs2 s2 => outs1 = outs2 /\ rt_world s1 = rt_world s2 /\ same_calls alike (rt_trace s1) (rt_trace s2) = true
  | Undef _, Undef _ => True
  | _, _ => False
  end.
Proof. exact compare_more. Qed.
Print Assumptions C83_same_but.

(** If it says [false], a script tells them apart: other outcomes or other calls, or
    undefined behaviour in only one of them. *)
Theorem C83_differ : forall alike m1 m2 fuel depth rounds d calls, compare_machines alike m1 m2 fuel depth rounds d calls = Some false ->
  exists script ks, (forall k, In k ks -> In k calls) /\
  match session scripted m1 tt fuel d script (map fst ks), session scripted m2 tt fuel d script (map snd ks) with
  | Done outs1 s1, Done outs2 s2 => ~ (outs1 = outs2 /\ same_calls alike (rt_trace s1) (rt_trace s2) = true)
  | Done _ _, Undef _ | Undef _, Done _ _ => True
  | _, _ => False
  end.
Proof. exact compare_complete. Qed.
Print Assumptions C83_differ.

(** There is a verdict whenever both machines can be explored (C81): for such machines it
    is decidable whether anybody can tell them apart. *)
Theorem C83_decides : forall alike m1 m2 env1 root1 env2 root2 fuel d calls,
  compile env1 root1 = Some m1 -> compile env2 root2 = Some m2 ->
  (forall d', ~ In (KSetDep d') (map fst calls)) -> (forall d', ~ In (KSetDep d') (map snd calls)) ->
  (exists depth rounds l, explore m1 fuel depth rounds d (map fst calls) = Some l) ->
  (exists depth rounds l, explore m2 fuel depth rounds d (map snd calls) = Some l) ->
  exists depth rounds b, compare_machines alike m1 m2 fuel depth rounds d calls = Some b.
Proof. exact compare_decides. Qed.
Print Assumptions C83_decides.

(** A machine with a sub machine and the same in one table, with the questions where it is
    translated; and a table with a row missing. *)
Example C83_flat : compare_programs exactly Flat.deep 50 Flat.flat 50 50 10 100 Flat.calls = Some true.
Proof. vm_compute. reflexivity. Qed.
Example C83_wrong : compare_programs exactly Flat.deep 50 Flat.wrong 50 50 10 100 Flat.calls = Some false.
Proof. vm_compute. reflexivity. Qed.
(** What the first of these means. *)
Example C83_flat_means : exists deep flat, compile Flat.deep 50 = Some deep /\ compile Flat.flat 50 = Some flat /\
  forall W (cb : cbfun unit W) fuel' w ks, 50 <= fuel' -> (forall k, In k ks -> In k Flat.calls) ->
  match session cb deep tt fuel' 0 w (map fst ks), session cb flat tt fuel' 0 w (map snd ks) with
  | Done outs1 s1, Done outs2 s2 => outs1 = outs2 /\ rt_world s1 = rt_world s2 /\ rt_trace s1 = rt_trace s2
  | Undef _, Undef _ => True
  | _, _ => False
  end.
Proof.
  pose proof C83_flat as H. unfold compare_programs in H. destruct (compile Flat.deep 50) as [deep|]; [|discriminate]. destruct (compile Flat.flat 50) as [flat|]; [|discriminate].
  exists deep, flat. split; [reflexivity|]. split; [reflexivity|]. exact (compare_exact _ _ _ _ _ _ _ H).
Qed.
