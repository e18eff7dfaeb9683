(** C85. Comparing two machines, with data. *)

From Coq Require Import List Arith NArith Bool Lia.
From Verif Require Import Types Static Dispatch Runtime Dsl Examples Data DataUse Script Explore ExploreUse ExploreTotal Tree Equiv EquivTotal EquivUse
  SymTree SymEquiv SymEquivRun SymEquivTotal SymUse.
Import ListNotations.

(** C85. If the comparison of two machines says [true], no client that makes these calls,
    with any data in its events, can tell them apart: with any user code and any type of
    data, the same outcomes, the same calls of the same functions with the same arguments
    and the same data in the same order, the same world; undefined behaviour in one exactly
    if in the other. *)
Theorem C85_same : forall m1 m2 fuel depth rounds d calls, compare_with_data exactly m1 m2 fuel depth rounds d calls = Some true ->
  forall V W (cb : cbfun V W) vnone fuel' w (ks : list (call unit * call unit * V)), fuel <= fuel' -> (forall k, In k ks -> In (fst k) calls) ->
  match session cb m1 vnone fuel' d w (map (fun k => with_data (fst (fst k)) (snd k)) ks), session cb m2 vnone fuel' d w (map (fun k => with_data (snd (fst k)) (snd k)) ks) with
  | Done outs1 s1, Done outs2 s2 => outs1 = outs2 /\ rt_world s1 = rt_world s2 /\ rt_trace s1 = rt_trace s2
  | Undef _, Undef _ => True
  | _, _ => False
  end.
Proof. exact compare_data_exact. Qed.
Print Assumptions C85_same.

(** The same with another idea of which calls of user code count as the same, for user
    code that treats them the same; the data must be the same. *)
Theorem C85_same_but : forall alike m1 m2 fuel depth rounds d calls, compare_with_data alike m1 m2 fuel depth rounds d calls = Some true ->
  forall V W (cb : cbfun V W) vnone fuel' w (ks : list (call unit * call unit * V)), fuel <= fuel' ->
  (forall x y v w, alike x y = true -> cb (k_callee x) (k_args x) v w = cb (k_callee y) (k_args y) v w) ->
  (forall k, In k ks -> In (fst k) calls) ->
  match session cb m1 vnone fuel' d w (map (fun k => with_data (fst (fst k)) (snd k)) ks), session cb m2 vnone fuel' d w (map (fun k => with_data (snd (fst k)) (snd k)) ks) with
  | Done outs1 s1, Done outs2 s2 => outs1 = outs2 /\ rt_world s1 = rt_world s2 /\
      Forall2 (fun x y => alike (mkCall (k_callee x) (k_args x) tt) (mkCall (k_callee y) (k_args y) tt) = true /\ k_payload x = k_payload y) (rt_trace s1) (rt_trace s2)
  | Undef _, Undef _ => True
  | _, _ => False
  end.
Proof. exact compare_data_more. Qed.
Print Assumptions C85_same_but.

(** If it says [false], a script tells them apart, with numbers as data: other outcomes,
    other calls or other data, or undefined behaviour in only one of them. *)
Theorem C85_differ : forall alike m1 m2 fuel depth rounds d calls, compare_with_data alike m1 m2 fuel depth rounds d calls = Some false ->
  exists (script : list (reply * nat)) (ks : list (call unit * call unit * nat)), (forall k, In k ks -> In (fst k) calls) /\
  match session valued m1 0 fuel d script (map (fun k => with_data (fst (fst k)) (snd k)) ks), session valued m2 0 fuel d script (map (fun k => with_data (snd (fst k)) (snd k)) ks) with
  | Done outs1 s1, Done outs2 s2 => ~ (outs1 = outs2 /\
      Forall2 (fun x y => alike (mkCall (k_callee x) (k_args x) tt) (mkCall (k_callee y) (k_args y) tt) = true /\ k_payload x = k_payload y) (rt_trace s1) (rt_trace s2))
  | Done _ _, Undef _ | Undef _, Done _ _ => True
  | _, _ => False
  end.
Proof. exact compare_data_complete. Qed.
Print Assumptions C85_differ.

(** There is a verdict whenever both machines can be explored (C81). *)
Theorem C85_decides : forall alike m1 m2 env1 root1 env2 root2 fuel d calls,
  compile env1 root1 = Some m1 -> compile env2 root2 = Some m2 ->
  (forall d', ~ In (KSetDep d') (map fst calls)) -> (forall d', ~ In (KSetDep d') (map snd calls)) ->
  (exists depth rounds l, explore m1 fuel depth rounds d (map fst calls) = Some l) ->
  (exists depth rounds l, explore m2 fuel depth rounds d (map snd calls) = Some l) ->
  exists depth rounds b, compare_with_data alike m1 m2 fuel depth rounds d calls = Some b.
Proof. exact compare_data_decides. Qed.
Print Assumptions C85_decides.

(** A machine with a sub machine and the same in one table (C83), and a table with a row
    missing. *)
Example C85_flat : compare_data_programs exactly Flat.deep 50 Flat.flat 50 50 10 100 Flat.calls = Some true.
Proof. vm_compute. reflexivity. Qed.
Example C85_wrong : compare_data_programs exactly Flat.deep 50 Flat.wrong 50 50 10 100 Flat.calls = Some false.
Proof. vm_compute. reflexivity. Qed.
(** An action at a transition or at an anonymous transition behind it: the same, if the
    event does not matter and there are no data; not the same for user code that looks at
    the data. *)
Example C85_behind :
  compare_programs any_event Behind.direct_ 50 Behind.behind 50 50 10 100 Behind.calls = Some true /\
  compare_data_programs any_event Behind.direct_ 50 Behind.behind 50 50 10 100 Behind.calls = Some false.
Proof. vm_compute. split; reflexivity. Qed.
(** What the first of these means. *)
Example C85_flat_means : exists deep flat, compile Flat.deep 50 = Some deep /\ compile Flat.flat 50 = Some flat /\
  forall V W (cb : cbfun V W) vnone fuel' w (ks : list (call unit * call unit * V)), 50 <= fuel' -> (forall k, In k ks -> In (fst k) Flat.calls) ->
  match session cb deep vnone fuel' 0 w (map (fun k => with_data (fst (fst k)) (snd k)) ks), session cb flat vnone fuel' 0 w (map (fun k => with_data (snd (fst k)) (snd k)) ks) with
  | Done outs1 s1, Done outs2 s2 => outs1 = outs2 /\ rt_world s1 = rt_world s2 /\ rt_trace s1 = rt_trace s2
  | Undef _, Undef _ => True
  | _, _ => False
  end.
Proof.
  pose proof C85_flat as H. unfold compare_data_programs in H. destruct (compile Flat.deep 50) as [deep|]; [|discriminate]. destruct (compile Flat.flat 50) as [flat|]; [|discriminate].
  exists deep, flat. split; [reflexivity|]. split; [reflexivity|]. exact (compare_data_exact _ _ _ _ _ _ _ H).
Qed.
