(** Towers: all facts together, and examples. *)

From Coq Require Import List Arith NArith Bool Lia Permutation.
From Verif Require Import Types Static Dispatch Runtime Dsl Examples Spec DispatchFacts Semantics Reach Graph
  IndexFacts FlattenFacts StaticFacts TableFacts Balance Copies CopiesFacts TowerFacts Demo.
Import ListNotations.

Lemma flat_copies env root m : compile env root = Some m ->
  forall P, NoDup P -> (forall l p, In (l, p) P <-> path env root l p) ->
  Permutation (mc_flat m) (flat_map (fun lp => written env (snd lp)) P).
Proof. intros Hm P N B. compiled Hm. exact (visits_flat _ _ _ P (flat_visits m Hc) N B). Qed.
Lemma finite_paths env root m : compile env root = Some m ->
  exists P, NoDup P /\ (forall l p, In (l, p) P <-> path env root l p).
Proof. intros Hm. compiled Hm. destruct (visits_all _ _ _ (flat_visits m Hc)) as (P & N & B & _). eauto. Qed.

Lemma tower_copies : forall n, (N.of_nat (S n) * N.of_nat (S (S n)) < two64)%N ->
  exists m, compile (tower n) (S n) = Some m /\
    length (flat_map (fun k => table (tower n) (S k)) (seq 0 (S n))) = 2 * n + 1 /\
    length (mc_flat m) + 2 = 3 * 2 ^ n /\
    (exists V W (cb : cbfun V W) vnone fuel d w ks outs s, never_throws cb /\ never_sets ks /\
       session cb m vnone fuel d w ks = Done outs s /\ at_place m s 0 = Some (1, SState 0)) /\
    forall V W (cb : cbfun V W) vnone ds d0 s fuel v, running cb (tower n) (S n) m vnone ds d0 s -> 1 < fuel ->
    (forall a v w, exists v' w', cb (CGuard 1 0) a v w = Ret false v' w') ->
    at_place m s 0 = Some (1, SState 0) ->
    exists v' w' ks, process_event cb m vnone fuel (EUser 3) v s = Done (false, v') (after s w' ks) /\
      times (CGuard 1 0) ks = length ds * 2 ^ n.
Proof.
  intros n Hn. destruct (proj2 (compile_compiles _ _) (t_compiles n Hn)) as (m & Hm). exists m. split; [exact Hm|].
  split; [apply t_written|]. split.
  - destruct (compile_comp _ _ _ Hm) as (Hc & He & Hr). pose proof (flat_visits m Hc) as F. rewrite He, Hr in F.
    exact (t_visits n n _ (le_n n) F).
  - split; [exact (t_reached n m Hm)|]. exact (t_asked n m Hm).
Qed.

Definition tower_paths : list (list nat * cls) :=
  [([], 3); ([0], 2); ([1], 2); ([0; 0], 1); ([0; 1], 1); ([1; 0], 1); ([1; 1], 1)].
Lemma tower_two : exists m, compile (tower 2) 3 = Some m /\ length (mc_flat m) = 10 /\
  NoDup tower_paths /\ (forall l p, In (l, p) tower_paths <-> path (tower 2) 3 l p) /\ length tower_paths = 7.
Proof.
  eexists. split; [vm_compute; reflexivity|]. split; [reflexivity|]. split; [repeat constructor; cbn; intuition discriminate|]. split; [|reflexivity].
  assert (C0 : ~ composite (tower 2) 0) by (intros H; now apply H).
  assert (C : forall k, k < 3 -> composite (tower 2) (S k)) by (intros [|[|[|k]]] H; try discriminate; lia).
  assert (D : forall r i j, nth_error (table (tower 2) j) i = Some r -> j < 4 -> r_tgt r = SState (pred j) /\ i < 2 /\ (j = 1 -> i = 0)).
  { intros r i [|[|[|[|j]]]] H Hj; try lia; destruct i as [|[|i]]; cbn in H; try discriminate; try (injection H as <-; cbn; repeat split; lia); destruct i; discriminate. }
  intros l p. split.
  - cbn. intros [H|[H|[H|[H|[H|[H|[H|[]]]]]]]]; injection H as <- <-; cbn; try reflexivity;
      repeat match goal with
      | |- exists _, _ => eexists
      | |- _ /\ _ => split
      | |- _ = _ => reflexivity
      | |- leads_into _ _ => constructor
      | |- composite _ _ => discriminate
      end.
  - destruct l as [|i l]; [cbn; intros <-; tauto|]. cbn [path]. intros (r & c & E & L & _ & H). destruct (D r i 3 E ltac:(lia)) as (Et & Hi & _).
    rewrite Et in L. inversion L; subst c. clear E Et L r. cbn [pred] in H. destruct l as [|j l].
    + cbn in H. subst p. destruct i as [|[|i]]; [cbn; tauto|cbn; tauto|lia].
    + cbn [path] in H. destruct H as (r & c & E & L & _ & H). destruct (D r j 2 E ltac:(lia)) as (Et & Hj & _).
      rewrite Et in L. inversion L; subst c. clear E Et L r. cbn [pred] in H. destruct l as [|k l].
      * cbn in H. subst p. destruct i as [|[|i]], j as [|[|j]]; try lia; cbn; tauto.
      * exfalso. cbn [path] in H. destruct H as (r & c & E & L & Hc & _). destruct (D r k 1 E ltac:(lia)) as (Et & _).
        rewrite Et in L. inversion L; subst c. exact (C0 Hc).
Qed.

Definition no_cb : cbfun nat nat := fun _ _ v w => Ret false v w.
Lemma tower_four : demo_state no_cb (tower 4) 5 (repeat (KProcess (EUser 1) 0) 4) (fun m s =>
  at_place m s 0 = Some (1, SState 0) /\ active m s = 1 /\ regions_in m s (1, SState 0) = 1 /\
  rows_with (tower 4) 1 0 1 = 1 /\ times (CGuard 1 0) (rt_trace s) = 0 /\
  exists s', process_event no_cb m 0 300 (EUser 3) 0 s = Done (false, 0) s' /\ times (CGuard 1 0) (rt_trace s') = 16).
Proof. apply demo_intro. vm_compute. repeat (split; [reflexivity|]). eexists. split; reflexivity. Qed.
Lemma tower_hyps : guards_only (tower 4) 5 1 0 1 0 (EUser 3) /\ NoDup (bits 4) /\
  (forall l, In l (bits 4) <-> path (tower 4) 5 l 1) /\ length (bits 4) = 16.
Proof.
  split; [apply t_guards|]. split; [apply bits_NoDup|]. split; [|reflexivity]. intros l. symmetry. apply (t_path 4 4 l). auto.
Qed.
