(** Laws of programs for C89. *)

From Coq Require Import List Arith NArith ZArith Bool Lia.
From Verif Require Import Types Static Dispatch Runtime Dsl Examples Programs IndexFacts Spec DispatchFacts Semantics Reach ReachFacts HistFacts StaticFacts TableFacts Demo
  Balance BalanceFacts BalanceDemo Law LawFacts.
Import ListNotations.
Local Open Scope Z_scope.

(** The weights: each listed callee and its weight; all others weigh nothing. *)
Fixpoint weights (l : list (callee * Z)) (k : callee) : Z :=
  match l with [] => 0 | (k', z) :: l' => if who_dec k' k then z else weights l' k end.

(** reproducer/should_execute_anonymous_transition_once.cpp: once where SubState2 was left
    for S2 or S3. *)
Definition once_psi := weights [(CAction 42, 1)].
Definition once_phi (pl : place) : Z :=
  match pl with (12%nat, SState 2%nat) | (12%nat, SState 3%nat) => 1 | _ => 0 end.
(** example/cdplayer: the drawer is out where it was moved out. *)
Definition drawer_psi := weights [(CAction (CdPlayer.fn CdPlayer.open_drawer), 1); (CAction (CdPlayer.fn CdPlayer.stop_and_open), 1);
  (CAction (CdPlayer.fn CdPlayer.close_drawer), -1)].
Definition drawer_phi (pl : place) : Z := if sref_eq_dec (snd pl) (SState CdPlayer.Open) then 1 else 0.

Lemma total_weights {V} l (t : list (called V)) : NoDup (map fst l) -> (forall k, In k (map fst l) -> match k with CGuard _ _ | CHandler => False | _ => True end) ->
  total (weights l) t = sum (map (fun kz => snd kz * Z.of_nat (times (fst kz) t)) l).
Proof.
  intros N G. induction t as [|c t IH].
  - cbn. symmetry. apply sum_zero. intros x Hx. apply in_map_iff in Hx. destruct Hx as (kz & <- & _). unfold times. cbn. lia.
  - change (c :: t) with ([c] ++ t). rewrite total_app, IH. clear IH.
    assert (E : forall l', NoDup (map fst l') -> (forall k, In k (map fst l') -> match k with CGuard _ _ | CHandler => False | _ => True end) ->
      sum (map (fun kz : callee * Z => snd kz * Z.of_nat (times (fst kz) ([c] ++ t))) l') =
      total (weights l') [c] + sum (map (fun kz => snd kz * Z.of_nat (times (fst kz) t)) l')); [|now rewrite (E l N G)].
    clear l N G. unfold total. cbn [map sum fold_right]. intros l. induction l as [|[k z] l IH]; intros N G.
    + cbn. destruct (k_callee c); reflexivity.
    + cbn [map fst] in N, G. inversion N; subst. specialize (IH H2 (fun k' Hk' => G k' (or_intror Hk'))). cbn [map sum fold_right fst snd]. unfold sum in *. rewrite IH.
      rewrite times_app, Nat2Z.inj_add. unfold times at 1. cbn [map count_occ weights].
      assert (W : forall l0, (forall k', In k' (map fst l0) -> k' <> k_callee c) -> weights l0 (k_callee c) = 0).
      { induction l0 as [|[k0 z0] l0 IH0]; intros Hn; [reflexivity|]. cbn [weights]. destruct (who_dec k0 (k_callee c)) as [E|_].
        - exfalso. apply (Hn k0); [now left|exact E].
        - apply IH0. intros k' Hk'. apply Hn. now right. }
      destruct (who_dec (k_callee c) k) as [E|E].
      * assert (Gk := G k (or_introl eq_refl)). rewrite <- E in H1, Gk. assert (W0 := W l ltac:(intros k' Hk' ->; contradiction)).
        unfold weight. destruct (k_callee c) eqn:Ec; try contradiction; cbn [weights]; rewrite <- E; destruct (who_dec _ _) as [_|Nn]; try (contradiction Nn; reflexivity); rewrite W0; lia.
      * unfold weight. destruct (k_callee c) eqn:Ec; cbn [weights]; try (destruct (who_dec k _) as [Hk|_]; [congruence|]); lia.
Qed.

(** One region. *)
Section One.
Context {V W : Type}.
Variable cb : cbfun V W.
Variables (env : cenv) (root : cls) (m : machine) (vnone : V) (phi : place -> Z).
Hypothesis Hm : compile env root = Some m.
Hypothesis One : max_initials m = 1%nat.
Lemma session_one fuel d w ks os s : session cb m vnone fuel d w ks = Done os s ->
  level m phi s = match at_place m s 0 with Some pl => phi pl | None => 0 end.
Proof.
  intros H. destruct (compile_comp _ _ _ Hm) as (Hc & _ & _). assert (M : (max_initials m <= 255)%nat) by lia.
  assert (L : length (rt_cur s) = 1%nat).
  { pose proof (session_reachable cb m vnone _ _ _ _ _ _ H) as Re.
    destruct (reachable_journey cb m Hc vnone M _ d s Re) as (L & J). rewrite <- One. eapply (journey_cur cb m Hc M). exact J. }
  unfold level. rewrite L. cbn. destruct (at_place m s 0); lia.
Qed.
End One.

Section Once.
Context {V W : Type}.
Variable cb : cbfun V W.
Variables (m : machine) (vnone : V).
Hypothesis Hm : compile Once.env 50%nat = Some m.
Lemma once_facts : few_regions Once.env 50%nat /\ max_initials m = 1%nat /\ known_targets Once.env 50%nat /\ lawful Once.env 50%nat once_phi once_psi /\ bounded Once.env 50%nat once_phi once_psi.
Proof.
  pose proof (known_ok_iff _ _ _ Hm) as K. pose proof (lawful_ok_iff _ _ _ once_phi once_psi Hm) as L. pose proof (bounded_ok_iff _ _ _ once_phi once_psi Hm) as B.
  pose proof (max_few _ _ _ Hm) as F. vm_compute in Hm. inversion Hm. subst m.
  split; [apply F; apply Nat.leb_le; vm_compute; reflexivity|]. split; [vm_compute; reflexivity|].
  split; [apply K; vm_compute; reflexivity|]. split; [apply L; vm_compute; reflexivity|apply B; vm_compute; reflexivity].
Qed.
Lemma once_law fuel d w ks os s : (forall r p q, ~ In (KSet r p q) ks) -> session cb m vnone fuel d w ks = Done os s ->
  (times (CAction 42) (rt_trace s) <= 1)%nat /\
  (only_guards_throw cb -> (times (CAction 42) (rt_trace s) = 1%nat <-> at_place m s 0 = Some (12%nat, SState 2%nat) \/ at_place m s 0 = Some (12%nat, SState 3%nat))).
Proof.
  intros Hk H. destruct once_facts as (F & One & K & L & B).
  pose proof (session_one cb _ _ m vnone once_phi Hm One _ _ _ _ _ _ H) as E.
  assert (T : total once_psi (rt_trace s) = Z.of_nat (times (CAction 42) (rt_trace s))).
  { unfold once_psi. rewrite total_weights; [cbn [map sum fold_right fst snd]; lia| |]; [repeat constructor; auto|intros k [<-|[]]; exact I]. }
  assert (S0 : start_level Once.env 50%nat once_phi = 0) by (vm_compute; reflexivity).
  pose proof (session_bound cb _ _ m vnone once_phi once_psi Hm F K _ _ _ _ _ _ Hk H B) as SB. rewrite T, E, S0 in SB.
  assert (P : forall o : option place, (match o with Some pl => once_phi pl | None => 0 end) = (if in_dec (fun a b : option place => ltac:(decide equality; apply place_eq_dec)) o [Some (12%nat, SState 2%nat); Some (12%nat, SState 3%nat)] then 1 else 0)).
  { intros o. destruct (in_dec _ _ _) as [[<-|[<-|[]]]|Hn]; [reflexivity|reflexivity|]. destruct o as [[p q]|]; [|reflexivity].
    unfold once_phi. cbn in Hn. do 13 (destruct p as [|p]; [try reflexivity|]); [|reflexivity].
    destruct q as [c| | | | |]; try reflexivity. do 4 (destruct c as [|c]; [try reflexivity; exfalso; now auto|]). reflexivity. }
  rewrite P in SB, E. destruct (in_dec _ _ _) as [Hin|Hn].
  - split; [lia|]. intros Hg. pose proof (session_law cb _ _ m vnone once_phi once_psi Hm F K _ _ _ _ _ _ Hk H L Hg) as SL. rewrite T, E, S0 in SL.
    split; [intros _|lia]. destruct Hin as [<-|[<-|[]]]; auto.
  - split; [lia|]. intros Hg. split; [lia|]. intros [Hp|Hp]; exfalso; apply Hn; rewrite Hp; cbn; auto.
Qed.
End Once.

Section Drawer.
Context {V W : Type}.
Variable cb : cbfun V W.
Variables (m : machine) (vnone : V).
Hypothesis Hm : compile CdPlayer.env CdPlayer.CdPlayer = Some m.
Lemma drawer_facts : few_regions CdPlayer.env CdPlayer.CdPlayer /\ max_initials m = 1%nat /\ known_targets CdPlayer.env CdPlayer.CdPlayer /\
  lawful CdPlayer.env CdPlayer.CdPlayer drawer_phi drawer_psi.
Proof.
  pose proof (known_ok_iff _ _ _ Hm) as K. pose proof (lawful_ok_iff _ _ _ drawer_phi drawer_psi Hm) as L.
  pose proof (max_few _ _ _ Hm) as F. vm_compute in Hm. inversion Hm. subst m.
  split; [apply F; apply Nat.leb_le; vm_compute; reflexivity|]. split; [vm_compute; reflexivity|].
  split; [apply K; vm_compute; reflexivity|apply L; vm_compute; reflexivity].
Qed.
Lemma drawer_law fuel d w ks os s : (forall r p q, ~ In (KSet r p q) ks) -> session cb m vnone fuel d w ks = Done os s -> only_guards_throw cb ->
  (times (CAction (CdPlayer.fn CdPlayer.open_drawer)) (rt_trace s) + times (CAction (CdPlayer.fn CdPlayer.stop_and_open)) (rt_trace s) =
   times (CAction (CdPlayer.fn CdPlayer.close_drawer)) (rt_trace s) +
   (match at_place m s 0 with Some (_, q) => if sref_eq_dec q (SState CdPlayer.Open) then 1 else 0 | None => 0 end))%nat.
Proof.
  intros Hk H Hg. destruct drawer_facts as (F & One & K & L).
  pose proof (session_one cb _ _ m vnone drawer_phi Hm One _ _ _ _ _ _ H) as E.
  pose proof (session_law cb _ _ m vnone drawer_phi drawer_psi Hm F K _ _ _ _ _ _ Hk H L Hg) as SL.
  unfold drawer_psi in SL. rewrite total_weights in SL.
  - assert (S0 : start_level CdPlayer.env CdPlayer.CdPlayer drawer_phi = 0) by (vm_compute; reflexivity). rewrite E, S0 in SL.
    cbn [map sum fold_right fst snd] in SL. unfold drawer_phi in SL. destruct (at_place m s 0) as [[p q]|]; cbn [snd] in SL; [destruct (sref_eq_dec q (SState CdPlayer.Open))|]; lia.
  - cbn. repeat constructor; cbn; intuition discriminate.
  - intros k Hk0. cbn in Hk0. destruct Hk0 as [<-|[<-|[<-|[]]]]; exact I.
Qed.
End Drawer.

(** A row whose action is a chain: the first throws, the second is counted. *)
Module Chain.
Local Open Scope nat_scope.
Definition env : cenv :=
 [ (50, tbl [ sea_to (st_ea (star_state 1) (event_action (EUser 1) (Action 9 (AChain [ACall 666; ACall 42])))) (state 2) ]) ].
Definition phi (pl : place) : Z := if sref_eq_dec (snd pl) (SState 2) then 1%Z else 0%Z.
Definition psi := weights [(CAction 42, 1%Z)].
End Chain.

(** Two regions, 1 <-> 2 and 3 <-> 4; the rows to 2 and 4 start a
    device (action 1), the rows back stop it (action 2). *)
Module Devices.
Local Open Scope nat_scope.
Definition on := Action 1 (ACall 1). Definition off := Action 2 (ACall 2).
Definition row s n a t := sea_to (st_ea s (event_action (EUser n) a)) t.
Definition env : cenv :=
 [ (50, tbl [ row (star_state 1) 1 on (state 2); row (state 2) 1 off (state 1);
              row (star_state 3) 2 on (state 4); row (state 4) 3 off (state 3) ]) ].
Definition phi (pl : place) : Z :=
  if in_dec sref_eq_dec (snd pl) [SState 2; SState 4] then 1%Z else 0%Z.
Definition psi := weights [(CAction 1, 1%Z); (CAction 2, (-1)%Z)].
End Devices.
