(** The comparison of two machines comes to an end. *)

From Coq Require Import List Arith NArith Bool Lia.
From Verif Require Import Types Static Dispatch Runtime ListFacts DispatchFacts IndexFacts Data DataUse Script Explore ExploreUse ExploreTotal Tree Equiv.
Import ListNotations.

Section Total.
Variable alike : likeness.
Variables (m1 m2 : machine) (fuel : nat).
Variables (tabs1 tabs2 : tables) (htabs1 htabs2 : handler_tables).
Notation attempt1 := (attempt m1 fuel tabs1 htabs1).
Notation attempt2 := (attempt m2 fuel tabs2 htabs2).

(** At the end of the answers both machines ask, or the lists of calls differ in length. *)
Lemma world_length m tabs htabs c k p o s : attempt m fuel tabs htabs c k p = Done o s ->
  match rt_world s with Some r => length (rt_trace s) <= length p | None => length (rt_trace s) = S (length p) end.
Proof.
  destruct (call_tree m fuel tabs htabs c k) as [t Ht]. unfold attempt. rewrite (Ht _ reading (resume tabs htabs c (Some p)) eq_refl eq_refl (config_resume _ _ _ _)).
  cbn [rt_world rt_trace resume]. pose proof (script_tree t p []) as H. unfold script_like in H. intros E. rewrite E in H. destruct H as (T & HT & H). cbn in HT. rewrite HT.
  destruct (rt_world s); [|apply H]. destruct H as (p0 & -> & Hl & _). rewrite app_length. lia.
Qed.
Lemma compare_total c1 c2 k1 k2 B :
  (forall p, match attempt1 c1 k1 p with Done _ s => rt_world s = None -> length p < B | Undef _ => True | _ => False end) ->
  (forall p, match attempt2 c2 k2 p with Done _ _ | Undef _ => True | _ => False end) ->
  forall depth p, B <= length p + depth -> compare alike m1 m2 fuel tabs1 tabs2 htabs1 htabs2 depth c1 c2 k1 k2 p <> VUnknown.
Proof.
  intros H1 H2. induction depth as [|depth IH]; intros p Hp; cbn [compare]; specialize (H1 p) as Q1; specialize (H2 p) as Q2;
    destruct (attempt1 c1 k1 p) as [o1 s1|x1 s1|u1|] eqn:E1, (attempt2 c2 k2 p) as [o2 s2|x2 s2|u2|] eqn:E2; try contradiction; try discriminate.
  all: destruct (out_eq_dec o1 o2); [|discriminate]; destruct (same_calls alike (rt_trace s1) (rt_trace s2)) eqn:Es; [|discriminate];
    apply same_calls_length in Es; pose proof (world_length _ _ _ _ _ _ _ _ E1) as L1; pose proof (world_length _ _ _ _ _ _ _ _ E2) as L2;
    destruct (rt_world s1), (rt_world s2); try discriminate; try lia.
  - specialize (Q1 eq_refl). lia.
  - intros E. apply both_unknown in E as [E|E]; [|apply both_unknown in E as [E|E]]; revert E; apply IH; rewrite app_length; cbn; lia.
Qed.
Lemma compare_all_total depth n ks : (forall k, In k ks -> compare alike m1 m2 fuel tabs1 tabs2 htabs1 htabs2 depth (fst n) (snd n) (fst k) (snd k) [] <> VUnknown) ->
  compare_all alike m1 m2 fuel tabs1 tabs2 htabs1 htabs2 depth ks n <> VUnknown.
Proof.
  induction ks as [|k ks IH]; cbn [compare_all]; [discriminate|]. intros H E. apply both_unknown in E as [E|E]; [exact (H k (or_introl eq_refl) E)|].
  revert E. apply IH. intros. apply H. now right.
Qed.
Lemma fresh_pairs_nodup l : forall seen, NoDup (fresh_pairs seen l) /\ forall n, In n (fresh_pairs seen l) -> ~ In n seen.
Proof.
  induction l as [|x l IH]; intros seen; cbn [fresh_pairs]; [split; [constructor|intros n []]|]. destruct (in_dec pair_eq_dec x seen) as [i|i]; [apply IH|].
  destruct (IH (x :: seen)) as [A B]. split.
  - constructor; [|exact A]. intros H. apply (B x H). now left.
  - intros n [<-|H]; [exact i|]. intros Hn. apply (B n H). now right.
Qed.
Lemma close_pairs_total depth ks (R : config * config -> Prop) all : (forall n, R n -> In n all) ->
  (forall n, R n -> compare_all alike m1 m2 fuel tabs1 tabs2 htabs1 htabs2 depth ks n <> VUnknown) ->
  (forall n ns n', R n -> compare_all alike m1 m2 fuel tabs1 tabs2 htabs1 htabs2 depth ks n = VSame ns -> In n' ns -> R n') ->
  forall rounds seen todo, NoDup seen -> incl todo seen -> (forall n, In n seen -> R n) -> length all + length todo <= rounds + length seen ->
  close_pairs alike m1 m2 fuel tabs1 tabs2 htabs1 htabs2 rounds depth ks seen todo <> VUnknown.
Proof.
  intros Hall Hst Hne. induction rounds as [|rounds IH]; intros seen todo Hn Hi HR Hb; destruct todo as [|n todo]; cbn [close_pairs]; try discriminate.
  - assert (length seen <= length all) by (apply NoDup_incl_length; [exact Hn|intros x Hx; auto]). cbn in Hb. lia.
  - assert (Hn0 : R n) by (apply HR, Hi; now left). destruct (compare_all _ _ _ _ _ _ _ _ _ _ n) as [ns| |] eqn:En; [|discriminate|now apply Hst in En].
    destruct (fresh_pairs_nodup ns seen) as [A B]. apply IH.
    + apply NoDup_app_intro; auto. intros x Hx Hf. now apply (B x Hf).
    + intros x Hx. apply in_app_or in Hx as [Hx|Hx]; apply in_or_app; [left; apply Hi; now right|now right].
    + intros x Hx. apply in_app_or in Hx as [Hx|Hx]; [now apply HR|]. apply (Hne n ns x Hn0 En). eapply fresh_pairs_in, Hx.
    + rewrite !app_length. cbn in Hb. lia.
Qed.
End Total.

(** What is known of the configurations a bounded machine reaches. *)
Lemma reached_bounded m fuel d calls bound (s0 : rt unit unit) : existsb is_set_dep calls = false -> comp m -> construct (V:=unit) m fuel d tt = Done tt s0 -> bounded_sessions m fuel d calls bound ->
  forall c, reached m fuel d calls (rt_tabs s0) (rt_htabs s0) (Some c) -> In c (configs m calls s0 bound) /\
  forall k, In k calls -> forall p, match attempt m fuel (rt_tabs s0) (rt_htabs s0) c k p with
    | Done _ s => rt_world s = None -> length p < calls_bound s0 fuel | Undef _ => True | _ => False end.
Proof.
  intros Hs Hm E HB c Hr. pose proof (construct_s (V := unit) (W := unit) (X := list reply) m fuel d tt) as C. unfold built in C. rewrite E in C.
  destruct (construct_start _ _ _ _ _ Hm E) as [Hq Hn].
  assert (HR : exists s : rt unit (list reply), within0 m calls s0 s /\ c = config_of s /\ length (rt_queue s) <= bound).
  { destruct Hr as (ks & script & Hks & Hr). pose proof (HB script ks Hks) as Hb. unfold session in *. rewrite C in *. cbn [bind] in *.
    destruct (run scripted m tt fuel ks (bare_from 0 s0 script)) as [outs s|x s|u|] eqn:Er; try contradiction; [|discriminate].
    destruct Hr as (Ec & _ & _). injection Ec as ->. exists s. split; [|now split]. eapply run_within; [exact Hs|exact Hks| |exact Er]. now apply start_within. }
  destruct HR as (s & Hw & -> & Hb). split; [now apply within_in|]. intros k Hk p.
  assert (Hw' : within0 m calls s0 (resume (rt_tabs s0) (rt_htabs s0) (config_of s) (Some p))).
  { destruct Hw. constructor; auto. cbn. rewrite map_map. rewrite Forall_map. assumption. }
  pose proof (attempt_short m fuel (rt_htabs s0) calls s0 (config_of s) k p Hs Hk Hw') as Sh.
  destruct (reached_call m fuel d calls Hs (rt_tabs s0) (rt_htabs s0) (config_of s) k p Hr Hk) as (ks & script & Hks & H).
  destruct (attempt m fuel (rt_tabs s0) (rt_htabs s0) (config_of s) k p) as [o s1|x s1|u|] eqn:Ea; auto.
  - unfold attempt in Ea. now apply not_threw in Ea.
  - specialize (HB script ks Hks). rewrite H in HB. exact HB.
Qed.

Theorem compare_ends alike m1 m2 fuel d calls bound1 bound2 : comp m1 -> comp m2 ->
  existsb (fun k => is_set_dep (fst k) || is_set_dep (snd k)) calls = false ->
  bounded_sessions m1 fuel d (map fst calls) bound1 -> bounded_sessions m2 fuel d (map snd calls) bound2 ->
  exists depth rounds b, compare_machines alike m1 m2 fuel depth rounds d calls = Some b.
Proof.
  intros Hc1 Hc2 Hs HB1 HB2.
  assert (Hs1 : existsb is_set_dep (map fst calls) = false).
  { destruct (existsb is_set_dep (map fst calls)) eqn:E; [|reflexivity]. apply existsb_exists in E as (k & Hk & E). apply in_map_iff in Hk as (kk & <- & Hk). destruct (no_deps calls Hs kk Hk). congruence. }
  assert (Hs2 : existsb is_set_dep (map snd calls) = false).
  { destruct (existsb is_set_dep (map snd calls)) eqn:E; [|reflexivity]. apply existsb_exists in E as (k & Hk & E). apply in_map_iff in Hk as (kk & <- & Hk). destruct (no_deps calls Hs kk Hk). congruence. }
  unfold compare_machines. rewrite Hs.
  pose proof (construct_s (V := unit) (W := unit) (X := list reply) m1 fuel d tt []) as C1. pose proof (construct_s (V := unit) (W := unit) (X := list reply) m2 fuel d tt []) as C2.
  pose proof (HB1 [] [] (fun k H => match H with end)) as H1. pose proof (HB2 [] [] (fun k H => match H with end)) as H2. unfold session in H1, H2. rewrite C1 in H1. rewrite C2 in H2.
  destruct (construct m1 fuel d tt) as [[] s1|x1 s1|u1|] eqn:E1, (construct m2 fuel d tt) as [[] s2|x2 s2|u2|] eqn:E2; cbn [bind] in H1, H2; try contradiction.
  2,3,4: exists 0, 0; eexists; reflexivity.
  clear C1 C2 H1 H2.
  set (R := reached_pair alike m1 m2 fuel d calls (rt_tabs s1) (rt_tabs s2) (rt_htabs s1) (rt_htabs s2)).
  assert (P1 : forall n, R n -> reached m1 fuel d (map fst calls) (rt_tabs s1) (rt_htabs s1) (Some (fst n))).
  { intros n (script & ks & Hks & H). destruct (H []) as (outs & a1 & a2 & R1 & R2 & _ & _ & _ & A & B & C & D & _). exists (map fst ks), (script ++ []).
    split; [intros k Hk; apply in_map_iff in Hk as (kk & <- & Hk); apply in_map; auto|]. rewrite R1, A. auto. }
  assert (P2 : forall n, R n -> reached m2 fuel d (map snd calls) (rt_tabs s2) (rt_htabs s2) (Some (snd n))).
  { intros n (script & ks & Hks & H). destruct (H []) as (outs & a1 & a2 & R1 & R2 & _ & _ & _ & A & B & _ & _ & C & D). exists (map snd ks), (script ++ []).
    split; [intros k Hk; apply in_map_iff in Hk as (kk & <- & Hk); apply in_map; auto|]. rewrite R2, B. auto. }
  set (all := list_prod (configs m1 (map fst calls) s1 bound1) (configs m2 (map snd calls) s2 bound2)). set (B := calls_bound s1 fuel).
  exists B, (length all). assert (X : forall (v : verdict (list (config * config))), v <> VUnknown -> exists b, match v with VSame _ => Some true | VDiffer => Some false | VUnknown => None end = Some b)
    by (intros [l| |] Hv; [now exists true|now exists false|congruence]). apply X.
  apply (close_pairs_total alike m1 m2 fuel _ _ _ _ B calls R all).
  - intros [c1 c2] Hr. apply in_prod.
    + exact (proj1 (reached_bounded m1 fuel d (map fst calls) bound1 s1 Hs1 Hc1 E1 HB1 c1 (P1 _ Hr))).
    + exact (proj1 (reached_bounded m2 fuel d (map snd calls) bound2 s2 Hs2 Hc2 E2 HB2 c2 (P2 _ Hr))).
  - intros n Hr. apply compare_all_total. intros k Hk. apply (compare_total alike m1 m2 fuel _ _ _ _ _ _ _ _ B).
    + apply (reached_bounded m1 fuel d (map fst calls) bound1 s1 Hs1 Hc1 E1 HB1 _ (P1 _ Hr)). now apply in_map.
    + intros p. pose proof (proj2 (reached_bounded m2 fuel d (map snd calls) bound2 s2 Hs2 Hc2 E2 HB2 _ (P2 _ Hr)) (snd k) (in_map snd _ _ Hk) p) as Q.
      destruct (attempt m2 fuel (rt_tabs s2) (rt_htabs s2) (snd n) (snd k) p); auto.
    + cbn. lia.
  - intros n ns n' Hr. now apply (pair_step alike m1 m2 fuel d calls Hs _ _ _ _ B).
  - constructor; [intros []|constructor].
  - now intros x.
  - intros n [<-|[]]. now apply start_pair.
  - cbn. lia.
Qed.
