(** The comparison with data comes to an end. *)

From Coq Require Import List Arith NArith Bool Lia.
From Verif Require Import Types Static Dispatch Runtime ListFacts DispatchFacts IndexFacts Data DataUse Script Explore ExploreUse ExploreTotal Equiv EquivTotal SymTree SymEquiv SymEquivRun.
Import ListNotations.

(** The attempt with numbers goes like the one without data. *)
Definition goes_like (r : res nat (option (list reply) * nat) out) (r' : res unit (option (list reply)) out) : Prop :=
  match r, r' with
  | Done o s, Done o' s' => o = o' /\ fst (rt_world s) = rt_world s' /\ length (rt_trace s) = length (rt_trace s')
  | Undef _, Undef _ => True
  | Timeout, Timeout => True
  | Threw _ _, Threw _ _ => True
  | _, _ => False
  end.
Lemma tree_goes_like (t : tree (plain out)) : forall n vals vals' p j tr tr', length tr = length tr' ->
  goes_like (settled (interp numbering n vals t (p, j) tr)) (settled (interp reading n vals' t p tr')).
Proof.
  induction t as [a|g a i x yes IHy no IHn]; intros n vals vals' p j tr tr' L.
  - rewrite !settled_leaf. destruct (value a) as [[o x]|]; [cbn; auto|]. destruct a; exact I.
  - destruct p as [[|[b|k] p]|]; cbn [interp numbering reading].
    + cbn. rewrite !app_length. cbn. auto.
    + destruct b; [apply IHy|apply IHn]; rewrite !app_length; cbn; lia.
    + cbn. rewrite !app_length. cbn. auto.
    + cbn. rewrite !app_length. cbn. auto.
Qed.
Lemma realizes_resume {W} tabs htabs c (p : W) : well c -> realizes (fun _ => tt) c (resume tabs htabs (fst c) p).
Proof.
  intros H. split; [apply config_resume|]. unfold well in H. destruct c as [[cu hi q re li] nums]. cbn in *. rewrite map_map. cbn.
  revert nums H. induction q as [|e q IH]; intros [|i nums]; cbn; try discriminate; auto. intros [= H]. f_equal. now apply IH.
Qed.
Lemma with_data_unit (k : call unit) : with_data k tt = k. Proof. unfold with_data. destruct k as [e []| | | | |]; reflexivity. Qed.
Lemma try_goes_like m fuel tabs htabs c k n p : well c -> (forall i, In i (snd c) -> i < n) ->
  goes_like (try_call m fuel tabs htabs c k n p) (attempt m fuel tabs htabs (fst c) k p).
Proof.
  intros Hw Hn. destruct (data_tree m fuel tabs htabs c k n Hn) as (t & F & Ht).
  replace (try_call m fuel tabs htabs c k n p) with (settled (interp numbering (S n) (fun i => i) t (Some p, S n) [])).
  2: { symmetry. exact (Ht _ _ numbering (fun i => i) (at_place tabs htabs c (Some p, S n)) eq_refl eq_refl (realizes_place _ _ _ _ Hw)). }
  replace (attempt m fuel tabs htabs (fst c) k p) with (settled (interp reading (S n) (fun _ => tt) t (Some p) [])).
  2: { symmetry. unfold attempt. rewrite <- (with_data_unit k) at 1. exact (Ht _ _ reading (fun _ => tt) (resume tabs htabs (fst c) (Some p)) eq_refl eq_refl (realizes_resume _ _ _ _ Hw)). }
  now apply tree_goes_like.
Qed.

Section Total.
Variable alike : likeness.
Variables (m1 m2 : machine) (fuel : nat).
Variables (tabs1 tabs2 : tables) (htabs1 htabs2 : handler_tables).
Notation attempt1 := (attempt m1 fuel tabs1 htabs1).
Notation attempt2 := (attempt m2 fuel tabs2 htabs2).

Lemma compare_data_total c k n B : well (fst c) -> well (snd c) -> (forall i, In i (snd (fst c)) \/ In i (snd (snd c)) -> i < n) ->
  (forall p, match attempt1 (fst (fst c)) (fst k) p with Done _ s => rt_world s = None -> length p < B | Undef _ => True | _ => False end) ->
  (forall p, match attempt2 (fst (snd c)) (snd k) p with Done _ _ | Undef _ => True | _ => False end) ->
  forall depth p, B <= length p + depth -> compare_data alike m1 m2 fuel tabs1 tabs2 htabs1 htabs2 depth c k n p <> VUnknown.
Proof.
  intros Hw1 Hw2 Hn H1 H2. induction depth as [|depth IH]; intros p Hp; cbn [compare_data]; specialize (H1 p) as Q1; specialize (H2 p) as Q2;
    pose proof (try_goes_like m1 fuel tabs1 htabs1 (fst c) (fst k) n p Hw1 (fun i H => Hn i (or_introl H))) as G1;
    pose proof (try_goes_like m2 fuel tabs2 htabs2 (snd c) (snd k) n p Hw2 (fun i H => Hn i (or_intror H))) as G2;
    destruct (try_call m1 fuel tabs1 htabs1 (fst c) (fst k) n p) as [o1 s1|x1 s1|u1|], (try_call m2 fuel tabs2 htabs2 (snd c) (snd k) n p) as [o2 s2|x2 s2|u2|]; try discriminate;
    destruct (attempt1 (fst (fst c)) (fst k) p) as [o1' s1'|x1' s1'|u1'|] eqn:E1, (attempt2 (fst (snd c)) (snd k) p) as [o2' s2'|x2' s2'|u2'|] eqn:E2; try contradiction; try discriminate.
  all: destruct (out_eq_dec o1 o2); [|discriminate]; destruct (same_numbered alike (rt_trace s1) (rt_trace s2)) eqn:Es; [|discriminate];
    apply same_numbered_alike, alike_length in Es; destruct G1 as (_ & W1 & N1), G2 as (_ & W2 & N2); rewrite W1, W2;
    pose proof (world_length _ _ _ _ _ _ _ _ _ E1) as L1; pose proof (world_length _ _ _ _ _ _ _ _ _ E2) as L2;
    destruct (rt_world s1'), (rt_world s2'); try discriminate; try lia.
  - specialize (Q1 eq_refl). lia.
  - intros E. apply both_unknown in E as [E|E]; [|apply both_unknown in E as [E|E]]; revert E; apply IH; rewrite app_length; cbn; lia.
Qed.
Lemma compare_all_data_total depth n ks : (forall k, In k ks -> compare_data alike m1 m2 fuel tabs1 tabs2 htabs1 htabs2 depth n k (unused n) [] <> VUnknown) ->
  compare_all_data alike m1 m2 fuel tabs1 tabs2 htabs1 htabs2 depth ks n <> VUnknown.
Proof.
  induction ks as [|k ks IH]; cbn [compare_all_data]; [discriminate|]. intros H E. apply both_unknown in E as [E|E]; [exact (H k (or_introl eq_refl) E)|].
  revert E. apply IH. intros. apply H. now right.
Qed.
Lemma fresh_places_nodup l : forall seen, NoDup (fresh_places seen l) /\ forall n, In n (fresh_places seen l) -> ~ In n seen.
Proof.
  induction l as [|x l IH]; intros seen; cbn [fresh_places]; [split; [constructor|intros n []]|]. destruct (in_dec places_eq_dec x seen) as [i|i]; [apply IH|].
  destruct (IH (x :: seen)) as [A B]. split.
  - constructor; [|exact A]. intros H. apply (B x H). now left.
  - intros n [<-|H]; [exact i|]. intros Hn. apply (B n H). now right.
Qed.
Lemma close_places_total depth ks (R : place * place -> Prop) all : (forall n, R n -> In n all) ->
  (forall n, R n -> compare_all_data alike m1 m2 fuel tabs1 tabs2 htabs1 htabs2 depth ks n <> VUnknown) ->
  (forall n ns n', R n -> compare_all_data alike m1 m2 fuel tabs1 tabs2 htabs1 htabs2 depth ks n = VSame ns -> In n' ns -> R n') ->
  forall rounds seen todo, NoDup seen -> incl todo seen -> (forall n, In n seen -> R n) -> length all + length todo <= rounds + length seen ->
  close_places alike m1 m2 fuel tabs1 tabs2 htabs1 htabs2 rounds depth ks seen todo <> VUnknown.
Proof.
  intros Hall Hst Hne. induction rounds as [|rounds IH]; intros seen todo Hn Hi HR Hb; destruct todo as [|n todo]; cbn [close_places]; try discriminate.
  - assert (length seen <= length all) by (apply NoDup_incl_length; [exact Hn|intros x Hx; auto]). cbn in Hb. lia.
  - assert (Hn0 : R n) by (apply HR, Hi; now left). destruct (compare_all_data _ _ _ _ _ _ _ _ _ _ n) as [ns| |] eqn:En; [|discriminate|now apply Hst in En].
    destruct (fresh_places_nodup ns seen) as [A B]. apply IH.
    + apply NoDup_app_intro; auto. intros x Hx Hf. now apply (B x Hf).
    + intros x Hx. apply in_app_or in Hx as [Hx|Hx]; apply in_or_app; [left; apply Hi; now right|now right].
    + intros x Hx. apply in_app_or in Hx as [Hx|Hx]; [now apply HR|]. apply (Hne n ns x Hn0 En). eapply fresh_places_in, Hx.
    + rewrite !app_length. cbn in Hb. lia.
Qed.
End Total.

(** The numbers of a pair of places stay below the number of waiting events. *)
Definition small (n : place * place) : Prop := forall i, In i (snd (fst n)) \/ In i (snd (snd n)) -> i <= length (snd (fst n)) + length (snd (snd n)).
Lemma nodup_length l : length (nodup Nat.eq_dec l) <= length l.
Proof. apply NoDup_incl_length; [apply NoDup_nodup|]. intros x H. now apply nodup_In in H. Qed.
Lemma filter_short {A} (f : A -> bool) l : length (filter f l) <= length l.
Proof. induction l as [|x l IH]; cbn; [lia|]. destruct (f x); cbn; lia. Qed.
Lemma renumber_small {W} (s1 s2 : rt nat W) : small (renumber s1 s2).
Proof.
  assert (B : length (used (numbers s1) (numbers s2)) <= S (length (numbers s1) + length (numbers s2))).
  { unfold used. cbn [length]. apply le_n_S. etransitivity; [apply nodup_length|]. etransitivity; [apply filter_short|]. rewrite app_length. lia. }
  intros i H. cbn [renumber fst snd] in *. rewrite !map_length.
  assert (X : exists j, In j (numbers s1 ++ numbers s2) /\ rank (used (numbers s1) (numbers s2)) j = i).
  { destruct H as [H|H]; apply in_map_iff in H as (j & <- & Hj); exists j; (split; [|reflexivity]); apply in_or_app; auto. }
  destruct X as (j & Hj & <-). pose proof (rank_less _ _ (used_in _ _ _ Hj)). lia.
Qed.
Lemma lists_of_length {A} (U : list A) n : forall l, In l (lists_of n U) -> length l = n.
Proof.
  induction n as [|n IH]; cbn [lists_of]; intros l H; [destruct H as [<-|[]]; reflexivity|].
  apply in_flat_map in H as (l' & Hl & H). apply in_map_iff in H as (a & <- & _). cbn. now rewrite (IH l' Hl).
Qed.
Lemma lists_to_length {A} (U : list A) n : forall l, In l (lists_to n U) -> length l <= n.
Proof.
  induction n as [|n IH]; cbn [lists_to]; intros l H; [destruct H as [<-|[]]; cbn; lia|]. apply in_app_or in H as [H|H]; [apply lists_of_length in H; lia|]. specialize (IH l H). lia.
Qed.
Lemma configs_queue {W} m calls (s0 : rt unit W) b c : In c (configs m calls s0 b) -> length (cf_queue c) <= b.
Proof.
  unfold configs. intros H. apply in_flat_map in H as (cur & _ & H). apply in_flat_map in H as (hist & _ & H). apply in_flat_map in H as (q & Hq & H).
  apply in_flat_map in H as (r & _ & H). apply in_map_iff in H as (li & <- & _). cbn. now apply lists_to_length in Hq.
Qed.

Lemma with_unit_data {V} (k : call unit) (v : V) : with_payload (fun _ => tt) (with_data k v) = k.
Proof. destruct k as [e []| | | | |]; reflexivity. Qed.
Lemma no_dep_map {A} (f : A -> call unit) (calls : list A) : (forall k, In k calls -> is_set_dep (f k) = false) -> existsb is_set_dep (map f calls) = false.
Proof.
  intros H. destruct (existsb is_set_dep (map f calls)) eqn:E; [|reflexivity]. apply existsb_exists in E as (k & Hk & E). apply in_map_iff in Hk as (kk & <- & Hk). rewrite (H kk Hk) in E. discriminate.
Qed.

Theorem compare_data_ends alike m1 m2 fuel d calls bound1 bound2 : comp m1 -> comp m2 ->
  existsb (fun k => is_set_dep (fst k) || is_set_dep (snd k)) calls = false ->
  bounded_sessions m1 fuel d (map fst calls) bound1 -> bounded_sessions m2 fuel d (map snd calls) bound2 ->
  exists depth rounds b, compare_with_data alike m1 m2 fuel depth rounds d calls = Some b.
Proof.
  intros Hc1 Hc2 Hs HB1 HB2.
  assert (Hs1 : existsb is_set_dep (map fst calls) = false) by (apply no_dep_map; intros k Hk; now destruct (no_deps calls Hs k Hk)).
  assert (Hs2 : existsb is_set_dep (map snd calls) = false) by (apply no_dep_map; intros k Hk; now destruct (no_deps calls Hs k Hk)).
  unfold compare_with_data. rewrite Hs.
  pose proof (construct_s (V := unit) (W := unit) (X := list reply) m1 fuel d tt []) as C1. pose proof (construct_s (V := unit) (W := unit) (X := list reply) m2 fuel d tt []) as C2.
  pose proof (HB1 [] [] (fun k H => match H with end)) as H1. pose proof (HB2 [] [] (fun k H => match H with end)) as H2. unfold session in H1, H2. rewrite C1 in H1. rewrite C2 in H2.
  destruct (construct m1 fuel d tt) as [[] s1|x1 s1|u1|] eqn:E1, (construct m2 fuel d tt) as [[] s2|x2 s2|u2|] eqn:E2; cbn [bind] in H1, H2; try contradiction.
  2,3,4: exists 0, 0; eexists; reflexivity.
  clear C1 C2 H1 H2.
  set (P := reached_places alike m1 m2 fuel d calls (rt_tabs s1) (rt_tabs s2) (rt_htabs s1) (rt_htabs s2)). set (R := fun n => P n /\ small n).
  assert (Pw : forall n, P n -> well (fst n) /\ well (snd n)).
  { intros n (script & ks & f & _ & _ & _ & H). destruct (H []) as (outs & a1 & a2 & _ & _ & _ & _ & _ & A & B & _). split; eapply realizes_well; eassumption. }
  assert (P1 : forall n, P n -> reached m1 fuel d (map fst calls) (rt_tabs s1) (rt_htabs s1) (Some (fst (fst n)))).
  { intros n (script & ks & f & _ & _ & Hks & H). destruct (H []) as (outs & a1 & a2 & R1 & R2 & _ & _ & _ & [A _] & _ & C & D & _).
    destruct (session_scripted valued m1 0 fuel d (script ++ []) (for_first ks)) as [l Hl]. specialize (Hl []). rewrite R1 in Hl.
    exists (map (with_payload (fun _ => tt)) (for_first ks)), (l ++ []). split.
    - intros k Hk. apply in_map_iff in Hk as (k' & <- & Hk). apply in_map_iff in Hk as (kk & <- & Hk). rewrite with_unit_data. apply in_map. auto.
    - rewrite Hl. rewrite <- A. split; [|split; assumption]. f_equal. unfold bare, config_of, translated. cbn. now rewrite map_map. }
  assert (P2 : forall n, P n -> reached m2 fuel d (map snd calls) (rt_tabs s2) (rt_htabs s2) (Some (fst (snd n)))).
  { intros n (script & ks & f & _ & _ & Hks & H). destruct (H []) as (outs & a1 & a2 & R1 & R2 & _ & _ & _ & _ & [A _] & _ & _ & C & D).
    destruct (session_scripted valued m2 0 fuel d (script ++ []) (for_second ks)) as [l Hl]. specialize (Hl []). rewrite R2 in Hl.
    exists (map (with_payload (fun _ => tt)) (for_second ks)), (l ++ []). split.
    - intros k Hk. apply in_map_iff in Hk as (k' & <- & Hk). apply in_map_iff in Hk as (kk & <- & Hk). rewrite with_unit_data. apply in_map. auto.
    - rewrite Hl. rewrite <- A. split; [|split; assumption]. f_equal. unfold bare, config_of, translated. cbn. now rewrite map_map. }
  set (nums := fun b => lists_to b (seq 0 (S (bound1 + bound2)))).
  set (all := list_prod (list_prod (configs m1 (map fst calls) s1 bound1) (nums bound1)) (list_prod (configs m2 (map snd calls) s2 bound2) (nums bound2))). set (B := calls_bound s1 fuel).
  exists B, (length all). assert (X : forall (v : verdict (list (place * place))), v <> VUnknown -> exists b, match v with VSame _ => Some true | VDiffer => Some false | VUnknown => None end = Some b)
    by (intros [l| |] Hv; [now exists true|now exists false|congruence]). apply X.
  apply (close_places_total alike m1 m2 fuel _ _ _ _ B calls R all).
  - intros n [Hr Hl]. pose proof (proj1 (reached_bounded m1 fuel d (map fst calls) bound1 s1 Hs1 Hc1 E1 HB1 _ (P1 _ Hr))) as I1.
    pose proof (proj1 (reached_bounded m2 fuel d (map snd calls) bound2 s2 Hs2 Hc2 E2 HB2 _ (P2 _ Hr))) as I2.
    pose proof (configs_queue _ _ _ _ _ I1) as L1. pose proof (configs_queue _ _ _ _ _ I2) as L2. destruct (Pw n Hr) as [W1 W2]. unfold well in W1, W2.
    destruct n as [[c1 l1] [c2 l2]]. unfold small in Hl. cbn [fst snd] in *. apply in_prod; apply in_prod; auto; apply lists_to_in; try lia; apply Forall_forall; intros i Hi; apply in_seq;
      (split; [lia|]); [specialize (Hl i (or_introl Hi))|specialize (Hl i (or_intror Hi))]; lia.
  - intros n [Hr _]. destruct (Pw n Hr) as [W1 W2]. apply compare_all_data_total. intros k Hk. apply (compare_data_total alike m1 m2 fuel _ _ _ _ n k (unused n) B); auto.
    + intros i Hi. now apply unused_bound.
    + apply (reached_bounded m1 fuel d (map fst calls) bound1 s1 Hs1 Hc1 E1 HB1 _ (P1 _ Hr)). now apply in_map.
    + intros p. pose proof (proj2 (reached_bounded m2 fuel d (map snd calls) bound2 s2 Hs2 Hc2 E2 HB2 _ (P2 _ Hr)) (snd k) (in_map snd _ _ Hk) p) as Q.
      destruct (attempt m2 fuel (rt_tabs s2) (rt_htabs s2) (fst (snd n)) (snd k) p); auto.
  - intros n ns n' [Hr _] En Hn. split; [now apply (places_step alike m1 m2 fuel d calls Hs _ _ _ _ B n ns)|].
    destruct (compare_all_data_from _ _ _ _ _ _ _ _ _ _ _ _ _ En Hn) as (k & b & Hk & Eb & Hb). destruct (compare_data_real _ _ _ _ _ _ _ _ _ _ _ _ _ _ _ Eb Hb) as (p' & o & a1 & a2 & r1 & r2 & _ & _ & _ & _ & _ & ->). apply renumber_small.
  - constructor; [intros []|constructor].
  - now intros x.
  - intros n [<-|[]]. split; [now apply start_places|]. intros i [[]|[]].
  - apply Nat.le_refl.
Qed.
