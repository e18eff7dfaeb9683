(** Proofs of the statements of PropsStatus.v. *)

From Coq Require Import List Arith NArith Bool Lia.
From Verif Require Import Types Static Dispatch Runtime ListFacts IndexFacts Spec DispatchFacts
  FlattenFacts Semantics RefineFacts StaticFacts Reach ReachFacts TableFacts QueryFacts LoopFacts
  StatusSpec.
Import ListNotations.

Section Status.
Context {V W : Type}.
Variables (env : cenv) (root : cls) (m : machine).
Hypothesis Hm : compile env root = Some m.
Notation st := (rt V W).

Lemma read_cur_at (s : st) r p q : at_place m s r = Some (p, q) -> read_cur s r = Done (code m (p, q)) s.
Proof.
  compiled Hm. unfold at_place, read_cur. destruct (nth_error (rt_cur s) r) as [[c|]|]; try discriminate.
  intros H. apply (places_at_inv m Hc) in H. destruct H as (_ & _ & ->).
  rewrite (combined_idx_pos m Hc). reflexivity.
Qed.

Lemma status_loop_lines limit (s : st) p0 q0 (pl : nat -> place) : limit <= 255 ->
  at_place m s 0 = Some (p0, q0) -> (forall r, r < limit -> at_place m s r = Some (pl r)) ->
  forall fuel r, limit < r + fuel -> r <= limit ->
  status_loop m fuel limit r s = Done (map (fun r => line m p0 r (pl r)) (seq r (limit - r))) s.
Proof.
  intros HL H0 HP. induction fuel as [|fuel IH]; intros r Hf Hr; [lia|]. cbn [status_loop].
  destruct (Nat.ltb_spec r limit) as [Hl|Hl].
  - specialize (HP r Hl). destruct (pl r) as [p q] eqn:E.
    rewrite (read_cur_at s r p q HP). cbn [bind].
    rewrite (current_parent_at env root m Hm s p0 q0 H0). cbn [bind].
    rewrite (current_state_at env root m Hm s r p q HP). cbn [bind].
    assert (En : next_region r = S r). { unfold next_region. destruct (Nat.eqb_spec r 255); [lia|reflexivity]. }
    rewrite En, IH by lia. cbn [bind]. replace (limit - r) with (S (limit - S r)) by lia.
    cbn [seq map]. unfold line at 2. rewrite E. cbn [snd].
    compiled Hm. rewrite (parent_idx_pos m Hc), (state_idx_pos m Hc). reflexivity.
  - replace (limit - r) with 0 by lia. reflexivity.
Qed.

Lemma status_loop_unset limit (s : st) : limit <= 255 ->
  forall fuel r k, limit < r + fuel -> r <= k -> k < limit -> uninitialised s k ->
  exists u, status_loop m fuel limit r s = Undef u.
Proof.
  intros HL. induction fuel as [|fuel IH]; intros r k Hf Hr Hk HU; [lia|]. cbn [status_loop].
  destruct (Nat.ltb_spec r limit) as [Hl|Hl]; [|lia].
  unfold read_cur at 1. destruct (nth_error (rt_cur s) r) as [[c|]|] eqn:E; cbn [bind]; eauto.
  unfold current_parent, read_cur. destruct (nth_error (rt_cur s) 0) as [[c0|]|]; cbn [bind]; eauto.
  unfold current_state, at_cur. rewrite E. cbn [bind].
  assert (En : next_region r = S r). { unfold next_region. destruct (Nat.eqb_spec r 255); [lia|reflexivity]. }
  rewrite En. assert (r <> k). { intros ->. unfold uninitialised in HU. congruence. }
  destruct (IH (S r) k) as (u & ->); [lia|lia|exact Hk|exact HU|]. cbn [bind]. eauto.
Qed.

Section Reachable.
Variable cb : cbfun V W.
Variables (vnone : V) (ds : list dep) (d0 : dep).

Lemma status_lines fuel (s : st) (pl : nat -> place) : running cb env root m vnone ds d0 s ->
  (forall r, r < active m s -> at_place m s r = Some (pl r)) -> active m s < fuel ->
  status m fuel s = Done (map (fun r => line m (fst (pl 0)) r (pl r)) (seq 0 (active m s))) s.
Proof.
  intros R HP Hf. pose proof (active_255 cb env root m vnone ds d0 s R) as HL.
  unfold status. change (current_regions m s) with (active m s).
  destruct (active m s) as [|n] eqn:E.
  - destruct fuel; [lia|]. reflexivity.
  - pose proof (HP 0 ltac:(lia)) as H0. destruct (pl 0) as [p0 q0] eqn:E0. cbn [fst].
    rewrite (status_loop_lines (S n) s p0 q0 pl); try lia; auto.
Qed.

Lemma status_unset fuel (s : st) r : running cb env root m vnone ds d0 s ->
  r < active m s -> uninitialised s r -> active m s < fuel -> exists u, status m fuel s = Undef u.
Proof.
  intros R Hr HU Hf. pose proof (active_255 cb env root m vnone ds d0 s R) as HL.
  unfold status. change (current_regions m s) with (active m s).
  apply (status_loop_unset (active m s) s HL fuel 0 r); auto with arith.
Qed.

(** The report determines the places. *)
Lemma line_inj p0 q0 p0' r pl pl' (s : st) :
  at_place m s 0 = Some (p0, q0) -> at_place m s r = Some pl ->
  line m p0 r pl = line m p0' r pl' -> p0 = p0' /\ pl = pl'.
Proof.
  intros H0 HP H. unfold line in H. injection H as Hc0 Hp _. compiled Hm.
  unfold at_place in H0, HP.
  destruct (nth_error (rt_cur s) 0) as [[c0|]|]; try discriminate.
  destruct (nth_error (rt_cur s) r) as [[c|]|]; try discriminate.
  apply (places_at_inv m Hc) in H0. destruct H0 as (H0 & _ & _). split.
  - apply (pos_inj Nat.eq_dec p0 p0' (parents m) H0). now apply Nat2N.inj.
  - apply (pos_inj place_eq_dec pl pl' (places m)); [|now apply Nat2N.inj]. eapply nth_error_In; eauto.
Qed.

Lemma status_determines fuel (s s' : st) (pl pl' : nat -> place) ds' d0' l :
  running cb env root m vnone ds d0 s -> running cb env root m vnone ds' d0' s' ->
  (forall r, r < active m s -> at_place m s r = Some (pl r)) ->
  (forall r, r < active m s' -> at_place m s' r = Some (pl' r)) ->
  active m s < fuel -> active m s' < fuel ->
  status m fuel s = Done l s -> status m fuel s' = Done l s' ->
  active m s' = active m s /\ (forall r, r < active m s -> pl' r = pl r).
Proof.
  intros R R' P P' F F' H H'.
  rewrite (status_lines fuel s pl R P F) in H. injection H as H.
  pose proof (active_255 cb env root m vnone ds' d0' s' R') as HL.
  assert (E' : status m fuel s' = Done (map (fun r => line m (fst (pl' 0)) r (pl' r)) (seq 0 (active m s'))) s').
  { unfold status. change (current_regions m s') with (active m s').
    destruct (active m s') as [|n] eqn:E; [destruct fuel; [lia|reflexivity]|].
    pose proof (P' 0 ltac:(lia)) as H0. destruct (pl' 0) as [p0 q0] eqn:E0. cbn [fst].
    rewrite (status_loop_lines (S n) s' p0 q0 pl'); try lia; auto. }
  rewrite E' in H'. injection H' as H'. rewrite <- H in H'.
  assert (EL : active m s' = active m s).
  { apply (f_equal (@length _)) in H'. rewrite !map_length, !seq_length in H'. exact H'. }
  split; [exact EL|]. intros r Hr. rewrite EL in H'.
  assert (HR : line m (fst (pl' 0)) r (pl' r) = line m (fst (pl 0)) r (pl r)).
  { apply (f_equal (fun l => nth_error l r)) in H'.
    rewrite !nth_error_map in H'. rewrite (nth_error_nth' (seq 0 (active m s)) 0) in H' by (rewrite seq_length; exact Hr).
    rewrite seq_nth in H' by exact Hr. cbn [option_map plus] in H'. congruence. }
  assert (H0 : at_place m s' 0 = Some (fst (pl' 0), snd (pl' 0))).
  { rewrite P' by lia. now destruct (pl' 0). }
  destruct (line_inj _ _ _ r _ _ s' H0 (P' r ltac:(lia)) HR) as [_ E]. exact E.
Qed.

End Reachable.
End Status.

(** * Region arguments *)
Lemma to_region_small r : r < 256 -> to_region r = r.
Proof. intros H. unfold to_region. now apply Nat.mod_small. Qed.
Lemma to_region_wraps r k : to_region (r + 256 * k) = to_region r.
Proof. unfold to_region. rewrite Nat.mul_comm. apply Nat.mod_add. discriminate. Qed.

Section Region.
Context {V W : Type}.
Variables (env : cenv) (root : cls) (m : machine).
Hypothesis Hm : compile env root = Some m.
Notation st := (rt V W).

Lemma is_wraps r k p q (s : st) : q_is m (r + 256 * k) p q s = q_is m r p q s.
Proof. unfold q_is. now rewrite to_region_wraps. Qed.
Lemma set_wraps r k p q (s : st) : set_state m (r + 256 * k) p q s = set_state m r p q s.
Proof. unfold set_state. now rewrite to_region_wraps. Qed.

Lemma is_small (s : st) r p q p0 q0 pr qr : r < 256 ->
  at_place m s 0 = Some (p0, q0) -> at_place m s r = Some (pr, qr) ->
  exists b, q_is m r p q s = Done b s /\ (b = true <-> p0 = p /\ qr = q).
Proof.
  intros Hr H0 H. apply (is_answer env root m Hm s r p q p0 q0 pr qr); [exact H0|].
  now rewrite to_region_small.
Qed.

Lemma set_small (cb : cbfun V W) vnone ds d0 (s : st) r p q : r < 256 ->
  running cb env root m vnone ds d0 s ->
  is_parent env root p -> is_state env root q -> region_exists env root r ->
  exists s', set_state m r p q s = Done tt s' /\ at_place m s' r = Some (p, q) /\
    (forall k, k <> r -> nth_error (rt_cur s') k = nth_error (rt_cur s) k).
Proof.
  intros Hr (_ & Hfew & R) Hp Hq HE. pose proof (to_region_small r Hr) as ER.
  destruct (reachable_set env root m Hm cb vnone Hfew ds d0 s r p q R Hp Hq) as (s' & A & B & C & _).
  - now rewrite ER.
  - rewrite ER in B, C. exists s'. auto.
Qed.
End Region.
