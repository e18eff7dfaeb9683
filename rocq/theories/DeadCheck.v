(** A check of [Dead.cleaned], for use on programs.  Nothing here is a model of code of the
    repository. *)

From Coq Require Import List Arith NArith Bool.
From Verif Require Import Types Static Dispatch Runtime ListFacts IndexFacts Spec DispatchFacts FlattenFacts
  Semantics RefineFacts StaticFacts Reorder Dead ReorderFacts ReorderSwap ReorderCheck.
Import ListNotations.

Definition same_ev (a b : ev) : bool := if ev_eq_dec a b then true else false.
Lemma same_ev_iff a b : same_ev a b = true <-> a = b.
Proof. unfold same_ev. destruct (ev_eq_dec a b); split; congruence. Qed.
Lemma same_sref_iff a b : same_sref a b = true <-> a = b.
Proof. unfold same_sref. destruct (sref_eq_dec a b); split; congruence. Qed.
Definition unguarded (g : guard) : bool := match g with NoGuard => true | _ => false end.
Lemma unguarded_iff g : unguarded g = true <-> g = NoGuard.
Proof. destruct g; cbn; split; congruence. Qed.

Section Check.
Variable env : cenv.
Definition overridden_ok (l2 : list row) (r : row) : bool :=
  existsb (fun r2 => same_sref (r_src r2) (r_src r) && same_ev (r_ev r2) (r_ev r) && unguarded (r_guard r2)) l2.
Lemma overridden_iff l2 r : overridden_ok l2 r = true <-> overridden l2 r.
Proof.
  unfold overridden_ok, overridden. rewrite existsb_exists. split; intros (r2 & H & E); exists r2; (split; [exact H|]);
    rewrite !andb_true_iff, same_sref_iff, same_ev_iff, unguarded_iff in *; tauto.
Qed.
Definition postponed_ok (r : row) : bool :=
  match unmarked (r_src r) with
  | SState k => existsb (same_ev (r_ev r)) (defers env k) && (negb (same_sref (r_src r) (SState k)) || negb (is_composite env k))
  | _ => false
  end.
Lemma postponed_iff r : postponed_ok r = true <-> postponed env r.
Proof.
  unfold postponed_ok, postponed. destruct (unmarked (r_src r)) as [k| | | | |] eqn:U; try (split; [discriminate|intros [(k & E & _) _]; discriminate]).
  rewrite andb_true_iff, existsb_exists, orb_true_iff, !negb_true_iff. split.
  - intros [(e & He & E) Hn]. apply same_ev_iff in E. split; [exists k; rewrite E; auto|]. intros k' E' C. apply composite_b in C.
    rewrite E' in U. cbn in U. injection U as ->. destruct Hn as [Hn|Hn]; [|congruence]. rewrite E' in Hn.
    unfold same_sref in Hn. destruct (sref_eq_dec (SState k) (SState k)); [discriminate|contradiction].
  - intros [(k' & E & H) Hn]. injection E as <-. split; [exists (r_ev r); split; [exact H|now apply same_ev_iff]|].
    destruct (same_sref (r_src r) (SState k)) eqn:S; [right|now left]. apply same_sref_iff in S. apply Hn in S.
    destruct (is_composite env k) eqn:E; [|reflexivity]. exfalso. apply S. now apply composite_b.
Qed.
Definition never_ok l2 r : bool := overridden_ok l2 r || postponed_ok r.
Lemma never_iff l2 r : never_ok l2 r = true <-> never_taken env l2 r.
Proof. unfold never_ok, never_taken. now rewrite orb_true_iff, overridden_iff, postponed_iff. Qed.
Lemma enters_iff r : outside_row env r = true <-> enters_nothing env r.
Proof. apply outside_row_iff. Qed.

Definition mentions_ok (s : sref) (r : row) : bool := same_sref s (unmarked (r_src r)) || same_sref s (r_tgt r).
Lemma mentions_iff s r : mentions_ok s r = true <-> mentions r s.
Proof. unfold mentions_ok, mentions. now rewrite orb_true_iff, !same_sref_iff. Qed.
Definition writes_ok (s : sref) (r : row) : bool := same_sref s (r_src r) || same_sref s (r_tgt r).
Lemma writes_iff s r : writes_ok s r = true <-> writes r s.
Proof. unfold writes_ok, writes. now rewrite orb_true_iff, !same_sref_iff. Qed.
Definition named_ok (l : list row) (r : row) : bool :=
  existsb (fun r0 => same_sref (r_src r0) (r_src r)) l && existsb (mentions_ok (r_tgt r)) l &&
  existsb (fun r0 => same_ev (r_ev r0) (r_ev r)) l.
Lemma named_iff l r : named_ok l r = true <-> named l r.
Proof.
  unfold named_ok. rewrite !andb_true_iff, !existsb_exists. setoid_rewrite same_sref_iff. setoid_rewrite same_ev_iff. setoid_rewrite mentions_iff.
  split; [intros [[A B] C]; now constructor|intros [A B C]; auto].
Qed.
Definition quiet_ok (s : sref) : bool := match s with SState k => is_nil (internals env k) | _ => true end.
Lemma quiet_iff s : quiet_ok s = true <-> forall k, s = SState k -> internals env k = [].
Proof.
  destruct s; cbn; try (split; [congruence|reflexivity]). split.
  - intros H k E. injection E as <-. destruct (internals env c); [reflexivity|discriminate].
  - intros H. now rewrite (H c eq_refl).
Qed.
Definition turn_ok (c : cls) (l1 : list row) (r : row) : bool :=
  forallb (fun s => quiet_ok s || existsb (mentions_ok s) l1) [unmarked (r_src r); r_tgt r] &&
  (is_nil (internals env c) || forallb (fun s => existsb (writes_ok s) l1) [r_src r; r_tgt r]).
Lemma turn_iff c l1 r : turn_ok c l1 r = true <-> in_turn env c l1 r.
Proof.
  unfold turn_ok. rewrite andb_true_iff, orb_true_iff, !forallb_forall.
  assert (N : is_nil (internals env c) = true <-> internals env c = []) by (destruct (internals env c); cbn; intuition discriminate).
  rewrite N. clear N.
  assert (E : (forall s, In s [unmarked (r_src r); r_tgt r] -> quiet_ok s || existsb (mentions_ok s) l1 = true) <->
    (forall s, mentions r s -> (forall k, s = SState k -> internals env k = []) \/ exists r0, In r0 l1 /\ mentions r0 s)).
  { assert (I : forall s, In s [unmarked (r_src r); r_tgt r] <-> mentions r s).
    { intros s. unfold mentions. cbn. intuition congruence. }
    setoid_rewrite I. split; intros H s Hs; specialize (H s Hs).
    - rewrite orb_true_iff, existsb_exists, quiet_iff in H. destruct H as [H|(r0 & H & E)]; [now left|right]. exists r0. split; [exact H|now apply mentions_iff].
    - rewrite orb_true_iff, existsb_exists, quiet_iff. destruct H as [H|(r0 & H & E)]; [now left|right]. exists r0. split; [exact H|now apply mentions_iff]. }
  rewrite E. clear E.
  assert (E : (forall s, In s [r_src r; r_tgt r] -> existsb (writes_ok s) l1 = true) <-> (forall s, writes r s -> exists r0, In r0 l1 /\ writes r0 s)).
  { assert (I : forall s, In s [r_src r; r_tgt r] <-> writes r s).
    { intros s. unfold writes. cbn. intuition congruence. }
    setoid_rewrite I. split; intros H s Hs; specialize (H s Hs); rewrite existsb_exists in *; destruct H as (r0 & H & E); exists r0;
      (split; [exact H|now apply writes_iff]). }
  rewrite E. split; [intros [A B]; now constructor|intros [A B]; auto].
Qed.
Definition idle_ok (c : cls) (l1 : list row) (r : row) (l2 : list row) : bool :=
  never_ok l2 r && outside_row env r && named_ok (l1 ++ l2) r && turn_ok c l1 r.
Lemma idle_iff c l1 r l2 : idle_ok c l1 r l2 = true <-> idle env c l1 r l2.
Proof.
  unfold idle_ok. rewrite !andb_true_iff, never_iff, enters_iff, named_iff, turn_iff.
  split; [intros [[[A B] C] D]; now constructor|intros [A B C D]; auto].
Qed.
End Check.

(** The program without row [n] of class [c], if [ok] agrees. *)
Definition remove_by (ok : cenv -> cls -> list row -> row -> list row -> bool) (env : cenv) (c : cls) (n : nat) : option cenv :=
  match cd_table (lookup env c) with
  | None => None
  | Some l =>
      match skipn n l with
      | r :: l2 =>
          let env' := (c, with_table (lookup env c) (firstn n l ++ l2)) :: env in
          if ok env c (firstn n l) r l2 && same_initials env env' c then Some env' else None
      | _ => None
      end
  end.
Lemma remove_by_ok ok (R : cenv -> cls -> list row -> row -> list row -> Prop) env c n env' :
  (forall c l1 r l2, ok env c l1 r l2 = true -> R env c l1 r l2) ->
  remove_by ok env c n = Some env' -> without_by (R env) env env'.
Proof.
  intros HR. unfold remove_by. destruct (cd_table (lookup env c)) as [l|] eqn:E; [|discriminate].
  destruct (skipn n l) as [|r l2] eqn:Es; try discriminate. destruct (ok _ _ _ _ _) eqn:Eo; [|discriminate]. cbn [andb].
  unfold same_initials. destruct (list_eq_dec _ _ _) as [Ei|]; [|discriminate].
  intros H. injection H as <-. exists c, (firstn n l), r, l2.
  split; [rewrite <- Es, firstn_skipn; exact E|]. split; [cbn [lookup]; now destruct (Nat.eq_dec c c)|].
  split; [intros k Hk; cbn [lookup]; destruct (Nat.eq_dec k c); [contradiction|reflexivity]|]. split; [now apply HR|exact Ei].
Qed.
Fixpoint removals (env : cenv) (l : list (cls * nat)) : option cenv :=
  match l with
  | [] => Some env
  | (c, n) :: l' => match remove_by idle_ok env c n with Some env' => removals env' l' | None => None end
  end.
Lemma removals_sound l : forall env env', removals env l = Some env' -> cleaned env env'.
Proof.
  assert (G : forall env0 env env', cleaned env0 env -> removals env l = Some env' -> cleaned env0 env').
  { induction l as [|[c n] l IH]; cbn [removals]; intros env0 env env' R H; [injection H as <-; exact R|].
    destruct (remove_by idle_ok env c n) as [e|] eqn:E; [|discriminate]. apply (IH env0 e env'); [|exact H].
    eapply cl_step; [exact R|]. revert E. apply remove_by_ok. intros. now apply idle_iff. }
  intros env env'. apply G. constructor.
Qed.
