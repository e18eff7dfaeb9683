(** A check of [Reorder.exchanged], for use on programs.  Nothing here is a model of code
    of the repository. *)

From Coq Require Import List Arith NArith Bool.
From Verif Require Import Types Static Dispatch Runtime ListFacts IndexFacts Spec DispatchFacts FlattenFacts
  Semantics RefineFacts StaticFacts Reorder ReorderFacts ReorderSwap.
Import ListNotations.

Definition is_nil {A} (l : list A) : bool := match l with [] => true | _ => false end.
Definition same_sref (a b : sref) : bool := if sref_eq_dec a b then true else false.
Definition same_place (a b : place) : bool := if place_eq_dec a b then true else false.
Definition disjoint (l l' : list place) : bool := forallb (fun a => forallb (fun b => negb (same_place a b)) l') l.
Lemma disjoint_iff l l' : disjoint l l' = true <-> forall pl, In pl l -> ~ In pl l'.
Proof.
  unfold disjoint, same_place. rewrite forallb_forall. split.
  - intros H pl H1 H2. specialize (H pl H1). rewrite forallb_forall in H. specialize (H pl H2). now destruct (place_eq_dec pl pl).
  - intros H pl H1. apply forallb_forall. intros b Hb. destruct (place_eq_dec pl b) as [->|]; [now specialize (H b H1)|reflexivity].
Qed.
Section Check.
Variable env : cenv.
Definition tried_places (c : cls) (r : row) : list place :=
  source_place (row_in c r) ::
  match r_src r with SState k => if is_composite env k then map (pair k) (children env k) else [] | _ => [] end.
Lemma tried_places_iff c r pl : In pl (tried_places c r) <-> tried_at env c r pl.
Proof.
  unfold tried_places, tried_at. cbn [In]. split.
  - intros [<-|H]; [now left|right]. destruct (r_src r) as [k|? ?|? ? ?|? ? ?|? ? ?|? ?]; try (destruct H; fail).
    destruct (is_composite env k) eqn:E; [|destruct H]. apply in_map_iff in H. destruct H as (s & <- & H).
    exists k, s. split; [reflexivity|]. split; [now apply composite_b|]. split; [now apply children_In|reflexivity].
  - intros [->|(k & s & E & Hc & Hs & ->)]; [now left|right]. rewrite E. apply composite_b in Hc. rewrite Hc. apply in_map. now apply children_In.
Qed.
Definition apart_ok c r1 r2 : bool :=
  (if ev_eq_dec (r_ev r1) (r_ev r2) then false else true) || disjoint (tried_places c r1) (tried_places c r2).
Lemma apart_iff c r1 r2 : apart_ok c r1 r2 = true <-> apart env c r1 r2.
Proof.
  unfold apart_ok, apart. rewrite orb_true_iff, disjoint_iff. setoid_rewrite tried_places_iff.
  destruct (ev_eq_dec (r_ev r1) (r_ev r2)); intuition congruence.
Qed.

Definition outside_row (r : row) : bool :=
  match r_tgt r with
  | SState k | SEntry _ k _ | SDirect _ k _ | SHistory _ k => negb (is_composite env k)
  | _ => true
  end.
Lemma outside_row_iff r : outside_row r = true <-> forall k, leads_into (r_tgt r) k -> ~ composite env k.
Proof.
  unfold outside_row. split.
  - intros H k L C. apply composite_b in C. destruct L; rewrite C in H; discriminate.
  - intros H. destruct (r_tgt r) as [k|? ?|? p ?|? p ?|? ? ?|? p]; try reflexivity;
      match goal with |- negb (is_composite env ?k) = true =>
        destruct (is_composite env k) eqn:E; [|reflexivity]; exfalso; apply (H k); [constructor|now apply composite_b] end.
Qed.
Definition outside_ok r1 r2 : bool := outside_row r1 && outside_row r2.
Lemma outside_iff r1 r2 : outside_ok r1 r2 = true <-> outside env r1 r2.
Proof.
  unfold outside_ok, outside. rewrite andb_true_iff, !outside_row_iff. split; [intros [H1 H2] r k [->| ->]; auto|].
  intros H. split; intros k; apply H; auto.
Qed.

Definition internal_places (c : cls) (s : sref) : list place :=
  match s with
  | SState k => if is_nil (internals env k) then []
                else if is_composite env k then map (meant k) (mentioned env k) else [(c, s)]
  | _ => []
  end.
Lemma internal_places_iff c s pl : In pl (internal_places c s) <-> internal_at env c s pl.
Proof.
  unfold internal_places, internal_at. split.
  - destruct s as [k|? ?|? ? ?|? ? ?|? ? ?|? ?]; try (intros []; fail). intros H. exists k. split; [reflexivity|].
    destruct (internals env k) eqn:Ei; [destruct H|]. cbn [is_nil] in H. split; [discriminate|].
    destruct (is_composite env k) eqn:E.
    + right. split; [now apply composite_b|]. apply in_map_iff in H. destruct H as (t & <- & H). exists t. split; [|reflexivity].
      unfold mentioned in H. apply in_flat_map in H. destruct H as (r & Hr & H). exists r. split; [exact Hr|]. destruct H as [<-|[<-|[]]]; auto.
    + left. split; [intros C; apply composite_b in C; congruence|]. now destruct H as [<-|[]].
  - intros (k & -> & Hi & H). destruct (internals env k) eqn:Ei; [now destruct Hi|]. cbn [is_nil].
    destruct H as [[Hc ->]|(Hc & t & (r & Hr & Hw) & ->)].
    + destruct (is_composite env k) eqn:E; [exfalso; apply Hc; now apply composite_b|now left].
    + apply composite_b in Hc. rewrite Hc. apply in_map. unfold mentioned. apply in_flat_map. exists r. split; [exact Hr|]. destruct Hw as [->| ->]; cbn; auto.
Qed.
Definition inner_ok c r1 r2 : bool :=
  forallb (fun s1 => forallb (fun s2 => same_sref s1 s2 || disjoint (internal_places c s1) (internal_places c s2))
    [unmarked (r_src r2); r_tgt r2]) [unmarked (r_src r1); r_tgt r1].
Lemma inner_iff c r1 r2 : inner_ok c r1 r2 = true <-> inner_apart env c r1 r2.
Proof.
  unfold inner_ok, inner_apart. rewrite forallb_forall. split.
  - intros H s1 s2 pl M1 M2 H1 H2. assert (I1 : In s1 [unmarked (r_src r1); r_tgt r1]) by (destruct M1 as [->| ->]; cbn; auto).
    specialize (H s1 I1). rewrite forallb_forall in H. assert (I2 : In s2 [unmarked (r_src r2); r_tgt r2]) by (destruct M2 as [->| ->]; cbn; auto).
    specialize (H s2 I2). apply orb_true_iff in H. unfold same_sref in H. destruct (sref_eq_dec s1 s2) as [|N]; [assumption|]. destruct H as [|H]; [discriminate|].
    rewrite disjoint_iff in H. exfalso. apply (H pl); now apply internal_places_iff.
  - intros H s1 I1. apply forallb_forall. intros s2 I2. apply orb_true_iff. unfold same_sref. destruct (sref_eq_dec s1 s2) as [|N]; [now left|right].
    apply disjoint_iff. intros pl P1 P2. apply N. apply (H s1 s2 pl); [| |now apply internal_places_iff|now apply internal_places_iff].
    + destruct I1 as [<-|[<-|[]]]; [now left|now right].
    + destruct I2 as [<-|[<-|[]]]; [now left|now right].
Qed.
Definition written_ok c r1 r2 : bool :=
  is_nil (internals env c) ||
  forallb (fun s1 => forallb (fun s2 => same_sref s1 s2 || negb (same_place (meant c s1) (meant c s2)))
    [r_src r2; r_tgt r2]) [r_src r1; r_tgt r1].
Lemma written_iff c r1 r2 : written_ok c r1 r2 = true <-> written_alike env c r1 r2.
Proof.
  unfold written_ok, written_alike. rewrite orb_true_iff.
  assert (E : is_nil (internals env c) = true <-> internals env c = []) by (destruct (internals env c); cbn; intuition discriminate).
  rewrite E. apply or_iff_compat_l. clear E. rewrite forallb_forall. split.
  - intros H s1 s2 M1 M2 P. assert (I1 : In s1 [r_src r1; r_tgt r1]) by (destruct M1 as [->| ->]; cbn; auto).
    specialize (H s1 I1). rewrite forallb_forall in H. assert (I2 : In s2 [r_src r2; r_tgt r2]) by (destruct M2 as [->| ->]; cbn; auto).
    specialize (H s2 I2). apply orb_true_iff in H. unfold same_sref, same_place in H. destruct (sref_eq_dec s1 s2) as [|N]; [assumption|].
    destruct H as [|H]; [discriminate|]. now destruct (place_eq_dec _ _).
  - intros H s1 I1. apply forallb_forall. intros s2 I2. apply orb_true_iff. unfold same_sref, same_place.
    destruct (sref_eq_dec s1 s2) as [|N]; [now left|right]. destruct (place_eq_dec _ _) as [P|]; [|reflexivity]. exfalso. apply N. apply H; [| |exact P].
    + destruct I1 as [<-|[<-|[]]]; [now left|now right].
    + destruct I2 as [<-|[<-|[]]]; [now left|now right].
Qed.
Definition independent_ok c r1 r2 : bool := apart_ok c r1 r2 && outside_ok r1 r2 && inner_ok c r1 r2 && written_ok c r1 r2.
Lemma independent_iff c r1 r2 : independent_ok c r1 r2 = true <-> independent env c r1 r2.
Proof.
  unfold independent_ok. rewrite !andb_true_iff, apart_iff, outside_iff, inner_iff, written_iff.
  split; [intros [[[A B] C] D]; now constructor|intros [A B C D]; auto].
Qed.
End Check.

(** Rows [n] and [n + 1] of class [c] exchanged, if [ok] agrees. *)
Definition exchange_by (ok : cenv -> cls -> row -> row -> bool) (env : cenv) (c : cls) (n : nat) : option cenv :=
  match cd_table (lookup env c) with
  | None => None
  | Some l =>
      match skipn n l with
      | r1 :: r2 :: l2 =>
          if ok env c r1 r2 then Some ((c, with_table (lookup env c) (firstn n l ++ r2 :: r1 :: l2)) :: env) else None
      | _ => None
      end
  end.
Lemma exchange_by_ok ok (R : cenv -> cls -> row -> row -> Prop) env c n env' : (forall c r1 r2, ok env c r1 r2 = true -> R env c r1 r2) ->
  exchange_by ok env c n = Some env' -> exchanged_by (R env) env env' /\ (forall k, k <> c -> lookup env' k = lookup env k).
Proof.
  intros HR. unfold exchange_by. destruct (cd_table (lookup env c)) as [l|] eqn:E; [|discriminate].
  destruct (skipn n l) as [|r1 [|r2 l2]] eqn:Es; try discriminate. destruct (ok env c r1 r2) eqn:Eo; [|discriminate].
  intros H. injection H as <-.
  assert (K : forall k, k <> c -> lookup ((c, with_table (lookup env c) (firstn n l ++ r2 :: r1 :: l2)) :: env) k = lookup env k)
    by (intros k Hk; cbn [lookup]; destruct (Nat.eq_dec k c); [contradiction|reflexivity]).
  split; [|exact K]. exists c, (firstn n l), r1, r2, l2.
  split; [rewrite <- Es, firstn_skipn; exact E|]. split; [cbn [lookup]; now destruct (Nat.eq_dec c c)|]. split; [exact K|now apply HR].
Qed.
Definition same_initials (env env' : cenv) (c : cls) : bool :=
  if list_eq_dec sref_eq_dec (initial_states env' c) (initial_states env c) then true else false.
Definition exchange_ok (env : cenv) (c : cls) (n : nat) : option cenv :=
  match exchange_by independent_ok env c n with
  | Some env' => if same_initials env env' c then Some env' else None
  | None => None
  end.
Lemma exchange_ok_sound env c n env' : exchange_ok env c n = Some env' -> exchanged env env'.
Proof.
  unfold exchange_ok. destruct (exchange_by independent_ok env c n) as [e|] eqn:E; [|discriminate].
  unfold same_initials. destruct (list_eq_dec _ _ _) as [Ei|]; [|discriminate]. intros H. injection H as <-.
  apply (exchange_by_ok _ independent) in E; [|intros; now apply independent_iff]. destruct E as [X K]. split; [exact X|].
  intros k. destruct (Nat.eq_dec k c) as [->|N]; [exact Ei|]. unfold initial_states, mentioned, table. now rewrite (K k N).
Qed.
Fixpoint exchanges (env : cenv) (l : list (cls * nat)) : option cenv :=
  match l with
  | [] => Some env
  | (c, n) :: l' => match exchange_ok env c n with Some env' => exchanges env' l' | None => None end
  end.
Lemma exchanges_sound l : forall env env', exchanges env l = Some env' -> reordered env env'.
Proof.
  assert (G : forall env0 env env', reordered env0 env -> exchanges env l = Some env' -> reordered env0 env').
  { induction l as [|[c n] l IH]; cbn [exchanges]; intros env0 env env' R H; [injection H as <-; exact R|].
    destruct (exchange_ok env c n) as [e|] eqn:E; [|discriminate]. apply (IH env0 e env'); [|exact H].
    eapply ro_step; [exact R|]. eapply exchange_ok_sound; eauto. }
  intros env env'. apply G. constructor.
Qed.
