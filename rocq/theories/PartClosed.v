(** Composites with one door: the candidates inside are those of the composite's own machine. *)

From Coq Require Import List Arith NArith Bool Lia.
From Verif Require Import Dsl Types Static Dispatch Runtime ListFacts IndexFacts Spec DispatchFacts FlattenFacts
  Semantics RefineFacts StaticFacts Reach ReachFacts ProcessFacts SpellRun Reorder Dead ReorderRun Part PartRun PartFacts.
Import ListNotations.

Section Closed.
Variable E : ev -> Prop.
Variable env : cenv.
Variable root c : cls.
Hypothesis Hcl : closed E env root c.
Variable fc : list xrow.
Hypothesis Hfc : visits env c (table env c) fc.

Inductive blocks : nat -> list xrow -> Prop :=
| bl_nil : blocks 0 []
| bl_row n p r l : outer env root c p -> In r (table env p) -> blocks n l -> blocks n (row_in p r :: l)
| bl_part n l : blocks n l -> blocks (S n) (fc ++ l).
Lemma blocks_app a b l k : blocks a l -> blocks b k -> blocks (a + b) (l ++ k).
Proof. intros H H'. induction H; cbn; [exact H'|now constructor|]. rewrite <- app_assoc. now constructor. Qed.
Lemma visits_blocks p rs l : visits env p rs l -> outer env root c p -> incl rs (table env p) -> exists n, blocks n l /\ doors env c p rs n.
Proof.
  intros H. induction H as [p|p r rs l Hl H IH|p r rs k sub l Hl Hk H IH H' IH']; intros O I.
  - exists 0. split; constructor.
  - destruct (IH O) as (n & B & D); [intros a Ha; apply I; now right|]. exists n. split; constructor; auto. apply I. now left.
  - destruct (IH' O) as (n & B & D); [intros a Ha; apply I; now right|]. assert (Hr : In r (table env p)) by (apply I; now left).
    destruct (Nat.eq_dec k c) as [->|N].
    + exists (S n). pose proof (visits_det _ _ _ _ Hfc _ H) as ->. split; [constructor; auto; now constructor|]. now apply do_here.
    + assert (Ok : outer env root c k).
      { split; [econstructor; [apply O|exact Hr|exact Hl|exact Hk]|]. intros U. apply N. eapply (cl_door _ _ _ _ Hcl); eauto. }
      destruct (IH Ok) as (i & B1 & D1); [intros a Ha; exact Ha|]. exists (i + n). split; [constructor; auto; now apply blocks_app|].
      eapply do_sub; eauto.
Qed.
Lemma doors_det p rs n : doors env c p rs n -> forall k, doors env c p rs k -> k = n.
Proof.
  assert (LI : forall t a b, leads_into t a -> leads_into t b -> a = b).
  { intros t a b H1 H2. apply leads_into_iff in H1. apply leads_into_iff in H2. congruence. }
  intros H. induction H as [p|p r rs n Hl H IH|p r rs n Hl Hk H IH|p r rs k i n Hl Hk N H IH H' IH']; intros j J; inversion J; subst; auto.
  all: try (exfalso; eapply Hl; eauto; fail).
  all: try (match goal with H : forall k, leads_into _ k -> ~ _ |- _ => exfalso; eapply H; eauto; fail end).
  - exfalso. match goal with H : ?k <> c, H' : leads_into _ ?k |- _ => apply H; eapply LI; eauto end.
  - exfalso. apply N. eapply LI; eauto.
  - match goal with H1 : leads_into (r_tgt r) ?k1 |- _ => assert (k1 = k) as -> by (eapply LI; eauto) end.
    f_equal; auto.
Qed.

Section At.
Variable e : ev.
Variable pl : place.
Hypothesis He : E e \/ e = ENone.
Hypothesis Hpl : inside env root c pl.
Notation R := (rows_at (is_composite env) (children env) e pl).
Notation D := (defers_at (deferred_by env) e pl).
Definition times {A} (n : nat) (l : list A) : list A := concat (repeat l n).

Lemma outer_rows p r : outer env root c p -> In r (table env p) -> R [row_in p r] = [] /\ D [row_in p r] = [].
Proof.
  intros O Hr. pose proof (proj1 (proj1 (proj2 Hpl))) as U.
  assert (S : source_place (row_in p r) = pl -> exists w q s, (r_src r = SExit w q s \/ r_src r = SDirect w q s) /\ used env c q).
  { intros X. rewrite <- X in U. unfold source_place in U. cbn in U. destruct (r_src r) as [k|w k|w q s|w q s|w q s|w q]; cbn in U; try (destruct (proj2 O U)).
    - exists w, q, s. auto.
    - exists w, q, s. auto. }
  split.
  - unfold rows_at. cbn [flat_map]. rewrite app_nil_r. destruct (ev_eq_dec (x_ev (row_in p r)) e) as [Ee|]; [|reflexivity]. cbn in Ee.
    rewrite <- Ee in He. unfold offers. cbn [flat_map fst snd].
    destruct (place_eq_dec (source_place (row_in p r)) pl) as [X|_].
    { destruct (S X) as (w & q & s & Hs & Hq). destruct (cl_pseudo _ _ _ _ Hcl p r w q s O Hr He Hs Hq). }
    cbn [app]. change (x_int (row_in p r)) with false. change (x_src (row_in p r)) with (r_src r).
    destruct (r_src r) as [k| | | | |] eqn:Es; try reflexivity. destruct (is_composite env k); [|reflexivity].
    pose proof (cl_composite _ _ _ _ Hcl p r k O Hr He Es) as Hk. induction (children env k) as [|a l IH]; [reflexivity|].
    cbn [map flat_map fst snd]. destruct (place_eq_dec (k, a) pl) as [X|_]; [|exact IH]. destruct Hk. now rewrite <- X in U.
  - unfold defers_at. cbn [flat_map]. rewrite app_nil_r. destruct (place_eq_dec (source_place (row_in p r)) pl) as [X|_]; [|reflexivity].
    destruct (S X) as (w & q & s & Hs & Hq). unfold deferred_by. cbn. destruct Hs as [-> | ->]; reflexivity.
Qed.
Lemma blocks_at n l : blocks n l -> R l = times n (R fc) /\ D l = times n (D fc).
Proof.
  intros H. induction H as [|n p r l O Hr H [IH1 IH2]|n l H [IH1 IH2]]; [split; reflexivity| |].
  - destruct (outer_rows p r O Hr) as [A B]. unfold rows_at, defers_at in *. cbn [flat_map] in *. rewrite app_nil_r in A, B. rewrite A, B. auto.
  - unfold times in *. cbn [repeat concat]. unfold rows_at, defers_at in *. rewrite !flat_map_app, IH1, IH2. auto.
Qed.
End At.
End Closed.

Lemma times_app {A} (l : list A) n : times n l ++ l = l ++ times n l.
Proof. unfold times. induction n; cbn; [now rewrite app_nil_r|]. now rewrite <- app_assoc, IHn. Qed.
Lemma rev_times {A} (l : list A) n : rev (times n l) = times n (rev l).
Proof. induction n as [|n IH]; [reflexivity|]. unfold times in *. cbn [repeat concat]. rewrite rev_app_distr, IH. apply times_app. Qed.
Lemma choice_refl again : forall l seen, same_choice again seen l l.
Proof. induction l as [|c l IH]; intros seen; [constructor|]. apply sc_keep. apply IH. Qed.
Lemma choice_copies : forall l seen k k', incl l seen -> same_choice true seen k k' -> same_choice true seen (l ++ k) k'.
Proof. induction l as [|c l IH]; intros seen k k' I H; [exact H|]. cbn. apply sc_copy; [reflexivity|apply I; now left|]. apply IH; [|exact H]. intros a Ha. apply I. now right. Qed.
Lemma choice_keep again : forall l seen k k', same_choice again (rev l ++ seen) k k' -> same_choice again seen (l ++ k) (l ++ k').
Proof. induction l as [|c l IH]; intros seen k k' H; [exact H|]. cbn in *. apply sc_keep. apply IH. now rewrite <- app_assoc in H. Qed.
Lemma choice_times n l k : same_choice true [] (times (S n) l ++ k) (l ++ k).
Proof.
  unfold times. cbn [repeat concat]. rewrite <- app_assoc. apply choice_keep. rewrite app_nil_r. fold (times n l).
  apply choice_copies; [|apply choice_refl]. intros a Ha. apply -> in_rev.
  unfold times in Ha. apply in_concat in Ha. destruct Ha as (x & Hx & Ha). apply repeat_spec in Hx. now subst.
Qed.

Lemma closed_lists E env root c e pl cs cs' : closed E env root c -> compiles env root -> compiles env c -> E e \/ e = ENone -> inside env root c pl ->
  candidate_list env root e pl cs -> candidate_list env c e pl cs' ->
  exists n D R, doors env c root (table env root) (S n) /\ (forall k, In k D -> k = CDefer) /\ cs = times (S n) D ++ times (S n) R /\ cs' = D ++ R.
Proof.
  intros Hcl Ha Ha' He Hpl H H'. apply compile_compiles in Ha. apply compile_compiles in Ha'. destruct Ha as [m Hm], Ha' as [m' Hm'].
  destruct (compile_comp _ _ _ Hm) as (Hc & Ee & Er). destruct (compile_comp _ _ _ Hm') as (Hc' & Ee' & Er').
  assert (cs = cands m e pl) as -> by (apply (candidate_list_cands m Hc); now rewrite Ee, Er).
  assert (cs' = cands m' e pl) as -> by (apply (candidate_list_cands m' Hc'); now rewrite Ee', Er'). clear H H'.
  rewrite (cands_priority m), (cands_priority m'), Ee, Ee'. unfold priority.
  pose proof (flat_visits m Hc) as Hv. pose proof (flat_visits m' Hc') as Hv'. rewrite Ee, Er in Hv. rewrite Ee', Er' in Hv'.
  assert (Or : outer env root c root) by (split; [constructor|apply Hcl]).
  destruct (visits_blocks E env root c Hcl _ Hv' root _ _ Hv Or) as (n & B & D); [intros a Hr; exact Hr|].
  destruct n as [|n].
  { exfalso. assert (N : forall x, In x (mc_flat m) -> ~ used env c (x_parent x)).
    { remember 0 as z eqn:Ez. clear - B Ez. induction B as [|n p r l O Hr B IH|n l B IH]; [intros x []| |discriminate].
      intros x [<-|Hx]; [exact (proj2 O)|now apply IH]. }
    pose proof (root_parent m' Hc') as P. apply (parent_iff m' Hc') in P. rewrite Ee', Er' in P. destruct P as [_ T].
    destruct (table env c) as [|r t] eqn:Et; [easy|]. apply (N (row_in c r)); [|constructor].
    apply (flat_declared m Hc). rewrite Ee, Er. exists c, r. rewrite Et. split; [apply Hcl|]. split; [now left|reflexivity]. }
  destruct (blocks_at E env root c Hcl _ e pl He Hpl _ _ B) as [B1 B2]. rewrite B1, B2.
  assert (Q : forall k (Hk : comp k), mc_env k = env -> (forall x, In x (internal_flat k) -> declared_internal env root x \/ declared_internal env c x) ->
    rows_at (is_composite env) (children env) e pl (internal_flat k) = []).
  { intros k Hk Ek Hx. pose proof (fun x Hi => internal_flat_int k Hk x Hi) as Hint. induction (internal_flat k) as [|x l IH]; [reflexivity|].
    unfold rows_at in *. cbn [flat_map]. rewrite IH by (intros; first [apply Hx|apply Hint]; now right). rewrite app_nil_r.
    destruct (ev_eq_dec (x_ev x) e) as [X|]; [|reflexivity]. unfold offers. rewrite (Hint x (or_introl eq_refl)). cbn [flat_map fst snd].
    destruct (place_eq_dec (source_place x) pl) as [Y|]; [|reflexivity]. exfalso.
    apply (cl_quiet _ _ _ _ Hcl x); [apply Hx; now left|now rewrite X|now rewrite Y]. }
  rewrite (Q m Hc Ee), (Q m' Hc' Ee'); cbn [rev]; rewrite ?app_nil_r.
  - exists n. do 2 eexists. split; [exact D|]. split; [|split; [rewrite !rev_times; reflexivity|reflexivity]].
    intros k Hk. apply in_rev in Hk. unfold defers_at in Hk. apply in_flat_map in Hk. destruct Hk as (x & _ & Hk).
    destruct (place_eq_dec _ _); [|destruct Hk]. apply in_flat_map in Hk. destruct Hk as (e1 & _ & Hk). destruct (ev_eq_dec e1 e); [|destruct Hk].
    now destruct Hk as [<-|[]].
  - intros x Hx. right. apply (internal_flat_declared m' Hc') in Hx. now rewrite Ee', Er' in Hx.
  - intros x Hx. left. apply (internal_flat_declared m Hc) in Hx. now rewrite Ee, Er in Hx.
Qed.
Lemma closed_choice E env root c e pl cs cs' : closed E env root c -> compiles env root -> compiles env c -> E e \/ e = ENone -> inside env root c pl ->
  candidate_list env root e pl cs -> candidate_list env c e pl cs' -> same_choice true [] cs cs'.
Proof.
  intros Hcl Ha Ha' He Hpl H H'. destruct (closed_lists _ _ _ _ _ _ _ _ Hcl Ha Ha' He Hpl H H') as (n & D & R & _ & HD & -> & ->).
  destruct D as [|k D].
  - assert (times (S n) (@nil cand) = []) as -> by (clear; unfold times; induction n; cbn in *; auto). cbn [app].
    pose proof (choice_times n R []) as X. now rewrite !app_nil_r in X.
  - rewrite (HD k (or_introl eq_refl)). cbn. now apply sc_last.
Qed.
Lemma closed_same E env root c e pl cs cs' : closed E env root c -> compiles env root -> compiles env c -> doors env c root (table env root) 1 ->
  E e \/ e = ENone -> inside env root c pl -> candidate_list env root e pl cs -> candidate_list env c e pl cs' -> cs' = cs.
Proof.
  intros Hcl Ha Ha' Hd He Hpl H H'. destruct (closed_lists _ _ _ _ _ _ _ _ Hcl Ha Ha' He Hpl H H') as (n & D & R & Hn & HD & -> & ->).
  pose proof (doors_det env c _ _ _ Hd _ Hn) as X. injection X as ->. unfold times. cbn. now rewrite !app_nil_r.
Qed.

(** * A closed part is self-contained *)
Lemma same_choice_refl again : forall l seen, same_choice again seen l l.
Proof. induction l as [|c l IH]; intros seen; [constructor|apply sc_keep, IH]. Qed.
Lemma closed_contained E env root c : closed E env root c -> fitting E env root c -> compiles env root -> compiles env c ->
  self_contained true E env root c.
Proof.
  intros Hcl [F1 F2 F3 F4 F5] Ha Ha'. constructor; auto; [apply Hcl|]. intros e pl cs cs' He. apply (closed_choice E); auto. tauto.
Qed.
Lemma closed_once E env root c : closed E env root c -> fitting E env root c -> compiles env root -> compiles env c ->
  doors env c root (table env root) 1 -> self_contained false E env root c.
Proof.
  intros Hcl [F1 F2 F3 F4 F5] Ha Ha' Hd. constructor; auto; [apply Hcl|]. intros e pl cs cs' He Hi H H'.
  rewrite (closed_same E env root c e pl cs cs'); auto; [apply same_choice_refl|tauto].
Qed.
Lemma closed_part E env root c m m' : compile env root = Some m -> compile env c = Some m' -> closed E env root c -> fitting E env root c ->
  self_contained true E env root c /\ (doors env c root (table env root) 1 -> self_contained false E env root c).
Proof.
  intros Hm Hm' Hcl F. assert (Ha : compiles env root) by (apply compile_compiles; eauto). assert (Ha' : compiles env c) by (apply compile_compiles; eauto).
  split; [now apply closed_contained|]. intros Hd. now apply closed_once.
Qed.
