(** Exchanging two neighbouring rows. *)

From Coq Require Import List Arith NArith Bool Lia.
From Verif Require Import Types Static Dispatch Runtime ListFacts IndexFacts Spec DispatchFacts FlattenFacts
  Semantics RefineFacts StaticFacts TableFacts ProcessFacts Reorder ReorderFacts.
Import ListNotations.

(** * Lists *)
Section Swap.
Context {A : Type}.
Variable x1 x2 : A.
Inductive sw : list A -> list A -> Prop :=
| sw_refl l : sw l l
| sw_here a b : sw (a ++ x1 :: x2 :: b) (a ++ x2 :: x1 :: b)
| sw_trans l l' l'' : sw l l' -> sw l' l'' -> sw l l''.
Lemma sw_app_l k l l' : sw l l' -> sw (k ++ l) (k ++ l').
Proof.
  induction 1 as [l|a b|l l' l'' _ IH1 _ IH2]; [constructor| |eapply sw_trans; eauto]. rewrite !app_assoc. constructor.
Qed.
Lemma sw_app_r k l l' : sw l l' -> sw (l ++ k) (l' ++ k).
Proof.
  induction 1 as [l|a b|l l' l'' _ IH1 _ IH2]; [constructor| |eapply sw_trans; eauto]. rewrite <- !app_assoc. apply sw_here.
Qed.
Lemma sw_app k k' l l' : sw k k' -> sw l l' -> sw (k ++ l) (k' ++ l').
Proof. intros H1 H2. eapply sw_trans; [apply sw_app_r; exact H1|now apply sw_app_l]. Qed.
Lemma sw_flat_map {B} (g : A -> list B) l l' : g x1 ++ g x2 = g x2 ++ g x1 -> sw l l' -> flat_map g l' = flat_map g l.
Proof.
  intros E. induction 1 as [l|a b|l l' l'' _ IH1 _ IH2]; [reflexivity| |congruence].
  rewrite !flat_map_app. f_equal. cbn [flat_map]. now rewrite !app_assoc, E.
Qed.
End Swap.

Lemma all_same {A} (a : A) l l' : (forall b, In b l -> b = a) -> (forall b, In b l' -> b = a) -> l ++ l' = l' ++ l.
Proof.
  assert (R : forall k : list A, (forall b, In b k -> b = a) -> k = repeat a (length k)).
  { induction k as [|b k IH]; cbn; intros H; [reflexivity|]. rewrite (H b (or_introl eq_refl)). f_equal. apply IH. intros; apply H; now right. }
  intros H1 H2. rewrite (R l H1), (R l' H2), <- !repeat_app. f_equal. lia.
Qed.
Lemma commute_blocks {A} (l l' : list A) : (forall a b, In a l -> In b l' -> a = b) -> l ++ l' = l' ++ l.
Proof.
  destruct l as [|a l], l' as [|b l']; intros H; rewrite ?app_nil_r; try reflexivity.
  assert (E : a = b) by (apply H; now left). apply (all_same b).
  - intros t Ht. apply H; [exact Ht|now left].
  - intros t Ht. rewrite <- E. symmetry. apply H; [now left|exact Ht].
Qed.
Lemma filter_all {A} (f : A -> bool) l : (forall a, In a l -> f a = true) -> filter f l = l.
Proof.
  induction l as [|a l IH]; intros H; [reflexivity|]. cbn [filter]. rewrite (H a (or_introl eq_refl)). f_equal.
  apply IH. intros b Hb. apply H. now right.
Qed.
Lemma filter_comm {A} (f g : A -> bool) l : filter f (filter g l) = filter g (filter f l).
Proof.
  induction l as [|a l IH]; [reflexivity|]. cbn [filter]. destruct (f a) eqn:Ef, (g a) eqn:Eg; cbn [filter]; rewrite ?Ef, ?Eg, IH; reflexivity.
Qed.
Lemma filter_flat {A B} (f : B -> bool) (h : A -> list B) l : filter f (flat_map h l) = flat_map (fun a => filter f (h a)) l.
Proof. induction l as [|a l IH]; [reflexivity|]. cbn [flat_map]. now rewrite filter_app, IH. Qed.
Lemma filter_map {A B} (f : B -> bool) (h : A -> B) l : filter f (map h l) = map h (filter (fun a => f (h a)) l).
Proof. induction l as [|a l IH]; [reflexivity|]. cbn [map filter]. destruct (f (h a)); cbn [map]; now rewrite IH. Qed.
Lemma dedup_places_filter (f : place -> bool) l : filter f (dedup_places l) = dedup_places (filter f l).
Proof.
  induction l as [|a l IH]; [reflexivity|]. cbn [dedup_places filter]. destruct (f a) eqn:E; cbn [dedup_places].
  - f_equal. now rewrite filter_comm, IH.
  - rewrite filter_comm, IH. apply filter_all. intros b Hb. destruct (place_eq_dec b a) as [->|]; [|reflexivity].
    exfalso. rewrite <- IH in Hb. apply filter_In in Hb. destruct Hb. congruence.
Qed.
Lemma dedup_filter (f : sref -> bool) l : filter f (dedup l) = dedup (filter f l).
Proof.
  induction l as [|a l IH]; [reflexivity|]. cbn [dedup filter]. destruct (f a) eqn:E; cbn [dedup].
  - f_equal. now rewrite filter_comm, IH.
  - rewrite filter_comm, IH. apply filter_all. intros b Hb. destruct (sref_eq_dec b a) as [->|]; [|reflexivity].
    exfalso. rewrite <- IH in Hb. apply filter_In in Hb. destruct Hb. congruence.
Qed.
Lemma flat_map_nonempty {A B} (h : A -> list B) (f : A -> bool) l : (forall a, f a = false -> h a = []) ->
  flat_map h l = flat_map h (filter f l).
Proof.
  intros H. induction l as [|a l IH]; [reflexivity|]. cbn [flat_map filter]. destruct (f a) eqn:E; cbn [flat_map]; rewrite IH; [reflexivity|].
  now rewrite (H a E).
Qed.
Lemma keeps_filter {A} (same : A -> A -> Prop) (f : A -> bool) pre l k : (forall a b, same a b -> f a = f b) ->
  keeps_first same pre l k -> keeps_first same (filter f pre) (filter f l) (filter f k).
Proof.
  intros Hf. induction 1 as [pre|pre a l k Hn H IH|pre a l k (b & Hb & Hs) H IH]; cbn [filter]; [constructor| |].
  - rewrite filter_app in IH. cbn [filter] in IH. destruct (f a) eqn:E; [|now rewrite app_nil_r in IH].
    apply kf_keep; [|exact IH]. intros b Hb. apply filter_In in Hb. apply Hn. tauto.
  - rewrite filter_app in IH. cbn [filter] in IH. destruct (f a) eqn:E; [|now rewrite app_nil_r in IH].
    apply kf_drop; [|exact IH]. exists b. split; [|exact Hs]. apply filter_In. split; [exact Hb|]. now rewrite (Hf b a Hs).
Qed.
Lemma keeps_exists l : exists k, keeps_first same_cpp_type [] l k.
Proof. exists (unique_by xkey_eq_dec xrow_key l). apply unique_by_keeps. intros x. split; [intros []|intros (b & [] & _)]. Qed.
Lemma pick_one {B} (x : B) (f : sref -> B) k ch pl : NoDup ch ->
  flat_map (fun po : place * B => if place_eq_dec (fst po) pl then [snd po] else []) (map (fun s => ((k, s), x)) ch) =
  if Nat.eq_dec (fst pl) k then if in_dec sref_eq_dec (snd pl) ch then [x] else [] else [].
Proof.
  destruct pl as [p q]. cbn [fst snd]. induction 1 as [|s l Hs Hn IH]; cbn [map flat_map fst snd].
  - destruct (Nat.eq_dec p k); reflexivity.
  - rewrite IH. destruct (place_eq_dec (k, s) (p, q)) as [E|E], (Nat.eq_dec p k) as [Ep|Ep].
    + injection E as -> ->. destruct (in_dec sref_eq_dec q l) as [Hi|Hi]; [contradiction|].
      destruct (in_dec sref_eq_dec q (q :: l)) as [Hj|Hj]; [reflexivity|]. exfalso. apply Hj. now left.
    + exfalso. apply Ep. now injection E.
    + subst p. cbn [app]. destruct (in_dec sref_eq_dec q l) as [Hi|Hi], (in_dec sref_eq_dec q (s :: l)) as [Hj|Hj]; try reflexivity.
      * exfalso. apply Hj. now right.
      * exfalso. destruct Hj as [->|Hj]; [now apply E|contradiction].
    + reflexivity.
Qed.

(** * Offers do not depend on the order of the children *)
Lemma children_In env c s : In s (children env c) <-> child env c s.
Proof.
  unfold children, child. rewrite <- unique_dedup, unique_In, in_flat_map. split.
  - intros (r & Hr & [<-|[<-|[]]]); exists r; auto.
  - intros (r & Hr & [->| ->]); exists r; cbn; auto.
Qed.
Lemma children_NoDup env c : NoDup (children env c).
Proof. unfold children. rewrite <- unique_dedup. apply unique_NoDup. Qed.

Definition picks (x : xrow) (pl : place) (l : list (place * sref)) : list cand :=
  flat_map (fun po => if place_eq_dec (fst po) pl then [CRow x (snd po)] else []) l.
Lemma picks_map x pl l : picks x pl l = map (CRow x) (flat_map (fun po : place * sref => if place_eq_dec (fst po) pl then [snd po] else []) l).
Proof.
  unfold picks. induction l as [|po l IH]; [reflexivity|]. cbn [flat_map]. rewrite map_app, IH. f_equal.
  destruct (place_eq_dec (fst po) pl); reflexivity.
Qed.
Lemma offers_same env env' x pl : same_rows env env' ->
  picks x pl (offers (is_composite env') (children env') x) = picks x pl (offers (is_composite env) (children env) x).
Proof.
  intros H. unfold offers. rewrite !picks_map. f_equal. cbn [flat_map]. f_equal.
  destruct (x_int x); [reflexivity|]. destruct (x_src x) as [k|? ?|? ? ?|? ? ?|? ? ?|? ?]; try reflexivity.
  rewrite (sw_composite _ _ H). destruct (is_composite env k); [|reflexivity].
  rewrite !(pick_one (SState k) (fun _ => SState k)) by apply children_NoDup. destruct (Nat.eq_dec (fst pl) k); [|reflexivity].
  destruct (in_dec sref_eq_dec (snd pl) (children env' k)) as [Hi|Hi], (in_dec sref_eq_dec (snd pl) (children env k)) as [Hj|Hj]; try reflexivity; exfalso.
  - apply Hj. apply children_In. apply children_In in Hi. revert Hi. apply child_to. now apply rows_sym.
  - apply Hi. apply children_In. apply children_In in Hj. revert Hj. now apply child_to.
Qed.
Lemma rows_at_same env env' e pl l : same_rows env env' ->
  rows_at (is_composite env') (children env') e pl l = rows_at (is_composite env) (children env) e pl l.
Proof.
  intros H. unfold rows_at. apply flat_map_ext. intros x. destruct (ev_eq_dec (x_ev x) e); [|reflexivity].
  apply (offers_same env env' x pl H).
Qed.
Lemma picks_tried env c r pl : picks (row_in c r) pl (offers (is_composite env) (children env) (row_in c r)) <> [] -> tried_at env c r pl.
Proof.
  unfold picks. intros H. destruct (flat_map _ _) as [|k l] eqn:E in H; [congruence|]. clear H.
  assert (I : In k (k :: l)) by now left. rewrite <- E in I. apply in_flat_map in I. destruct I as ((pl' & o) & Ho & I).
  cbn [fst snd] in I. destruct (place_eq_dec pl' pl) as [->|]; [|destruct I]. unfold offers in Ho. destruct Ho as [Ho|Ho].
  - injection Ho as <- _. now left.
  - right. cbn [row_in x_int x_src] in Ho. destruct (r_src r) as [j|? ?|? ? ?|? ? ?|? ? ?|? ?]; try (destruct Ho; fail).
    destruct (is_composite env j) eqn:Ej; [|destruct Ho]. apply in_map_iff in Ho. destruct Ho as (s & Eq & Hs). injection Eq as <- _.
    exists j, s. split; [reflexivity|]. split; [now apply composite_b|]. split; [now apply children_In|reflexivity].
Qed.

(** * Rows in order of visit *)
Lemma visits_app env c a b la lb : visits env c a la -> visits env c b lb -> visits env c (a ++ b) (la ++ lb).
Proof.
  intros H Hb. induction H as [c|c r rs l Hl H IH|c r rs c' sub l Hl Hc Hs _ H IH]; cbn; [exact Hb| |].
  - apply vis_leaf; auto.
  - rewrite <- app_assoc. eapply vis_sub; eauto.
Qed.
Lemma visits_split env c a b l : visits env c (a ++ b) l -> exists la lb, visits env c a la /\ visits env c b lb /\ l = la ++ lb.
Proof.
  revert l. induction a as [|r a IH]; intros l H; [exists [], l; split; [constructor|auto]|].
  cbn in H. inversion H as [|? ? ? l0 Hl H0|? ? ? c' sub l0 Hl Hc Hs H0]; subst; destruct (IH _ H0) as (la & lb & Ha & Hb & ->).
  - exists (row_in c r :: la), lb. split; [now apply vis_leaf|auto].
  - exists (row_in c r :: sub ++ la), lb. split; [eapply vis_sub; eauto|]. split; [exact Hb|]. cbn. now rewrite app_assoc.
Qed.

Section Exchange.
Variable env env' : cenv.
Variables (c : cls) (l1 l2 : list row) (r1 r2 : row).
Hypothesis Ht : cd_table (lookup env c) = Some (l1 ++ r1 :: r2 :: l2).
Hypothesis Ht' : lookup env' c = with_table (lookup env c) (l1 ++ r2 :: r1 :: l2).
Hypothesis Hk : forall k, k <> c -> lookup env' k = lookup env k.
Hypothesis Hini : forall k, initial_states env' k = initial_states env k.

Lemma exchange_rows : same_rows env env'.
Proof.
  constructor.
  - intros k. destruct (Nat.eq_dec k c) as [->|E]; [rewrite Ht'|rewrite (Hk k E)]; constructor; reflexivity.
  - intros k. unfold is_composite. destruct (Nat.eq_dec k c) as [->|E]; [now rewrite Ht', Ht|now rewrite (Hk k E)].
  - intros k r. unfold table. destruct (Nat.eq_dec k c) as [->|E]; [|now rewrite (Hk k E)].
    rewrite Ht', Ht. cbn [with_table cd_table]. rewrite !in_app_iff. cbn [In]. tauto.
  - exact Hini.
Qed.
Notation Hsame := exchange_rows.
Hypothesis Hind : independent env c r1 r2.
Notation x1 := (row_in c r1).
Notation x2 := (row_in c r2).
Notation swap := (sw x1 x2).

Lemma outside' r k : r = r1 \/ r = r2 -> leads_into (r_tgt r) k -> ~ composite env' k.
Proof. intros E Hl Hc. apply (in_outside _ _ _ _ Hind r k E Hl). now apply (composite_r env env' Hsame). Qed.
Lemma visits_table k l : visits env' k (table env k) l -> exists l', visits env' k (table env' k) l' /\ swap l l'.
Proof.
  intros H. destruct (Nat.eq_dec k c) as [->|E].
  - unfold table in *. rewrite Ht', Ht in *. cbn [with_table cd_table].
    apply visits_split in H. destruct H as (la & lb & Ha & Hb & ->).
    change (r1 :: r2 :: l2) with ([r1; r2] ++ l2) in Hb. apply visits_split in Hb. destruct Hb as (lm & lb' & Hm & Hb & ->).
    assert (lm = [x1; x2]) as ->.
    { inversion Hm as [|? ? ? l0 Hl H0|? ? ? c' sub l0 Hl Hc Hs H0]; subst; [|exfalso; apply (outside' r1 c'); auto].
      inversion H0 as [|? ? ? l3 Hl' H3|? ? ? c' sub l3 Hl' Hc Hs H3]; subst; [|exfalso; apply (outside' r2 c'); auto].
      inversion H3; subst. reflexivity. }
    exists (la ++ [x2; x1] ++ lb'). split; [|apply sw_here].
    apply visits_app; [exact Ha|]. cbn. apply vis_leaf; [intros k Hl; apply (outside' r2); auto|]. apply vis_leaf; [intros k Hl; apply (outside' r1); auto|exact Hb].
  - exists l. split; [|constructor]. unfold table in *. rewrite (Hk k E). exact H.
Qed.
Lemma visits_to k rs l : visits env k rs l -> exists l', visits env' k rs l' /\ swap l l'.
Proof.
  induction 1 as [k|k r rs l Hl H (l' & H' & S)|k r rs k' sub l Hl Hc Hs (sub' & Hs' & S1) H (l' & H' & S2)].
  - exists []. split; constructor.
  - exists (row_in k r :: l'). split; [apply vis_leaf; [|exact H']|now apply (sw_app_l _ _ [row_in k r])].
    intros k' Hk' Hc'. apply (Hl k' Hk'). now apply (composite_r env env' Hsame).
  - apply visits_table in Hs'. destruct Hs' as (sub'' & Hs'' & S3).
    exists (row_in k r :: sub'' ++ l'). split; [eapply vis_sub; eauto; now apply (composite_r env env' Hsame)|].
    apply (sw_app_l _ _ [row_in k r]). apply sw_app; [eapply sw_trans; eauto|exact S2].
Qed.
Lemma visits_root root l : visits env root (table env root) l -> exists l', visits env' root (table env' root) l' /\ swap l l'.
Proof.
  intros H. destruct (visits_to _ _ _ H) as (l' & H' & S). destruct (visits_table _ _ H') as (l'' & H'' & S').
  exists l''. split; [exact H''|eapply sw_trans; eauto].
Qed.

(** ** Rows and deferrals *)
Lemma rows_at_swap e pl l l' : swap l l' ->
  rows_at (is_composite env') (children env') e pl l' = rows_at (is_composite env) (children env) e pl l.
Proof.
  intros S. rewrite (rows_at_same env env' e pl l' Hsame). unfold rows_at. eapply sw_flat_map; [|exact S].
  cbn [row_in x_ev].
  assert (N : forall r, picks (row_in c r) pl (offers (is_composite env) (children env) (row_in c r)) = [] \/ tried_at env c r pl).
  { intros r. destruct (picks (row_in c r) pl (offers (is_composite env) (children env) (row_in c r))) eqn:E; [now left|].
    right. apply picks_tried. rewrite E. discriminate. }
  fold (picks x1 pl (offers (is_composite env) (children env) x1)). fold (picks x2 pl (offers (is_composite env) (children env) x2)).
  destruct (ev_eq_dec (r_ev r1) e) as [E1|E1], (ev_eq_dec (r_ev r2) e) as [E2|E2]; rewrite ?app_nil_r; try reflexivity.
  destruct (in_apart _ _ _ _ Hind) as [A|A]; [congruence|].
  destruct (N r1) as [->|T1]; [now rewrite app_nil_r|]. destruct (N r2) as [->|T2]; [now rewrite app_nil_r|]. exfalso. now apply (A pl T1).
Qed.
Lemma deferred_same x : deferred_by env' x = deferred_by env x.
Proof. unfold deferred_by. destruct (unmarked (x_src x)); try reflexivity. apply (defers_to env env' Hsame). Qed.
Lemma defers_at_swap e pl l l' : swap l l' -> defers_at (deferred_by env') e pl l' = defers_at (deferred_by env) e pl l.
Proof.
  intros S. transitivity (defers_at (deferred_by env) e pl l').
  - unfold defers_at. apply flat_map_ext. intros x. now rewrite deferred_same.
  - unfold defers_at. eapply sw_flat_map; [|exact S].
    assert (D : forall x b, In b (if place_eq_dec (source_place x) pl
       then flat_map (fun e' => if ev_eq_dec e' e then [CDefer] else []) (deferred_by env x) else []) -> b = CDefer).
    { intros x b Hb. destruct (place_eq_dec _ _); [|destruct Hb]. apply in_flat_map in Hb. destruct Hb as (e' & _ & Hb).
      destruct (ev_eq_dec e' e); [|destruct Hb]. now destruct Hb as [<-|[]]. }
    apply (all_same CDefer); apply D.
Qed.

(** ** Internal rows, place by place *)
Definition here (pl : place) (x : xrow) : bool := if place_eq_dec (source_place x) pl then true else false.
Lemma here_meant pl x : here pl x = true <-> meant (x_parent x) (x_src x) = pl.
Proof.
  unfold here. assert (E : source_place x = meant (x_parent x) (x_src x)) by (unfold source_place, meant; destruct (x_src x); reflexivity).
  rewrite E. destruct (place_eq_dec _ _); split; congruence.
Qed.
Lemma here_same pl x y : same_cpp_type x y -> here pl x = here pl y.
Proof. intros (E1 & E2 & _). unfold here, source_place. now rewrite E1, E2. Qed.
Lemma internal_rows_int en root l x : In x (internal_rows en root l) -> x_int x = true.
Proof.
  unfold internal_rows. intros H. apply in_flat_map in H. destruct H as (pl & _ & H). unfold internal_rows_of in H.
  destruct (snd pl); try destruct H. apply in_flat_map in H. destruct H as (i & _ & H). apply in_map_iff in H. now destruct H as (ps & <- & _).
Qed.
Lemma rows_at_here cb ch e pl l : (forall x, In x l -> x_int x = true) -> rows_at cb ch e pl l = rows_at cb ch e pl (filter (here pl) l).
Proof.
  induction l as [|x l IH]; intros H; [reflexivity|]. cbn [filter]. unfold rows_at in *. cbn [flat_map].
  rewrite IH by (intros; apply H; now right). destruct (here pl x) eqn:E; [reflexivity|].
  unfold here in E. destruct (place_eq_dec (source_place x) pl) as [|N]; [discriminate|].
  replace (if ev_eq_dec (x_ev x) e then _ else _) with (@nil cand); [reflexivity|].
  destruct (ev_eq_dec (x_ev x) e); [|reflexivity]. unfold offers. rewrite (H x (or_introl eq_refl)). cbn [flat_map fst].
  destruct (place_eq_dec (source_place x) pl); [contradiction|reflexivity].
Qed.

Definition inner (pl pl0 : place) : list xrow := filter (here pl) (internal_rows_of env pl0).
Lemma internal_rows_of_same pl pl0 : filter (here pl) (internal_rows_of env' pl0) = inner pl pl0.
Proof.
  unfold inner, internal_rows_of. destruct (snd pl0) as [k|? ?|? ? ?|? ? ?|? ? ?|? ?]; try reflexivity.
  rewrite (internals_to env env' Hsame), (sw_composite _ _ Hsame). destruct (Nat.eq_dec k c) as [->|E].
  - destruct (in_written _ _ _ _ Hind) as [N|N]; [now rewrite N|].
    rewrite !filter_flat. apply flat_map_ext. intros i. destruct (is_composite env c); [|reflexivity].
    rewrite !filter_map. f_equal. f_equal. rewrite !dedup_filter. f_equal.
    unfold mentioned, table. rewrite Ht', Ht. cbn [with_table cd_table]. rewrite !flat_map_app, !filter_app. f_equal. cbn [flat_map].
    rewrite !filter_app, !app_assoc. f_equal. apply commute_blocks.
    intros a b Ha Hb. apply filter_In in Ha, Hb. destruct Ha as [Ha Pa], Hb as [Hb Pb]. rewrite here_meant in Pa, Pb. cbn [fst snd x_parent x_src] in Pa, Pb.
    symmetry. apply N; [destruct Hb as [<-|[<-|[]]]|destruct Ha as [<-|[<-|[]]]|congruence]; unfold writes; auto.
  - unfold mentioned, table. now rewrite (Hk k E).
Qed.
Lemma inner_at pl s : inner pl (c, s) <> [] -> internal_at env c s pl.
Proof.
  unfold inner. intros H. destruct (filter _ _) as [|x l] eqn:E in H; [congruence|]. clear H.
  assert (I : In x (x :: l)) by now left. rewrite <- E in I. apply filter_In in I. destruct I as [I P]. rewrite here_meant in P.
  unfold internal_rows_of in I. cbn [fst snd] in I. destruct s as [k|? ?|? ? ?|? ? ?|? ? ?|? ?]; try (destruct I; fail).
  exists k. split; [reflexivity|]. apply in_flat_map in I. destruct I as (i & Hi & I). split; [intros N; rewrite N in Hi; destruct Hi|].
  apply in_map_iff in I. destruct I as (ps & <- & I). cbn [x_parent x_src] in P. destruct (is_composite env k) eqn:Ek.
  - right. split; [now apply composite_b|]. apply in_map_iff in I. destruct I as (t & <- & I). cbn [fst snd] in P. exists t. split; [|now symmetry].
    rewrite <- unique_dedup in I. apply unique_In in I. unfold mentioned in I. apply in_flat_map in I. destruct I as (r & Hr & I).
    exists r. split; [exact Hr|]. destruct I as [<-|[<-|[]]]; auto.
  - left. split; [intros C; apply composite_b in C; congruence|]. destruct I as [<-|[]]. cbn [fst snd meant] in P. now symmetry.
Qed.
Definition nonempty (pl pl0 : place) : bool := match inner pl pl0 with [] => false | _ => true end.
Lemma internal_rows_swap root pl l l' : swap l l' ->
  filter (here pl) (internal_rows env' root l') = filter (here pl) (internal_rows env root l).
Proof.
  intros S. unfold internal_rows. rewrite !filter_flat.
  rewrite (flat_map_ext _ _ (internal_rows_of_same pl)). change (flat_map (inner pl) (occurrences root l') = flat_map (inner pl) (occurrences root l)).
  assert (N : forall pl0, nonempty pl pl0 = false -> inner pl pl0 = []) by (intros pl0; unfold nonempty; destruct (inner pl pl0); congruence).
  rewrite (flat_map_nonempty _ _ (occurrences root l') N), (flat_map_nonempty _ _ (occurrences root l) N). clear N.
  f_equal. unfold occurrences. rewrite !dedup_places_filter. f_equal. cbn [filter].
  assert (E : filter (nonempty pl) (flat_map (fun x => [(x_parent x, unmarked (x_src x)); (x_parent x, x_tgt x)]) l') =
              filter (nonempty pl) (flat_map (fun x => [(x_parent x, unmarked (x_src x)); (x_parent x, x_tgt x)]) l)).
  { rewrite !filter_flat. eapply sw_flat_map; [|exact S]. cbn [row_in x_parent x_src x_tgt].
    apply commute_blocks. intros a b Ha Hb. apply filter_In in Ha, Hb. destruct Ha as [Ha Pa], Hb as [Hb Pb].
    assert (N : forall s, nonempty pl (c, s) = true -> internal_at env c s pl).
    { intros s Es. apply inner_at. unfold nonempty in Es. destruct (inner pl (c, s)); discriminate. }
    destruct Ha as [<-|[<-|[]]], Hb as [<-|[<-|[]]]; f_equal; apply (in_inner _ _ _ _ Hind _ _ pl); unfold mentions; auto. }
  now rewrite E.
Qed.
(** The rows kept in either program, place by place. *)
Lemma kept_swap root l l' ints ints' : swap l l' ->
  keeps_first same_cpp_type [] (internal_rows env root l) ints -> keeps_first same_cpp_type [] (internal_rows env' root l') ints' ->
  forall pl, filter (here pl) ints' = filter (here pl) ints.
Proof.
  intros S K K' pl. apply (keeps_filter _ (here pl)) in K; [|apply here_same]. apply (keeps_filter _ (here pl)) in K'; [|apply here_same].
  rewrite (internal_rows_swap root pl l l' S) in K'. eapply keeps_first_det; eauto.
Qed.

Lemma exchange_list root e pl cs : candidate_list env root e pl cs -> candidate_list env' root e pl cs.
Proof.
  intros (flat & ints & Hv & Hf & ->). destruct (visits_root root flat Hv) as (flat' & Hv' & S).
  destruct (keeps_exists (internal_rows env' root flat')) as (ints' & Hf').
  exists flat', ints'. split; [exact Hv'|]. split; [exact Hf'|].
  unfold priority. rewrite (defers_at_swap e pl flat flat' S), (rows_at_swap e pl flat flat' S), (rows_at_same env env' e pl ints' Hsame).
  rewrite (rows_at_here _ _ e pl ints'), (rows_at_here _ _ e pl ints), (kept_swap root flat flat' ints ints' S Hf Hf'); [reflexivity| |]; intros x Hx.
  - apply (internal_rows_int env root flat). exact (keeps_sub _ _ _ _ Hf x Hx).
  - apply (internal_rows_int env' root flat'). exact (keeps_sub _ _ _ _ Hf' x Hx).
Qed.
Lemma tried_same r pl : tried_at env' c r pl <-> tried_at env c r pl.
Proof.
  unfold tried_at. split; intros [E|(k & s & E & Hc & Hs & ->)]; auto; right; exists k, s; (split; [exact E|]).
  - split; [now apply (composite_r env env' Hsame)|]. split; [|reflexivity]. eapply child_to; [apply rows_sym, Hsame|exact Hs].
  - split; [now apply (composite_r env env' Hsame)|]. split; [|reflexivity]. eapply child_to; [apply Hsame|exact Hs].
Qed.
Lemma independent_back : independent env' c r2 r1.
Proof.
  constructor.
  - destruct (in_apart _ _ _ _ Hind) as [A|A]; [left; congruence|]. right. intros pl T2 T1. rewrite tried_same in T1, T2. now apply (A pl T1).
  - intros r k E. apply outside'. tauto.
  - assert (B : forall s pl, internal_at env' c s pl -> internal_at env c s pl).
    { intros s pl (k & -> & Hi & H). exists k. split; [reflexivity|]. split; [now rewrite <- (internals_to env env' Hsame)|].
      destruct H as [[Hc E]|(Hc & t & (r & Hr & Hw) & E)]; [left|right]; (split; [now rewrite <- (composite_r env env' Hsame)|]); [exact E|].
      exists t. split; [|exact E]. exists r. split; [now apply (sw_rows _ _ Hsame)|exact Hw]. }
    intros s1 s2 pl M1 M2 H1 H2. symmetry. apply (in_inner _ _ _ _ Hind s2 s1 pl); auto.
  - destruct (in_written _ _ _ _ Hind) as [N|N]; [left; now rewrite (internals_to env env' Hsame)|].
    right. intros s1 s2 W1 W2 E. symmetry. now apply N.
Qed.

(** ** What the compiler accepts *)
Lemma compiles_to root : compiles env root -> compiles env' root.
Proof.
  pose proof Hsame as Hs. pose proof (rows_sym _ _ Hs) as Hs'. intros [C1 C2 C3 C4 C5 C6 C7 C8 C9].
  assert (RF : forall x, row_fine env root x -> row_fine env' root x).
  { intros x [F1 F2 F3 F4]. pose proof (target_place_r env env' Hs x) as ET. constructor.
    - destruct F1 as (pl & E & I). exists pl. split; [congruence|]. now apply (is_state_r env env' root Hs).
    - now apply (is_state_r env env' root Hs).
    - intros w p E. apply (composite_r env env' Hs). eauto.
    - intros ty b E N. unfold target_state. rewrite ET. specialize (F4 ty b E N). unfold target_state in F4.
      destruct (match target_place env x with Some (_, s) => s | None => x_tgt x end); try exact F4.
      cbn in *. now rewrite (sb_defctor _ _ (sw_members _ _ Hs _)). }
  constructor.
  - intros E. apply C1. destruct (table env root) as [|r l] eqn:Er; [reflexivity|].
    assert (In r (table env' root)) as I by (apply (sw_rows _ _ Hs); rewrite Er; now left). rewrite E in I. destruct I.
  - intros (p & k & Hu & (r & Hr & Hl & Hc) & Hu'). apply C2. exists p, k.
    split; [eapply used_to; eauto|]. split; [|eapply used_to; eauto]. exists r. split; [now apply (sw_rows _ _ Hs)|].
    split; [exact Hl|now apply (composite_r env env' Hs)].
  - destruct C3 as (p & Hp & Hi). exists p. split; [now apply (is_parent_r env env' root Hs)|now rewrite Hini].
  - intros k Hi. rewrite Hini in Hi. destruct (C4 k Hi) as [A B]. split; [now rewrite (composite_r env env' Hs)|].
    now rewrite (sb_internal _ _ (sw_members _ _ Hs k)).
  - intros x Hx. apply RF, C5. now apply (declared_r env env' root Hs).
  - intros flat' ints x Hv Hf Hx. apply RF.
    destruct (proj2 (compile_compiles env root)) as (m & Hm); [now constructor|].
    destruct (compile_comp _ _ _ Hm) as (Hc & Ee & Er).
    pose proof (flat_visits m Hc) as Hv0. rewrite Ee, Er in Hv0. destruct (visits_root _ _ Hv0) as (fl & Hv1 & S).
    rewrite (visits_det _ _ _ _ Hv1 _ Hv) in *.
    destruct (keeps_exists (internal_rows env root (mc_flat m))) as (ints0 & Hf0). apply (C6 _ ints0 x Hv0 Hf0).
    assert (I : In x (filter (here (source_place x)) ints)) by (apply filter_In; split; [exact Hx|]; unfold here; now destruct (place_eq_dec _ _)).
    rewrite (kept_swap _ _ _ _ _ S Hf0 Hf) in I. now apply filter_In in I.
  - intros x e Hx He. rewrite deferred_same in He. apply (declared_r env env' root Hs) in Hx.
    destruct (C7 x e Hx He) as (y & Hy & Ey). destruct (event_of_to env env' root e Hs (Logic.ex_intro _ y (conj Hy Ey))) as (z & Hz & Ez). eauto.
  - intros p Hu Hch. apply (C8 p); [eapply used_to; eauto|eapply child_to; eauto].
  - intros ps ss N1 N2 P1 P2. apply C9; auto; intros.
    + apply (is_parent_r env env' root Hs). auto.
    + apply (is_state_r env env' root Hs). auto.
Qed.
End Exchange.

Lemma exchanged_sym env env' : exchanged env env' -> exchanged env' env.
Proof.
  intros ((c & l1 & r1 & r2 & l2 & Ht & Ht' & Hk & Hi) & Hini). split; [|intros; symmetry; apply Hini].
  exists c, l1, r2, r1, l2. split; [now rewrite Ht'|]. split; [|split].
  - rewrite Ht'. unfold with_table. cbn. destruct (lookup env c); cbn in *. congruence.
  - intros k E. symmetry. now apply Hk.
  - eapply independent_back; eauto.
Qed.
Lemma exchanged_rows env env' : exchanged env env' -> same_rows env env'.
Proof. intros ((c & l1 & r1 & r2 & l2 & Ht & Ht' & Hk & Hi) & Hini). eapply exchange_rows; eauto. Qed.
Lemma exchanged_to env env' root e pl cs : exchanged env env' -> candidate_list env root e pl cs -> candidate_list env' root e pl cs.
Proof. intros ((c & l1 & r1 & r2 & l2 & Ht & Ht' & Hk & Hi) & Hini). eapply exchange_list; eauto. Qed.
Lemma exchanged_compiles env env' root : exchanged env env' -> compiles env root -> compiles env' root.
Proof. intros ((c & l1 & r1 & r2 & l2 & Ht & Ht' & Hk & Hi) & Hini). eapply compiles_to; eauto. Qed.

(** * Any number of exchanges *)
Lemma reordered_rows env env' : reordered env env' -> same_rows env env'.
Proof. induction 1 as [env|env env' env'' _ IH H]; [apply rows_refl|]. eapply rows_trans; [exact IH|now apply exchanged_rows]. Qed.
Lemma reordered_list env env' root e pl cs : reordered env env' ->
  candidate_list env root e pl cs <-> candidate_list env' root e pl cs.
Proof.
  induction 1 as [env|env env' env'' _ IH H]; [reflexivity|]. rewrite IH.
  split; apply exchanged_to; auto using exchanged_sym.
Qed.
Lemma reordered_compiles env env' root : reordered env env' -> (exists m, compile env root = Some m) <-> (exists m', compile env' root = Some m').
Proof.
  intros H. rewrite !compile_compiles. induction H as [env|env env' env'' _ IH H]; [reflexivity|]. rewrite IH.
  split; apply exchanged_compiles; auto using exchanged_sym.
Qed.
Lemma session_exchanged V W (cb : cbfun V W) vnone env env' root m m' :
  compile env root = Some m -> compile env' root = Some m' -> reordered env env' -> stays_inside env root ->
  forall fuel d w ks, matching_run m m' (session cb m vnone fuel d w ks) (session cb m' vnone fuel d w ks).
Proof.
  intros Hm Hm' H HI. eapply session_reordered; eauto; [now apply reordered_rows|].
  intros e pl cs _. now apply reordered_list.
Qed.
