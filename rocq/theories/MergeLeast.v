(** No program with fewer states than the merged one does the same. *)

From Coq Require Import List Arith NArith Bool Lia.
From Verif Require Import Types Static Dispatch Runtime Spec Semantics ListFacts RefineFacts StaticFacts RegionFacts ReorderSwap Flat FlatFacts FlatAccept EquivUse Merge MergeFacts MergeRun.
Import ListNotations.

Definition all_said (l : list move) : Prop := forall x, In x l ->
  (forall g, fst (fst x) = Some g -> is_guard g = true) /\ forall c, In c (snd (fst x)) -> is_guard c = false.
Section Verdicts.
Variables (d : dep) (e : ev).
Notation carry := (carry verdicts d e).
Notation play := (play verdicts d e).

Lemma carry_quiet : forall ds v, (forall c, In c ds -> is_guard c = false) -> carry ds v tt = (None, map (fun c => (c, e, d, v)) ds, tt).
Proof.
  induction ds as [|c ds IH]; intros v H; [reflexivity|]. cbn [MergeFacts.carry map]. unfold verdicts at 1. rewrite (H c (or_introl eq_refl)), IH; [reflexivity|].
  intros c' H'. apply H. now right.
Qed.
Lemma said_tail x l : all_said (x :: l) -> all_said l.
Proof. intros H y Hy. apply H. now right. Qed.
Lemma cut_tail x l g : cut (x :: l) = x :: l -> fst (fst x) = Some g -> cut l = l.
Proof. cbn [cut]. intros H E. rewrite E in H. now injection H. Qed.
Lemma cut_last x l : cut (x :: l) = x :: l -> fst (fst x) = None -> l = [].
Proof. cbn [cut]. intros H E. rewrite E in H. now injection H. Qed.
Lemma cut_cut : forall l, cut (cut l) = cut l.
Proof. induction l as [|x l IH]; [reflexivity|]. cbn [cut]. destruct (fst (fst x)) eqn:E; cbn [cut]; rewrite E; [now rewrite IH|reflexivity]. Qed.

(** Every row can be chosen. *)
Lemma play_row x : forall l, all_said l -> cut l = l -> In x l -> exists v o ks, play l v tt = (o, ks, Some (snd x), tt).
Proof.
  induction l as [|y l IH]; intros A C H; [destruct H|]. destruct (A y (or_introl eq_refl)) as [A1 A2]. destruct y as [[[g|] ds] t]; cbn [fst snd] in *.
  - specialize (A1 g eq_refl). destruct H as [<- | H].
    + exists [true]. cbn [MergeFacts.play]. unfold verdicts at 1. rewrite A1, (carry_quiet ds [] A2). cbn [snd]. eauto.
    + destruct (IH (said_tail _ _ A) (cut_tail _ _ g C eq_refl) H) as (v & o & ks & E). exists (false :: v). cbn [MergeFacts.play]. unfold verdicts at 1. rewrite A1, E. eauto.
  - rewrite (cut_last _ _ C eq_refl) in *. destruct H as [<-|[]]. exists []. cbn [MergeFacts.play]. rewrite (carry_quiet ds [] A2). cbn [snd]. eauto.
Qed.

Definition view_of (r : out * list (callee * ev * dep * list bool) * option sref * unit) := fst (fst r).
Lemma play_chosen g ds t l v : is_guard g = true -> (forall c, In c ds -> is_guard c = false) ->
  play (@cons move (Some g, ds, t) l) (true :: v) tt = (OBool true, (g, e, d, true :: v) :: map (fun c => (c, e, d, v)) ds, Some t, tt).
Proof. intros G Q. cbn [MergeFacts.play]. unfold verdicts at 1. rewrite G, (carry_quiet ds v Q). reflexivity. Qed.
Lemma play_open ds t l v : (forall c, In c ds -> is_guard c = false) ->
  play (@cons move (None, ds, t) l) v tt = (OBool true, map (fun c => (c, e, d, v)) ds, Some t, tt).
Proof. intros Q. cbn [MergeFacts.play]. rewrite (carry_quiet ds v Q). reflexivity. Qed.
Lemma play_refused g ds t l v : is_guard g = true ->
  play (@cons move (Some g, ds, t) l) (false :: v) tt = let '(o, ks, q, w') := play l v tt in (o, (g, e, d, false :: v) :: ks, q, w').
Proof. intros G. cbn [MergeFacts.play]. unfold verdicts at 1. now rewrite G. Qed.
Lemma calls_inj (v : list bool) : forall ds ds' : list callee, map (fun c => (c, e, d, v)) ds = map (fun c => (c, e, d, v)) ds' -> ds = ds'.
Proof. induction ds as [|c ds IH]; intros [|c' ds'] H; try discriminate; [reflexivity|]. cbn [map] in H. injection H as -> H. f_equal. auto. Qed.

Lemma play_split P : forall l1 l2, all_said l1 -> all_said l2 -> cut l1 = l1 -> cut l2 = l2 -> ~ Forall2 (alike_move P) l1 l2 ->
  exists v, view_of (play l1 v tt) <> view_of (play l2 v tt) \/
  exists o ks x y, In x l1 /\ In y l2 /\ ~ In (snd x, snd y) P /\ play l1 v tt = (o, ks, Some (snd x), tt) /\ play l2 v tt = (o, ks, Some (snd y), tt).
Proof.
  assert (T : forall x l, all_said (x :: l) -> view_of (play [] [true] tt) <> view_of (play (x :: l) [true] tt)).
  { intros [[[g|] ds] t] l A; destruct (A _ (or_introl eq_refl)) as [A1 A2]; cbn [fst snd] in *.
    - rewrite (play_chosen g ds t l [] (A1 g eq_refl) A2). discriminate.
    - rewrite (play_open ds t l _ A2). discriminate. }
  induction l1 as [|x l1 IH]; intros [|y l2] A B C D N.
  - exfalso. apply N. constructor.
  - exists [true]. left. apply T, B.
  - exists [true]. left. intros E. symmetry in E. revert E. apply T, A.
  - destruct (A x (or_introl eq_refl)) as [A1 A2], (B y (or_introl eq_refl)) as [B1 B2].
    destruct (names_dec (fst x) (fst y)) as [E|E].
    + destruct (in_dec pair_dec (snd x, snd y) P) as [I|I].
      * destruct x as [[[g|] ds] t], y as [[g' ds'] t']; cbn [fst snd] in *; injection E as <- <-.
        -- assert (N' : ~ Forall2 (alike_move P) l1 l2). { intros F. apply N. constructor; [split; [reflexivity|exact I]|exact F]. }
           specialize (A1 g eq_refl).
           destruct (IH l2 (said_tail _ _ A) (said_tail _ _ B) (cut_tail _ _ g C eq_refl) (cut_tail _ _ g D eq_refl) N') as (v & H). exists (false :: v).
           rewrite !(play_refused g _ _ _ v A1).
           destruct H as [H|(o & ks & x & y & Hx & Hy & Nxy & -> & ->)].
           ++ left. intros E. apply H. destruct (play l1 v tt) as [[[o1 ks1] t1] w1], (play l2 v tt) as [[[o2 ks2] t2] w2]. cbn in *. congruence.
           ++ right. exists o, ((g, e, d, false :: v) :: ks), x, y. repeat split; auto; now right.
        -- exfalso. apply N. rewrite (cut_last _ _ C eq_refl), (cut_last _ _ D eq_refl). constructor; [split; [reflexivity|exact I]|constructor].
      * exists [true]. right. destruct x as [[[g|] ds] t], y as [[g' ds'] t']; cbn [fst snd] in *; injection E as <- <-.
        -- specialize (A1 g eq_refl). rewrite (play_chosen g ds t l1 [] A1 A2), (play_chosen g ds t' l2 [] A1 A2). do 2 eexists. exists (Some g, ds, t), (Some g, ds, t'). repeat split; auto; now left.
        -- rewrite (play_open ds t l1 _ A2), (play_open ds t' l2 _ A2). do 2 eexists. exists (None, ds, t), (None, ds, t'). repeat split; auto; now left.
    + exists [true]. left. destruct x as [[[g|] ds] t], y as [[[g'|] ds'] t']; cbn [fst snd] in *.
      * rewrite (play_chosen g ds t l1 [] (A1 g eq_refl) A2), (play_chosen g' ds' t' l2 [] (B1 g' eq_refl) B2). cbn [view_of fst]. intros [= -> H]. apply calls_inj in H. congruence.
      * rewrite (play_chosen g ds t l1 [] (A1 g eq_refl) A2), (play_open ds' t' l2 _ B2). cbn [view_of fst]. destruct ds' as [|c ds']; [discriminate|]. cbn [map]. intros [= -> H].
        specialize (A1 c eq_refl). rewrite (B2 c (or_introl eq_refl)) in A1. discriminate.
      * rewrite (play_chosen g' ds' t' l2 [] (B1 g' eq_refl) B2), (play_open ds t l1 _ A2). cbn [view_of fst]. destruct ds as [|c ds]; [discriminate|]. cbn [map]. intros [= -> H].
        specialize (B1 g' eq_refl). rewrite (A2 g' (or_introl eq_refl)) in B1. discriminate.
      * rewrite (play_open ds t l1 _ A2), (play_open ds' t' l2 _ B2). cbn [view_of fst]. intros [= H]. apply calls_inj in H. congruence.
Qed.
Lemma answer_split P hd l1 l2 : all_said l1 -> all_said l2 -> cut l1 = l1 -> cut l2 = l2 -> ~ Forall2 (alike_move P) l1 l2 ->
  exists v, view_of (answer verdicts d e hd l1 v tt) <> view_of (answer verdicts d e hd l2 v tt) \/
  exists o ks x y, In x l1 /\ In y l2 /\ ~ In (snd x, snd y) P /\ answer verdicts d e hd l1 v tt = (o, ks, Some (snd x), tt) /\ answer verdicts d e hd l2 v tt = (o, ks, Some (snd y), tt).
Proof.
  assert (T : forall x l, all_said (x :: l) -> view_of (answer verdicts d e hd [] [true] tt) <> view_of (answer verdicts d e hd (x :: l) [true] tt)).
  { intros [[[g|] ds] t] l A; destruct (A _ (or_introl eq_refl)) as [A1 A2]; cbn [fst snd] in *; unfold answer.
    - rewrite (play_chosen g ds t l [] (A1 g eq_refl) A2). unfold handled, verdicts. destruct hd as [c|]; [destruct (is_guard c)|]; discriminate.
    - rewrite (play_open ds t l _ A2). unfold handled, verdicts. destruct hd as [c|]; [destruct (is_guard c)|]; discriminate. }
  intros A B C D N. destruct l1 as [|x l1], l2 as [|y l2].
  - exfalso. apply N. constructor.
  - exists [true]. left. apply T, B.
  - exists [true]. left. intros E. symmetry in E. revert E. apply T, A.
  - exact (play_split P _ _ A B C D N).
Qed.
End Verdicts.

Lemma callees_said : forall b c, In c (callees b) -> is_guard c = false.
Proof.
  fix IH 1. intros [x|x|x|l] c; cbn [callees].
  - intros [<-|[]]. reflexivity.
  - intros [<-|[]]. reflexivity.
  - intros [<-|[]]. reflexivity.
  - induction l as [|b l IHl]; cbn [flat_map]; [intros []|]. rewrite in_app_iff. intros [H|H]; [exact (IH b c H)|exact (IHl H)].
Qed.
Lemma deeds_said env r c : In c (deeds env r) -> is_guard c = false.
Proof.
  unfold deeds. rewrite !in_app_iff. intros [H|[H|H]].
  - destruct (r_src r); try destruct H. destruct (cd_exit (lookup env c0)); [|destruct H]. destruct H as [<-|[]]. reflexivity.
  - destruct (r_act r) as [|ty b]; [destruct H|]. exact (callees_said b c H).
  - destruct (r_tgt r); try destruct H. destruct (cd_entry (lookup env c0)); [|destruct H]. destruct H as [<-|[]]. reflexivity.
Qed.
Lemma moves_said lab env root q e : keeps_kind lab -> all_said (moves lab env root q e).
Proof.
  intros K x H. destruct (moves_row lab env root q e x H) as (r & _ & _ & _ & ->). cbn [move_of fst snd]. split.
  - intros g. destruct (r_guard r) as [|ty val]; cbn [guard_name]; [discriminate|]. intros [= <-]. apply K.
  - intros c Hc. apply in_map_iff in Hc. destruct Hc as (c' & <- & Hc). rewrite K. exact (deeds_said env r c' Hc).
Qed.

(** * States that are not merged can be told apart *)

Section Least.
Variables (lab : naming) (env : cenv) (root : cls).
Hypothesis Hk : keeps_kind lab.
Notation run q l := (reacts (behind lab verdicts) env root 0 q l tt).
Notation one q e v := (react (behind lab verdicts) env root 0 q e v tt).
Definition view (q : sref) (l : list (ev * list bool)) : list out * list (callee * ev * dep * list bool) :=
  let '(os, ks, _, _) := run q l in (os, map (told lab) ks).
Definition apart (a b : sref) : Prop := exists l, Forall (fun ev => In (fst ev) (all_events env root)) l /\ view a l <> view b l.

Lemma view_cons q e v l : exists o ks t,
  answer verdicts 0 e (handler_name lab env root) (moves lab env root q e) v tt = (o, ks, t, tt) /\
  view q ((e, v) :: l) = (o :: fst (view (match t with Some t => t | None => q end) l), ks ++ snd (view (match t with Some t => t | None => q end) l)).
Proof.
  unfold view. cbn [reacts]. destruct (one q e v) as [[[o ks] q1] []] eqn:E. apply react_told in E. destruct E as (t & A & ->).
  exists o, (map (told lab) ks), t. split; [exact A|]. destruct (run (match t with Some t => t | None => q end) l) as [[[os ks'] q2] w2]. cbn [fst snd]. now rewrite map_app.
Qed.
Lemma moves_cut q e : cut (moves lab env root q e) = moves lab env root q e.
Proof. apply cut_cut. Qed.
Lemma removed_apart P a b : consistent lab env root P (a, b) = false ->
  (forall x y, In x (all_states env root) -> In y (all_states env root) -> ~ In (x, y) P -> apart x y) -> apart a b.
Proof.
  intros H A. assert (X : exists e, In e (all_events env root) /\ agree P (moves lab env root a e) (moves lab env root b e) = false).
  { unfold consistent in H. cbn [fst snd] in H. induction (all_events env root) as [|e l IH]; [discriminate|]. cbn [forallb] in H.
    destruct (agree P (moves lab env root a e) (moves lab env root b e)) eqn:E; [|exists e; split; [now left|exact E]].
    destruct (IH H) as (e' & He & E'). exists e'. split; [now right|exact E']. }
  destruct X as (e & He & X). assert (N : ~ Forall2 (alike_move P) (moves lab env root a e) (moves lab env root b e)) by (rewrite <- agree_iff, X; discriminate).
  destruct (answer_split 0 e P (handler_name lab env root) _ _ (moves_said lab env root a e Hk) (moves_said lab env root b e Hk) (moves_cut a e) (moves_cut b e) N) as (v & [D|D]).
  - exists [(e, v)]. split; [constructor; [exact He|constructor]|]. destruct (view_cons a e v []) as (o1 & ks1 & t1 & E1 & ->), (view_cons b e v []) as (o2 & ks2 & t2 & E2 & ->).
    rewrite E1, E2 in D. cbn [view_of fst] in D. unfold view. cbn [reacts fst snd map]. rewrite !app_nil_r. congruence.
  - destruct D as (o & ks & x & y & Hx & Hy & Nxy & E1 & E2).
    destruct (moves_row lab env root a e x Hx) as (r & Hr & _ & _ & Er), (moves_row lab env root b e y Hy) as (r' & Hr' & _ & _ & Er').
    destruct (A (snd x) (snd y)) as (l & Hl & D); [rewrite Er; exact (goal_state env root r Hr)|rewrite Er'; exact (goal_state env root r' Hr')|exact Nxy|].
    exists ((e, v) :: l). split; [constructor; [exact He|exact Hl]|].
    destruct (view_cons a e v l) as (o1 & ks1 & t1 & F1 & ->), (view_cons b e v l) as (o2 & ks2 & t2 & F2 & ->).
    rewrite E1 in F1. rewrite E2 in F2. injection F1 as <- <- <-. injection F2 as <- <- <-. intros E. apply D.
    destruct (view (snd x) l) as [os1 l1], (view (snd y) l) as [os2 l2]. cbn [fst snd] in E. injection E as -> E. apply app_inv_head in E. now subst.
Qed.
(** On condition that being entered does not tell them apart. *)
Hypothesis He : forall a b, In a (all_states env root) -> In b (all_states env root) -> entries lab env a = entries lab env b.
Lemma not_equal_apart a b : In a (all_states env root) -> In b (all_states env root) -> ~ In (a, b) (equals lab env root) -> apart a b.
Proof.
  revert a b. unfold equals. apply (settle_keeps lab env root (fun P => forall x y, In x (all_states env root) -> In y (all_states env root) -> ~ In (x, y) P -> apart x y)).
  - intros P A x y Hx Hy N. destruct (in_dec pair_dec (x, y) P) as [I|I]; [|exact (A x y Hx Hy I)]. apply (removed_apart P x y); [|exact A].
    destruct (consistent lab env root P (x, y)) eqn:E; [|reflexivity]. exfalso. apply N. apply filter_In. auto.
  - intros x y Hx Hy N. exfalso. apply N. unfold start. rewrite filter_In, in_prod_iff. cbn [fst snd]. split; [auto|].
    destruct (list_eq_dec callee_eq_dec (entries lab env x) (entries lab env y)) as [|N']; [reflexivity|]. exfalso. apply N', He; assumption.
Qed.
Lemma led_state q : led_to lab env root q -> In q (all_states env root).
Proof.
  destruct 1 as [i Hi|q e x _ Hx].
  - unfold all_states. rewrite Hi. now left.
  - destruct (moves_row lab env root q e x Hx) as (r & Hr & _ & _ & ->). exact (goal_state env root r Hr).
Qed.
Lemma reacts_app {V W} (cb : cbfun V W) en ro d : forall l l' q w,
  reacts cb en ro d q (l ++ l') w = let '(os, ks, q1, w1) := reacts cb en ro d q l w in let '(os', ks', q2, w2) := reacts cb en ro d q1 l' w1 in (os ++ os', ks ++ ks', q2, w2).
Proof.
  induction l as [|[e v] l IH]; intros l' q w; cbn [app reacts].
  - destruct (reacts cb en ro d q l' w) as [[[os ks] q2] w2]. reflexivity.
  - destruct (react cb en ro d q e v w) as [[[o ks] q1] w1]. rewrite IH. destruct (reacts cb en ro d q1 l w1) as [[[os2 ks2] q2] w2].
    destruct (reacts cb en ro d q2 l' w2) as [[[os3 ks3] q3] w3]. cbn [app]. now rewrite app_assoc.
Qed.
Lemma led_run i q : first_initial env root = Some i -> led_to lab env root q ->
  exists l os ks, Forall (fun ev => In (fst ev) (all_events env root)) l /\ run i l = (os, ks, q, tt).
Proof.
  intros Hi. induction 1 as [j Hj|q e x _ (l & os & ks & Hl & IH) Hx].
  - exists [], [], []. replace j with i by congruence. split; [constructor|reflexivity].
  - destruct (play_row 0 e x _ (moves_said lab env root q e Hk) (moves_cut q e) Hx) as (v & o & ks' & E).
    assert (A : answer verdicts 0 e (handler_name lab env root) (moves lab env root q e) v tt = (o, ks', Some (snd x), tt)).
    { unfold answer. destruct (moves lab env root q e); [destruct Hx|exact E]. }
    destruct (one q e v) as [[[o1 ks1] q1] []] eqn:R. pose proof R as R'. apply react_told in R'. destruct R' as (t & A' & Eq). rewrite A in A'. injection A' as <- -> <-. subst q1.
    exists (l ++ [(e, v)]), (os ++ [o]), (ks ++ ks1). split.
    + apply Forall_app. split; [exact Hl|]. constructor; [|constructor]. destruct (moves_row lab env root q e x Hx) as (r & Hr & _ & He' & _). cbn [fst]. unfold all_events. apply in_map_iff. eauto.
    + rewrite reacts_app, IH. cbn [reacts]. rewrite R. now rewrite app_nil_r.
Qed.
End Least.

Lemma injection_length {A B} (R : A -> B -> Prop) (l1 : list A) (l2 : list B) : NoDup l1 ->
  (forall a, In a l1 -> exists b, In b l2 /\ R a b) ->
  (forall a a' b, In a l1 -> In a' l1 -> R a b -> R a' b -> a = a') -> length l1 <= length l2.
Proof.
  intros N H I. assert (X : exists bs, NoDup bs /\ incl bs l2 /\ length bs = length l1 /\ forall b, In b bs -> exists a, In a l1 /\ R a b).
  { clear - N H I. induction N as [|a l Na N IH].
    - exists []. repeat split; [constructor|intros b []|intros b []].
    - destruct IH as (bs & Nb & S & L & F); [intros x Hx; apply H; now right|intros x y b Hx Hy; apply I; now right|].
      destruct (H a (or_introl eq_refl)) as (b & Hb & Rb). exists (b :: bs). repeat split.
      + constructor; [|exact Nb]. intros Hin. destruct (F b Hin) as (a' & Ha' & Rb'). apply Na. replace a with a'; [exact Ha'|]. apply (I a' a b); auto; [now right|now left].
      + intros x [<- | Hx]; auto.
      + cbn [length]. now rewrite L.
      + intros x [<- | Hx]; [exists a; split; [now left|exact Rb]|]. destruct (F x Hx) as (a' & Ha' & R'). exists a'. split; [now right|exact R']. }
  destruct X as (bs & Nb & S & <- & _). exact (NoDup_incl_length Nb S).
Qed.
Lemma view_app lab env root l l' q os ks q1 w1 : reacts (behind lab verdicts) env root 0 q l tt = (os, ks, q1, w1) ->
  view lab env root q (l ++ l') = (os ++ fst (view lab env root q1 l'), map (told lab) ks ++ snd (view lab env root q1 l')).
Proof.
  destruct w1. intros E. unfold view. rewrite reacts_app, E. destruct (reacts (behind lab verdicts) env root 0 q1 l' tt) as [[[os2 ks2] q2] w2]. cbn [fst snd]. now rewrite map_app.
Qed.
Lemma run_state {V W} (f : code V W) lab env root d : forall l q w os ks q1 w1, In q (all_states env root) ->
  reacts (behind lab f) env root d q l w = (os, ks, q1, w1) -> In q1 (all_states env root).
Proof.
  induction l as [|[e v] l IH]; intros q w os ks q1 w1 Hq; cbn [reacts]; [now intros [= _ _ <- _]|].
  destruct (react (behind lab f) env root d q e v w) as [[[o2 ks2] q2] w2] eqn:E. destruct (reacts (behind lab f) env root d q2 l w2) as [[[os3 ks3] q3] w3] eqn:E3.
  intros [= _ _ <- _]. apply (IH q2 w2 os3 ks3 q3 w3); [|exact E3]. apply react_told in E. destruct E as ([t|] & A & ->); [|exact Hq].
  destruct (answer_end _ _ _ _ _ _ _ _ _ _ _ A) as (x & Hx & <-). destruct (moves_row lab env root q e x Hx) as (r & Hr & _ & _ & ->). exact (goal_state env root r Hr).
Qed.
Lemma flat_initial env root : flat env root -> exists i, first_initial env root = Some i /\ In i (children env root) /\ In i (all_states env root).
Proof.
  intros Hf. unfold all_states. destruct (first_initial env root) as [i|] eqn:Ei.
  - exists i. split; [reflexivity|]. split; [|now left]. apply children_In, (initial_child env root Hf). unfold first_initial in Ei. destruct (initial_states env root); [discriminate|]. injection Ei as ->. now left.
  - pose proof (fl_one _ _ Hf) as L. unfold first_initial in Ei. destruct (initial_states env root); discriminate.
Qed.
Lemma all_children env root q : flat env root -> In q (all_states env root) -> In q (children env root).
Proof.
  intros Hf. destruct (flat_initial env root Hf) as (i & Ei & Hi & _). unfold all_states. rewrite Ei. intros [<- | H]; assumption.
Qed.

Lemma merged_least lab env root m lab2 env2 root2 m2 :
  compile env root = Some m -> flat env root -> keeps_kind lab ->
  (forall a, In a (children env root) -> led_to lab env root a) ->
  (forall a b, In a (children env root) -> In b (children env root) -> entries lab env a = entries lab env b) ->
  compile env2 root2 = Some m2 -> flat env2 root2 -> (forall e, event_of env root e -> event_of env2 root2 e) ->
  imitates lab env root m lab2 m2 ->
  length (children (merged lab env root) root) <= length (children env2 root2).
Proof.
  intros Hm Hf Hk Led He Hm2 Hf2 Ev (enough & Im). destruct (flat_session env root m Hm Hf) as (b1 & B1), (flat_session env2 root2 m2 Hm2 Hf2) as (b2 & B2).
  destruct (flat_initial env root Hf) as (i & Ei & Ci & Si), (flat_initial env2 root2 Hf2) as (i2 & Ei2 & Ci2 & Si2).
  assert (He' : forall a b, In a (all_states env root) -> In b (all_states env root) -> entries lab env a = entries lab env b) by (intros a b Ha Hb; apply He; apply all_children; assumption).
  assert (Same : forall l, Forall (fun ev => In (fst ev) (all_events env root)) l -> view lab env root i l = view lab2 env2 root2 i2 l).
  { intros l Hl. assert (L1 : Forall (fun ev => event_of env root (fst ev)) l).
    { revert Hl. apply Forall_impl. intros x Hx. apply (event_row env root Hf). unfold all_events in Hx. apply in_map_iff in Hx. destruct Hx as (r & E & Hr). eauto. }
    assert (L2 : Forall (fun ev => event_of env2 root2 (fst ev)) l) by (revert L1; apply Forall_impl; auto).
    unfold view. destruct (reacts (behind lab verdicts) env root 0 i l tt) as [[[os1 ks1] q1] w1] eqn:E1, (reacts (behind lab2 verdicts) env2 root2 0 i2 l tt) as [[[os2 ks2] q2] w2] eqn:E2.
    destruct (B1 _ _ _ [] (enough + b1 + b2) 0 tt l i os1 ks1 q1 w1 ltac:(lia) L1 Ei E1) as (s1 & S1 & _ & T1 & _).
    destruct (B2 _ _ _ [] (enough + b1 + b2) 0 tt l i2 os2 ks2 q2 w2 ltac:(lia) L2 Ei2 E2) as (s2 & S2 & _ & T2 & _).
    destruct (Im (enough + b1 + b2) l ltac:(lia) L1) as (outs & s & s' & Q1 & Q2 & Q3). rewrite S1 in Q1. rewrite S2 in Q2. injection Q1 as -> ->. injection Q2 as -> ->.
    rewrite T1, T2 in Q3. now rewrite Q3. }
  set (R := fun a b => exists l os ks os2 ks2 w2, Forall (fun ev => In (fst ev) (all_events env root)) l /\
    reacts (behind lab verdicts) env root 0 i l tt = (os, ks, a, tt) /\ reacts (behind lab2 verdicts) env2 root2 0 i2 l tt = (os2, ks2, b, w2)).
  assert (View : forall a b l, R a b -> Forall (fun ev => In (fst ev) (all_events env root)) l -> view lab env root a l = view lab2 env2 root2 b l).
  { intros a b l' (l & os & ks & os2 & ks2 & w2 & Hl & E1 & E2) Hl'. pose proof (Same l Hl) as S0. pose proof (Same (l ++ l') (proj2 (Forall_app _ _ _) (conj Hl Hl'))) as S1.
    rewrite (view_app _ _ _ _ _ _ _ _ _ _ E1), (view_app _ _ _ _ _ _ _ _ _ _ E2) in S1. unfold view in S0 at 1 2. rewrite E1, E2 in S0. injection S0 as S2 S3. rewrite S2, S3 in S1.
    injection S1 as A B. apply app_inv_head in A, B. destruct (view lab env root a l'), (view lab2 env2 root2 b l'). cbn [fst snd] in *. now subst. }
  apply (injection_length R); [apply children_NoDup| |].
  - intros a Ha. apply merged_children in Ha; [|exact Hf]. destruct (led_run lab env root Hk i a Ei (Led a (proj1 Ha))) as (l & os & ks & Hl & E).
    destruct (reacts (behind lab2 verdicts) env2 root2 0 i2 l tt) as [[[os2 ks2] b] w2] eqn:E2. exists b. split.
    + apply (all_children env2 root2 b Hf2). exact (run_state verdicts lab2 env2 root2 0 l i2 tt os2 ks2 b w2 Si2 E2).
    + exists l, os, ks, os2, ks2, w2. auto.
  - intros a a' b Ha Ha' Ra Ra'. apply merged_children in Ha, Ha'; try exact Hf. destruct Ha as [Ca Fa], Ha' as [Ca' Fa'].
    destruct (in_dec pair_dec (a, a') (equals lab env root)) as [I|I]; [rewrite <- Fa, <- Fa'; exact (rep_same lab env root a a' I)|]. exfalso.
    destruct (not_equal_apart lab env root Hk He' a a' (child_state env root a Ca) (child_state env root a' Ca') I) as (l & Hl & D).
    apply D. rewrite (View a b l Ra Hl), (View a' b l Ra' Hl). reflexivity.
Qed.
Lemma merged_imitates lab env root m m' : compile env root = Some m -> flat env root -> compile (merged lab env root) root = Some m' -> imitates lab env root m lab m'.
Proof.
  intros Hm Hf Hm'. destruct (merged_session lab env root m m' Hm Hf Hm') as (b & B). exists b. intros fuel l Hb Hl.
  destruct (B _ _ verdicts [] fuel 0 tt l Hb Hl) as (outs & s & s' & q & S1 & S2 & T & _). exists outs, s, s'. auto.
Qed.
