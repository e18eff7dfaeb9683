(** Facts about Helpers.v. *)

From Coq Require Import List Arith NArith Bool Lia.
From Verif Require Import Types Static Dispatch ListFacts IndexFacts Spec FlattenFacts Semantics RefineFacts StaticFacts TableFacts Helpers.
Import ListNotations.

(** * switch.h *)

Lemma switch_first A (cases : list (bool * A)) f :
  switch_ cases = Some f <->
  exists before after, cases = before ++ (true, f) :: after /\ forall c, In c before -> fst c = false.
Proof.
  unfold switch_. induction cases as [|[b a] cases IH]; cbn [find fst].
  - split; [discriminate|]. intros ([|c l] & l2 & E & _); discriminate.
  - destruct b.
    + cbn. split.
      * intros [= ->]. exists [], cases. split; [reflexivity|]. intros c [].
      * intros ([|c l] & l2 & E & H); [injection E as -> _; reflexivity|].
        injection E as <- _. specialize (H _ (or_introl eq_refl)). discriminate.
    + rewrite IH. split.
      * intros (l1 & l2 & -> & H). exists ((false, a) :: l1), l2. split; [reflexivity|].
        intros c [<-|Hc]; auto.
      * intros ([|c l] & l2 & E & H); [discriminate|]. injection E as E1 E2. subst.
        exists l, l2. split; [reflexivity|]. intros c Hc. apply H. now right.
Qed.

Lemma switch_none A (cases : list (bool * A)) :
  switch_ cases = None <-> forall c, In c cases -> fst c = false.
Proof.
  unfold switch_. induction cases as [|[b a] cases IH]; cbn [find fst].
  - split; [intros _ c []|reflexivity].
  - destruct b; cbn.
    + split; [discriminate|]. intros H. specialize (H _ (or_introl eq_refl)). discriminate.
    + rewrite IH. split; [intros H c [<-|Hc]; auto|auto].
Qed.

Lemma lazy_switch_eval A (cases : list ((unit -> bool) * A)) :
  lazy_switch_ cases = switch_ (map (fun c => (fst c tt, snd c)) cases).
Proof.
  unfold lazy_switch_, switch_. induction cases as [|[p a] cases IH]; [reflexivity|].
  cbn [map find fst snd]. destruct (p tt); [reflexivity|exact IH].
Qed.
Lemma switch_otherwise {A} (cases : list (bool * A)) f :
  switch_ (cases ++ [(otherwise, f)]) = Some (match switch_ cases with Some g => g | None => f end).
Proof.
  unfold switch_. induction cases as [|[[|] g] cases IH]; cbn in *; [reflexivity|reflexivity|exact IH].
Qed.
Lemma lazy_switch_otherwise {A} (cases : list ((unit -> bool) * A)) f :
  lazy_switch_ (cases ++ [(lazy_otherwise, f)]) = Some (match lazy_switch_ cases with Some g => g | None => f end).
Proof.
  unfold lazy_switch_. induction cases as [|[p g] cases IH]; cbn in *; [reflexivity|]. destruct (p tt); [reflexivity|exact IH].
Qed.

(** * for_each.h *)

Section ForEach.
Context {A S X : Type} (closure : A -> S -> S * option X).

Lemma for_each_logged l : forall log s,
  exists done rest,
  for_each (logged closure) l (log, s) = ((log ++ done, fst (for_each closure l s)), snd (for_each closure l s)) /\
  l = done ++ rest /\
  match snd (for_each closure l s) with
  | None => rest = []
  | Some x => exists before a s0, done = before ++ [a] /\ for_each closure before s = (s0, None) /\
              closure a s0 = (fst (for_each closure l s), Some x)
  end.
Proof.
  induction l as [|a l IH]; intros log s; cbn [for_each].
  - exists [], []. rewrite app_nil_r. cbn. auto.
  - cbn [logged]. destruct (closure a s) as [s' [x|]] eqn:E; cbn.
    + exists [a], l. split; [reflexivity|]. split; [reflexivity|]. exists [], a, s. rewrite E. auto.
    + destruct (IH (log ++ [a]) s') as (d & r & H & -> & H2). exists (a :: d), r.
      rewrite H. rewrite <- app_assoc. cbn [app]. split; [reflexivity|]. split; [reflexivity|].
      destruct (snd (for_each closure (d ++ r) s')); [|exact H2].
      destruct H2 as (b & a' & s0 & -> & H3 & H4). exists (a :: b), a', s0.
      cbn [for_each]. rewrite E. auto.
Qed.

Lemma for_each_app l1 l2 s : for_each closure (l1 ++ l2) s =
  match for_each closure l1 s with (s', None) => for_each closure l2 s' | r => r end.
Proof.
  revert s; induction l1 as [|a l1 IH]; intros s; cbn; [reflexivity|].
  destruct (closure a s) as [s' [x|]]; auto.
Qed.
End ForEach.

Definition numbered {A} (l : list A) : list (A * N) := combine l (map N.of_nat (seq 0 (length l))).

Lemma for_each_from A S X (closure : A -> N -> S -> S * option X) l : forall s i,
  (let '((s', _), x) :=
    for_each (fun elem '(s, index) =>
                match closure elem index s with
                | (s, None) => ((s, N.succ index), None)
                | (s, Some x) => ((s, index), Some x)
                end) l (s, N.of_nat i) in (s', x)) =
  for_each (fun p => closure (fst p) (snd p)) (combine l (map N.of_nat (seq i (length l)))) s.
Proof.
  induction l as [|a l IH]; intros s i; [reflexivity|].
  cbn [length seq map combine for_each fst snd]. destruct (closure a (N.of_nat i) s) as [s' [x|]]; [reflexivity|].
  rewrite <- Nat2N.inj_succ. apply IH.
Qed.

Lemma for_each_idx_numbered A S X (closure : A -> N -> S -> S * option X) l s :
  for_each_idx closure l s = for_each (fun p => closure (fst p) (snd p)) (numbered l) s.
Proof. exact (for_each_from A S X closure l s 0). Qed.

Lemma upd_nth_mid A (f : A -> A) pre b (rest : list A) : upd_nth (length pre) f (pre ++ b :: rest) = Some (pre ++ f b :: rest).
Proof. induction pre as [|a pre IH]; cbn; [reflexivity|]. rewrite IH. reflexivity. Qed.

Lemma write_all A B X (oops : X) (g : A -> B) l : forall pre rest, length rest = length l ->
  for_each (fun p t => match upd_at (snd p) (fun _ => g (fst p)) t with
                       | Some t => (t, None)
                       | None => (t, Some oops) end)
           (combine l (map N.of_nat (seq (length pre) (length l)))) (pre ++ rest) = (pre ++ map g l, None).
Proof.
  induction l as [|a l IH]; intros pre rest Hr.
  - destruct rest; [reflexivity|discriminate].
  - destruct rest as [|b rest]; [discriminate|]. cbn [length seq map combine for_each fst snd].
    rewrite upd_at_upd, Nat2N.id, upd_nth_mid.
    replace (pre ++ g a :: rest) with ((pre ++ [g a]) ++ rest) by now rewrite <- app_assoc.
    replace (S (length pre)) with (length (pre ++ [g a])) by (rewrite app_length; cbn; lia).
    rewrite IH by (cbn in Hr; lia). rewrite <- app_assoc. reflexivity.
Qed.

(** * Maps *)

Section Maps.
Context {K B : Type} (dec : forall a b : K, {a = b} + {a <> b}).

Lemma find_unique_by (l : list (K * B)) k : forall seen, ~ In k seen ->
  map_find dec k (unique_by_acc dec fst seen l) = map_find dec k l.
Proof.
  induction l as [|[k' b] l IH]; intros seen Hn; [reflexivity|]. cbn [unique_by_acc map_find fst].
  destruct (in_dec dec k' seen) as [Hi|Hi].
  - destruct (dec k k') as [->|Hne]; [tauto|]. auto.
  - cbn [map_find]. destruct (dec k k') as [->|Hne]; [reflexivity|]. apply IH. cbn. intros [E|E]; [congruence|tauto].
Qed.
Lemma to_map_find (l : list (K * B)) k : map_find dec k (to_map dec l) = map_find dec k l.
Proof. apply find_unique_by. auto. Qed.

Lemma find_combine_map (g : K -> B) l k : In k l -> map_find dec k (combine l (map g l)) = Some (g k).
Proof.
  induction l as [|a l IH]; [intros []|]. cbn. destruct (dec k a) as [->|Hne]; [reflexivity|].
  intros [E|H]; [congruence|auto].
Qed.

Lemma find_combine_seq l k : forall i,
  map_find dec k (combine l (map N.of_nat (seq i (length l)))) =
  if in_dec dec k l then Some (N.of_nat (i + pos dec k l)) else None.
Proof.
  induction l as [|a l IH]; intros i; [reflexivity|]. cbn [length seq map combine map_find pos].
  destruct (dec k a) as [->|Hne].
  - destruct (in_dec dec a (a :: l)) as [_|Hn]; [now rewrite Nat.add_0_r|]. exfalso. apply Hn. now left.
  - rewrite IH. destruct (in_dec dec k l) as [Hi|Hi], (in_dec dec k (a :: l)) as [Hj|Hj].
    + do 2 f_equal. lia.
    + exfalso. apply Hj. now right.
    + destruct Hj; [congruence|tauto].
    + reflexivity.
Qed.

End Maps.

Lemma index_map_find K dec (l : list K) k :
  map_find dec k (make_index_map dec l) = if in_dec dec k l then Some (N.of_nat (pos dec k l)) else None.
Proof. unfold make_index_map. rewrite to_map_find. apply (find_combine_seq dec l k 0). Qed.

Lemma index_map_first K dec (l : list K) k n :
  map_find dec k (make_index_map dec l) = Some n <->
  exists i, n = N.of_nat i /\ nth_error l i = Some k /\ forall j, j < i -> nth_error l j <> Some k.
Proof.
  rewrite index_map_find. split.
  - destruct (in_dec dec k l) as [Hi|]; [|discriminate]. intros [= <-]. exists (pos dec k l).
    split; [reflexivity|]. clear -Hi. induction l as [|a l IH]; [destruct Hi|]. cbn [pos].
    destruct (dec k a) as [->|Hne]; [split; [reflexivity|lia]|].
    destruct IH as [H1 H2]; [destruct Hi; congruence|]. split; [exact H1|].
    intros [|j] Hj; cbn; [congruence|]. apply H2. lia.
  - intros (i & -> & H & Hf). assert (Hin : In k l) by (eapply nth_error_In; eauto).
    destruct (in_dec dec k l) as [_|]; [|tauto]. do 2 f_equal. clear Hin.
    revert i H Hf. induction l as [|a l IH]; intros [|i] H Hf; cbn in H; try discriminate.
    + injection H as ->. cbn. destruct (dec k k); congruence.
    + cbn [pos]. destruct (dec k a) as [->|Hne]; [destruct (Hf 0 (Nat.lt_0_succ i)); reflexivity|].
      f_equal. apply IH; [exact H|]. intros j Hj. apply (Hf (S j)). lia.
Qed.

Lemma index_map_absent K dec (l : list K) k : map_find dec k (make_index_map dec l) = None <-> ~ In k l.
Proof. rewrite index_map_find. destruct (in_dec dec k l); split; try discriminate; tauto. Qed.

Lemma index_map_index_of K dec (l : list K) k : NoDup l -> (N.of_nat (length l) < two64)%N -> In k l ->
  map_find dec k (make_index_map dec l) = Some (index_of dec l k).
Proof.
  intros Hn Hl Hi. rewrite index_map_find, index_of_pos by assumption.
  destruct (in_dec dec k l); [reflexivity|tauto].
Qed.

(** * collect_actions.h *)

Lemma unique_by_acc_first A K (dec : forall a b : K, {a = b} + {a <> b}) (key : A -> K) l : forall seen a,
  In a (unique_by_acc dec key seen l) -> exists l1 l2, l = l1 ++ a :: l2 /\ forall b, In b l1 -> key b <> key a.
Proof.
  induction l as [|b l IH]; intros seen a; [intros []|]. cbn. destruct (in_dec dec (key b) seen) as [Hi|Hi].
  - intros H. pose proof (unique_by_acc_seen dec key _ _ _ H) as Hs.
    destruct (IH _ _ H) as (l1 & l2 & -> & Hf). exists (b :: l1), l2. split; [reflexivity|].
    intros c [<-|Hc]; [congruence|auto].
  - intros [<-|H].
    + exists [], l. split; [reflexivity|]. intros c [].
    + pose proof (unique_by_acc_seen dec key _ _ _ H) as Hs.
      destruct (IH _ _ H) as (l1 & l2 & -> & Hf). exists (b :: l1), l2. split; [reflexivity|].
      intros c [<-|Hc]; [|auto]. intros E. apply Hs. left. exact E.
Qed.

Lemma actions_first env root m : compile env root = Some m -> forall flat, visits env root (table env root) flat ->
  forall a, In a (collect_actions m) <->
  exists l1 x l2, flat = l1 ++ x :: l2 /\ x_act x = a /\ forall y, In y l1 -> action_ty (x_act y) <> action_ty a.
Proof.
  intros Hm flat Hv a. compiled Hm. rewrite (visits_det _ _ _ _ (flat_visits m Hc) _ Hv). unfold collect_actions.
  generalize (mc_flat m). intros l. split.
  - intros H. apply unique_by_acc_first in H. destruct H as (l1 & l2 & E & Hf).
    apply map_eq_app in E. destruct E as (k1 & k2 & -> & <- & E2). apply map_eq_cons in E2.
    destruct E2 as (x & k3 & -> & Hx & _). exists k1, x, k3. split; [reflexivity|]. split; [exact Hx|].
    intros y Hy. apply Hf. now apply in_map.
  - intros (l1 & x & l2 & -> & <- & Hf).
    assert (G : forall seen, ~ In (action_ty (x_act x)) seen ->
      In (x_act x) (unique_by_acc onat_eq_dec action_ty seen (map x_act (l1 ++ x :: l2)))); [|now apply G].
    induction l1 as [|y l1 IH]; intros seen Hn; cbn [app map unique_by_acc].
    + destruct (in_dec onat_eq_dec (action_ty (x_act x)) seen); [tauto|now left].
    + destruct (in_dec onat_eq_dec (action_ty (x_act y)) seen).
      * apply IH; [|exact Hn]. intros z Hz. apply Hf. now right.
      * right. apply IH; [intros z Hz; apply Hf; now right|]. intros [E|E]; [|tauto].
        apply (Hf y); [now left|exact E].
Qed.

Lemma actions_cover env root m : compile env root = Some m -> forall p r, used env root p -> In r (table env p) ->
  exists a, In a (collect_actions m) /\ action_ty a = action_ty (r_act r).
Proof.
  intros Hm p r Hu Hr. compiled Hm. apply unique_by_cover. apply in_map_iff. exists (row_in p r). split; [reflexivity|].
  apply (flat_declared m Hc). exists p, r. auto.
Qed.
Lemma actions_once env root m : compile env root = Some m -> NoDup (collect_action_typeids m).
Proof. intros _. apply unique_by_acc_NoDup. Qed.

(** * fill_initial_state_table *)

Lemma initial_map_find m p : In p (parents m) ->
  map_find Nat.eq_dec p (initial_state_map m) = Some (map (combined_idx m p) (initials (mc_env m) p)).
Proof.
  intros H. unfold initial_state_map. rewrite to_map_find.
  apply (find_combine_map Nat.eq_dec (fun p => map (combined_idx m p) (initials (mc_env m) p))). exact H.
Qed.

Lemma for_each_ext A S X (f g : A -> S -> S * option X) l : (forall a s, In a l -> f a s = g a s) ->
  forall s, for_each f l s = for_each g l s.
Proof.
  induction l as [|a l IH]; intros H s; [reflexivity|]. cbn. rewrite H by now left.
  destruct (g a s) as [s' [x|]]; [reflexivity|]. apply IH. intros b t Hb. apply H. now right.
Qed.

Lemma fill_initial m table : length table = n_parents m ->
  fill_initial_state_table m table = (initial_table m, None).
Proof.
  intros Hl. unfold fill_initial_state_table. rewrite for_each_idx_numbered.
  rewrite (for_each_ext _ _ _ _
    (fun p t => match upd_at (snd p) (fun _ => map (combined_idx m (fst p)) (initials (mc_env m) (fst p))) t with
                | Some t => (t, None) | None => (t, Some OutOfRange) end)).
  - exact (write_all _ _ _ OutOfRange (fun p => map (combined_idx m p) (initials (mc_env m) p)) (parents m) [] table Hl).
  - intros [p i] t Hin. cbn [fst snd]. unfold numbered in Hin. apply in_combine_l in Hin.
    rewrite initial_map_find by exact Hin.
    set (l := map (combined_idx m p) (initials (mc_env m) p)).
    rewrite for_each_idx_numbered.
    pose proof (write_all _ _ _ OutOfRange (fun n : N => n) l [] (repeat 0%N (length l)) (repeat_length _ _)) as W.
    cbn [app length] in W. unfold numbered. rewrite W, map_id. reflexivity.
Qed.

Lemma fill_initial_names env root m : compile env root = Some m -> forall table, length table = n_parents m ->
  exists result, fill_initial_state_table m table = (result, None) /\ length result = n_parents m /\
  forall p, is_parent env root p ->
    nth_error result (N.to_nat (parent_idx m p)) = Some (map (combined_idx m p) (initial_states env p)).
Proof.
  intros Hm table Hl. compiled Hm. exists (initial_table m). split; [apply fill_initial; exact Hl|].
  unfold initial_table. split; [apply map_length|]. intros p Hp. apply (parent_iff m Hc) in Hp.
  rewrite (parent_idx_pos m Hc), Nat2N.id, nth_error_map.
  pose proof (nth_pos Nat.eq_dec p (parents m) Hp) as En. unfold cls in *. rewrite En. cbn [option_map].
  rewrite initials_spec. reflexivity.
Qed.
