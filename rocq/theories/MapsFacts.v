(** Proofs about Maps.v. *)

From Coq Require Import List Arith NArith Bool Lia.
From Verif Require Import Types Static Dispatch Runtime Helpers ListFacts IndexFacts Spec
  DispatchFacts FlattenFacts Semantics RefineFacts StaticFacts TermFacts Reach ReachFacts TableFacts
  QueryFacts ProcessFacts HelperFacts Maps.
Import ListNotations.

Lemma distinct_iff {K} (dec : forall a b : K, {a = b} + {a <> b}) l : distinct dec l = true <-> NoDup l.
Proof.
  induction l as [|k l IH]; cbn [distinct]; [split; [constructor|auto]|].
  rewrite andb_true_iff, IH. destruct (in_dec dec k l) as [H|H]; split.
  - intros [X _]; discriminate.
  - intros X. inversion X; contradiction.
  - intros [_ X]. now constructor.
  - intros X. inversion X; auto.
Qed.
Lemma make_map_iff {K B} dec (l : list (K * B)) l' : make_map dec l = Some l' <-> NoDup (map fst l) /\ l' = l.
Proof.
  unfold make_map. rewrite <- (distinct_iff dec). destruct (distinct dec (map fst l)); split; intros H.
  - now injection H as <-.
  - now destruct H as [_ ->].
  - discriminate.
  - destruct H; discriminate.
Qed.
Lemma to_pairs_id {A B} (l : list (A * B)) : to_pairs l = l.
Proof. unfold to_pairs. rewrite <- (map_id l) at 2. apply map_ext. now intros []. Qed.
Lemma unique_last {A} (dec : forall a b : A, {a = b} + {a <> b}) x : forall l seen,
  unique_acc dec seen (l ++ [x]) = unique_acc dec seen l ++ (if in_dec dec x (seen ++ l) then [] else [x]).
Proof.
  induction l as [|a l IH]; intros seen; cbn [app unique_acc].
  - rewrite app_nil_r. now destruct (in_dec dec x seen).
  - assert (E : forall l1, (forall y, In y l1 <-> In y (seen ++ a :: l)) ->
      (if in_dec dec x l1 then [] else [x]) = (if in_dec dec x (seen ++ a :: l) then [] else [x])).
    { intros l1 H. destruct (in_dec dec x l1) as [I|I], (in_dec dec x (seen ++ a :: l)) as [J|J]; try reflexivity; apply H in I || apply H in J; contradiction. }
    destruct (in_dec dec a seen) as [H|H]; rewrite IH.
    + rewrite (E (seen ++ l)); [reflexivity|]. intros y. rewrite !in_app_iff. cbn. split; [tauto|]. intros [?|[<-|?]]; auto.
    + cbn [app]. f_equal. rewrite (E (a :: seen ++ l)); [reflexivity|]. intros y. cbn. rewrite !in_app_iff. cbn. tauto.
Qed.

Section Machine.
Variable m : machine.
Notation env := (mc_env m).
Notation root := (mc_root m).

Lemma collected : collect_states_recursive m =
  child_states_rec m ++ (if in_dec sref_eq_dec (SState root) (child_states_all m) then [] else [SState root]).
Proof. unfold collect_states_recursive, unique. rewrite unique_last. reflexivity. Qed.

(** The map can be built exactly if the root is not one of its own states. *)
Lemma states_map_cases : make_states_map m =
  if in_dec sref_eq_dec (SState root) (child_states_rec m) then None
  else Some (map (fun s => (s, make_object env s)) (states m)).
Proof.
  unfold make_states_map, zip. rewrite collected, map_length.
  assert (I : In (SState root) (child_states_all m) <-> In (SState root) (child_states_rec m)).
  { unfold child_states_rec. now rewrite unique_In. }
  destruct (in_dec sref_eq_dec (SState root) (child_states_all m)) as [H|H], (in_dec sref_eq_dec (SState root) (child_states_rec m)) as [J|J];
    try (apply I in H; contradiction); try (apply I in J; contradiction).
  - rewrite app_nil_r. unfold states. rewrite app_length. cbn [length]. destruct (Nat.eqb_spec (length (child_states_rec m) + 1) (length (child_states_rec m))); [lia|reflexivity].
  - fold (states m). rewrite Nat.eqb_refl, to_pairs_id. apply make_map_iff.
    assert (E : forall l, combine l (map (make_object env) l) = map (fun s => (s, make_object env s)) l) by (induction l; cbn; congruence).
    rewrite E, map_map. split; [|reflexivity]. cbn [fst]. rewrite map_id. unfold states. apply NoDup_app_intro.
    + apply unique_NoDup.
    + repeat constructor; auto.
    + intros x Hx [<-|[]]. contradiction.
Qed.
Lemma find_made l s : map_find sref_eq_dec s (map (fun s => (s, make_object env s)) l) =
  if in_dec sref_eq_dec s l then Some (make_object env s) else None.
Proof.
  induction l as [|t l IH]; [reflexivity|]. cbn [map map_find]. destruct (sref_eq_dec s t) as [->|N].
  - destruct (in_dec sref_eq_dec t (t :: l)) as [_|H]; [reflexivity|]. contradiction H. now left.
  - rewrite IH. destruct (in_dec sref_eq_dec s l) as [H|H], (in_dec sref_eq_dec s (t :: l)) as [J|J]; try reflexivity.
    + contradiction J. now right.
    + destruct J; [congruence|contradiction].
Qed.
End Machine.

Lemma flattened_machine env root fuel flat : flatten fuel env root = Some flat -> flattened (mkMachine env root flat).
Proof. intros H. now exists fuel. Qed.

Lemma states_map_iff : forall env root fuel flat, flatten fuel env root = Some flat ->
  (exists mp, make_states_map (mkMachine env root flat) = Some mp) <-> (forall p, used env root p -> ~ child env p (SState root)).
Proof.
  intros env root fuel flat H. set (m := mkMachine env root flat). pose proof (flattened_machine _ _ _ _ H) as Hc. fold m in Hc.
  rewrite states_map_cases.
  assert (I : In (SState root) (child_states_rec m) <-> exists p, used env root p /\ child env p (SState root)).
  { unfold child_states_rec. rewrite unique_In, in_flat_map. split.
    - intros (x & Hx & Hs). apply (flat_declared m Hc) in Hx. destruct Hx as (p & r & Hu & Hr & ->). exists p. split; [exact Hu|].
      exists r. split; [exact Hr|]. cbn in Hs. rewrite unwrap_unmarked in Hs. destruct Hs as [<-|[<-|[]]]; auto.
    - intros (p & Hu & r & Hr & Hs). exists (row_in p r). split; [apply (flat_declared m Hc); exists p, r; auto|].
      cbn. rewrite unwrap_unmarked. destruct Hs as [->| ->]; auto. }
  change (mc_root m) with root. destruct (in_dec sref_eq_dec (SState root) (child_states_rec m)) as [J|J]; split; intros X.
  - destruct X; discriminate.
  - apply I in J. destruct J as (p & Hu & Hch). now destruct (X p Hu).
  - intros p Hu Hch. apply J. apply I. eauto.
  - eauto.
Qed.

Section Compiled.
Variables (env : cenv) (root : cls) (m : machine).
Hypothesis Hm : compile env root = Some m.

Lemma states_map_compiled : exists mp, make_states_map m = Some mp /\
  (forall s, map_find sref_eq_dec s mp = Some (mkObject s (negb (default_constructible env s))) <-> is_state env root s) /\
  (forall s, map_find sref_eq_dec s mp = None <-> ~ is_state env root s).
Proof.
  compiled Hm. rewrite states_map_cases. destruct (in_dec sref_eq_dec (SState (mc_root m)) (child_states_rec m)) as [J|J].
  { now destruct (cp_root m Hc). }
  eexists. split; [reflexivity|]. split; intros s; rewrite find_made, <- (state_iff m Hc); destruct (in_dec sref_eq_dec s (states m)) as [I|I]; split; intros H; auto; try discriminate; try contradiction.
Qed.
Lemma made_live V W fuel d w (s : rt V W) : construct m fuel d w = Done tt s ->
  exists mp, make_states_map m = Some mp /\
  forall q, (exists o, map_find sref_eq_dec q mp = Some o /\ o_null o = false) <-> In q (rt_live s).
Proof.
  intros H. destruct states_map_compiled as (mp & E & F & G). exists mp. split; [exact E|]. intros q.
  assert (L : rt_live s = filter (defctor env) (states m)).
  { compiled Hm. unfold construct in H. destruct (if cd_unexpected _ then _ else _) as [h|]; [|discriminate].
    destruct (fill_dispatch m d (empty_tables m)) as [t|]; [|discriminate]. unfold init_current_state in H.
    destruct (nth_at _ _) as [l|]; [|discriminate].
    assert (I : forall fuel r (s s' : rt V W), init_loop fuel l r s = Done tt s' -> rt_live s' = rt_live s).
    { clear. induction fuel as [|fuel IH]; intros r s s' H; [discriminate|]. cbn [init_loop] in H.
      destruct (Nat.ltb r (length l)); [|injection H as <-; reflexivity]. destruct (nth_error l r) as [c|]; [|discriminate].
      unfold write_cur in H. destruct (upd_nth _ _ _) as [cu|]; cbn [bind] in H; [|discriminate]. apply IH in H. rewrite H. reflexivity. }
    destruct (init_loop fuel l 0 _) as [[] s1|x s1|u|] eqn:E1; cbn [bind] in H; try discriminate. apply I in E1. cbn in E1.
    unfold update_current_regions in H. destruct (parallel m).
    - destruct (current_parent m s1) as [p s2|x s2|u|] eqn:Ep; cbn [bind] in H; try discriminate.
      assert (s2 = s1) as ->.
      { unfold current_parent, read_cur in Ep. destruct (nth_error (rt_cur s1) 0) as [[c|]|]; cbn [bind] in Ep; try discriminate. now injection Ep. }
      destruct (nth_at p (initial_table m)); [|discriminate]. injection H as <-. exact E1.
    - injection H as <-. exact E1. }
  rewrite L, filter_In. split.
  - intros (o & Ho & N). assert (Q : is_state env root q).
    { destruct (map_find sref_eq_dec q mp) eqn:E2; [|discriminate]. destruct (in_dec sref_eq_dec q (states m)) as [I|I].
      - compiled Hm. now apply (state_iff m Hc).
      - exfalso. assert (X : ~ is_state env root q) by (compiled Hm; intros X; apply I; now apply (state_iff m Hc)). apply G in X. congruence. }
    pose proof (proj2 (F q) Q) as E2. rewrite Ho in E2. injection E2 as ->. cbn in N. apply negb_false_iff in N.
    split; [compiled Hm; now apply (state_iff m Hc)|exact N].
  - intros [I D]. assert (Q : is_state env root q) by (compiled Hm; now apply (state_iff m Hc)).
    eexists. split; [exact (proj2 (F q) Q)|]. cbn. now apply negb_false_iff.
Qed.

Lemma tables_made A (a : A) : exists t, make_tables m a = Some t /\
  (forall e, (exists arr, get_table t e = Some arr) <-> event_of env root e) /\
  (forall e arr, get_table t e = Some arr -> (forall x, In x arr -> x = a) /\
     forall i, i < length arr <-> exists p q, is_place env root (p, q) /\ N.to_nat (combined_idx m p q) = i).
Proof.
  assert (Hsz : N.to_nat (n_states m * N.of_nat (n_parents m)) = length (places m)).
  { rewrite places_length_nat. lia. }
  unfold make_tables. rewrite Hsz. eexists. split.
  { apply make_map_iff. split; [|reflexivity]. rewrite map_map. cbn [fst]. rewrite map_id. apply unique_NoDup. }
  assert (Gt : forall l e, get_table (map (fun e => (e, repeat a (length (places m)))) l) e = if in_dec ev_eq_dec e l then Some (repeat a (length (places m))) else None).
  { induction l as [|e' l IH]; intros e; [reflexivity|]. cbn [map get_table]. destruct (ev_eq_dec e e') as [->|N].
    - destruct (in_dec ev_eq_dec e' (e' :: l)) as [_|H]; [reflexivity|]. contradiction H. now left.
    - rewrite IH. destruct (in_dec ev_eq_dec e l) as [H|H], (in_dec ev_eq_dec e (e' :: l)) as [J|J]; try reflexivity.
      + contradiction J. now right.
      + destruct J; [congruence|contradiction]. }
  split; intros e.
  - rewrite Gt, <- (events_iff env root m Hm). destruct (in_dec ev_eq_dec e (events m)) as [H|H]; split; intros X; eauto.
    + destruct X; discriminate.
    + contradiction.
  - intros arr. rewrite Gt. destruct (in_dec ev_eq_dec e (events m)) as [_|_]; [|discriminate]. intros H. injection H as <-.
    split; [intros x; apply repeat_spec|]. intros i. rewrite repeat_length. compiled Hm. split.
    + intros Hi. destruct (nth_error (places m) i) as [[p q]|] eqn:E; [|apply nth_error_None in E; lia].
      rewrite <- (Nnat.Nat2N.id i) in E. destruct (places_at_inv m Hc _ _ _ E) as (Hp & Hq & Ec). exists p, q.
      split; [apply (place_iff m Hc); now split|]. rewrite <- Ec. apply Nnat.Nat2N.id.
    + intros (p & q & Hpl & <-). apply (place_iff m Hc) in Hpl. destruct Hpl as [Hp Hq].
      apply nth_error_Some. rewrite (places_at_combined m Hc p q Hp Hq). discriminate.
Qed.
Lemma dispatch_tables_made : make_dispatch_tables m = Some (empty_tables m).
Proof.
  unfold make_dispatch_tables, make_tables. apply make_map_iff. split.
  - rewrite map_map. cbn [fst]. rewrite map_id. apply unique_NoDup.
  - unfold empty_tables. apply map_ext. intros e. f_equal. f_equal. lia.
Qed.
End Compiled.

(** * The handler tables *)

Lemma foldM_app {A T} (f : A -> T -> option T) : forall l l' t,
  foldM f (l ++ l') t = match foldM f l t with Some t' => foldM f l' t' | None => None end.
Proof. induction l as [|a l IH]; intros l' t; cbn [foldM app]; [reflexivity|]. destruct (f a t); auto. Qed.
Lemma foldM_ext {A T} (f g : A -> T -> option T) : forall l t, (forall a t, In a l -> f a t = g a t) -> foldM f l t = foldM g l t.
Proof.
  induction l as [|a l IH]; intros t H; cbn [foldM]; [reflexivity|]. rewrite (H a t) by now left.
  destruct (g a t); [|reflexivity]. apply IH. intros b t' Hb. apply H. now right.
Qed.
Lemma foldM_map {A B T} (h : A -> B) (f : B -> T -> option T) : forall l t, foldM f (map h l) t = foldM (fun a => f (h a)) l t.
Proof. induction l as [|a l IH]; intros t; cbn [foldM map]; [reflexivity|]. destruct (f (h a) t); auto. Qed.
Lemma foldM_prod {A B T} (f : A * B -> T -> option T) lb : forall la t,
  foldM f (list_prod la lb) t = foldM (fun a => foldM (fun b => f (a, b)) lb) la t.
Proof.
  induction la as [|a la IH]; intros t; cbn [foldM list_prod]; [reflexivity|].
  rewrite foldM_app, foldM_map. destruct (foldM (fun b => f (a, b)) lb t); auto.
Qed.
Lemma upd_event_get {A} e (f : list A -> option (list A)) : forall t1 arr t2, ~ In e (map fst t1) ->
  upd_event e f (t1 ++ (e, arr) :: t2) = match f arr with Some arr' => Some (t1 ++ (e, arr') :: t2) | None => None end.
Proof.
  induction t1 as [|[e' a] t1 IH]; intros arr t2 H; cbn [app upd_event].
  - destruct (ev_eq_dec e e); [reflexivity|congruence].
  - destruct (ev_eq_dec e e') as [->|N]; [contradiction H; now left|]. rewrite IH by (intros X; apply H; now right).
    destruct (f arr); reflexivity.
Qed.
Lemma foldM_event {A B} e (g : B -> list A -> option (list A)) t1 t2 : ~ In e (map fst t1) -> forall l arr,
  foldM (fun b => upd_event e (g b)) l (t1 ++ (e, arr) :: t2) =
  match foldM g l arr with Some arr' => Some (t1 ++ (e, arr') :: t2) | None => None end.
Proof.
  intros H. induction l as [|b l IH]; intros arr; cbn [foldM]; [reflexivity|]. rewrite upd_event_get by exact H.
  destruct (g b arr) as [arr'|]; [apply IH|reflexivity].
Qed.
Lemma handlers_filled env root m : compile env root = Some m -> forall d, exists mp t0,
  make_states_map m = Some mp /\ make_handler_tables m = Some t0 /\ fill_handlers_in m mp d t0 = fill_handlers m d.
Proof.
  intros Hm d. destruct (states_map_compiled env root m Hm) as (mp & E & F & _).
  exists mp, (map (fun e => (e, repeat None (N.to_nat (n_states m) * n_parents m))) (events m)). split; [exact E|]. split.
  { apply make_map_iff. split; [rewrite map_map; cbn [fst]; rewrite map_id; apply unique_NoDup|].
    apply map_ext. intros e. f_equal. f_equal. lia. }
  unfold fill_handlers_in, fill_handlers.
  set (z := repeat None (N.to_nat (n_states m) * n_parents m)).
  set (g := fun (pr : place) => upd_at (combined_idx m (fst pr) (snd pr)) (fun _ : option (sref * dep) => Some (snd pr, d))).
  transitivity (foldM (fun e => foldM (fun pr => upd_event e (g pr)) (handler_places m)) (events m) (map (fun e => (e, z)) (events m))).
  { apply foldM_ext. intros e t _. cbv beta. unfold handler_places. rewrite (foldM_prod (fun pr => upd_event e (g pr))). apply foldM_ext. intros p t' _. apply foldM_ext. intros s t'' Hs.
    compiled Hm. apply (state_iff m Hc) in Hs. apply F in Hs. rewrite Hs. reflexivity. }
  assert (N : NoDup (events m)) by apply unique_NoDup. revert N.
  assert (G : forall l acc, NoDup (map fst acc ++ l) ->
    foldM (fun e => foldM (fun pr => upd_event e (g pr)) (handler_places m)) l (acc ++ map (fun e => (e, z)) l) =
    foldM (fun e t => match foldM g (handler_places m) z with Some arr => Some (t ++ [(e, arr)]) | None => None end) l acc).
  { induction l as [|e l IH]; intros acc N; cbn [foldM map]; [now rewrite app_nil_r|].
    rewrite foldM_event.
    - destruct (foldM g (handler_places m) z) as [arr|]; [|reflexivity].
      specialize (IH (acc ++ [(e, arr)])). rewrite <- app_assoc in IH. apply IH. rewrite map_app, <- app_assoc. exact N.
    - intros X. apply NoDup_remove_2 in N. apply N. apply in_or_app. now left. }
  intros N. exact (G (events m) [] N).
Qed.
Lemma handlers_placed env root m : compile env root = Some m -> forall d, exists mp t0 t,
  make_states_map m = Some mp /\ make_handler_tables m = Some t0 /\
  fill_handlers_in m mp d t0 = Some t /\ fill_handlers m d = Some t /\
  (forall e p q, event_of env root e -> is_place env root (p, q) -> exists arr,
     get_table t e = Some arr /\ nth_error arr (N.to_nat (combined_idx m p q)) = Some (Some (q, d))).
Proof.
  intros Hm d. destruct (handlers_filled env root m Hm d) as (mp & t0 & E & E0 & F).
  pose proof Hm as Hm'. compiled Hm'. destruct (fill_handlers_total m Hc d) as (t & Ht).
  exists mp, t0, t. repeat (split; [congruence|]). intros e p q He Hpl.
  apply (events_iff _ _ m Hm) in He. apply (place_iff m Hc) in Hpl. destruct Hpl as [Hp Hq].
  pose proof (fill_handlers_get m Hc d t e p q Ht He Hp Hq) as G. destruct (get_table t e) as [arr|]; [|contradiction].
  exists arr. split; [reflexivity|]. apply G.
Qed.
