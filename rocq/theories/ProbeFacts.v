(** A program and the same program with lookers: same names, same rows. *)

From Coq Require Import List Arith NArith Bool Lia.
From Verif Require Import Types Static Dispatch Runtime IndexFacts Spec Semantics Interp Probe StaticFacts.
Import ListNotations.

(** * Related lists *)
Section Lists.
Context {A B : Type}.
Variable R : A -> B -> Prop.
Lemma both_map {C} (f : A -> C) (g : B -> C) l l' : Forall2 R l l' ->
  (forall a b, R a b -> g b = f a) -> map g l' = map f l.
Proof. intros H E. induction H as [|a b l l' Hr H IH]; cbn [map]; [reflexivity|]. now rewrite (E a b Hr), IH. Qed.
Lemma both_flat_map {C} (f : A -> list C) (g : B -> list C) l l' : Forall2 R l l' ->
  (forall a b, R a b -> g b = f a) -> flat_map g l' = flat_map f l.
Proof. intros H E. induction H as [|a b l l' Hr H IH]; cbn [flat_map]; [reflexivity|]. now rewrite (E a b Hr), IH. Qed.
Lemma both_existsb (f : A -> bool) (g : B -> bool) l l' : Forall2 R l l' ->
  (forall a b, R a b -> g b = f a) -> existsb g l' = existsb f l.
Proof. intros H E. induction H as [|a b l l' Hr H IH]; cbn [existsb]; [reflexivity|]. now rewrite (E a b Hr), IH. Qed.
Lemma both_forallb (f : A -> bool) (g : B -> bool) l l' : Forall2 R l l' ->
  (forall a b, R a b -> g b = f a) -> forallb g l' = forallb f l.
Proof. intros H E. induction H as [|a b l l' Hr H IH]; cbn [forallb]; [reflexivity|]. now rewrite (E a b Hr), IH. Qed.
Lemma both_flat {C D} (S : C -> D -> Prop) (f : A -> list C) (g : B -> list D) l l' : Forall2 R l l' ->
  (forall a b, R a b -> Forall2 S (f a) (g b)) -> Forall2 S (flat_map f l) (flat_map g l').
Proof. intros H E. induction H as [|a b l l' Hr H IH]; cbn [flat_map]; [constructor|]. apply Forall2_app; auto. Qed.
Lemma both_mapped {C D} (S : C -> D -> Prop) (f : A -> C) (g : B -> D) l l' : Forall2 R l l' ->
  (forall a b, R a b -> S (f a) (g b)) -> Forall2 S (map f l) (map g l').
Proof. intros H E. induction H as [|a b l l' Hr H IH]; cbn [map]; constructor; auto. Qed.
Lemma both_rev l l' : Forall2 R l l' -> Forall2 R (rev l) (rev l').
Proof. intros H. induction H as [|a b l l' Hr H IH]; cbn [rev]; [constructor|]. apply Forall2_app; auto. Qed.
Lemma both_in l l' b : Forall2 R l l' -> In b l' -> exists a, In a l /\ R a b.
Proof.
  intros H. induction H as [|a b' l l' Hr H IH]; intros Hb; [destruct Hb|].
  destruct Hb as [<-|Hb]; [exists a; split; [now left|exact Hr]|]. destruct (IH Hb) as (a' & H1 & H2). exists a'. split; [now right|exact H2].
Qed.
Lemma both_in_left l l' a : Forall2 R l l' -> In a l -> exists b, In b l' /\ R a b.
Proof.
  intros H. induction H as [|a' b l l' Hr H IH]; intros Ha; [destruct Ha|].
  destruct Ha as [<-|Ha]; [exists b; split; [now left|exact Hr]|]. destruct (IH Ha) as (b' & H1 & H2). exists b'. split; [now right|exact H2].
Qed.
Lemma both_nil l l' : Forall2 R l l' -> l = [] <-> l' = [].
Proof. intros H. destruct H; split; congruence. Qed.
End Lists.
Lemma both_same {A} (l : list A) : Forall2 eq l l.
Proof. induction l; constructor; auto. Qed.

Section Facts.
Variable watch : callee -> bool.
Variable ty : option nat -> option nat.
Variables env env' : cenv.
Variable root : cls.
Hypothesis H : watched watch ty env env' root.

(** Related rows. *)
Record same_row (x x' : xrow) : Prop := mkSameRow {
  sr_parent : x_parent x' = x_parent x;
  sr_src : x_src x' = x_src x;
  sr_ev : x_ev x' = x_ev x;
  sr_guard : x_guard x' = x_guard x;
  sr_tgt : x_tgt x' = x_tgt x;
  sr_int : x_int x' = x_int x;
  sr_act : watched_action watch ty (x_act x) (x_act x') }.

(** * Classes *)
Lemma same_composite c : is_composite env' c = is_composite env c.
Proof.
  unfold is_composite. pose proof (wc_table _ _ _ _ _ (wa_class _ _ _ _ _ H c)) as T. unfold in_both in T.
  destruct (cd_table (lookup env c)), (cd_table (lookup env' c)); tauto.
Qed.
Lemma composite_same c : composite env' c <-> composite env c.
Proof.
  unfold composite. pose proof (wc_table _ _ _ _ _ (wa_class _ _ _ _ _ H c)) as T. unfold in_both in T.
  destruct (cd_table (lookup env c)), (cd_table (lookup env' c)); try tauto; split; congruence.
Qed.
Lemma same_table c : Forall2 (watched_row watch ty) (table env c) (table env' c).
Proof.
  unfold table. pose proof (wc_table _ _ _ _ _ (wa_class _ _ _ _ _ H c)) as T. unfold in_both in T.
  destruct (cd_table (lookup env c)), (cd_table (lookup env' c)); try tauto. constructor.
Qed.
Lemma same_internals c : Forall2 (watched_irow watch ty) (internals env c) (internals env' c).
Proof.
  unfold internals. pose proof (wc_internal _ _ _ _ _ (wa_class _ _ _ _ _ H c)) as T. unfold in_both in T.
  destruct (cd_internal (lookup env c)), (cd_internal (lookup env' c)); try tauto. constructor.
Qed.
Lemma no_internals c : cd_internal (lookup env' c) = None <-> cd_internal (lookup env c) = None.
Proof.
  pose proof (wc_internal _ _ _ _ _ (wa_class _ _ _ _ _ H c)) as T. unfold in_both in T.
  destruct (cd_internal (lookup env c)), (cd_internal (lookup env' c)); try tauto. split; congruence.
Qed.
Lemma same_mentioned c : mentioned env' c = mentioned env c.
Proof.
  unfold mentioned. apply (both_flat_map _ _ _ _ _ (same_table c)). intros r r' (A & _ & _ & B & _). now rewrite A, B.
Qed.
Lemma same_children c : children env' c = children env c.
Proof.
  unfold children. f_equal. apply (both_flat_map _ _ _ _ _ (same_table c)). intros r r' (A & _ & _ & B & _). now rewrite A, B.
Qed.
Lemma same_initial c : initial_states env' c = initial_states env c.
Proof. unfold initial_states. now rewrite same_mentioned. Qed.
Lemma same_first c : first_initial env' c = first_initial env c.
Proof. unfold first_initial. now rewrite same_initial. Qed.
Lemma same_defers c : defers env' c = defers env c.
Proof. unfold defers. now rewrite (wc_defer _ _ _ _ _ (wa_class _ _ _ _ _ H c)). Qed.
Lemma same_constructible s : default_constructible env' s = default_constructible env s.
Proof. destruct s; cbn [default_constructible]; auto. apply (wc_defctor _ _ _ _ _ (wa_class _ _ _ _ _ H _)). Qed.

(** * Rows *)
Section Row.
Variables x x' : xrow.
Hypothesis Hx : same_row x x'.
Lemma same_source : source_place x' = source_place x.
Proof. unfold source_place. now rewrite (sr_src _ _ Hx), (sr_parent _ _ Hx). Qed.
Lemma same_target : target_place env' x' = target_place env x.
Proof.
  unfold target_place. rewrite (sr_tgt _ _ Hx), (sr_parent _ _ Hx).
  destruct (x_tgt x); auto; now rewrite ?same_composite, ?same_first.
Qed.
Lemma same_target_state : target_state env' x' = target_state env x.
Proof. unfold target_state. now rewrite same_target, (sr_tgt _ _ Hx). Qed.
Lemma same_action_target o : action_target env' x' o = action_target env x o.
Proof. unfold action_target. now rewrite same_target_state, same_constructible, (sr_int _ _ Hx). Qed.
Lemma same_deferred : deferred_by env' x' = deferred_by env x.
Proof. unfold deferred_by. rewrite (sr_src _ _ Hx). destruct (unmarked (x_src x)); auto. apply same_defers. Qed.
Lemma same_offers : offers (is_composite env') (children env') x' = offers (is_composite env) (children env) x.
Proof.
  unfold offers. rewrite same_source, (sr_int _ _ Hx), (sr_src _ _ Hx). destruct (x_int x); [reflexivity|].
  destruct (x_src x); auto. now rewrite same_composite, same_children.
Qed.
End Row.

(** ** The rows of the program *)
Lemma same_in c r r' : watched_row watch ty r r' -> same_row (row_in c r) (row_in c r').
Proof. intros (A & B & C & D & E). split; cbn; auto. Qed.
Lemma same_visits c rs l : visits env c rs l -> forall rs', Forall2 (watched_row watch ty) rs rs' ->
  exists l', visits env' c rs' l' /\ Forall2 same_row l l'.
Proof.
  induction 1 as [c|c r rs l N Hv IH|c r rs c' sub l Hl Hc Hs IHs Hv IH]; intros rs' Hr.
  - inversion Hr; subst. exists []. split; constructor.
  - inversion Hr as [|? r' ? rs1 Hr1 Hrs]; subst. destruct (IH _ Hrs) as (l' & V1 & V2).
    exists (row_in c r' :: l'). split.
    + apply vis_leaf; [|exact V1]. intros c'. destruct Hr1 as (_ & _ & _ & -> & _). rewrite composite_same. apply N.
    + constructor; [now apply same_in|exact V2].
  - inversion Hr as [|? r' ? rs1 Hr1 Hrs]; subst. destruct (IH _ Hrs) as (l' & V1 & V2).
    destruct (IHs _ (same_table c')) as (sub' & S1 & S2).
    exists (row_in c r' :: sub' ++ l'). split.
    + apply (vis_sub env' c r' rs1 c' sub' l'); auto; [|now apply composite_same].
      destruct Hr1 as (_ & _ & _ & -> & _). exact Hl.
    + constructor; [now apply same_in|]. now apply Forall2_app.
Qed.
Lemma same_occurrences l l' : Forall2 same_row l l' -> occurrences root l' = occurrences root l.
Proof.
  intros Hl. unfold occurrences. do 2 f_equal. apply (both_flat_map _ _ _ _ _ Hl). intros x x' Hx.
  now rewrite (sr_parent _ _ Hx), (sr_src _ _ Hx), (sr_tgt _ _ Hx).
Qed.
Lemma same_internal_of pl : Forall2 same_row (internal_rows_of env pl) (internal_rows_of env' pl).
Proof.
  unfold internal_rows_of. destruct (snd pl); try constructor.
  apply (both_flat _ _ _ _ _ _ (same_internals _)). intros i i' (A & B & C).
  rewrite same_composite, same_mentioned.
  apply (both_mapped eq _ _ _ _ _ (both_same _)). intros ps ? <-. split; cbn; auto.
Qed.
Lemma same_internal l l' : Forall2 same_row l l' ->
  Forall2 same_row (internal_rows env root l) (internal_rows env' root l').
Proof.
  intros Hl. unfold internal_rows. rewrite (same_occurrences l l' Hl).
  apply (both_flat eq _ _ _ _ _ (both_same _)). intros pl ? <-. apply same_internal_of.
Qed.
Lemma same_type_of {A} dec (a b c d : A) : (a = b <-> c = d) -> same_type dec a b = same_type dec c d.
Proof. unfold same_type. intros E. destruct (dec a b), (dec c d); tauto. Qed.
Lemma same_alike x x' y y' : same_row x x' -> same_row y y' -> alike x' y' = alike x y.
Proof.
  intros Hx Hy. unfold alike.
  rewrite (sr_parent _ _ Hx), (sr_src _ _ Hx), (sr_ev _ _ Hx), (sr_guard _ _ Hx), (sr_tgt _ _ Hx).
  rewrite (sr_parent _ _ Hy), (sr_src _ _ Hy), (sr_ev _ _ Hy), (sr_guard _ _ Hy), (sr_tgt _ _ Hy).
  rewrite (proj2 (sr_act _ _ Hx)), (proj2 (sr_act _ _ Hy)).
  rewrite (same_type_of ty_dec (ty (action_type (x_act x))) (ty (action_type (x_act y)))
             (action_type (x_act x)) (action_type (x_act y))); [reflexivity|].
  split; [apply (wa_types _ _ _ _ _ H)|congruence].
Qed.
Lemma same_firsts l l' : Forall2 same_row l l' -> forall seen seen', Forall2 same_row seen seen' ->
  Forall2 same_row (firsts seen l) (firsts seen' l').
Proof.
  induction 1 as [|x x' l l' Hx Hl IH]; intros seen seen' Hs; cbn [firsts]; [constructor|].
  rewrite (both_existsb _ (alike x) (alike x') _ _ Hs) by (intros; now apply same_alike).
  destruct (existsb (alike x) seen); [now apply IH|]. constructor; [exact Hx|]. apply IH. now constructor.
Qed.

(** ** What a row calls *)
Definition kept (p : prim) : bool := negb (watch (p_callee p)).
Definition prim_of (at_ : targ) (t : sref) (c : callee) : prim :=
  match c with
  | CFactory f => mkPrim (CFactory f) TNone false (Some t)
  | CReuse f => mkPrim (CReuse f) (TObj t) false None
  | c => mkPrim c at_ true None
  end.
Lemma prim_of_callee at_ t c : p_callee (prim_of at_ t c) = c.
Proof. destruct c; reflexivity. Qed.
Lemma body_prims at_ t : forall b, body_calls at_ t b = map (prim_of at_ t) (callees b).
Proof.
  fix IH 1. intros [f|f|f|l]; try reflexivity. cbn [body_calls callees].
  induction l as [|b l IHl]; cbn [flat_map map]; [reflexivity|]. now rewrite map_app, <- IH, IHl.
Qed.
Lemma kept_prims at_ t l : filter kept (map (prim_of at_ t) l) = map (prim_of at_ t) (unwatched watch l).
Proof.
  induction l as [|c l IH]; cbn [map filter unwatched]; [reflexivity|]. unfold kept at 1. rewrite prim_of_callee.
  unfold unwatched in *. destruct (negb (watch c)); cbn [map]; now rewrite IH.
Qed.
Lemma member_calls was now c : watched_member watch was now c ->
  unwatched watch (if now then [c] else []) = if was then [c] else [].
Proof.
  unfold watched_member, unwatched. destruct was.
  - intros [-> E]. cbn [filter]. now rewrite E.
  - intros E. destruct now; [|reflexivity]. cbn [filter]. now rewrite E.
Qed.
Lemma exit_kept x x' : same_row x x' -> unwatched watch (exit_call env' x') = exit_call env x.
Proof.
  intros Hx. unfold exit_call. rewrite (sr_int _ _ Hx), (sr_src _ _ Hx). destruct (x_int x); [reflexivity|].
  destruct (x_src x) as [c| | | |w p s|]; try reflexivity; apply member_calls; apply (wc_exit _ _ _ _ _ (wa_class _ _ _ _ _ H _)).
Qed.
Lemma entry_kept x x' : same_row x x' -> unwatched watch (entry_call env' x') = entry_call env x.
Proof.
  intros Hx. unfold entry_call. rewrite (sr_int _ _ Hx), (sr_tgt _ _ Hx). destruct (x_int x); [reflexivity|].
  destruct (x_tgt x); try reflexivity; apply member_calls; apply (wc_entry _ _ _ _ _ (wa_class _ _ _ _ _ H _)).
Qed.
Lemma initial_kept x x' : same_row x x' -> unwatched watch (initial_entry_call env' x') = initial_entry_call env x.
Proof.
  intros Hx. unfold initial_entry_call. rewrite (sr_tgt _ _ Hx). destruct (x_tgt x); try reflexivity.
  rewrite same_composite, same_first. destruct (if is_composite env c then _ else _) as [[]|]; try reflexivity.
  apply member_calls; apply (wc_entry _ _ _ _ _ (wa_class _ _ _ _ _ H _)).
Qed.
Lemma plain_prims at_ t (l : list callee) :
  (forall c, In c l -> match c with CFactory _ | CReuse _ => False | _ => True end) ->
  map (fun c => mkPrim c at_ true None) l = map (prim_of at_ t) l.
Proof. intros E. apply map_ext_in. intros c Hc. specialize (E c Hc). destruct c; tauto. Qed.
Lemma exit_plain e x c : In c (exit_call e x) -> match c with CFactory _ | CReuse _ => False | _ => True end.
Proof.
  unfold exit_call. destruct (x_int x); [intros []|]. destruct (x_src x); try (intros []; fail);
  match goal with |- context [if ?b then _ else _] => destruct b end; intros [<-|[]] || intros []; exact I.
Qed.
Lemma entry_plain e x c : In c (entry_call e x) -> match c with CFactory _ | CReuse _ => False | _ => True end.
Proof.
  unfold entry_call. destruct (x_int x); [intros []|]. destruct (x_tgt x); try (intros []; fail);
  match goal with |- context [if ?b then _ else _] => destruct b end; intros [<-|[]] || intros []; exact I.
Qed.
Lemma initial_plain e x c : In c (initial_entry_call e x) -> match c with CFactory _ | CReuse _ => False | _ => True end.
Proof.
  unfold initial_entry_call. destruct (x_tgt x) as [k| | | | |]; try (intros []; fail).
  destruct (if is_composite e k then _ else _) as [[]|]; try (intros []; fail).
  match goal with |- context [if ?b then _ else _] => destruct b end; intros [<-|[]] || intros []; exact I.
Qed.
Lemma effects_prims e x o : effects e x o =
  map (prim_of (action_target e x o) (target_state e x))
      (exit_call e x ++ calls_of (x_act x) ++ entry_call e x ++ initial_entry_call e x).
Proof.
  unfold effects, calls_of. rewrite !map_app.
  rewrite (plain_prims _ (target_state e x)) by apply exit_plain.
  rewrite (plain_prims _ (target_state e x) (entry_call e x)) by apply entry_plain.
  rewrite (plain_prims _ (target_state e x) (initial_entry_call e x)) by apply initial_plain.
  destruct (x_act x); [reflexivity|]. now rewrite body_prims.
Qed.
Lemma unwatched_app a b : unwatched watch (a ++ b) = unwatched watch a ++ unwatched watch b.
Proof. apply filter_app. Qed.
Lemma effects_kept x x' o : same_row x x' -> filter kept (effects env' x' o) = effects env x o.
Proof.
  intros Hx. rewrite !effects_prims, kept_prims, !unwatched_app, exit_kept with (x := x), entry_kept with (x := x),
    initial_kept with (x := x), same_action_target with (x := x), same_target_state with (x := x) by exact Hx.
  now rewrite (proj1 (sr_act _ _ Hx)).
Qed.
Lemma some_kept l : some_of (unwatched watch l) = true -> some_of l = true.
Proof. destruct l; [intros E; exact E|reflexivity]. Qed.
Lemma external_same x x' : same_row x x' -> same_row (external x) (external x').
Proof. intros []. split; cbn; auto. Qed.
Lemma busy_kept x x' : same_row x x' -> busy env x = true -> busy env' x' = true.
Proof.
  intros Hx. unfold busy. rewrite !orb_true_iff. intros [[[E|E]|E]|E].
  - left; left; left. pose proof (proj2 (sr_act _ _ Hx)) as T. destruct (x_act x) as [|t b]; [discriminate|].
    cbn [action_type] in T. pose proof (wa_action _ _ _ _ _ H t) as N. destruct (x_act x'); [|reflexivity].
    cbn [action_type] in T. congruence.
  - left; left; right. apply some_kept. now rewrite (exit_kept _ _ (external_same _ _ Hx)).
  - left; right. apply some_kept. now rewrite (entry_kept _ _ (external_same _ _ Hx)).
  - right. apply some_kept. now rewrite (initial_kept _ _ Hx).
Qed.
Lemma idle_effects x o : busy env x = false -> effects env x o = [].
Proof.
  unfold busy. rewrite !orb_false_iff. intros [[[E1 E2] E3] E4]. rewrite effects_prims.
  replace (calls_of (x_act x)) with (@nil callee) by (destruct (x_act x); [reflexivity|discriminate]).
  assert (E5 : exit_call env x = []).
  { destruct (x_int x) eqn:Ei; [unfold exit_call; now rewrite Ei|].
    replace (exit_call env x) with (exit_call env (external x)) by (unfold exit_call; now rewrite Ei).
    destruct (exit_call env (external x)); [reflexivity|discriminate]. }
  assert (E6 : entry_call env x = []).
  { destruct (x_int x) eqn:Ei; [unfold entry_call; now rewrite Ei|].
    replace (entry_call env x) with (entry_call env (external x)) by (unfold entry_call; now rewrite Ei).
    destruct (entry_call env (external x)); [reflexivity|discriminate]. }
  assert (E7 : initial_entry_call env x = []) by (destruct (initial_entry_call env x); [reflexivity|discriminate]).
  now rewrite E5, E6, E7.
Qed.
End Facts.
