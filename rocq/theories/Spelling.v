(** Respelling that may merge references: two spellings of one pseudo state become
    one.  The numbering of the states changes, the behaviour does not, provided the
    initial states of every table and the pseudo states of tables with internal
    rows were spelled one way. *)

From Coq Require Import List Arith NArith Bool Lia.
From Verif Require Import Dsl Types Static Dispatch Runtime ListFacts IndexFacts Spec DispatchFacts FlattenFacts
  Semantics RefineFacts StaticFacts Respell.
Import ListNotations.

(** * Lists *)
Lemma unique_map_on {A B} (da : forall a b : A, {a = b} + {a <> b}) (db : forall a b : B, {a = b} + {a <> b}) (g : A -> B) :
  forall l seen, (forall a b, In a (seen ++ l) -> In b (seen ++ l) -> g a = g b -> a = b) ->
  unique_acc db (map g seen) (map g l) = map g (unique_acc da seen l).
Proof.
  induction l as [|a l IH]; intros seen Hg; [reflexivity|]. cbn [map unique_acc].
  destruct (in_dec db (g a) (map g seen)) as [H|H], (in_dec da a seen) as [H'|H'].
  - apply IH. intros b c Hb Hc. apply Hg; rewrite in_app_iff in *; cbn; tauto.
  - exfalso. apply in_map_iff in H. destruct H as (b & E & Hb). apply Hg in E; [now subst|..]; rewrite in_app_iff; cbn; auto.
  - exfalso. apply H. now apply in_map.
  - cbn [map]. f_equal. rewrite <- (IH (a :: seen)); [reflexivity|].
    intros b c Hb Hc. apply Hg; cbn [app In map] in *; rewrite ?in_app_iff in *; cbn [In] in *; tauto.
Qed.
Lemma unique_by_on {A K K'} (dk : forall a b : K, {a = b} + {a <> b}) (dk' : forall a b : K', {a = b} + {a <> b})
    (key : A -> K) (key' : A -> K') (g : A -> A) (h : K -> K') : (forall a, key' (g a) = h (key a)) ->
  forall l seen, (forall a b, In a (seen ++ map key l) -> In b (seen ++ map key l) -> h a = h b -> a = b) ->
  unique_by_acc dk' key' (map h seen) (map g l) = map g (unique_by_acc dk key seen l).
Proof.
  intros E. induction l as [|a l IH]; intros seen Hg; [reflexivity|]. cbn [map unique_by_acc]. rewrite E.
  destruct (in_dec dk' (h (key a)) (map h seen)) as [H|H], (in_dec dk (key a) seen) as [H'|H'].
  - apply IH. intros b c Hb Hc. apply Hg; rewrite in_app_iff in *; cbn; tauto.
  - exfalso. apply in_map_iff in H. destruct H as (b & E' & Hb). apply Hg in E'; [now subst|..]; rewrite in_app_iff; cbn; auto.
  - exfalso. apply H. now apply in_map.
  - cbn [map]. f_equal. rewrite <- (IH (key a :: seen)); [reflexivity|].
    intros b c Hb Hc. apply Hg; cbn [app In map] in *; rewrite ?in_app_iff in *; cbn [In] in *; tauto.
Qed.
Lemma filter_unique {A} (dec : forall a b : A, {a = b} + {a <> b}) (p : A -> bool) : forall l seen seen',
  (forall a, p a = true -> (In a seen <-> In a seen')) ->
  filter p (unique_acc dec seen l) = unique_acc dec seen' (filter p l).
Proof.
  induction l as [|a l IH]; intros seen seen' H; [reflexivity|]. cbn [unique_acc filter].
  destruct (p a) eqn:Ep.
  - cbn [unique_acc]. destruct (in_dec dec a seen) as [Hi|Hi], (in_dec dec a seen') as [Hi'|Hi'].
    + now apply IH.
    + exfalso. apply Hi'. now apply H.
    + exfalso. apply Hi. now apply H.
    + cbn [filter]. rewrite Ep. f_equal. apply IH. intros b Hb. cbn. now rewrite (H b Hb).
  - destruct (in_dec dec a seen); [now apply IH|]. cbn [filter]. rewrite Ep. apply IH.
    intros b Hb. cbn. rewrite (H b Hb). split; [|auto]. intros [->|?]; [congruence|assumption].
Qed.
Lemma unique_filter {A} (dec : forall a b : A, {a = b} + {a <> b}) (p : A -> bool) l :
  filter p (unique dec l) = unique dec (filter p l).
Proof. apply filter_unique. reflexivity. Qed.
Lemma unique_map_in {A} (dec : forall a b : A, {a = b} + {a <> b}) (g : A -> A) l t :
  In t (unique dec (map g l)) <-> exists s, In s (unique dec l) /\ t = g s.
Proof.
  rewrite unique_In, in_map_iff. split; intros (s & H1 & H2); exists s; rewrite ?unique_In in *; auto.
Qed.

Definition fcand (f : sref -> sref) (c : cand) : cand :=
  match c with CDefer => CDefer | CRow x o => CRow (fx f x) (f o) end.

Section Spelling.
Variable f : sref -> sref.
Hypothesis Hf : spelling f.
Variable m : machine.
Hypothesis Hc : comp m.
Notation m' := (fm f m).
Notation env := (mc_env m).
Notation env' := (respell f (mc_env m)).
Hypothesis Hini : forall c s t, In s (child_states env c) -> In t (child_states env c) ->
  is_initial s = true -> f s = f t -> s = t.
Hypothesis Hint : forall c s t, has_internal env (SState c) = true ->
  In s (child_states env c) -> In t (child_states env c) -> f s = f t -> s = t.

Lemma child_states_in c t : In t (child_states env' c) <-> exists s, In s (child_states env c) /\ t = f s.
Proof.
  unfold child_states. rewrite rows_of_f, flat_map_map.
  replace (flat_map (fun a => [r_src (respell_row f a); r_tgt (respell_row f a)]) (rows_of env c))
    with (map f (flat_map (fun r => [r_src r; r_tgt r]) (rows_of env c))); [apply unique_map_in|].
  rewrite Respell.map_flat_map. reflexivity.
Qed.
Lemma child_typeids_in c t : In t (child_typeids env' c) <-> exists s, In s (child_typeids env c) /\ t = f s.
Proof.
  unfold child_typeids. rewrite rows_of_f, flat_map_map.
  replace (flat_map (fun a => [unwrap_initial (r_src (respell_row f a)); r_tgt (respell_row f a)]) (rows_of env c))
    with (map f (flat_map (fun r => [unwrap_initial (r_src r); r_tgt r]) (rows_of env c))); [apply unique_map_in|].
  rewrite Respell.map_flat_map. apply flat_map_ext. intros r. cbn. now rewrite f_unwrap.
Qed.
Lemma child_states_same c : has_internal env (SState c) = true -> child_states env' c = map f (child_states env c).
Proof.
  intros H. unfold child_states. rewrite rows_of_f, flat_map_map.
  replace (flat_map (fun a => [r_src (respell_row f a); r_tgt (respell_row f a)]) (rows_of env c))
    with (map f (flat_map (fun r => [r_src r; r_tgt r]) (rows_of env c))) by (rewrite Respell.map_flat_map; reflexivity).
  apply (unique_map_on sref_eq_dec sref_eq_dec f _ []). cbn [app]. intros a b Ha Hb.
  apply (Hint c); auto; unfold child_states; rewrite unique_In; assumption.
Qed.
Lemma initials_eq c : initials env' c = initials env c.
Proof.
  unfold initials, child_states. rewrite !unique_filter. rewrite rows_of_f, flat_map_map.
  replace (flat_map (fun a => [r_src (respell_row f a); r_tgt (respell_row f a)]) (rows_of env c))
    with (map f (flat_map (fun r => [r_src r; r_tgt r]) (rows_of env c))) by (rewrite Respell.map_flat_map; reflexivity).
  rewrite Respell.filter_map, (filter_ext _ is_initial (f_initial f Hf)).
  unfold unique. change (@nil sref) with (map f []) at 1. rewrite (unique_map_on sref_eq_dec sref_eq_dec f _ []).
  - rewrite map_map. apply map_ext_in. intros s H. apply unique_In, filter_In in H. destruct H as [_ H].
    rewrite f_unwrap by assumption. destruct s; try discriminate. now apply f_state.
  - cbn [app]. intros a b Ha Hb. apply filter_In in Ha, Hb. destruct Ha as [Ha Ia], Hb as [Hb _].
    apply (Hini c); auto; unfold child_states; rewrite unique_In; assumption.
Qed.
Lemma child_rec_in t : In t (child_states_rec m') <-> exists s, In s (child_states_rec m) /\ t = f s.
Proof.
  unfold child_states_rec. cbn [mc_flat fm]. rewrite flat_map_map.
  replace (flat_map (fun a => [unwrap_initial (x_src (fx f a)); x_tgt (fx f a)]) (mc_flat m))
    with (map f (flat_map (fun r => [unwrap_initial (x_src r); x_tgt r]) (mc_flat m))); [apply unique_map_in|].
  rewrite Respell.map_flat_map. apply flat_map_ext. intros r. cbn. now rewrite f_unwrap.
Qed.
Lemma states_in t : In t (states m') <-> exists s, In s (states m) /\ t = f s.
Proof.
  unfold states. rewrite in_app_iff, child_rec_in. cbn [fm mc_root In]. split.
  - intros [(s & H & ->)|[<-|[]]].
    + exists s. rewrite in_app_iff. auto.
    + exists (SState (mc_root m)). rewrite in_app_iff, f_state by assumption. cbn. auto.
  - intros (s & H & ->). apply in_app_iff in H. destruct H as [H|[<-|[]]]; [eauto|].
    rewrite f_state by assumption. auto.
Qed.
Lemma states_f_in s : In s (states m) -> In (f s) (states m').
Proof. intros H. apply states_in. eauto. Qed.
Lemma states_plain c : In (SState c) (states m') <-> In (SState c) (states m).
Proof.
  rewrite states_in. split.
  - intros (s & H & E). symmetry in E. apply f_plain in E; [now subst|assumption].
  - intros H. exists (SState c). now rewrite f_state.
Qed.
Lemma unique_map_le {A} (dec : forall a b : A, {a = b} + {a <> b}) (g : A -> A) l :
  length (unique dec (map g l)) <= length (unique dec l).
Proof.
  rewrite <- (map_length g (unique dec l)). apply NoDup_incl_length; [apply unique_NoDup|].
  intros t H. apply unique_map_in in H. destruct H as (s & H & ->). now apply in_map.
Qed.
Lemma n_states_le : (n_states m' <= n_states m)%N.
Proof.
  unfold n_states, states. rewrite !app_length. cbn [length].
  assert (length (child_states_rec m') <= length (child_states_rec m)); [|lia].
  unfold child_states_rec. cbn [mc_flat fm]. rewrite flat_map_map.
  replace (flat_map (fun a => [unwrap_initial (x_src (fx f a)); x_tgt (fx f a)]) (mc_flat m))
    with (map f (flat_map (fun r => [unwrap_initial (x_src r); x_tgt r]) (mc_flat m))); [apply unique_map_le|].
  rewrite Respell.map_flat_map. apply flat_map_ext. intros r. cbn. now rewrite f_unwrap.
Qed.
Lemma max_initials_eq : max_initials m' = max_initials m.
Proof. unfold max_initials. rewrite parents_f. f_equal. apply map_ext. intros p. cbn [fm mc_env]. now rewrite initials_eq. Qed.
Lemma parallel_eq : parallel m' = parallel m.
Proof. unfold parallel. now rewrite max_initials_eq. Qed.

(** ** Internal rows *)
Definition plain_place (pl : place) : bool := match snd pl with SState _ => true | _ => false end.
Lemma ip_plain l e : flat_map (internal_of_pair e) l = flat_map (internal_of_pair e) (filter plain_place l).
Proof.
  induction l as [|[p s] l IH]; [reflexivity|]. cbn [flat_map filter]. destruct s; cbn [plain_place snd]; cbn [flat_map]; now rewrite IH.
Qed.
Lemma plain_f pl : plain_place (fpl f pl) = plain_place pl.
Proof.
  destruct pl as [p s]. unfold plain_place, fpl. cbn [fst snd]. pose proof (Hf s) as H.
  destruct s, (f _); cbn in H; congruence.
Qed.
Lemma fpl_plain pl : plain_place pl = true -> fpl f pl = pl.
Proof. destruct pl as [p s]. destruct s; try discriminate. intros _. unfold fpl. cbn. now rewrite f_state. Qed.
Lemma pairs_plain : filter plain_place (state_pairs m') = filter plain_place (state_pairs m).
Proof.
  unfold state_pairs. rewrite !unique_filter. f_equal. cbn [mc_flat fm mc_root].
  rewrite flat_map_map.
  replace ((mc_root m, SState (mc_root m)) :: flat_map (fun a => [(x_parent (fx f a), unwrap_initial (x_src (fx f a))); (x_parent (fx f a), x_tgt (fx f a))]) (mc_flat m))
   with (map (fpl f) ((mc_root m, SState (mc_root m)) :: flat_map (fun x => [(x_parent x, unwrap_initial (x_src x)); (x_parent x, x_tgt x)]) (mc_flat m))).
  - rewrite Respell.filter_map, (filter_ext _ plain_place plain_f). rewrite <- map_id. apply map_ext_in.
    intros pl H. apply filter_In in H. apply fpl_plain. tauto.
  - cbn [map]. f_equal; [now apply fpl_plain|]. rewrite Respell.map_flat_map. apply flat_map_ext. intros x. cbn.
    unfold fpl. cbn. now rewrite f_unwrap.
Qed.
Lemma ip_f pr : plain_place pr = true -> internal_of_pair env' pr = map (fx f) (internal_of_pair env pr).
Proof.
  destruct pr as [p s]. destruct s; try discriminate. intros _. unfold internal_of_pair. rewrite lookup_f. cbn [respell_def cd_internal].
  destruct (cd_internal (lookup env c)) as [is|] eqn:Ei; [|reflexivity].
  rewrite Respell.map_flat_map. apply flat_map_ext. intros i. rewrite has_table_state by assumption.
  destruct (has_table env (SState c)).
  - rewrite child_states_same by (unfold has_internal; cbn; now rewrite Ei). rewrite !map_map. reflexivity.
  - unfold fx. cbn. now rewrite f_state.
Qed.
Lemma fkey_on : let L := flat_map (internal_of_pair env) (state_pairs m) in
  forall a b, In a (map xrow_key L) -> In b (map xrow_key L) -> fkey f a = fkey f b -> a = b.
Proof.
  intros L a b Ha Hb E. apply in_map_iff in Ha, Hb. destruct Ha as (x & <- & Hx), Hb as (y & <- & Hy).
  apply in_flat_map in Hx, Hy. destruct Hx as ([p s] & _ & Hx), Hy as ([q t] & _ & Hy).
  apply internals_of_pair_iff in Hx, Hy.
  destruct Hx as (c & i & -> & Hi & Hx), Hy as (d & j & -> & Hj & Hy).
  unfold xrow_key, fkey in *. injection E as E1 E2 E3 E4 E5 E6. rewrite E1, E3, E4, E5.
  assert (Hc1 : internals env c <> []) by (destruct (internals env c); [destruct Hi|discriminate]).
  assert (Hn : has_internal env (SState c) = true).
  { unfold has_internal, internals in *. cbn. destruct (cd_internal (lookup env c)); [reflexivity|]. now destruct Hi. }
  destruct Hx as [[Hcc (ch & Hch & ->)]|[Hcc ->]], Hy as [[Hdc (dh & Hdh & ->)]|[Hdc ->]]; cbn in *.
  - subst d. assert (ch = dh) as -> by (apply (Hint c); auto; apply child_states_iff; assumption). reflexivity.
  - rewrite (f_state f Hf) in E2. apply f_plain in E2; [|assumption]. now subst.
  - rewrite (f_state f Hf) in E2. symmetry in E2. apply f_plain in E2; [|assumption]. now subst.
  - rewrite !(f_state f Hf) in E2. congruence.
Qed.
Lemma internal_flat_eq : internal_flat m' = map (fx f) (internal_flat m).
Proof.
  unfold internal_flat, unique_by. cbn [fm mc_env]. fold (fm f m).
  replace (flat_map (internal_of_pair env') (state_pairs m')) with (map (fx f) (flat_map (internal_of_pair env) (state_pairs m))).
  - apply (unique_by_on xkey_eq_dec xkey_eq_dec xrow_key xrow_key (fx f) (fkey f) (fun _ => eq_refl) _ []). cbn [app]. apply fkey_on.
  - rewrite (ip_plain (state_pairs m')), pairs_plain, (ip_plain (state_pairs m)), Respell.map_flat_map.
    apply flat_map_ext_in. intros pl H. apply filter_In in H. symmetry. apply ip_f. tauto.
Qed.
Lemma events_eq : events m' = events m.
Proof. unfold events. cbn [fm mc_flat]. now rewrite internal_flat_eq, <- map_app, events_of_f. Qed.

(** ** Acceptance *)
Lemma dst_f x : resolve_dst env' (fx f x) = option_map f (resolve_dst env x).
Proof. apply resolve_dst_f; [assumption|apply initials_eq]. Qed.
Lemma dst_of_f x : resolve_dst env x <> None -> dst_of m' (fx f x) = f (dst_of m x).
Proof. intros H. unfold dst_of. cbn [fm mc_env]. rewrite dst_f. destruct (resolve_dst env x); [reflexivity|congruence]. Qed.
Lemma row_accepted_ok x : row_accepted m x = true -> row_accepted m' (fx f x) = true.
Proof.
  unfold row_accepted. cbn [fm mc_env]. rewrite dst_f. destruct (resolve_dst env x) as [d|]; [|discriminate]. cbn [option_map].
  fold (fm f m). rewrite resolve_src_f, defctor_f by assumption. cbn [fx x_tgt x_act]. rewrite !andb_true_iff.
  intros [[[H1 H2] H3] H4]. split; [split; [split|]|]; auto.
  - destruct (in_dec sref_eq_dec d (states m)) as [H|]; [|discriminate].
    destruct (in_dec sref_eq_dec (f d) (states m')); [reflexivity|]. exfalso. now apply n, states_f_in.
  - destruct (in_dec sref_eq_dec (resolve_src x) (states m)) as [H|]; [|discriminate].
    destruct (in_dec sref_eq_dec (f (resolve_src x)) (states m')); [reflexivity|]. exfalso. now apply n, states_f_in.
  - pose proof (Hf (x_tgt x)) as H. destruct (x_tgt x); destruct (f _); cbn in H; try discriminate; try reflexivity.
    rewrite has_table_state by assumption. congruence.
Qed.
Lemma accepted_ok : accepted m = true -> accepted m' = true.
Proof.
  unfold accepted. rewrite max_initials_eq, events_eq, deferring_f, n_parents_f by assumption.
  rewrite internal_flat_eq. cbn [fm mc_env mc_root mc_flat]. fold (fm f m). rewrite initials_eq, table_f, map_length, <- map_app, !forallb_map.
  rewrite !andb_true_iff. intros [[[[[[[[H1 H2] H3] H4] H5] H6] H7] H8] H9].
  repeat split; auto.
  - now destruct (cd_table (lookup env (mc_root m))).
  - rewrite forallb_forall in *. intros s Hs. pose proof (H4 s Hs) as H. destruct (initials_state _ _ _ Hs) as [c ->].
    now rewrite has_table_state.
  - rewrite forallb_forall in *. intros s Hs. pose proof (H5 s Hs) as H. destruct (initials_state _ _ _ Hs) as [c ->].
    rewrite <- (f_state f Hf c), has_internal_f by assumption. assumption.
  - rewrite forallb_forall in *. intros x Hx. apply row_accepted_ok. now apply H6.
  - rewrite forallb_forall in *. intros x Hx. rewrite deferred_events_f by assumption. now apply H7.
  - destruct (in_dec sref_eq_dec (SState (mc_root m)) (child_states_rec m)) as [|H]; [discriminate|].
    destruct (in_dec sref_eq_dec (SState (mc_root m)) (child_states_rec m')) as [H'|]; [|reflexivity]. exfalso.
    apply child_rec_in in H'. destruct H' as (s & Hs & E). symmetry in E. apply f_plain in E; [|assumption]. now subst.
  - apply N.ltb_lt. apply N.ltb_lt in H9. eapply N.le_lt_trans; [|exact H9]. apply N.mul_le_mono_l. apply n_states_le.
Qed.

(** ** Places and candidates *)
(** The places in which a region can stand. *)
Definition proper (pl : place) : Prop :=
  (exists c, snd pl = SState c) \/
  ((exists w p s, snd pl = SExit w p s) /\ In (snd pl) (child_typeids env (fst pl))).
Lemma source_f x : source_place (fx f x) = fpl f (source_place x).
Proof.
  rewrite !source_place_resolve. unfold fpl. cbn [fst snd]. now rewrite resolve_src_f, resolve_src_parent_f.
Qed.
Lemma source_eq x pl : proper pl -> (source_place (fx f x) = fpl f pl <-> source_place x = pl).
Proof.
  intros Hp. rewrite source_f. split; [|now intros ->]. destruct pl as [p q]. unfold fpl. cbn [fst snd]. intros E.
  injection E as E1 E2. destruct Hp as [[c Hq]|[(w & p2 & s2 & Hq) _]]; cbn in Hq; subst q.
  - rewrite f_state in E2 by assumption. apply f_plain in E2; [|assumption]. destruct (source_place x); cbn in *; congruence.
  - exfalso. pose proof (Hf (snd (source_place x))) as H1. pose proof (Hf (SExit w p2 s2)) as H2. rewrite E2 in H1. rewrite H1 in H2.
    cbn in H2. destruct (snd (source_place x)) eqn:Es; cbn in H2; try discriminate.
    unfold source_place in Es. destruct (x_src x); cbn in Es; discriminate.
Qed.
Lemma child_eq p q : proper (p, q) -> (In (f q) (child_typeids env' p) <-> In q (child_typeids env p)).
Proof.
  intros Hp. rewrite child_typeids_in. split; [|eauto]. intros (s & Hs & E).
  destruct Hp as [[c Hq]|[_ H]]; [|exact H]. cbn in Hq. subst q. rewrite f_state in E by assumption.
  symmetry in E. apply f_plain in E; [|assumption]. now subst.
Qed.
Lemma pick_child (c : cls) (p : cls) (q : sref) {B} (k : B) l : NoDup l ->
  flat_map (fun s => if place_eq_dec (c, s) (p, q) then [k] else []) l =
  if Nat.eq_dec c p then if in_dec sref_eq_dec q l then [k] else [] else [].
Proof.
  intros Hnd. destruct (Nat.eq_dec c p) as [->|Hne].
  - destruct (in_dec sref_eq_dec q l) as [Hq|Hq].
    + rewrite (flat_map_pick sref_eq_dec _ l q Hnd).
      * destruct (place_eq_dec (p, q) (p, q)); congruence.
      * intros a _ Ha. destruct (place_eq_dec (p, a) (p, q)); congruence.
      * tauto.
    + apply flat_map_nil. intros a Ha. destruct (place_eq_dec (p, a) (p, q)) as [E|]; [|reflexivity]. injection E as ->. tauto.
  - apply flat_map_nil. intros a Ha. destruct (place_eq_dec (c, a) (p, q)); congruence.
Qed.
Lemma child_typeids_NoDup e c : NoDup (child_typeids e c).
Proof. apply unique_NoDup. Qed.
Lemma offers_f e pl x : proper pl ->
  (if ev_eq_dec (x_ev (fx f x)) e
   then flat_map (fun po => if place_eq_dec (fst po) (fpl f pl) then [CRow (fx f x) (snd po)] else []) (offers (comp_b m') (child_typeids env') (fx f x))
   else []) =
  map (fcand f) (if ev_eq_dec (x_ev x) e
   then flat_map (fun po => if place_eq_dec (fst po) pl then [CRow x (snd po)] else []) (offers (comp_b m) (child_typeids env) x)
   else []).
Proof.
  intros Hp. cbn [fx x_ev]. fold (fx f x). destruct (ev_eq_dec (x_ev x) e); [|reflexivity].
  unfold offers. cbn [flat_map fst snd]. rewrite map_app. f_equal.
  - destruct (place_eq_dec (source_place (fx f x)) (fpl f pl)) as [E|E], (place_eq_dec (source_place x) pl) as [E'|E']; try reflexivity.
    + cbn [map fcand]. rewrite source_f. reflexivity.
    + exfalso. apply E'. now apply source_eq.
    + exfalso. apply E. now apply source_eq.
  - cbn [fx x_int x_src]. fold (fx f x). destruct (x_int x); [reflexivity|].
    pose proof (Hf (x_src x)) as H. destruct (x_src x) as [c| | | | |]; destruct (f _) eqn:Ef; cbn in H; try discriminate; try reflexivity.
    injection H as ->. unfold comp_b. cbn [fm mc_env]. rewrite has_table_state by assumption.
    destruct (has_table env (SState c)); [|reflexivity]. rewrite !flat_map_map. cbn [fst snd]. destruct pl as [p q]. unfold fpl. cbn [fst snd].
    rewrite (pick_child c p (f q) (CRow (fx f x) (SState c))) by apply child_typeids_NoDup.
    rewrite (pick_child c p q (CRow x (SState c))) by apply child_typeids_NoDup.
    destruct (Nat.eq_dec c p) as [->|]; [|reflexivity]. pose proof (child_eq p q Hp) as Hch.
    destruct (in_dec sref_eq_dec (f q) (child_typeids env' p)), (in_dec sref_eq_dec q (child_typeids env p)); try reflexivity; try tauto.
    cbn. now rewrite f_state.
Qed.
Lemma rows_at_f e pl l : proper pl ->
  rows_at (comp_b m') (child_typeids env') e (fpl f pl) (map (fx f) l) =
  map (fcand f) (rows_at (comp_b m) (child_typeids env) e pl l).
Proof.
  intros Hp. unfold rows_at. rewrite flat_map_map, Respell.map_flat_map. apply flat_map_ext. intros x. now apply offers_f.
Qed.
Lemma defers_at_f e pl : proper pl ->
  defers_at (deferred_events m') e (fpl f pl) (deferring m') = map (fcand f) (defers_at (deferred_events m) e pl (deferring m)).
Proof.
  intros Hp. unfold defers_at. rewrite deferring_f, flat_map_map, Respell.map_flat_map by assumption. apply flat_map_ext. intros x.
  rewrite deferred_events_f by assumption.
  destruct (place_eq_dec (source_place (fx f x)) (fpl f pl)) as [E|E], (place_eq_dec (source_place x) pl) as [E'|E']; try reflexivity.
  - rewrite Respell.map_flat_map. apply flat_map_ext. intros e'. now destruct (ev_eq_dec e' e).
  - exfalso. apply E'. now apply source_eq.
  - exfalso. apply E. now apply source_eq.
Qed.
Lemma cands_f e pl : proper pl -> cands m' e (fpl f pl) = map (fcand f) (cands m e pl).
Proof.
  intros Hp. unfold cands, priority. rewrite internal_flat_eq, defers_at_f by assumption. cbn [fm mc_env mc_flat]. fold (fm f m).
  rewrite !rows_at_f by assumption. now rewrite <- !map_rev, <- !map_app.
Qed.
End Spelling.

Lemma compile_spelling f (Hf : spelling f) env root m :
  (forall c s t, In s (child_states env c) -> In t (child_states env c) -> is_initial s = true -> f s = f t -> s = t) ->
  (forall c s t, has_internal env (SState c) = true ->
     In s (child_states env c) -> In t (child_states env c) -> f s = f t -> s = t) ->
  compile env root = Some m -> compile (respell f env) root = Some (fm f m).
Proof.
  intros Hini Hint. unfold compile. rewrite (flatten_f f Hf). unfold respell at 1. rewrite map_length.
  destruct (flatten (S (length env)) env root) as [fl|]; [|discriminate]. cbn [option_map].
  change (mkMachine (respell f env) root (map (fx f) fl)) with (fm f (mkMachine env root fl)).
  destruct (accepted (mkMachine env root fl)) eqn:E; [|discriminate].
  intros H. injection H as <-. rewrite (accepted_ok f Hf (mkMachine env root fl) Hini Hint E). reflexivity.
Qed.
