(** The rows of the program with one table. *)

From Coq Require Import List Arith NArith Bool Lia.
From Verif Require Import Types Static Dispatch Runtime ListFacts IndexFacts Spec Semantics EquivUse Interp Probe ProbeFacts
  FlattenFacts StaticFacts TableFacts RefineFacts InterpFacts Unnest.
Import ListNotations.

(** * Lists *)
Lemma flat_map_single {A B} (f : A -> list B) (a : A) l : NoDup l -> In a l ->
  (forall b, In b l -> b <> a -> f b = []) -> flat_map f l = f a.
Proof.
  induction 1 as [|b l Hb N IH]; intros Ha E; [destruct Ha|]. cbn [flat_map]. destruct Ha as [->|Ha].
  - rewrite <- (app_nil_r (f a)) at 2. f_equal. clear IH N.
    assert (E' : forall c, In c l -> f c = []) by (intros c Hc; apply E; [now right|intros ->; contradiction]).
    clear E Hb. induction l as [|c l IH]; cbn [flat_map]; [reflexivity|]. rewrite (E' c (or_introl eq_refl)). apply IH.
    intros d Hd. apply E'. now right.
  - rewrite (E b (or_introl eq_refl)) by (intros ->; contradiction). apply IH; [exact Ha|]. intros c Hc. apply E. now right.
Qed.
Lemma rev_flat_map {A B} (f : A -> list B) : (forall a, rev (f a) = f a) -> forall l, rev (flat_map f (rev l)) = flat_map f l.
Proof.
  intros E l. induction l as [|a l IH]; [reflexivity|]. cbn [rev flat_map]. rewrite flat_map_app, rev_app_distr, IH. cbn [flat_map].
  now rewrite app_nil_r, E.
Qed.
Lemma dedup_const s l : l <> [] -> (forall t, In t l -> t = s) -> dedup l = [s].
Proof.
  induction l as [|a l IH]; intros N E; [congruence|]. cbn [dedup]. rewrite (E a (or_introl eq_refl)). f_equal.
  destruct l as [|b l]; [reflexivity|]. rewrite IH; [|discriminate|intros t Ht; apply E; now right]. cbn [filter].
  destruct (sref_eq_dec s s); [reflexivity|congruence].
Qed.
Lemma lookup_map {A} (l : list A) (f : A -> cls) (g : A -> cdef) a : In a l -> (forall b, In b l -> f b = f a -> b = a) ->
  lookup (map (fun b => (f b, g b)) l) (f a) = g a.
Proof.
  induction l as [|b l IH]; intros Ha E; [destruct Ha|]. cbn [map lookup]. destruct (Nat.eq_dec (f a) (f b)) as [Eq|Ne].
  - now rewrite (E b (or_introl eq_refl) (eq_sym Eq)).
  - destruct Ha as [->|Ha]; [congruence|]. apply IH; [exact Ha|]. intros c Hc. apply E. now right.
Qed.
Lemma lookup_any {A} (l : list A) (f : A -> cls) (g : A -> cdef) c :
  lookup (map (fun b => (f b, g b)) l) c = plain \/ exists a, In a l /\ lookup (map (fun b => (f b, g b)) l) c = g a.
Proof.
  induction l as [|b l IH]; [now left|]. cbn [map lookup]. destruct (Nat.eq_dec c (f b)).
  - right. exists b. split; [now left|reflexivity].
  - destruct IH as [E|(a & Ha & E)]; [now left|]. right. exists a. split; [now right|exact E].
Qed.

Lemma max_le (l : list nat) n : fold_right Nat.max 0 l <= n <-> Forall (fun k => k <= n) l.
Proof. induction l as [|a l IH]; cbn; [split; [constructor|lia]|]. rewrite Forall_cons_iff, <- IH. lia. Qed.

Section Facts.
Variable env : cenv.
Variable root : cls.
Variable m : machine.
Hypothesis Hm : compile env root = Some m.
Notation outer := (outer_rows env root).
Notation inner := (inner_rows env root).
Notation spots := (spots env root).
Notation occasions := (occasions env root).
Notation tries := (tries env root).
Notation one := (one env root).
Notation alias := (alias env root).
Notation env' := (unnested env root).
Notation rows' := (one_rows env root).
Notation begins := (begins env root).

(** * The old program *)
Lemma outer_declared x : In x outer <-> declared env root x.
Proof. destruct (rows_compiled env root m Hm) as [-> _]. compiled Hm. apply flat_declared. exact (cp_fl m Hc). Qed.
Lemma inner_declared x : In x inner -> declared_internal env root x.
Proof. destruct (rows_compiled env root m Hm) as [_ ->]. compiled Hm. apply internal_flat_declared. exact (cp_fl m Hc). Qed.
Lemma outer_external x : In x outer -> x_int x = false.
Proof. rewrite outer_declared. now intros (p & r & _ & _ & ->). Qed.
Lemma inner_internal x : In x inner -> x_int x = true.
Proof. intros H. apply inner_declared in H. destruct H; reflexivity. Qed.
Lemma spots_iff pl : In pl spots <-> a_place root outer pl = true.
Proof.
  destruct pl as [p s]. unfold Unnest.spots, a_place. rewrite (in_prod_iff (nodup Nat.eq_dec (map x_parent (outer_rows env root))) _ p s), !nodup_In, andb_true_iff. cbn [fst snd].
  unfold encloses, known. rewrite orb_true_iff, !existsb_exists, in_map_iff. cbn [In]. rewrite in_flat_map.
  split; intros [A B]; split.
  - destruct A as (x & <- & Hx). exists x. split; [exact Hx|]. destruct (Nat.eq_dec _ _); congruence.
  - destruct B as [<-|(x & Hx & E)].
    + left. destruct (sref_eq_dec _ _); congruence.
    + right. exists x. split; [exact Hx|]. destruct E as [<-|[<-|[]]]; apply orb_true_iff; [left|right]; destruct (sref_eq_dec _ _); congruence.
  - destruct A as (x & Hx & E). exists x. destruct (Nat.eq_dec _ _); [auto|discriminate].
  - destruct B as [E|(x & Hx & E)].
    + left. destruct (sref_eq_dec _ _); congruence.
    + right. exists x. split; [exact Hx|]. apply orb_true_iff in E.
      destruct (sref_eq_dec s (unmarked (x_src x))), (sref_eq_dec s (x_tgt x)); cbn; auto. destruct E; discriminate.
Qed.
Lemma spots_places pl : In pl spots <-> is_place env root pl.
Proof.
  rewrite spots_iff. destruct (rows_compiled env root m Hm) as [-> _]. compiled Hm.
  rewrite a_place_iff. apply (in_places_iff m Hc).
Qed.
Lemma spots_NoDup : NoDup spots.
Proof. apply NoDup_list_prod; apply NoDup_nodup. Qed.
Lemma occasions_NoDup : NoDup occasions.
Proof. apply NoDup_filter, NoDup_nodup. Qed.

Hypothesis Or : orderly env root outer inner = true.
Lemma offers_spots x po : In x (outer ++ inner) -> In po (offers (is_composite env) (children env) x) -> In (fst po) spots.
Proof.
  intros Hx Hp. unfold orderly in Or. rewrite forallb_forall in Or. specialize (Or x Hx). rewrite forallb_forall in Or.
  apply spots_iff. now apply Or.
Qed.
Lemma rows_at_in e pl l c : In c (rows_at (is_composite env) (children env) e pl l) <->
  exists x o, c = CRow x o /\ In x l /\ x_ev x = e /\ In (pl, o) (offers (is_composite env) (children env) x).
Proof.
  unfold rows_at. rewrite in_flat_map. split.
  - intros (x & Hx & Hc). destruct (ev_eq_dec (x_ev x) e) as [E|]; [|destruct Hc]. apply in_flat_map in Hc.
    destruct Hc as ([q o] & Hpo & Hc). cbn in Hc. destruct (place_eq_dec q pl) as [->|]; [|destruct Hc]. destruct Hc as [<-|[]]. eauto 6.
  - intros (x & o & -> & Hx & E & Ho). exists x. split; [exact Hx|]. destruct (ev_eq_dec (x_ev x) e); [|congruence].
    apply in_flat_map. exists (pl, o). split; [exact Ho|]. cbn. destruct (place_eq_dec pl pl); [now left|congruence].
Qed.
Lemma tries_row e pl x o : In (CRow x o) (tries e pl) <->
  In x (outer ++ inner) /\ x_ev x = e /\ In (pl, o) (offers (is_composite env) (children env) x).
Proof.
  unfold Unnest.tries, choices, priority. rewrite !in_app_iff, <- !in_rev, !rows_at_in. split.
  - intros [Hd|[(y & o' & E & H)|(y & o' & E & H)]].
    + exfalso. unfold defers_at in Hd. apply in_flat_map in Hd. destruct Hd as (y & _ & Hd).
      destruct (place_eq_dec _ _); [|destruct Hd]. apply in_flat_map in Hd. destruct Hd as (e' & _ & Hd).
      destruct (ev_eq_dec e' e); [|destruct Hd]. destruct Hd as [Hd|[]]. discriminate.
    + injection E as <- <-. tauto.
    + injection E as <- <-. tauto.
  - intros ([Hx|Hx] & E & Ho); right; [left|right]; eauto 7.
Qed.
Lemma tries_defer e pl : In CDefer (tries e pl) -> exists x, In x outer /\ source_place x = pl.
Proof.
  unfold Unnest.tries, choices, priority. rewrite !in_app_iff, <- !in_rev, !rows_at_in.
  intros [Hd|[(y & o' & E & H)|(y & o' & E & H)]]; try discriminate.
  unfold defers_at in Hd. apply in_flat_map in Hd. destruct Hd as (y & Hy & Hd). destruct (place_eq_dec _ _); [eauto|destruct Hd].
Qed.
Lemma tries_head e pl : put_off env root e pl = true -> exists cs, tries e pl = CDefer :: cs.
Proof.
  unfold put_off, Unnest.tries, choices, priority. intros H. apply existsb_exists in H. destruct H as (c & Hc & E).
  destruct c; [|discriminate].
  assert (Hd : forall c, In c (defers_at (deferred_by env) e pl outer) -> c = CDefer).
  { intros c Hd. unfold defers_at in Hd. apply in_flat_map in Hd. destruct Hd as (y & _ & Hd).
    destruct (place_eq_dec _ _); [|destruct Hd]. apply in_flat_map in Hd. destruct Hd as (e' & _ & Hd).
    destruct (ev_eq_dec e' e); [|destruct Hd]. now destruct Hd as [<-|[]]. }
  rewrite !in_app_iff, <- !in_rev, !rows_at_in in Hc. destruct Hc as [Hc|[(y & o' & E' & _)|(y & o' & E' & _)]]; try discriminate.
  destruct (rev (defers_at (deferred_by env) e pl outer)) as [|c cs] eqn:R.
  - apply in_rev in Hc. rewrite R in Hc. destruct Hc.
  - rewrite (Hd c) by (apply in_rev; rewrite R; now left). eexists. reflexivity.
Qed.
Lemma tries_rows e pl : put_off env root e pl = false -> forall c, In c (tries e pl) -> is_row c = true.
Proof.
  unfold put_off. intros H c Hc. destruct (is_row c) eqn:E; [reflexivity|].
  assert (T : existsb (fun c => negb (is_row c)) (tries e pl) = true) by (apply existsb_exists; exists c; split; [exact Hc|now rewrite E]).
  congruence.
Qed.
Lemma occasions_in x : In x outer -> In (x_ev x) occasions.
Proof.
  intros Hx. unfold Unnest.occasions. apply filter_In. split; [apply nodup_In, in_map, in_or_app; auto|].
  destruct (ev_eq_dec (x_ev x) ENone) as [E|]; [|reflexivity]. apply existsb_exists. exists x. split; [exact Hx|].
  destruct (ev_eq_dec (x_ev x) ENone); congruence.
Qed.
Lemma occasions_user e : an_event outer inner e = true -> e <> ENone -> In e occasions.
Proof.
  unfold an_event. rewrite existsb_exists. intros (x & Hx & E) N. apply filter_In. split.
  - apply nodup_In. destruct (ev_eq_dec (x_ev x) e) as [<-|]; [now apply in_map|discriminate].
  - destruct (ev_eq_dec e ENone); congruence.
Qed.
Lemma source_offered x : In (source_place x, snd (source_place x)) (offers (is_composite env) (children env) x).
Proof. now left. Qed.
(** Every event is tried somewhere. *)
Lemma occasions_tried e : In e occasions -> exists x pl o, In pl spots /\ In (CRow x o) (tries e pl).
Proof.
  intros H. apply filter_In in H. destruct H as [H _]. apply nodup_In, in_map_iff in H. destruct H as (x & E & Hx).
  exists x, (source_place x), (snd (source_place x)). split.
  - now apply (offers_spots x _ Hx (source_offered x)).
  - apply tries_row. split; [exact Hx|]. split; [exact E|apply source_offered].
Qed.

Hypothesis One : one_region env root.
Lemma target_some x : In x outer -> exists pl, target_place env x = Some pl /\ In pl spots.
Proof.
  intros Hx. apply outer_declared in Hx.
  destruct (rf_target _ _ _ (co_rows _ _ (proj1 (compile_compiles env root) (Logic.ex_intro _ m Hm)) x Hx)) as (pl & E & Hs).
  exists pl. split; [exact E|]. apply spots_places. split; [apply (or_places env root One x pl Hx E)|exact Hs].
Qed.
Lemma leads_spots pl x o e : In pl spots -> In (CRow x o) (tries e pl) -> In (leads env pl x) spots.
Proof.
  intros Hp Hx. apply tries_row in Hx. destruct Hx as (Hx & _). unfold leads. apply in_app_or in Hx. destruct Hx as [Hx|Hx].
  - rewrite (outer_external x Hx). destruct (target_some x Hx) as (q & -> & Hq). exact Hq.
  - now rewrite (inner_internal x Hx).
Qed.
Lemma first_state : exists r c w, In r (table env root) /\ r_src r = SInitial w c /\ initial_states env root = [SState c].
Proof.
  destruct (or_begins env root One) as (r & Hr & M). destruct (r_src r) as [|w c| | | |] eqn:E; try discriminate. exists r, c, w.
  split; [exact Hr|]. split; [exact E|].
  assert (I : In (SState c) (initial_states env root)).
  { unfold initial_states. apply in_map_iff. exists (SInitial w c). split; [reflexivity|]. rewrite <- unique_dedup, unique_In.
    apply filter_In. split; [|reflexivity]. unfold mentioned. apply in_flat_map. exists r. split; [exact Hr|]. left. exact E. }
  assert (L : length (initial_states env root) <= 1).
  { apply (or_width env root One). split; [constructor|]. intros T. rewrite T in Hr. destruct Hr. }
  destruct (initial_states env root) as [|s [|t l]]; [destruct I|destruct I as [->|[]]; reflexivity|cbn in L; lia].
Qed.
Lemma old_initial : initial_states env root = [snd begins].
Proof. destruct first_state as (r & c & w & _ & _ & E). unfold Unnest.begins. now rewrite E. Qed.
Lemma begins_spot : In begins spots /\ exists e x o, In e occasions /\ In (CRow x o) (tries e begins).
Proof.
  destruct first_state as (r & c & w & Hr & E & I). set (x := row_in root r).
  assert (Hx : In x outer) by (apply outer_declared; exists root, r; split; [constructor|auto]).
  assert (B : source_place x = begins) by (unfold source_place, Unnest.begins, x; cbn [row_in x_src x_parent]; now rewrite E, I).
  split.
  - rewrite <- B. apply (offers_spots x (source_place x, snd (source_place x))); [apply in_or_app; now left|apply source_offered].
  - exists (x_ev x), x, (snd (source_place x)). split; [now apply occasions_in|]. apply tries_row. split; [apply in_or_app; now left|].
    split; [reflexivity|]. rewrite <- B. apply source_offered.
Qed.

(** * The new program *)
Lemma alias_lt pl : In pl spots -> alias pl < one.
Proof. apply pos_lt. Qed.
Lemma alias_inj a b : In a spots -> alias a = alias b -> a = b.
Proof. apply pos_inj. Qed.
Lemma lookup_one : lookup env' one = mkCdef (Some rows') None false false (cd_unexpected (lookup env root)) None true.
Proof. unfold unnested. cbn [lookup]. destruct (Nat.eq_dec one one); congruence. Qed.
Lemma lookup_alias pl : In pl spots -> lookup env' (alias pl) =
  mkCdef None None false false false (postponed env root pl) true.
Proof.
  intros H. unfold unnested. cbn [lookup]. destruct (Nat.eq_dec (alias pl) one) as [E|_]; [pose proof (alias_lt pl H); lia|].
  apply (lookup_map spots alias (fun pl => mkCdef None None false false false (postponed env root pl) true) pl H).
  intros b Hb E. now apply alias_inj.
Qed.
Lemma defers_alias pl : In pl spots -> defers env' (alias pl) = filter (fun e => put_off env root e pl) occasions.
Proof. intros H. unfold defers. rewrite (lookup_alias pl H). cbn [cd_defer]. unfold postponed. now destruct (filter _ _). Qed.
Definition spot_def (pl : place) : cdef :=
  mkCdef None None false false false (postponed env root pl) true.
Lemma lookup_rest c : c <> one -> lookup env' c = plain \/ exists pl, lookup env' c = spot_def pl.
Proof.
  intros N. unfold unnested. cbn [lookup]. destruct (Nat.eq_dec c one); [congruence|].
  destruct (lookup_any spots alias spot_def c) as [E|(a & _ & E)]; [left; exact E|right; exists a; exact E].
Qed.
Lemma lookup_new c : c <> one -> cd_table (lookup env' c) = None.
Proof.
  intros N. destruct (lookup_rest c N) as [E|(a & E)]; rewrite E; reflexivity.
Qed.
Lemma lookup_members c : cd_entry (lookup env' c) = false /\ cd_exit (lookup env' c) = false /\ cd_defctor (lookup env' c) = true /\
  cd_internal (lookup env' c) = None.
Proof.
  destruct (Nat.eq_dec c one) as [->|N]; [rewrite lookup_one; auto|].
  destruct (lookup_rest c N) as [E|(a & E)]; rewrite E; auto.
Qed.
Lemma new_composite c : is_composite env' c = true <-> c = one.
Proof.
  unfold is_composite. split.
  - intros E. destruct (Nat.eq_dec c one) as [|N]; [assumption|]. rewrite (lookup_new c N) in E. discriminate.
  - intros ->. now rewrite lookup_one.
Qed.
Lemma new_constructible s : default_constructible env' s = true.
Proof. destruct s; cbn; auto. apply lookup_members. Qed.
Lemma table_one : table env' one = rows'.
Proof. unfold table. now rewrite lookup_one. Qed.

(** A row of the new program. *)
Lemma in_rows r : In r rows' <-> exists pl e x o, In pl spots /\ In e occasions /\ In (CRow x o) (tries e pl) /\
  r = mkRow (alias_source env root pl) e (alias_guard env root x o) (alias_action env root x o) (SState (alias (leads env pl x))).
Proof.
  unfold one_rows, rows_here. rewrite in_flat_map. split.
  - intros (pl & Hp & Hr). apply in_flat_map in Hr. destruct Hr as (e & He & Hr). apply in_flat_map in Hr.
    destruct Hr as (c & Hc & Hr). apply in_rev in Hc. destruct c as [|x o]; [destruct Hr|]. destruct Hr as [<-|[]]. eauto 10.
  - intros (pl & e & x & o & Hp & He & Hc & ->). exists pl. split; [exact Hp|]. apply in_flat_map. exists e. split; [exact He|].
    apply in_flat_map. exists (CRow x o). split; [now apply -> in_rev|]. now left.
Qed.
Lemma unmarked_alias pl : unmarked (alias_source env root pl) = SState (alias pl).
Proof. unfold alias_source. destruct (place_eq_dec pl begins); reflexivity. Qed.
Lemma row_target r : In r rows' -> exists q, In q spots /\ r_tgt r = SState (alias q).
Proof.
  intros H. apply in_rows in H. destruct H as (pl & e & x & o & Hp & He & Hc & ->). cbn. eexists. split; [|reflexivity].
  now apply (leads_spots pl x o e).
Qed.
Lemma visits_new rs : (forall r, In r rs -> In r rows') -> visits env' one rs (map (row_in one) rs).
Proof.
  induction rs as [|r rs IH]; intros H; cbn [map]; [constructor|]. apply vis_leaf.
  - intros c Hl Hc. destruct (row_target r (H r (or_introl eq_refl))) as (q & Hq & E). rewrite E in Hl. inversion Hl; subst.
    apply Hc. apply lookup_new. pose proof (alias_lt q Hq). lia.
  - apply IH. intros r' Hr. apply H. now right.
Qed.
Variable m' : machine.
Hypothesis Hm' : compile env' one = Some m'.
Lemma outer_new : outer_rows env' one = map (row_in one) rows'.
Proof.
  destruct (interpreter_rows _ _ _ Hm') as (Hv & _). rewrite table_one in Hv.
  apply (visits_det _ _ _ _ (visits_new rows' (fun r H => H)) _ Hv).
Qed.
Lemma inner_new : inner_rows env' one = [].
Proof.
  unfold inner_rows. replace (internal_rows env' one (outer_rows env' one)) with (@nil xrow); [reflexivity|].
  unfold internal_rows. induction (occurrences one (outer_rows env' one)) as [|pl l IH]; [reflexivity|]. cbn [flat_map].
  rewrite <- IH. unfold internal_rows_of. destruct (snd pl); try reflexivity. unfold internals.
  destruct (lookup_members c) as (_ & _ & _ & ->). reflexivity.
Qed.
Lemma new_offers r : In r rows' -> offers (is_composite env') (children env') (row_in one r) =
  [((one, unmarked (r_src r)), unmarked (r_src r))].
Proof.
  intros H. apply in_rows in H. destruct H as (pl & e & x & o & Hp & He & Hc & ->). unfold offers, source_place, alias_source.
  cbn [row_in x_src x_int r_src x_parent]. destruct (place_eq_dec pl begins); cbn [unmarked snd]; [reflexivity|].
  destruct (is_composite env' (alias pl)) eqn:E; [|reflexivity]. apply new_composite in E. pose proof (alias_lt pl Hp). lia.
Qed.
Lemma new_rows_at e pl : In e occasions -> In pl spots ->
  rows_at (is_composite env') (children env') e (one, SState (alias pl)) (map (row_in one) rows') =
  map (fun r => CRow (row_in one r) (SState (alias pl))) (rows_here env root e pl).
Proof.
  intros He Hp.
  assert (G : forall rs, (forall r, In r rs -> In r rows') ->
    rows_at (is_composite env') (children env') e (one, SState (alias pl)) (map (row_in one) rs) =
    flat_map (fun r => if ev_eq_dec (r_ev r) e then if sref_eq_dec (unmarked (r_src r)) (SState (alias pl))
                       then [CRow (row_in one r) (SState (alias pl))] else [] else []) rs).
  { induction rs as [|r rs IH]; intros H; [reflexivity|]. cbn [map]. unfold rows_at in *. cbn [flat_map]. rewrite IH by (intros r' Hr; apply H; now right).
    f_equal. rewrite (new_offers r (H r (or_introl eq_refl))). cbn [row_in x_ev]. destruct (ev_eq_dec (r_ev r) e); [|reflexivity].
    cbn [flat_map fst snd]. destruct (sref_eq_dec (unmarked (r_src r)) (SState (alias pl))) as [E|N].
    - rewrite E. destruct (place_eq_dec _ _); [reflexivity|congruence].
    - destruct (place_eq_dec _ _) as [E|_]; [congruence|reflexivity]. }
  rewrite G by auto. clear G. unfold one_rows.
  set (pick := fun r : row => if ev_eq_dec (r_ev r) e then if sref_eq_dec (unmarked (r_src r)) (SState (alias pl))
                       then [CRow (row_in one r) (SState (alias pl))] else [] else []).
  assert (FF : forall A (g : A -> list row) (l : list A), flat_map pick (flat_map g l) = flat_map (fun a => flat_map pick (g a)) l).
  { intros A g l. induction l as [|a l IH]; [reflexivity|]. cbn [flat_map]. now rewrite flat_map_app, IH. }
  assert (Hev : forall e' q r, In r (rows_here env root e' q) -> r_ev r = e' /\ unmarked (r_src r) = SState (alias q)).
  { intros e' q r Hr. unfold rows_here in Hr. apply in_flat_map in Hr. destruct Hr as (c & _ & Hr). destruct c; [destruct Hr|].
    destruct Hr as [<-|[]]. cbn. split; [reflexivity|apply unmarked_alias]. }
  assert (Nil : forall rs : list row, (forall r, In r rs -> pick r = []) -> flat_map pick rs = []).
  { induction rs as [|r rs IH]; intros H; [reflexivity|]. cbn [flat_map]. rewrite (H r (or_introl eq_refl)). apply IH. intros r' Hr. apply H. now right. }
  rewrite FF. rewrite (flat_map_single _ pl) with (1 := spots_NoDup) (2 := Hp).
  2:{ intros q Hq Nq. apply Nil. intros r Hr. apply in_flat_map in Hr. destruct Hr as (e' & _ & Hr). destruct (Hev e' q r Hr) as [_ E].
      unfold pick. rewrite E. destruct (ev_eq_dec _ _); [|reflexivity]. destruct (sref_eq_dec _ _) as [E'|]; [|reflexivity].
      injection E' as E'. destruct (Nq (alias_inj q pl Hq E')). }
  rewrite FF. rewrite (flat_map_single _ e) with (1 := occasions_NoDup) (2 := He).
  2:{ intros e' He' Ne. apply Nil. intros r Hr. destruct (Hev e' pl r Hr) as [E _]. unfold pick. rewrite E.
      destruct (ev_eq_dec e' e); [contradiction|reflexivity]. }
  generalize (Hev e pl). clear. induction (rows_here env root e pl) as [|r rs IH]; intros H; [reflexivity|]. cbn [flat_map map].
  rewrite IH by (intros r' Hr; apply H; now right). destruct (H r (or_introl eq_refl)) as [E1 E2]. unfold pick.
  rewrite E1, E2. destruct (ev_eq_dec e e); [|congruence]. destruct (sref_eq_dec _ _); [reflexivity|congruence].
Qed.
Lemma new_defers e pl : In e occasions -> In pl spots ->
  (forall c, In c (defers_at (deferred_by env') e (one, SState (alias pl)) (map (row_in one) rows')) -> c = CDefer) /\
  (defers_at (deferred_by env') e (one, SState (alias pl)) (map (row_in one) rows') = [] <-> put_off env root e pl = false).
Proof.
  intros He Hp. split.
  { intros c Hd. unfold defers_at in Hd. apply in_flat_map in Hd. destruct Hd as (y & _ & Hd).
    destruct (place_eq_dec _ _); [|destruct Hd]. apply in_flat_map in Hd. destruct Hd as (e' & _ & Hd).
    destruct (ev_eq_dec e' e); [|destruct Hd]. now destruct Hd as [<-|[]]. }
  assert (I : In CDefer (defers_at (deferred_by env') e (one, SState (alias pl)) (map (row_in one) rows')) <-> put_off env root e pl = true).
  { unfold defers_at. rewrite in_flat_map. split.
    - intros (y & Hy & Hd). apply in_map_iff in Hy. destruct Hy as (r & <- & Hr).
      apply in_rows in Hr. destruct Hr as (q & e1 & x & o & Hq & _ & _ & ->).
      assert (S : source_place (row_in one (mkRow (alias_source env root q) e1 (alias_guard env root x o) (alias_action env root x o) (SState (alias (leads env q x))))) = (one, SState (alias q))).
      { unfold source_place, alias_source. cbn. destruct (place_eq_dec q begins); reflexivity. }
      rewrite S in Hd. destruct (place_eq_dec _ _) as [E|]; [|destruct Hd]. injection E as E. apply alias_inj in E; [|exact Hq]. subst q.
      apply in_flat_map in Hd. destruct Hd as (e' & He' & Hd). destruct (ev_eq_dec e' e) as [->|]; [|destruct Hd].
      unfold deferred_by in He'. cbn [row_in x_src r_src] in He'. rewrite unmarked_alias in He'. cbn [unmarked] in He'.
      rewrite (defers_alias pl Hp) in He'. now apply filter_In in He'.
    - intros P. destruct (tries_head e pl P) as (cs & T). destruct (tries_defer e pl) as (x & Hx & E); [rewrite T; now left|].
      exists (row_in one (mkRow (alias_source env root pl) (x_ev x) (alias_guard env root x (snd pl)) (alias_action env root x (snd pl)) (SState (alias (leads env pl x))))).
      split.
      + apply in_map, in_rows. exists pl, (x_ev x), x, (snd pl). split; [exact Hp|]. split; [now apply occasions_in|]. split; [|reflexivity].
        apply tries_row. split; [apply in_or_app; now left|]. split; [reflexivity|]. rewrite <- E. apply source_offered.
      + assert (S : forall e1 g a t, source_place (row_in one (mkRow (alias_source env root pl) e1 g a t)) = (one, SState (alias pl))).
        { intros. unfold source_place, alias_source. cbn. destruct (place_eq_dec pl begins); reflexivity. }
        rewrite S. destruct (place_eq_dec _ _); [|congruence]. apply in_flat_map. exists e. split.
        * unfold deferred_by. cbn [row_in x_src r_src]. rewrite unmarked_alias. rewrite (defers_alias pl Hp).
          apply filter_In. auto.
        * destruct (ev_eq_dec e e); [now left|congruence]. }
  destruct (defers_at (deferred_by env') e (one, SState (alias pl)) (map (row_in one) rows')) as [|c l] eqn:D.
  - split; [|reflexivity]. intros _. destruct (put_off env root e pl) eqn:P; [|reflexivity]. destruct (proj2 I eq_refl).
  - split; [discriminate|]. intros P. exfalso. rewrite P in I.
    assert (Hc : c = CDefer).
    { assert (Hd : In c (defers_at (deferred_by env') e (one, SState (alias pl)) (map (row_in one) rows'))) by (rewrite D; now left).
      unfold defers_at in Hd. apply in_flat_map in Hd. destruct Hd as (y & _ & Hd).
      destruct (place_eq_dec _ _); [|destruct Hd]. apply in_flat_map in Hd. destruct Hd as (e' & _ & Hd).
      destruct (ev_eq_dec e' e); [|destruct Hd]. now destruct Hd as [<-|[]]. }
    subst c. discriminate (proj1 I (or_introl eq_refl)).
Qed.

(** What is tried in the new program. *)
Definition new_row (e : ev) (pl : place) (x : xrow) (o : sref) : xrow :=
  row_in one (mkRow (alias_source env root pl) e (alias_guard env root x o) (alias_action env root x o) (SState (alias (leads env pl x)))).
Definition matches (e : ev) (pl : place) (c c' : cand) : Prop :=
  exists x o, c = CRow x o /\ In c (tries e pl) /\ c' = CRow (new_row e pl x o) (SState (alias pl)).
Definition new_tries (e : ev) (pl : place) : list cand :=
  choices env' (outer_rows env' one) (inner_rows env' one) e (one, SState (alias pl)).
Lemma tries_both e pl : In e occasions -> In pl spots ->
  (exists cs cs', tries e pl = CDefer :: cs /\ new_tries e pl = CDefer :: cs') \/
  Forall2 (matches e pl) (tries e pl) (new_tries e pl).
Proof.
  intros He Hp. unfold new_tries, choices, priority. rewrite outer_new, inner_new, (new_rows_at e pl He Hp).
  destruct (new_defers e pl He Hp) as [D1 D2]. cbn [rows_at flat_map rev]. rewrite app_nil_r.
  destruct (put_off env root e pl) eqn:P.
  - left. destruct (tries_head e pl P) as (cs & ->). exists cs.
    destruct (rev (defers_at (deferred_by env') e (one, SState (alias pl)) (map (row_in one) rows'))) as [|c l] eqn:R.
    + exfalso. apply (f_equal (@rev cand)) in R. rewrite rev_involutive in R. apply D2 in R. discriminate.
    + rewrite (D1 c) by (apply in_rev; rewrite R; now left). eexists. split; reflexivity.
  - right. rewrite (proj2 D2 eq_refl). cbn [rev app]. rewrite <- map_rev. unfold rows_here.
    rewrite rev_flat_map by (intros [|x o]; reflexivity). pose proof (tries_rows e pl P) as T.
    assert (G : forall l, (forall c, In c l -> In c (tries e pl)) ->
      Forall2 (matches e pl) l (map (fun r => CRow (row_in one r) (SState (alias pl))) (flat_map (alias_row env root e pl) l))).
    { induction l as [|c l IH]; intros H; [constructor|]. pose proof (T c (H c (or_introl eq_refl))) as E. destruct c as [|x o]; [discriminate|].
      cbn [flat_map alias_row app map]. constructor; [|apply IH; intros c Hc; apply H; now right].
      exists x, o. split; [reflexivity|]. split; [apply H; now left|reflexivity]. }
    now apply G.
Qed.
Lemma new_event e : In e occasions -> an_event (outer_rows env' one) (inner_rows env' one) e = true.
Proof.
  intros He. destruct (occasions_tried e He) as (x & pl & o & Hp & Hx). rewrite outer_new. unfold an_event.
  apply existsb_exists. exists (new_row e pl x o). split.
  - apply in_or_app. left. apply (in_map (row_in one)). apply in_rows. exists pl, e, x, o. auto.
  - cbn. destruct (ev_eq_dec e e); congruence.
Qed.
Lemma new_history : any_history (outer_rows env' one) = false.
Proof.
  rewrite outer_new. apply not_true_iff_false. unfold any_history. rewrite existsb_exists. intros (x & Hx & E).
  apply in_map_iff in Hx. destruct Hx as (r & <- & Hr). destruct (row_target r Hr) as (q & _ & Eq). cbn in E. rewrite Eq in E. discriminate.
Qed.
Lemma old_history : any_history outer = false.
Proof.
  apply not_true_iff_false. unfold any_history. rewrite existsb_exists. intros (x & Hx & E). apply outer_declared in Hx.
  destruct (x_tgt x) eqn:T; try discriminate. exact (or_history env root One x _ _ Hx T).
Qed.
Lemma new_anonymous : any_anonymous (outer_rows env' one) = any_anonymous outer.
Proof.
  apply eq_true_iff_eq. split.
  - rewrite outer_new. unfold any_anonymous at 1. rewrite existsb_exists. intros (x & Hx & E). apply in_map_iff in Hx.
    destruct Hx as (r & <- & Hr). apply in_rows in Hr. destruct Hr as (pl & e & x & o & _ & He & _ & ->). cbn in E.
    destruct (ev_eq_dec e ENone) as [->|]; [|discriminate]. apply filter_In in He. destruct He as [_ He].
    destruct (ev_eq_dec ENone ENone); congruence.
  - unfold any_anonymous at 1. rewrite existsb_exists. intros (x & Hx & E). destruct (ev_eq_dec (x_ev x) ENone) as [E'|]; [|discriminate].
    pose proof (occasions_in x Hx) as He. rewrite E' in He. destruct (occasions_tried ENone He) as (y & pl & o & Hp & Hy).
    rewrite outer_new. apply existsb_exists. exists (new_row ENone pl y o). split; [|reflexivity].
    apply (in_map (row_in one)), in_rows. exists pl, ENone, y, o. auto.
Qed.
Lemma new_initial : initial_states env' one = [SState (alias begins)].
Proof.
  destruct begins_spot as (Hb & e & x & o & He & Hx). unfold initial_states.
  rewrite (dedup_const (SInitial WState (alias begins))); [reflexivity| |].
  - assert (I : In (SInitial WState (alias begins)) (filter marked (mentioned env' one))).
    { apply filter_In. split; [|reflexivity]. unfold mentioned. rewrite table_one. apply in_flat_map.
      eexists. split; [apply in_rows; exists begins, e, x, o; auto|]. left. cbn [r_src]. unfold alias_source. destruct (place_eq_dec begins begins); [reflexivity|congruence]. }
    intros E. rewrite E in I. destruct I.
  - intros t Ht. apply filter_In in Ht. destruct Ht as [Ht M]. unfold mentioned in Ht. rewrite table_one in Ht.
    apply in_flat_map in Ht. destruct Ht as (r & Hr & E). destruct (row_target r Hr) as (q & _ & Eq). rewrite Eq in E.
    destruct E as [E|[E|[]]]; [|subst t; discriminate]. apply in_rows in Hr. destruct Hr as (pl & e1 & x1 & o1 & _ & _ & _ & ->).
    cbn in E. unfold alias_source in E. destruct (place_eq_dec pl begins) as [->|]; [congruence|]. subst t. discriminate.
Qed.
Lemma new_width : width env' (outer_rows env' one) <= 1.
Proof.
  rewrite outer_new. unfold width. apply <- max_le. apply Forall_forall. intros n Hn. apply in_map_iff in Hn. destruct Hn as (x & <- & Hx).
  apply in_map_iff in Hx. destruct Hx as (r & <- & _). cbn [row_in x_parent]. rewrite new_initial. cbn. auto.
Qed.
Lemma old_width : width env outer <= 1.
Proof.
  unfold width. apply <- max_le. apply Forall_forall. intros n Hn. apply in_map_iff in Hn. destruct Hn as (x & <- & Hx).
  apply outer_declared in Hx. destruct Hx as (p & r & Hu & Hr & ->). cbn. apply (or_width env root One). split; [exact Hu|].
  intros E. rewrite E in Hr. destruct Hr.
Qed.
Lemma new_few : few_regions env' one.
Proof.
  intros p (Hu & Ht). destruct (Nat.eq_dec p one) as [->|N]; [rewrite new_initial; cbn; lia|].
  exfalso. apply Ht. unfold table. now rewrite (lookup_new p N).
Qed.
(** Objects. *)
Definition new_live : list sref :=
  filter (default_constructible env') (dedup (flat_map (fun x => [unmarked (x_src x); x_tgt x]) (outer_rows env' one)) ++ [SState one]).
Lemma row_live r : In r rows' -> In (unmarked (r_src r)) new_live /\ In (r_tgt r) new_live.
Proof.
  intros Hr. unfold new_live. split; (apply filter_In; split; [|apply new_constructible]); apply in_or_app; left;
  rewrite <- unique_dedup, unique_In, outer_new; apply in_flat_map; exists (row_in one r); (split; [now apply in_map|]); cbn; auto.
Qed.
Lemma new_orderly : orderly env' one (outer_rows env' one) (inner_rows env' one) = true.
Proof.
  rewrite inner_new. unfold orderly. rewrite app_nil_r. apply forallb_forall. intros x Hx.
  pose proof Hx as Hx0. rewrite outer_new in Hx. apply in_map_iff in Hx. destruct Hx as (r & <- & Hr). rewrite (new_offers r Hr). cbn [forallb fst].
  rewrite andb_true_r. unfold a_place. cbn [fst snd]. apply andb_true_iff. split.
  - apply existsb_exists. exists (row_in one r). split; [exact Hx0|]. cbn [row_in x_parent]. destruct (Nat.eq_dec one one); congruence.
  - unfold known. apply orb_true_iff. right. apply existsb_exists. exists (row_in one r). split; [exact Hx0|]. cbn [row_in x_src x_tgt].
    apply orb_true_iff. left. destruct (sref_eq_dec (unmarked (r_src r)) _); congruence.
Qed.
Lemma target_a_place r : In r rows' -> a_place one (outer_rows env' one) (one, r_tgt r) = true.
Proof.
  intros Hr. assert (Hx : In (row_in one r) (outer_rows env' one)) by (rewrite outer_new; now apply in_map).
  unfold a_place. cbn [fst snd]. apply andb_true_iff. split.
  - apply existsb_exists. exists (row_in one r). split; [exact Hx|]. cbn [row_in x_parent]. destruct (Nat.eq_dec one one); congruence.
  - unfold known. apply orb_true_iff. right. apply existsb_exists. exists (row_in one r). split; [exact Hx|]. cbn [row_in x_src x_tgt].
    apply orb_true_iff. right. destruct (sref_eq_dec (r_tgt r) _); congruence.
Qed.
Lemma live_a_place pl : In pl spots -> In (SState (alias pl)) new_live -> a_place one (outer_rows env' one) (one, SState (alias pl)) = true.
Proof.
  intros Hp Hl. unfold new_live in Hl. apply filter_In in Hl. destruct Hl as [Hl _]. apply in_app_or in Hl. destruct Hl as [Hl|[E|[]]].
  - rewrite <- unique_dedup, unique_In in Hl. apply in_flat_map in Hl. destruct Hl as (x & Hx & E). pose proof Hx as Hx0.
    rewrite outer_new in Hx. apply in_map_iff in Hx. destruct Hx as (r & <- & Hr). unfold a_place. cbn [fst snd]. apply andb_true_iff. split.
    + apply existsb_exists. exists (row_in one r). split; [exact Hx0|]. cbn [row_in x_parent]. destruct (Nat.eq_dec one one); congruence.
    + unfold known. apply orb_true_iff. right. apply existsb_exists. exists (row_in one r). split; [exact Hx0|].
      cbn [row_in x_src x_tgt] in E |- *. apply orb_true_iff. destruct E as [E|[E|[]]]; rewrite E; [left|right]; destruct (sref_eq_dec (SState (alias pl)) _); congruence.
  - injection E as E. pose proof (alias_lt pl Hp). lia.
Qed.
End Facts.

(** One table, no member functions but the handler. *)
Theorem unnested_shape : forall env root c,
  (composite (unnested env root) c -> c = one env root) /\
  has_entry (unnested env root) c = false /\ has_exit (unnested env root) c = false /\
  internals (unnested env root) c = [] /\
  forall r, In r (table (unnested env root) c) ->
    (exists a, unmarked (r_src r) = SState a) /\ exists b, r_tgt r = SState b.
Proof.
  intros env root c. destruct (lookup_members env root c) as (E1 & E2 & _ & E4). split; [|split; [exact E1|split; [exact E2|split; [unfold internals; now rewrite E4|]]]].
  - intros N. destruct (Nat.eq_dec c (one env root)) as [|Nc]; [assumption|]. destruct (N (lookup_new env root c Nc)).
  - intros r Hr. destruct (Nat.eq_dec c (one env root)) as [->|Nc].
    + rewrite table_one in Hr. apply in_rows in Hr. destruct Hr as (pl & e & x & o & _ & _ & _ & ->). cbn [r_src r_tgt].
      rewrite unmarked_alias. eauto.
    + unfold table in Hr. rewrite (lookup_new env root c Nc) in Hr. destruct Hr.
Qed.
Theorem alias_places : forall env root m, compile env root = Some m ->
  forall pl pl', is_place env root pl -> alias env root pl = alias env root pl' -> pl = pl'.
Proof. intros env root m Hm pl pl' Hp. apply alias_inj. now apply (spots_places env root m Hm). Qed.
