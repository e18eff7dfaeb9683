(** The program with composites and the program with one table, step by step. *)

From Coq Require Import List Arith NArith Bool Lia.
From Verif Require Import Types Static Dispatch Runtime ListFacts IndexFacts Spec Semantics EquivUse Interp Probe ProbeFacts
  ProbeProgram FlattenFacts StaticFacts TableFacts RefineFacts InterpFacts Unnest UnnestFacts.
Import ListNotations.

Section Run.
Context {V W : Type}.
Variable cb : cbfun V W.
Variable env : cenv.
Variable root : cls.
Variable cb' : cbfun V W.
Hypothesis Hcb : forall c a v w, cb' c a v w = translated env root cb c a v w.
Variable m : machine.
Hypothesis Hm : compile env root = Some m.
Notation outer := (outer_rows env root).
Notation inner := (inner_rows env root).
Hypothesis Or : orderly env root outer inner = true.
Hypothesis One : one_region env root.
Notation spots := (spots env root).
Notation occasions := (occasions env root).
Notation tries := (tries env root).
Notation one := (one env root).
Notation alias := (alias env root).
Notation env' := (unnested env root).
Notation rows' := (one_rows env root).
Notation begins := (begins env root).
Variable m' : machine.
Hypothesis Hm' : compile env' one = Some m'.
Notation outer' := (outer_rows env' one).
Notation inner' := (inner_rows env' one).
Notation words := (in_old_words env root).
Notation live' := (new_live env root).
Variable vnone : V.

Record sim (z z' : mach V W) : Prop := mkSim {
  s_at : exists pl, In pl spots /\ In (SState (alias pl)) live' /\ z_at z = [Some (At pl)] /\
         z_at z' = [Some (At (one, SState (alias pl)))];
  s_queue : z_queue z' = z_queue z;
  s_waiting : forall e v, In (e, v) (z_queue z) -> In e occasions;
  s_live : z_live z' = live';
  s_deps : z_deps z' = z_deps z;
  s_first : z_first z' = z_first z;
  s_world : z_world z' = z_world z;
  s_trace : z_trace z = map words (z_trace z') }.
(** Both in this place. *)
Definition sim_at (pl : place) (z z' : mach V W) : Prop := sim z z' /\ z_at z = [Some (At pl)] /\
  z_at z' = [Some (At (one, SState (alias pl)))] /\ In pl spots /\ In (SState (alias pl)) live'.

(** The new program does what the old one does, where that is defined. *)
Definition covers {A} (P : mach V W -> mach V W -> Prop) (a a' : ans V W A) : Prop :=
  match a with
  | Ok x z => exists z', a' = Ok x z' /\ P z z'
  | Err x z => exists z', a' = Err x z' /\ sim z z'
  | Bad _ => True
  | Endless => a' = Endless
  end.
Lemma next_covers {A B} P Q (a a' : ans V W A) (f f' : A -> mach V W -> ans V W B) : covers P a a' ->
  (forall x z z', P z z' -> covers Q (f x z) (f' x z')) -> covers Q (next a f) (next a' f').
Proof.
  intros H F. destruct a as [x z|x z|u|]; cbn in H; cbn [next].
  - destruct H as (z' & -> & S). apply F, S.
  - destruct H as (z' & -> & S). cbn. eauto.
  - exact I.
  - now rewrite H.
Qed.
Lemma weaken {A} pl (a a' : ans V W A) : covers (sim_at pl) a a' -> covers sim a a'.
Proof. destruct a; cbn; auto. intros (z' & E & (S & _)). eauto. Qed.
Lemma sim_somewhere z z' : sim z z' -> exists pl, sim_at pl z z'.
Proof. intros S. destruct (s_at _ _ S) as (pl & H1 & H2 & H3 & H4). exists pl. unfold sim_at. auto. Qed.

(** * User code *)
Lemma r_use pl c a c' a' v z z' : meant env root c' a' = (c, a) -> sim_at pl z z' ->
  covers (sim_at pl) (use cb c a v z) (use cb' c' a' v z').
Proof.
  intros E (S & A1 & A2 & H). unfold use. rewrite Hcb. unfold translated. rewrite E, (s_world _ _ S). cbn [fst snd].
  assert (N : forall w, sim (put_user z w (z_trace z ++ [mkCall c a v])) (put_user z' w (z_trace z' ++ [mkCall c' a' v]))).
  { intros w. destruct S as [S1 S2 S3 S4 S5 S6 S7 S8].
    refine (mkSim (put_user z w (z_trace z ++ [mkCall c a v])) (put_user z' w (z_trace z' ++ [mkCall c' a' v])) S1 S2 S3 S4 S5 S6 eq_refl _).
    cbn. rewrite map_app, <- S8. cbn [map]. unfold in_old_words at 1. cbn [k_callee k_args k_payload]. now rewrite E. }
  destruct (cb c a v (z_world z)) as [b v1 w1|n v1 w1]; cbn [covers].
  - eexists. split; [reflexivity|]. split; [apply N|auto].
  - eexists. split; [reflexivity|]. apply N.
Qed.
Lemma object_new z z' s : sim z z' -> In s live' -> has_object z' s = true.
Proof. intros S H. unfold has_object. rewrite (s_live _ _ S). destruct (in_dec _ _ _); [reflexivity|contradiction]. Qed.

(** * A row *)
Section Row.
Variables (e : ev) (pl : place) (x : xrow) (o : sref).
Hypothesis He : In e occasions.
Hypothesis Hp : In pl spots.
Hypothesis Hx : In (CRow x o) (tries e pl).
Notation x' := (new_row env root e pl x o).
Notation o' := (SState (alias pl)).
Notation dst := (leads env pl x).

Lemma dst_spot : In dst spots.
Proof. exact (leads_spots env root m Hm One pl x o e Hp Hx). Qed.
Definition row_new : row := mkRow (alias_source env root pl) e (alias_guard env root x o) (alias_action env root x o) (SState (alias dst)).
Lemma row_in_rows : In row_new rows'.
Proof. apply (in_rows env root). exists pl, e, x, o. auto. Qed.
Lemma dst_live : In (SState (alias dst)) live'.
Proof. exact (proj2 (row_live env root m Hm One m' Hm' row_new row_in_rows)). Qed.
Lemma place_new : target_place env' x' = Some (one, SState (alias dst)).
Proof.
  unfold target_place, new_row. cbn [row_in x_tgt r_tgt x_parent]. destruct (is_composite env' (alias dst)) eqn:E; [|reflexivity].
  apply new_composite in E. pose proof (alias_lt env root dst dst_spot). lia.
Qed.
Lemma state_new : target_state env' x' = SState (alias dst).
Proof. unfold target_state. now rewrite place_new. Qed.
Lemma bound_in : In (x, o) (bound_rows env root).
Proof.
  unfold bound_rows. apply in_flat_map. apply tries_row in Hx. destruct Hx as (H & _ & Ho). exists x. split; [exact H|].
  apply in_map_iff. exists (pl, o). auto.
Qed.

Lemma r_ask d v z z' : sim_at pl z z' -> covers (sim_at pl) (ask cb env e d x o v z) (ask cb' env' e d x' o' v z').
Proof.
  intros S. unfold ask. cbn [new_row row_in x_guard r_guard x_int]. unfold alias_guard. pose proof dst_live as L. fold row_new.
  destruct (x_guard x) as [|ty val] eqn:G; [cbn; eauto|].
  match goal with |- context [target_state env' ?y] => change y with x' end. rewrite state_new.
  rewrite (object_new z z' o' (proj1 S)) by apply S. rewrite (object_new z z' _ (proj1 S) L). cbn [andb].
  destruct (has_object z o && has_object z (if x_int x then o else target_state env x)); [|exact I].
  apply r_use; [|exact S]. unfold meant.
  assert (I : In (asked env x o) (all_asked env root)).
  { unfold all_asked. apply in_map_iff. exists (x, o). split; [reflexivity|apply bound_in]. }
  rewrite (nth_pos ask_dec _ _ I). unfold asked. rewrite G. reflexivity.
Qed.

Lemma r_go sp z z' : sim z z' -> width env outer <= 1 -> In sp spots -> In (SState (alias sp)) live' ->
  covers (sim_at sp) (go_to env outer 0 (At sp) z) (go_to env' outer' 0 (At (one, SState (alias sp))) z').
Proof.
  intros S Wd Hs Hl. pose proof (new_width env root m Hm Or One m' Hm') as Wd'. unfold go_to, recount.
  replace (Nat.ltb 1 (width env outer)) with false by (symmetry; apply Nat.ltb_ge; exact Wd).
  replace (Nat.ltb 1 (width env' outer')) with false by (symmetry; apply Nat.ltb_ge; exact Wd').
  destruct (s_at _ _ S) as (q & _ & _ & E1 & E2). rewrite E1, E2. cbn [length Nat.ltb Nat.leb set_nth covers].
  eexists. split; [reflexivity|]. destruct S as [S1 S2 S3 S4 S5 S6 S7 S8]. unfold sim_at. cbn. split; [|auto].
  refine (mkSim (put_at z [Some (At sp)]) (put_at z' [Some (At (one, SState (alias sp)))]) _ S2 S3 S4 S5 S6 S7 S8). exists sp. auto.
Qed.
Lemma land_new : land env' one outer' x' = At (one, SState (alias dst)).
Proof.
  unfold land. rewrite place_new. unfold spot_of. pose proof (target_a_place env root m Hm One m' Hm' row_new row_in_rows) as T.
  cbn [row_new r_tgt] in T. now rewrite T.
Qed.
Lemma r_move z z' : sim_at pl z z' -> covers (sim_at dst) (move env root outer 0 x z) (move env' one outer' 0 x' z').
Proof.
  intros S. unfold move. rewrite (old_history env root m Hm One), (new_history env root m Hm One m' Hm').
  rewrite land_new. cbn [new_row row_in x_int]. destruct S as (S & A1 & A2 & _ & Hl).
  pose proof (old_width env root m Hm One) as Wd.
  destruct (x_int x) eqn:Xi.
  - assert (D : dst = pl) by (unfold leads; now rewrite Xi). rewrite D.
    pose proof (r_go pl z z' S Wd Hp Hl) as G. unfold go_to at 1, recount in G.
    replace (Nat.ltb 1 (width env outer)) with false in G by (symmetry; apply Nat.ltb_ge; exact Wd).
    rewrite A1 in G. cbn [length Nat.ltb Nat.leb set_nth covers] in G. cbn [covers].
    destruct G as (z1 & -> & G). exists z1. split; [reflexivity|]. rewrite <- A1 in G. destruct z; exact G.
  - assert (D : land env root outer x = At dst).
    { unfold land, leads. rewrite Xi. pose proof (proj1 (tries_row env root e pl x o) Hx) as (Hin & _).
      apply in_app_or in Hin. destruct Hin as [Hin|Hin]; [|rewrite (inner_internal env root m Hm x Hin) in Xi; discriminate].
      destruct (target_some env root m Hm One x Hin) as (q & -> & Hq). unfold spot_of.
      now rewrite (proj1 (spots_iff env root q) Hq). }
    rewrite D. apply r_go; [exact S|exact Wd|apply dst_spot|apply dst_live].
Qed.

Lemma plain_effects : effects env x o = map (fun c => mkPrim c (action_target env x o) true None)
  (exit_call env x ++ calls_of (x_act x) ++ entry_call env x ++ initial_entry_call env x).
Proof.
  rewrite effects_prims. symmetry. apply plain_prims. intros c Hc. rewrite !in_app_iff in Hc.
  destruct Hc as [Hc|[Hc|[Hc|Hc]]].
  - now apply (exit_plain env x).
  - unfold calls_of in Hc. destruct (x_act x) as [|ty b] eqn:E; [destruct Hc|].
    pose proof (proj1 (tries_row env root e pl x o) Hx) as (Hin & _).
    assert (D : declared env root x \/ declared_internal env root x).
    { apply in_app_or in Hin. destruct Hin as [Hin|Hin]; [left; now apply (outer_declared env root m Hm)|right; now apply (inner_declared env root m Hm)]. }
    pose proof (or_pointer env root One x ty b D E) as N.
    destruct c; try exact I; exfalso; apply N, pointer_calls; eexists; (split; [exact Hc|exact I]).
  - now apply (entry_plain env x).
  - now apply (initial_plain env x).
Qed.
Lemma called_with_plain : called_with env x o = map (fun c => (c, o, action_target env x o))
  (exit_call env x ++ calls_of (x_act x) ++ entry_call env x ++ initial_entry_call env x).
Proof. unfold called_with. rewrite plain_effects, map_map. reflexivity. Qed.
Lemma new_effects : effects env' x' o' =
  map (fun c => mkPrim (CAction (pos call_dec c (all_called env root))) (action_target env' x' o') true None) (called_with env x o).
Proof.
  unfold effects.
  assert (X : exit_call env' x' = []).
  { unfold exit_call, has_exit. destruct (x_int x'); [reflexivity|]. destruct (x_src x'); try reflexivity;
    match goal with |- context [lookup env' ?c] => destruct (lookup_members env root c) as (_ & -> & _) end; reflexivity. }
  assert (Y : entry_call env' x' = []).
  { unfold entry_call, has_entry. destruct (x_int x'); [reflexivity|]. destruct (x_tgt x'); try reflexivity.
    destruct (lookup_members env root c) as (-> & _); reflexivity. }
  assert (Z : initial_entry_call env' x' = []).
  { unfold initial_entry_call, has_entry. destruct (x_tgt x'); try reflexivity. destruct (if is_composite env' c then _ else _) as [[]|]; try reflexivity.
    match goal with |- context [lookup env' ?c] => destruct (lookup_members env root c) as (-> & _) end; reflexivity. }
  rewrite X, Y, Z. cbn [map app]. rewrite app_nil_r. unfold new_row at 1. cbn [row_in x_act r_act]. unfold alias_action.
  destruct (called_with env x o) as [|c l]; [reflexivity|]. cbn [body_calls].
  generalize (action_target env' x' o') (target_state env' x'). intros t s.
  induction (c :: l) as [|c1 l1 IH]; [reflexivity|]. cbn [map flat_map]. rewrite <- IH. reflexivity.
Qed.
Lemma old_effects : effects env x o = map (fun c => mkPrim (fst (fst c)) (snd c) true None) (called_with env x o).
Proof. rewrite called_with_plain, map_map. exact plain_effects. Qed.
Lemma called_in c : In c (called_with env x o) -> In c (all_called env root) /\ snd (fst c) = o.
Proof.
  intros H. split.
  - unfold all_called. apply in_flat_map. exists (x, o). split; [apply bound_in|exact H].
  - rewrite called_with_plain in H. apply in_map_iff in H. destruct H as (k & <- & _). reflexivity.
Qed.
Lemma r_effects d t q : forall l v z z', (forall c, In c l -> In c (called_with env x o)) -> sim_at q z z' ->
  covers (sim_at q)
    (act cb e d o (map (fun c => mkPrim (fst (fst c)) (snd c) true None) l) v z)
    (act cb' e d o' (map (fun c => mkPrim (CAction (pos call_dec c (all_called env root))) t true None) l) v z').
Proof.
  induction l as [|[[c o1] t1] l IH]; intros v z z' Hl S; cbn [map act]; [cbn; eauto|].
  cbn [p_callee p_targ p_keep p_makes fst snd].
  destruct (match c with CReuse _ => _ | _ => _ end); [|exact I].
  destruct (called_in (c, o1, t1) (Hl _ (or_introl eq_refl))) as [I E]. cbn in E. subst o1.
  eapply next_covers; [apply r_use; [|exact S]|].
  - unfold meant. rewrite (nth_pos call_dec _ _ I). reflexivity.
  - intros bv z1 z1' S1. apply IH; [|exact S1]. intros k Hk. apply Hl. now right.
Qed.
Lemma src_live : In o' live'.
Proof.
  pose proof (proj1 (row_live env root m Hm One m' Hm' row_new row_in_rows)) as T. cbn [row_new r_src] in T.
  now rewrite unmarked_alias in T.
Qed.
Lemma r_perform d q v z z' : sim_at q z z' ->
  covers (sim_at q) (perform_all cb env e d x o v z) (perform_all cb' env' e d x' o' v z').
Proof.
  intros S. unfold perform_all.
  assert (R : covers (sim_at q) (act cb e d o (effects env x o) v z)
    (if busy env' x' then if has_object z' o' && (x_int x' || negb (default_constructible env' (target_state env' x')) || has_object z' (target_state env' x'))
                          then act cb' e d o' (effects env' x' o') v z' else Bad UBNull else Ok v z')).
  { rewrite state_new, (object_new z z' o' (proj1 S) src_live), (object_new z z' _ (proj1 S) dst_live), orb_true_r. cbn [andb].
    destruct (called_with env x o) as [|c l] eqn:C.
    - rewrite old_effects, new_effects, C. cbn [map act]. destruct (busy env' x'); cbn; eauto.
    - assert (B : busy env' x' = true).
      { unfold busy, new_row. cbn [row_in x_act r_act]. unfold alias_action. now rewrite C. }
      rewrite B, old_effects, new_effects. apply r_effects; [auto|exact S]. }
  destruct (busy env x) eqn:B.
  - destruct (has_object z o && _); [exact R|exact I].
  - rewrite (idle_effects env) in R by exact B. exact R.
Qed.
End Row.

(** * Trying *)
Definition like (e : ev) (pl : place) (bs bs' : list bcand) : Prop :=
  (exists d d' t t', bs = (d, CDefer) :: t /\ bs' = (d', CDefer) :: t') \/
  Forall2 (fun b b' => fst b = fst b' /\ matches env root e pl (snd b) (snd b')) bs bs'.
Lemma r_bind e pl ds : In e occasions -> In pl spots ->
  like e pl (bind_all ds (choices env outer inner e pl)) (bind_all ds (choices env' outer' inner' e (one, SState (alias pl)))).
Proof.
  intros He Hp. destruct (tries_both env root m Hm One m' Hm' e pl He Hp) as [(cs & cs' & E & E')|F].
  - unfold Unnest.tries in E. unfold new_tries in E'. rewrite E, E'. destruct ds as [|d ds]; [right; constructor|].
    left. cbn. eauto 8.
  - right. unfold Unnest.tries in F at 1. unfold new_tries in F. induction ds as [|d ds IH]; [constructor|].
    cbn [bind_all flat_map]. apply Forall2_app; [|exact IH]. clear IH.
    induction F as [|c c' l l' M F IH]; [constructor|]. cbn [map]. constructor; [split; [reflexivity|exact M]|exact IH].
Qed.
Lemma r_attempt e pl : In e occasions -> In pl spots -> forall bs bs' v z z', like e pl bs bs' -> sim_at pl z z' ->
  covers sim (attempt cb env root outer e 0 bs v z) (attempt cb' env' one outer' e 0 bs' v z').
Proof.
  intros He Hp bs bs' v z z' [(d & d' & t & t' & -> & ->)|F] S.
  - cbn [attempt covers]. eexists. split; [reflexivity|]. destruct S as (S & _). destruct S as [S1 S2 S3 S4 S5 S6 S7 S8].
    rewrite S2. refine (mkSim (put_queue z (z_queue z ++ [(e, v)])) (put_queue z' (z_queue z ++ [(e, v)])) S1 eq_refl _ S4 S5 S6 S7 S8).
    cbn. intros e1 v1 Hi. apply in_app_or in Hi. destruct Hi as [Hi|[Hi|[]]]; [exact (S3 e1 v1 Hi)|injection Hi as <- <-; exact He].
  - revert v z z' S. induction F as [|[d c] [d' c'] bs bs' M F IH]; intros v z z' S; [cbn; destruct S; eauto|].
    destruct M as [E (x & o & Ec & Hx & Ec')]. cbn in E, Ec, Ec'. subst d' c c'. cbn [attempt snd] in *.
    eapply next_covers; [apply (r_ask e pl x o He Hp Hx); exact S|]. intros bv z1 z1' S1. destruct (fst bv); [|now apply IH].
    eapply next_covers; [apply (r_move e pl x o He Hp Hx); exact S1|]. intros _ z2 z2' S2.
    eapply next_covers; [apply (r_perform e pl x o He Hp Hx); exact S2|]. intros v3 z3 z3' S3. cbn. destruct S3. eauto.
Qed.
Lemma r_attempt_anonymous pl : In ENone occasions -> In pl spots -> forall bs bs' v z z', like ENone pl bs bs' -> sim_at pl z z' ->
  covers sim (attempt_anonymous cb env root outer 0 bs v z) (attempt_anonymous cb' env' one outer' 0 bs' v z').
Proof.
  intros He Hp bs bs' v z z' [(d & d' & t & t' & -> & ->)|F] S; [exact I|].
  revert v z z' S. induction F as [|[d c] [d' c'] bs bs' M F IH]; intros v z z' S; [cbn; destruct S; eauto|].
  destruct M as [E (x & o & Ec & Hx & Ec')]. cbn in E, Ec, Ec'. subst d' c c'. cbn [attempt_anonymous snd] in *.
  eapply next_covers; [apply (r_ask ENone pl x o He Hp Hx); exact S|]. intros bv z1 z1' S1. destruct (fst bv); [|now apply IH].
  eapply next_covers; [apply (r_move ENone pl x o He Hp Hx); exact S1|]. intros _ z2 z2' S2.
  eapply next_covers; [apply (r_perform ENone pl x o He Hp Hx); exact S2|]. intros v3 z3 z3' S3. cbn. destruct S3. eauto.
Qed.
Lemma like_nil e pl bs bs' : like e pl bs bs' -> (bs = [] <-> bs' = []).
Proof. intros [(d & d' & t & t' & -> & ->)|F]; [split; discriminate|]. inversion F; subst; split; congruence. Qed.
Lemma r_region e v z z' : In e occasions -> sim z z' ->
  covers sim (region cb env root outer inner e 0 v z) (region cb' env' one outer' inner' e 0 v z').
Proof.
  intros He S. unfold region. rewrite (new_event env root m Hm Or One m' Hm' e He). destruct (an_event outer inner e); [|exact I].
  destruct (sim_somewhere z z' S) as (pl & Sp). pose proof Sp as (_ & A1 & A2 & Hp & Hl). unfold spot_at. rewrite A1, A2. cbn [nth_error next].
  rewrite (s_deps _ _ S). pose proof (r_bind e pl (z_deps z) He Hp) as L. pose proof (like_nil _ _ _ _ L) as Nl.
  destruct (bind_all (z_deps z) (choices env outer inner e pl)) as [|b bs],
           (bind_all (z_deps z) (choices env' outer' inner' e (one, SState (alias pl)))) as [|b' bs'].
  - cbn. eauto.
  - destruct Nl as [Nl _]. discriminate (Nl eq_refl).
  - destruct Nl as [_ Nl]. discriminate (Nl eq_refl).
  - eapply next_covers; [apply (r_attempt e pl He Hp); [exact L|exact Sp]|]. intros tv z1 z1' S1. cbn. eauto.
Qed.
Lemma r_regions e none idle v z z' : In e occasions -> sim z z' ->
  covers sim (regions cb env root outer inner e 1 0 none idle v z) (regions cb' env' one outer' inner' e 1 0 none idle v z').
Proof.
  intros He S. cbn [regions]. eapply next_covers; [now apply r_region|]. intros tv z1 z1' S1. destruct (fst tv) as [[]|]; cbn; eauto.
Qed.
Lemma awake_one (z z' : mach V W) : awake env outer z = 1 /\ awake env' outer' z' = 1.
Proof.
  pose proof (old_width env root m Hm One) as Wd. pose proof (new_width env root m Hm Or One m' Hm') as Wd'. unfold awake. split.
  - now replace (Nat.ltb 1 (width env outer)) with false by (symmetry; apply Nat.ltb_ge; exact Wd).
  - now replace (Nat.ltb 1 (width env' outer')) with false by (symmetry; apply Nat.ltb_ge; exact Wd').
Qed.
Lemma r_pass v z z' : In ENone occasions -> sim z z' ->
  covers sim (pass cb env root outer inner 1 0 true v z) (pass cb' env' one outer' inner' 1 0 true v z').
Proof.
  intros He S. cbn [pass]. destruct (sim_somewhere z z' S) as (pl & Sp). pose proof Sp as (_ & A1 & A2 & Hp & Hl).
  unfold spot_at. rewrite A1, A2. cbn [nth_error next].
  rewrite (s_deps _ _ S). pose proof (r_bind ENone pl (z_deps z) He Hp) as L. pose proof (like_nil _ _ _ _ L) as Nl.
  destruct (bind_all (z_deps z) (choices env outer inner ENone pl)) as [|b bs],
           (bind_all (z_deps z) (choices env' outer' inner' ENone (one, SState (alias pl)))) as [|b' bs'].
  - cbn. eauto.
  - destruct Nl as [Nl _]. discriminate (Nl eq_refl).
  - destruct Nl as [_ Nl]. discriminate (Nl eq_refl).
  - eapply next_covers; [apply (r_attempt_anonymous pl He Hp); [exact L|exact Sp]|]. intros tv z1 z1' S1. cbn. eauto.
Qed.
Lemma r_passes fuel : In ENone occasions -> forall v z z', sim z z' ->
  covers sim (passes cb env root outer inner fuel v z) (passes cb' env' one outer' inner' fuel v z').
Proof.
  intros He. induction fuel as [|fuel IH]; intros v z z' S; [reflexivity|]. cbn [passes].
  destruct (awake_one z z') as [-> ->]. eapply next_covers; [now apply r_pass|]. intros ov z1 z1' S1.
  destruct (fst ov) as [[]|]; [cbn; eauto|now apply IH|cbn; eauto].
Qed.
Lemma r_propose fuel e v z z' : In e occasions -> sim z z' ->
  covers sim (propose cb env root outer inner vnone fuel e v z) (propose cb' env' one outer' inner' vnone fuel e v z').
Proof.
  intros He S. unfold propose. destruct (awake_one z z') as [-> ->]. eapply next_covers; [now apply r_regions|].
  intros pv z1 z1' S1. destruct (fst pv); try (cbn; eauto; fail). rewrite (new_anonymous env root m Hm Or One m' Hm').
  destruct (any_anonymous outer) eqn:An; [|cbn; eauto]. assert (Hn : In ENone occasions).
  { unfold any_anonymous in An. apply existsb_exists in An. destruct An as (x & Hx & E). destruct (ev_eq_dec (x_ev x) ENone) as [E'|]; [|discriminate].
    rewrite <- E'. now apply occasions_in. }
  eapply next_covers; [now apply r_passes|]. intros _ z2 z2' S2. cbn. eauto.
Qed.
Lemma r_complain e v z z' : sim z z' ->
  covers sim (complain cb env root e v z) (complain cb' env' one e v z').
Proof.
  intros S. unfold complain. rewrite lookup_one. cbn [cd_unexpected]. destruct (cd_unexpected (lookup env root)); [|cbn; eauto].
  destruct (sim_somewhere z z' S) as ([p s] & Sp). pose proof Sp as (_ & A1 & A2 & Hp & Hl). unfold checked_spot. rewrite A1, A2. cbn [nth_error next].
  rewrite (object_new z z' _ S Hl). destruct (has_object z s); [|exact I]. rewrite (s_first _ _ S).
  eapply next_covers; [apply (r_use (p, s)); [|exact Sp]|].
  - unfold meant. cbn [a_src a_ev a_dep]. unfold Unnest.alias. now rewrite (nth_pos place_eq_dec _ _ Hp).
  - intros bv z1 z1' [S1 _]. cbn. eauto.
Qed.
Lemma r_dispatch fuel n v z z' : sim z z' ->
  covers sim (dispatch cb env root outer inner vnone fuel (EUser n) v z) (dispatch cb' env' one outer' inner' vnone fuel (EUser n) v z').
Proof.
  intros S. unfold dispatch. destruct (an_event outer inner (EUser n)) eqn:A; [|exact I].
  assert (He : In (EUser n) occasions) by (apply occasions_user; [exact A|discriminate]).
  rewrite (new_event env root m Hm Or One m' Hm' _ He). eapply next_covers; [now apply r_propose|]. intros pv z1 z1' S1.
  destruct (fst pv); try (cbn; eauto; fail).
  - eapply next_covers; [now apply r_complain|]. intros _ z2 z2' S2. cbn. eauto.
  - rewrite (s_queue _ _ S1). pose proof (s_waiting _ _ S1) as Wt. destruct (z_queue z1) as [|[e1 v1] q] eqn:Q; [cbn; eauto|].
    eapply next_covers; [apply r_propose|].
    + exact (Wt e1 v1 (or_introl eq_refl)).
    + destruct S1 as [S1 S2 S3 S4 S5 S6 S7 S8].
      refine (mkSim (put_queue z1 q) (put_queue z1' q) S1 eq_refl _ S4 S5 S6 S7 S8). intros e2 v2 Hi. apply (Wt e2 v2). now right.
    + intros _ z2 z2' S2. cbn. eauto.
Qed.
(** The calls of the client: events of its own and new dependencies. *)
Lemma r_serve fuel k z z' : plain_call k = true -> sim z z' ->
  covers sim (serve cb env root outer inner vnone fuel k z) (serve cb' env' one outer' inner' vnone fuel k z').
Proof.
  intros K S. destruct k as [e v| | | |d|]; try discriminate; cbn [serve].
  - destruct e as [|n]; [discriminate|]. eapply next_covers; [now apply r_dispatch|]. intros b z1 z1' S1. cbn. eauto.
  - cbn. eexists. split; [reflexivity|]. destruct S as [S1 S2 S3 S4 S5 S6 S7 S8].
    refine (mkSim (put_deps z (d :: z_deps z)) (put_deps z' (d :: z_deps z')) S1 S2 S3 S4 _ S6 S7 S8). cbn. now rewrite S5.
Qed.
Lemma r_catch fuel k z z' : plain_call k = true -> sim z z' ->
  covers sim (serve_catch cb env root outer inner vnone fuel k z) (serve_catch cb' env' one outer' inner' vnone fuel k z').
Proof.
  intros K S. pose proof (r_serve fuel k z z' K S) as R. unfold serve_catch.
  destruct (serve cb env root outer inner vnone fuel k z) as [x z1|x z1|u|]; cbn [covers] in R.
  - destruct R as (z1' & -> & S1). cbn. eauto.
  - destruct R as (z1' & -> & S1). cbn. eauto.
  - exact I.
  - now rewrite R.
Qed.
Lemma r_serve_all fuel ks : forallb plain_call ks = true -> forall z z', sim z z' ->
  covers sim (serve_all cb env root outer inner vnone fuel ks z) (serve_all cb' env' one outer' inner' vnone fuel ks z').
Proof.
  induction ks as [|k ks IH]; intros K z z' S; cbn [serve_all]; [cbn; eauto|]. cbn [forallb] in K. apply andb_true_iff in K. destruct K as [K1 K2].
  eapply next_covers; [now apply r_catch|]. intros o z1 z1' S1. eapply next_covers; [now apply IH|]. intros os z2 z2' S2. cbn. eauto.
Qed.
Lemma alias_begins_live : In (SState (alias begins)) live'.
Proof.
  destruct (begins_spot env root m Hm Or One) as (Hb & e & x & o & He & Hx). exact (src_live e begins x o He Hb Hx).
Qed.
Lemma r_fresh d w : sim (fresh env root outer d w) (fresh env' one outer' d w).
Proof.
  pose proof (old_width env root m Hm One) as Wd. pose proof (new_width env root m Hm Or One m' Hm') as Wd'.
  destruct (begins_spot env root m Hm Or One) as (Hb & _).
  unfold fresh. split; cbn [z_at z_queue z_live z_deps z_first z_world z_trace]; try reflexivity.
  - exists begins. split; [exact Hb|]. split; [exact alias_begins_live|]. split.
    + rewrite (old_initial env root One). cbn [map length]. replace (width env outer - 1) with 0 by lia. cbn.
      reflexivity.
    + rewrite (new_initial env root m Hm Or One). cbn [map length]. replace (width env' outer' - 1) with 0 by lia. reflexivity.
  - intros e v [].
Qed.
Theorem r_interpret fuel d w ks : forallb plain_call ks = true ->
  covers sim (interpreter cb env root vnone fuel d w ks) (interpreter cb' env' one vnone fuel d w ks).
Proof.
  intros K. unfold interpreter, interpret. rewrite Or, (new_orderly env root m Hm One m' Hm'). unfold recount.
  pose proof (old_width env root m Hm One) as Wd. pose proof (new_width env root m Hm Or One m' Hm') as Wd'.
  replace (Nat.ltb 1 (width env outer)) with false by (symmetry; apply Nat.ltb_ge; exact Wd).
  replace (Nat.ltb 1 (width env' outer')) with false by (symmetry; apply Nat.ltb_ge; exact Wd'). cbn [next].
  apply r_serve_all; [exact K|apply r_fresh].
Qed.
End Run.
