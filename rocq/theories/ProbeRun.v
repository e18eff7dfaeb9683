(** The interpreter on a program and on the same program with lookers. *)

From Coq Require Import List Arith NArith Bool Lia.
From Verif Require Import Types Static Dispatch Runtime IndexFacts Spec Semantics Interp Probe ProbeFacts.
Import ListNotations.

Local Arguments proper : simpl never.

Section Run.
Variable watch : callee -> bool.
Variable ty : option nat -> option nat.
Variables env env' : cenv.
Variable root : cls.
Hypothesis H : watched watch ty env env' root.
Context {V W W' : Type}.
Variable view : W' -> W.
Variable cb : cbfun V W.
Variable cb' : cbfun V W'.
Hypothesis L : looks_only watch view cb cb'.
Variables flat flat' ints ints' : list xrow.
Hypothesis Hf : Forall2 (same_row watch ty) flat flat'.
Hypothesis Hi : Forall2 (same_row watch ty) ints ints'.
Variable vnone : V.
Notation sr := (same_row watch ty).

(** * What there is *)
Lemma r_encloses p : encloses flat' p = encloses flat p.
Proof. apply (both_existsb _ _ _ _ _ Hf). intros x x' Hx. now rewrite (sr_parent _ _ _ _ Hx). Qed.
Lemma r_known s : known root flat' s = known root flat s.
Proof.
  unfold known. f_equal. apply (both_existsb _ _ _ _ _ Hf). intros x x' Hx. now rewrite (sr_src _ _ _ _ Hx), (sr_tgt _ _ _ _ Hx).
Qed.
Lemma r_place pl : a_place root flat' pl = a_place root flat pl.
Proof. unfold a_place. now rewrite r_encloses, r_known. Qed.
Lemma r_event e : an_event flat' ints' e = an_event flat ints e.
Proof. apply (both_existsb _ _ _ _ _ (Forall2_app Hf Hi)). intros x x' Hx. now rewrite (sr_ev _ _ _ _ Hx). Qed.
Lemma r_history : any_history flat' = any_history flat.
Proof. apply (both_existsb _ _ _ _ _ Hf). intros x x' Hx. now rewrite (sr_tgt _ _ _ _ Hx). Qed.
Lemma r_anonymous : any_anonymous flat' = any_anonymous flat.
Proof. apply (both_existsb _ _ _ _ _ Hf). intros x x' Hx. now rewrite (sr_ev _ _ _ _ Hx). Qed.
Lemma r_width : width env' flat' = width env flat.
Proof.
  unfold width. f_equal. apply (both_map _ _ _ _ _ Hf). intros x x' Hx.
  now rewrite (sr_parent _ _ _ _ Hx), (same_initial _ _ _ _ _ H).
Qed.
Lemma r_first : first_state root flat' = first_state root flat.
Proof. destruct Hf as [|x x' l l' Hx _]; [reflexivity|]. cbn. now rewrite (sr_src _ _ _ _ Hx). Qed.
Lemma r_orderly : orderly env' root flat' ints' = orderly env root flat ints.
Proof.
  apply (both_forallb _ _ _ _ _ (Forall2_app Hf Hi)). intros x x' Hx. rewrite (same_offers _ _ _ _ _ H _ _ Hx).
  apply (both_forallb eq _ _ _ _ (both_same _)). intros po ? <-. apply r_place.
Qed.
Lemma r_land x x' : sr x x' -> land env' root flat' x' = land env root flat x.
Proof.
  intros Hx. unfold land. rewrite (same_target _ _ _ _ _ H _ _ Hx). destruct (target_place env x); [|reflexivity].
  unfold spot_of. now rewrite r_place.
Qed.

Definition same_cand (c c' : cand) : Prop :=
  match c, c' with
  | CDefer, CDefer => True
  | CRow x o, CRow x' o' => sr x x' /\ o' = o
  | _, _ => False
  end.
Lemma r_rows e pl l l' : Forall2 sr l l' ->
  Forall2 same_cand (rows_at (is_composite env) (children env) e pl l) (rows_at (is_composite env') (children env') e pl l').
Proof.
  intros Hl. unfold rows_at. apply (both_flat _ _ _ _ _ _ Hl). intros x x' Hx. rewrite (sr_ev _ _ _ _ Hx).
  destruct (ev_eq_dec (x_ev x) e); [|constructor]. rewrite (same_offers _ _ _ _ _ H _ _ Hx).
  apply (both_flat eq _ _ _ _ _ (both_same _)). intros po ? <-. destruct (place_eq_dec (fst po) pl); [|constructor].
  constructor; [split; [exact Hx|reflexivity]|constructor].
Qed.
Lemma r_choices e pl : Forall2 same_cand (choices env flat ints e pl) (choices env' flat' ints' e pl).
Proof.
  unfold choices, priority. apply Forall2_app; [|apply Forall2_app]; apply both_rev.
  - unfold defers_at. apply (both_flat _ _ _ _ _ _ Hf). intros x x' Hx. rewrite (same_source _ _ _ _ Hx).
    destruct (place_eq_dec (source_place x) pl); [|constructor]. rewrite (same_deferred _ _ _ _ _ H _ _ Hx).
    apply (both_flat eq _ _ _ _ _ (both_same _)). intros e' ? <-. destruct (ev_eq_dec e' e); repeat constructor.
  - apply r_rows. exact Hf.
  - apply r_rows. exact Hi.
Qed.
Definition same_bcand (b b' : bcand) : Prop := fst b' = fst b /\ same_cand (snd b) (snd b').
Lemma r_bind ds cs cs' : Forall2 same_cand cs cs' -> Forall2 same_bcand (bind_all ds cs) (bind_all ds cs').
Proof.
  intros Hc. unfold bind_all. apply (both_flat eq _ _ _ _ _ (both_same _)). intros d ? <-.
  apply (both_mapped _ _ _ _ _ _ Hc). intros c c' Hcc. now split.
Qed.

(** * Machines and answers *)

(** Region 0 is somewhere, unless there is only one region everywhere. *)
Definition anchored_region {U} (z : mach V U) : Prop :=
  1 < width env flat -> exists pl, nth_error (z_at z) 0 = Some (Some (At pl)).
Record sim (z : mach V W) (z' : mach V W') : Prop := mkSim {
  si_at : z_at z' = z_at z;
  si_mem : forall p, z_mem z' p = z_mem z p;
  si_queue : z_queue z' = z_queue z;
  si_regions : z_regions z' = z_regions z;
  si_live : z_live z' = z_live z;
  si_deps : z_deps z' = z_deps z;
  si_first : z_first z' = z_first z;
  si_world : view (z_world z') = z_world z;
  si_trace : proper watch (z_trace z') = z_trace z }.
Definition agrees_on {A} (Q : mach V W -> Prop) (a : ans V W A) (a' : ans V W' A) : Prop :=
  match a' with
  | Ok x z' => match a with Ok y z => x = y /\ sim z z' /\ Q z | _ => False end
  | Err x z' => match a with Err y z => x = y /\ sim z z' /\ Q z | _ => False end
  | Bad UBNull => True
  | Bad u => a = Bad u
  | Endless => a = Endless
  end.
Notation agrees := (agrees_on anchored_region).

Lemma next_agrees {A B} (a : ans V W A) a' (f : A -> mach V W -> ans V W B) f' :
  agrees a a' -> (forall x z z', sim z z' -> anchored_region z -> agrees (f x z) (f' x z')) ->
  agrees (next a f) (next a' f').
Proof.
  intros Ha E. destruct a' as [x z'|x z'|u|]; cbn [next agrees_on] in *.
  - destruct a as [y z|y z|u|]; try contradiction. destruct Ha as (-> & S & Q). apply E; assumption.
  - destruct a as [y z|y z|u|]; try contradiction. exact Ha.
  - destruct u; try exact I; subst a; reflexivity.
  - subst a. reflexivity.
Qed.
Lemma ok_agrees {A} (x : A) z z' : sim z z' -> anchored_region z -> agrees (Ok x z) (Ok x z').
Proof. cbn. auto. Qed.
Lemma err_agrees {A} e z z' : sim z z' -> anchored_region z -> agrees (Err (A := A) e z) (Err e z').
Proof. cbn. auto. Qed.
Lemma bad_agrees {A} u : agrees (Bad (A := A) u) (Bad u).
Proof. destruct u; cbn; auto. Qed.
Lemma same_anchor (z z1 : mach V W) : z_at z1 = z_at z -> anchored_region z -> anchored_region z1.
Proof. unfold anchored_region. now intros ->. Qed.

(** * User code *)
Lemma r_object z z' s : sim z z' -> has_object z' s = has_object z s.
Proof. intros S. unfold has_object. now rewrite (si_live _ _ S). Qed.
Lemma proper_app (a b : list (called V)) : proper watch (a ++ b) = proper watch a ++ proper watch b.
Proof. apply filter_app. Qed.
Lemma r_use c a v z z' : sim z z' -> anchored_region z -> watch c = false -> agrees (use cb c a v z) (use cb' c a v z').
Proof.
  intros S Q E. unfold use. pose proof (lo_other _ _ _ _ L c a v (z_world z') E) as O. rewrite (si_world _ _ S) in O.
  destruct (cb' c a v (z_world z')) as [b1 v1 w1|n1 v1 w1], (cb c a v (z_world z)) as [b2 v2 w2|n2 v2 w2]; try contradiction;
    destruct O as (-> & Ev & Ew); cbn [agrees_on].
  - split; [now rewrite Ev|]. split; [|exact (same_anchor _ _ eq_refl Q)]. destruct S. split; cbn; auto.
    rewrite proper_app, si_trace0. unfold proper. cbn. now rewrite E.
  - split; [reflexivity|]. split; [|exact (same_anchor _ _ eq_refl Q)]. destruct S. split; cbn; auto.
    rewrite proper_app, si_trace0. unfold proper. cbn. now rewrite E.
Qed.
Lemma r_look c a v z z' : sim z z' -> watch c = true -> exists b z1', use cb' c a v z' = Ok (b, v) z1' /\ sim z z1'.
Proof.
  intros S E. unfold use. destruct (lo_watch _ _ _ _ L c a v (z_world z') E) as (b & w1 & -> & Ew).
  do 2 eexists. split; [reflexivity|]. destruct S. split; cbn; auto; [now rewrite Ew|].
  rewrite proper_app, si_trace0. unfold proper. cbn. rewrite E. cbn. apply app_nil_r.
Qed.
Lemma guard_kept t b : watch (CGuard t b) = false.
Proof. destruct (watch (CGuard t b)) eqn:E; [|reflexivity]. apply (wa_kinds _ _ _ _ _ H) in E. destruct E. Qed.

Lemma r_ask e d x x' o v z z' : sr x x' -> sim z z' -> anchored_region z ->
  agrees (ask cb env e d x o v z) (ask cb' env' e d x' o v z').
Proof.
  intros Hx S Q. unfold ask. rewrite (sr_guard _ _ _ _ Hx), (sr_int _ _ _ _ Hx), (same_target_state _ _ _ _ _ H _ _ Hx), !(r_object z z' _ S).
  destruct (x_guard x) as [|t b]; [now apply ok_agrees|]. destruct (_ && _); [|exact I]. apply r_use; auto. apply guard_kept.
Qed.

Definition well_kept (p : prim) : Prop := watch (p_callee p) = true -> p_keep p = true /\ p_makes p = None.
Lemma r_effects e d o ps' : Forall well_kept ps' -> forall ps v z z', filter (kept watch) ps' = ps -> sim z z' -> anchored_region z ->
  agrees (act cb e d o ps v z) (act cb' e d o ps' v z').
Proof.
  induction 1 as [|p ps' Hp _ IH]; intros ps v z z' E S Q; cbn [filter] in E.
  - subst ps. now apply ok_agrees.
  - unfold kept at 1 in E. destruct (watch (p_callee p)) eqn:Ew; cbn [negb] in E.
    + cbn [act]. assert (T : match p_callee p, p_targ p with CReuse _, TObj t => has_object z' t | _, _ => true end = true).
      { pose proof (wa_kinds _ _ _ _ _ H _ Ew). destruct (p_callee p); tauto. }
      rewrite T. destruct (r_look (p_callee p) (mkArgs e o (p_targ p) d) v z z' S Ew) as (b & z1' & -> & S1).
      cbn [next]. destruct (Hp Ew) as [-> ->]. cbn [snd]. now apply IH.
    + subst ps. cbn [act].
      replace (match p_callee p, p_targ p with CReuse _, TObj t => has_object z' t | _, _ => true end)
        with (match p_callee p, p_targ p with CReuse _, TObj t => has_object z t | _, _ => true end)
        by (destruct (p_callee p); auto; destruct (p_targ p); auto; now rewrite (r_object z z' _ S)).
      destruct (match p_callee p, p_targ p with CReuse _, TObj t => has_object z t | _, _ => true end); [|apply bad_agrees].
      apply next_agrees; [now apply r_use|]. intros bv z1 z1' S1 Q1. apply IH; auto.
      * destruct (p_makes p); [|exact S1]. destruct S1. split; cbn; auto. now rewrite si_live0.
      * destruct (p_makes p); exact Q1.
Qed.
Lemma effects_well_kept x o : Forall well_kept (effects env' x o).
Proof.
  rewrite effects_prims. apply Forall_forall. intros p Hp. apply in_map_iff in Hp. destruct Hp as (c & <- & _).
  intros E. rewrite prim_of_callee in E. apply (wa_kinds _ _ _ _ _ H) in E. destruct c; try contradiction; split; reflexivity.
Qed.
Lemma r_perform e d x x' o v z z' : sr x x' -> sim z z' -> anchored_region z ->
  agrees (perform_all cb env e d x o v z) (perform_all cb' env' e d x' o v z').
Proof.
  intros Hx S Q. unfold perform_all. rewrite (sr_int _ _ _ _ Hx), (same_target_state _ _ _ _ _ H _ _ Hx), (same_constructible _ _ _ _ _ H), !(r_object z z' _ S).
  destruct (busy env' x') eqn:B'.
  - destruct (has_object z o && _) eqn:O; [|exact I].
    destruct (busy env x) eqn:B.
    + apply r_effects; auto; [apply effects_well_kept|]. now apply effects_kept with (1 := H).
    + assert (A : agrees (act cb e d o (effects env x o) v z) (act cb' e d o (effects env' x' o) v z')).
      { apply r_effects; auto; [apply effects_well_kept|]. now apply effects_kept with (1 := H). }
      rewrite (idle_effects _ _ o B) in A. exact A.
  - destruct (busy env x) eqn:B; [|now apply ok_agrees].
    rewrite (busy_kept _ _ _ _ _ H _ _ Hx B) in B'. discriminate.
Qed.

(** * Moving *)
Lemma r_spot r z z' : sim z z' -> anchored_region z -> agrees (spot_at r z) (spot_at r z').
Proof.
  intros S Q. unfold spot_at. rewrite (si_at _ _ S). destruct (nth_error (z_at z) r) as [[sp|]|]; try apply bad_agrees. now apply ok_agrees.
Qed.
Definition anywhere (z : mach V W) : Prop := True.
Lemma r_recount z z' : sim z z' -> agrees (recount env flat z) (recount env' flat' z').
Proof.
  intros S. unfold recount. rewrite r_width. unfold spot_at. rewrite (si_at _ _ S).
  destruct (Nat.ltb_spec 1 (width env flat)) as [Hw|Hw].
  - destruct (nth_error (z_at z) 0) as [[[|[p s]]|]|] eqn:E; cbn [next]; try apply bad_agrees.
    rewrite (same_initial _ _ _ _ _ H). apply ok_agrees; [destruct S; split; cbn; auto|]. intros _. cbn. eauto.
  - apply ok_agrees; [exact S|]. intros Hw'. lia.
Qed.
Lemma r_memorise r z z' : sim z z' -> anchored_region z -> agrees (memorise r z) (memorise r z').
Proof.
  intros S Q. unfold memorise. apply next_agrees; [now apply r_spot|]. intros sp0 z1 z1' S1 Q1.
  apply next_agrees; [now apply r_spot|]. intros sp z2 z2' S2 Q2. destruct sp0 as [|[p s]]; [apply bad_agrees|].
  rewrite (si_mem _ _ S2). destruct (Nat.ltb r (length (z_mem z2 p))); [|apply bad_agrees]. apply ok_agrees; [|exact Q2].
  destruct S2. split; cbn; auto. intros c. destruct (Nat.eq_dec c p); now rewrite ?si_mem0.
Qed.
Lemma r_go r sp z z' : sim z z' -> agrees (go_to env flat r sp z) (go_to env' flat' r sp z').
Proof.
  intros S. unfold go_to. rewrite (si_at _ _ S). destruct (Nat.ltb r (length (z_at z))); [|apply bad_agrees].
  apply r_recount. destruct S. split; cbn; auto; now rewrite si_at0.
Qed.
Lemma r_move r x x' z z' : sr x x' -> sim z z' -> anchored_region z ->
  agrees (move env root flat r x z) (move env' root flat' r x' z').
Proof.
  intros Hx S Q. unfold move. rewrite (sr_int _ _ _ _ Hx), r_history, (r_land _ _ Hx), (sr_tgt _ _ _ _ Hx).
  destruct (x_int x); [now apply ok_agrees|]. destruct (any_history flat); [|now apply r_go].
  apply next_agrees; [now apply r_memorise|]. intros _ z1 z1' S1 Q1. destruct (x_tgt x); try (now apply r_go).
  rewrite (si_mem _ _ S1). destruct (nth_error _ r); [now apply r_go|apply bad_agrees].
Qed.

(** * Trying *)
Lemma r_attempt e r bs bs' : Forall2 same_bcand bs bs' -> forall v z z', sim z z' -> anchored_region z ->
  agrees (attempt cb env root flat e r bs v z) (attempt cb' env' root flat' e r bs' v z').
Proof.
  induction 1 as [|[d c] [d' c'] bs bs' [Ed Ec] _ IH]; intros v z z' S Q; cbn [attempt]; [now apply ok_agrees|].
  cbn [fst snd] in Ed, Ec. subst d'. destruct c as [|x o], c' as [|x' o']; try contradiction.
  - apply ok_agrees; [|exact Q]. destruct S. split; cbn; auto. now rewrite si_queue0.
  - destruct Ec as [Hx ->]. apply next_agrees; [now apply r_ask|]. intros bv z1 z1' S1 Q1. destruct (fst bv); [|now apply IH].
    apply next_agrees; [now apply r_move|]. intros _ z2 z2' S2 Q2.
    apply next_agrees; [now apply r_perform|]. intros v3 z3 z3' S3 Q3. now apply ok_agrees.
Qed.
Lemma r_region e r v z z' : sim z z' -> anchored_region z ->
  agrees (region cb env root flat ints e r v z) (region cb' env' root flat' ints' e r v z').
Proof.
  intros S Q. unfold region. rewrite r_event. destruct (an_event flat ints e); [|apply bad_agrees].
  apply next_agrees; [now apply r_spot|]. intros sp z1 z1' S1 Q1. destruct sp as [|pl]; [apply bad_agrees|].
  rewrite (si_deps _ _ S1). pose proof (r_bind (z_deps z1) _ _ (r_choices e pl)) as B.
  destruct B as [|b b' bs bs' Hb B]; [now apply ok_agrees|].
  apply next_agrees; [apply r_attempt; [now constructor|assumption..]|]. intros tv z2 z2' S2 Q2. now apply ok_agrees.
Qed.
Lemma r_regions e n : forall r none idle v z z', sim z z' -> anchored_region z ->
  agrees (regions cb env root flat ints e n r none idle v z) (regions cb' env' root flat' ints' e n r none idle v z').
Proof.
  induction n as [|n IH]; intros r none idle v z z' S Q; cbn [regions]; [now apply ok_agrees|].
  apply next_agrees; [now apply r_region|]. intros tv z1 z1' S1 Q1. destruct (fst tv) as [[]|]; auto. now apply ok_agrees.
Qed.
Lemma r_awake z z' : sim z z' -> awake env' flat' z' = awake env flat z.
Proof. intros S. unfold awake. now rewrite r_width, (si_regions _ _ S). Qed.
Lemma r_attempt_anonymous r bs bs' : Forall2 same_bcand bs bs' -> forall v z z', sim z z' -> anchored_region z ->
  agrees (attempt_anonymous cb env root flat r bs v z) (attempt_anonymous cb' env' root flat' r bs' v z').
Proof.
  induction 1 as [|[d c] [d' c'] bs bs' [Ed Ec] _ IH]; intros v z z' S Q; cbn [attempt_anonymous]; [now apply ok_agrees|].
  cbn [fst snd] in Ed, Ec. subst d'. destruct c as [|x o], c' as [|x' o']; try contradiction.
  - exact I.
  - destruct Ec as [Hx ->]. apply next_agrees; [now apply r_ask|]. intros bv z1 z1' S1 Q1. destruct (fst bv); [|now apply IH].
    apply next_agrees; [now apply r_move|]. intros _ z2 z2' S2 Q2.
    apply next_agrees; [now apply r_perform|]. intros v3 z3 z3' S3 Q3. now apply ok_agrees.
Qed.
Lemma r_pass n : forall r none v z z', sim z z' -> anchored_region z ->
  agrees (pass cb env root flat ints n r none v z) (pass cb' env' root flat' ints' n r none v z').
Proof.
  induction n as [|n IH]; intros r none v z z' S Q; cbn [pass]; [now apply ok_agrees|].
  apply next_agrees; [now apply r_spot|]. intros sp z1 z1' S1 Q1. destruct sp as [|pl]; [apply bad_agrees|].
  rewrite (si_deps _ _ S1). pose proof (r_bind (z_deps z1) _ _ (r_choices ENone pl)) as B.
  destruct B as [|b b' bs bs' Hb B]; [now apply ok_agrees|].
  apply next_agrees; [apply r_attempt_anonymous; [now constructor|assumption..]|]. intros tv z2 z2' S2 Q2. now apply IH.
Qed.
Lemma r_passes fuel : forall v z z', sim z z' -> anchored_region z ->
  agrees (passes cb env root flat ints fuel v z) (passes cb' env' root flat' ints' fuel v z').
Proof.
  induction fuel as [|n IH]; intros v z z' S Q; cbn [passes]; [reflexivity|]. rewrite (r_awake z z' S).
  apply next_agrees; [now apply r_pass|]. intros ov z1 z1' S1 Q1. destruct (fst ov) as [[]|]; auto; now apply ok_agrees.
Qed.

(** * Events *)
Lemma r_propose fuel e v z z' : sim z z' -> anchored_region z ->
  agrees (propose cb env root flat ints vnone fuel e v z) (propose cb' env' root flat' ints' vnone fuel e v z').
Proof.
  intros S Q. unfold propose. rewrite (r_awake z z' S), r_anonymous. apply next_agrees; [now apply r_regions|].
  intros pv z1 z1' S1 Q1. destruct (fst pv); try (now apply ok_agrees). destruct (any_anonymous flat); [|now apply ok_agrees].
  apply next_agrees; [now apply r_passes|]. intros _ z2 z2' S2 Q2. now apply ok_agrees.
Qed.
(** An event that is nowhere anything to try for leaves everything; region 0 was looked at. *)
Lemma regions_idle e n : forall r none idle v z v1 z1,
  regions cb env root flat ints e n r none idle v z = Ok (PInvalid, v1) z1 ->
  idle = true /\ z1 = z /\ (n <> 0 -> exists pl, nth_error (z_at z) r = Some (Some (At pl))).
Proof.
  induction n as [|n IH]; intros r none idle v z v1 z1; cbn [regions].
  - destruct idle; [|destruct none; discriminate]. intros [= <- <-]. repeat split; auto. now intros [].
  - unfold region at 1. destruct (an_event flat ints e); [|discriminate]. unfold spot_at.
    destruct (nth_error (z_at z) r) as [[[|pl]|]|] eqn:E; cbn [next]; try discriminate.
    destruct (bind_all _ _) as [|b bs]; cbn [next fst snd].
    + intros R. apply IH in R. destruct R as (-> & -> & _). repeat split; auto. intros _. eauto.
    + destruct (attempt cb env root flat e r (b :: bs) v z) as [[t tv] z2|x z2|u|]; cbn [next fst snd]; try discriminate.
      destruct t; cbn; try discriminate; intros R; apply IH in R; destruct R as (R & _); discriminate.
Qed.
Lemma r_complain e v z z' : sim z z' -> anchored_region z -> (exists pl, nth_error (z_at z) 0 = Some (Some (At pl))) ->
  agrees (next (complain cb env root e v z) (fun _ z => Ok false z)) (next (complain cb' env' root e v z') (fun _ z => Ok false z)).
Proof.
  intros S Q (pl & E). unfold complain, checked_spot. rewrite (si_at _ _ S), E. cbn [next]. destruct pl as [p s].
  pose proof (wa_root _ _ _ _ _ H) as R. unfold watched_member in R. destruct (cd_unexpected (lookup env root)).
  - destruct R as [-> Ew]. rewrite (r_object z z' s S). destruct (has_object z s); [|exact I]. rewrite (si_first _ _ S).
    apply next_agrees; [apply next_agrees; [now apply r_use|]|]; intros; now apply ok_agrees.
  - destruct (cd_unexpected (lookup env' root)); [|now apply ok_agrees]. destruct (has_object z' s); [|exact I].
    destruct (r_look CHandler (mkArgs e s TNone (z_first z')) v z z' S (R eq_refl)) as (b & z1' & -> & S1). now apply ok_agrees.
Qed.
Lemma propose_idle fuel e v z v1 z1 : anchored_region z ->
  propose cb env root flat ints vnone fuel e v z = Ok (PInvalid, v1) z1 ->
  exists pl, nth_error (z_at z1) 0 = Some (Some (At pl)).
Proof.
  intros Q. unfold propose.
  destruct (regions cb env root flat ints e (awake env flat z) 0 true true v z) as [[p v2] z2|x z2|u|] eqn:R; cbn [next fst]; try discriminate.
  destruct p; try discriminate.
  - intros [= <- <-]. apply regions_idle in R. destruct R as (_ & -> & R).
    destruct (Nat.ltb_spec 1 (width env flat)) as [Hw|Hw]; [exact (Q Hw)|]. apply R. unfold awake.
    apply Nat.ltb_ge in Hw. rewrite Hw. discriminate.
  - destruct (any_anonymous flat); [|discriminate]. destruct (passes _ _ _ _ _ _ _ _); cbn [next]; discriminate.
Qed.
Lemma r_dispatch fuel e v z z' : sim z z' -> anchored_region z ->
  agrees (dispatch cb env root flat ints vnone fuel e v z) (dispatch cb' env' root flat' ints' vnone fuel e v z').
Proof.
  intros S Q. unfold dispatch. rewrite r_event. destruct (an_event flat ints e); [|apply bad_agrees].
  pose proof (r_propose fuel e v z z' S Q) as P. pose proof (propose_idle fuel e v z) as I.
  destruct (propose cb' env' root flat' ints' vnone fuel e v z') as [[p' v'] z1'|x z1'|u|] eqn:P'; cbn [agrees_on next] in *.
  - destruct (propose cb env root flat ints vnone fuel e v z) as [[p v1] z1|x z1|u|]; try contradiction.
    destruct P as (E & S1 & Q1). injection E as -> ->. cbn [next fst snd].
    destruct p; try (now apply ok_agrees).
    + apply r_complain; auto. now apply (I v1 z1 Q).
    + rewrite (si_queue _ _ S1). destruct (z_queue z1) as [|[e1 v2] q]; [now apply ok_agrees|].
      apply next_agrees.
      * apply r_propose; [|exact Q1]. destruct S1. split; cbn; auto.
      * intros _ z2 z2' S2 Q2. now apply ok_agrees.
  - destruct (propose cb env root flat ints vnone fuel e v z) as [[p v1] z1|y z1|u|]; try contradiction. exact P.
  - destruct u; try exact Logic.I; rewrite P; reflexivity.
  - rewrite P. reflexivity.
Qed.

(** * Calls *)
Lemma r_report n : forall r z z', sim z z' -> anchored_region z -> agrees (report n r z) (report n r z').
Proof.
  induction n as [|n IH]; intros r z z' S Q; cbn [report]; [now apply ok_agrees|].
  apply next_agrees; [now apply r_spot|]. intros sp z1 z1' S1 Q1. apply next_agrees; [now apply r_spot|]. intros sp0 z2 z2' S2 Q2.
  apply next_agrees; [now apply IH|]. intros l z3 z3' S3 Q3. now apply ok_agrees.
Qed.
Lemma r_encloser p sp : encloser_is flat' p sp = encloser_is flat p sp.
Proof. destruct sp as [|[q s]]; cbn [encloser_is]; [now rewrite r_encloses|reflexivity]. Qed.
Lemma r_state s sp : state_is root flat' s sp = state_is root flat s sp.
Proof. destruct sp as [|[q t]]; cbn [state_is]; [now rewrite r_first|reflexivity]. Qed.
Lemma nth_set_0 (r : nat) (pl : place) (l : list (option spot)) :
  (exists q, nth_error l 0 = Some (Some (At q))) -> exists q, nth_error (set_nth r (Some (At pl)) l) 0 = Some (Some (At q)).
Proof. destruct l as [|a l], r as [|r]; cbn; intros (q & E); try discriminate; eauto. Qed.
Lemma r_serve fuel k z z' : sim z z' -> anchored_region z ->
  agrees (serve cb env root flat ints vnone fuel k z) (serve cb' env' root flat' ints' vnone fuel k z').
Proof.
  intros S Q. destruct k as [e v|r p s|p|r p s|d|]; cbn [serve].
  - apply next_agrees; [now apply r_dispatch|]. intros b z1 z1' S1 Q1. now apply ok_agrees.
  - apply next_agrees; [now apply r_spot|]. intros sp0 z1 z1' S1 Q1. rewrite r_encloser.
    destruct (encloser_is flat p sp0); [|now apply ok_agrees]. unfold checked_spot. rewrite (si_at _ _ S1).
    destruct (nth_error (z_at z1) (narrow r)) as [[sp|]|]; cbn [next]; [|apply bad_agrees|now apply err_agrees].
    rewrite r_state. now apply ok_agrees.
  - apply next_agrees; [now apply r_spot|]. intros sp0 z1 z1' S1 Q1. rewrite r_encloser. now apply ok_agrees.
  - rewrite r_place, (si_at _ _ S). destruct (a_place root flat (p, s)); [|apply bad_agrees].
    destruct (Nat.ltb (narrow r) (length (z_at z))); [|now apply err_agrees]. apply ok_agrees.
    + destruct S. split; cbn; auto; now rewrite si_at0.
    + intros Hw. cbn. apply nth_set_0, Q, Hw.
  - apply ok_agrees; [|exact Q]. destruct S. split; cbn; auto; now rewrite si_deps0.
  - rewrite (r_awake z z' S). apply next_agrees; [now apply r_report|]. intros l z1 z1' S1 Q1. now apply ok_agrees.
Qed.
Lemma r_catch fuel k z z' : sim z z' -> anchored_region z ->
  agrees (serve_catch cb env root flat ints vnone fuel k z) (serve_catch cb' env' root flat' ints' vnone fuel k z').
Proof.
  intros S Q. unfold serve_catch. pose proof (r_serve fuel k z z' S Q) as P.
  destruct (serve cb' env' root flat' ints' vnone fuel k z') as [o z1'|x z1'|u|]; cbn [agrees_on] in *.
  - destruct (serve cb env root flat ints vnone fuel k z); tauto.
  - destruct (serve cb env root flat ints vnone fuel k z); try contradiction. destruct P as (-> & P). auto.
  - destruct u; try exact I; rewrite P; reflexivity.
  - rewrite P. reflexivity.
Qed.
Lemma r_all fuel ks : forall z z', sim z z' -> anchored_region z ->
  agrees (serve_all cb env root flat ints vnone fuel ks z) (serve_all cb' env' root flat' ints' vnone fuel ks z').
Proof.
  induction ks as [|k ks IH]; intros z z' S Q; cbn [serve_all]; [now apply ok_agrees|].
  apply next_agrees; [now apply r_catch|]. intros o z1 z1' S1 Q1. apply next_agrees; [now apply IH|].
  intros os z2 z2' S2 Q2. now apply ok_agrees.
Qed.
Lemma r_fresh d w : sim (fresh env root flat d (view w)) (fresh env' root flat' d w).
Proof.
  assert (E : forall p, initial_states env' p = initial_states env p) by apply (same_initial _ _ _ _ _ H).
  unfold fresh. rewrite r_width, !E, !map_length. split; cbn; auto; [intros p; now rewrite E|].
  rewrite (both_flat_map _ (fun x => [unmarked (x_src x); x_tgt x]) (fun x => [unmarked (x_src x); x_tgt x]) _ _ Hf)
    by (intros x x' Hx; now rewrite (sr_src _ _ _ _ Hx), (sr_tgt _ _ _ _ Hx)).
  apply filter_ext. intros s. apply (same_constructible _ _ _ _ _ H).
Qed.
Lemma r_interpret fuel d w ks :
  agrees (interpret cb env root flat ints vnone fuel d (view w) ks) (interpret cb' env' root flat' ints' vnone fuel d w ks).
Proof.
  unfold interpret. rewrite r_orderly. destruct (orderly env root flat ints); [|apply bad_agrees].
  apply next_agrees; [apply r_recount, r_fresh|]. intros _ z z' S Q. now apply r_all.
Qed.
End Run.
