(** Lemmas behind the properties of event processing. *)

From Coq Require Import List Arith NArith Bool Lia.
From Verif Require Import Types Static Dispatch Runtime ListFacts IndexFacts Spec
  DispatchFacts FlattenFacts Semantics RefineFacts StaticFacts TermFacts Reach ReachFacts TableFacts
  QueryFacts.
Import ListNotations.

(** * Scanning candidates *)
Section Scan.
Context {V W : Type}.
Variable cb : cbfun V W.
Variable m : machine.
Variable e : ev.

Lemma scan_pick bs v w ks d x o v' w' : scan cb m e bs v w ks (VPick d x o) v' w' ->
  exists pre rest k1 k2 v1 w1, bs = pre ++ (d, CRow x o) :: rest /\ ks = k1 ++ k2 /\
    scan cb m e pre v w k1 VNone v1 w1 /\ accepts cb m e d x o v1 w1 k2 v' w'.
Proof.
  remember (VPick d x o) as vd. intros H. revert Heqvd.
  induction H; intros Heq; try discriminate.
  - inversion Heq; subst. exists [], bs, [], [], v, w. repeat split; constructor; assumption.
  - inversion Heq; subst. eexists [], bs, [], _, v, w. repeat split; [constructor|eapply acc_guard; eauto].
  - destruct (IHscan Heq) as (pre & rest & k1 & k2 & v2 & w2 & -> & -> & Hs & Ha).
    eexists (_ :: pre), rest, (_ :: k1), k2, v2, w2. repeat split; [|exact Ha].
    eapply scan_no; eauto.
Qed.

Lemma scan_deferral bs v w ks v' w' : scan cb m e bs v w ks VDefer v' w' ->
  exists pre d rest, bs = pre ++ (d, CDefer) :: rest /\ scan cb m e pre v w ks VNone v' w'.
Proof.
  remember VDefer as vd. intros H. revert Heqvd.
  induction H; intros Heq; try discriminate.
  - exists [], d, bs. split; [reflexivity|constructor].
  - destruct (IHscan Heq) as (pre & d' & rest & -> & Hs). exists ((d, CRow x o) :: pre), d', rest.
    split; [reflexivity|]. eapply scan_no; eauto.
Qed.

Lemma scan_thrower bs v w ks n v' w' : scan cb m e bs v w ks (VRaise n) v' w' ->
  exists pre d x o rest k1 ty val v2, bs = pre ++ (d, CRow x o) :: rest /\ x_guard x = Guard ty val /\
    ks = k1 ++ [mkCall (CGuard ty val) (guard_args m e d x o) v'] /\
    exists w1, scan cb m e pre v w k1 VNone v' w1 /\
      cb (CGuard ty val) (guard_args m e d x o) v' w1 = Raise n v2 w'.
Proof.
  remember (VRaise n) as vd. intros H. revert Heqvd.
  induction H; intros Heq; try discriminate.
  - destruct (IHscan Heq) as (pre & d' & x' & o' & rest & k1 & ty' & val' & v2 & -> & Hg & -> & w2 & Hs & Hcb).
    eexists ((d, CRow x o) :: pre), d', x', o', rest, (_ :: k1), ty', val', v2.
    split; [reflexivity|]. split; [exact Hg|]. split; [reflexivity|]. exists w2. split; [eapply scan_no; eauto|exact Hcb].
  - inversion Heq; subst. eexists [], d, x, o, bs, [], ty, val, v'. repeat split; [assumption|].
    exists w. split; [constructor|assumption].
Qed.

(** A refusing scan asks every candidate once. *)
Lemma scan_none_asks bs v w ks v' w' : scan cb m e bs v w ks VNone v' w' ->
  map signature ks = flat_map (asks m e) bs /\
  forall b, In b bs -> exists x o ty val, snd b = CRow x o /\ x_guard x = Guard ty val.
Proof.
  remember VNone as vd. intros H. revert Heqvd.
  induction H; intros Heq; try discriminate.
  - split; [reflexivity|intros ? []].
  - destruct (IHscan Heq) as [E Hall]. split.
    + cbn [map flat_map]. rewrite E. unfold asks at 2; cbn [snd fst]. rewrite H. reflexivity.
    + intros b [<-|Hb]; [|auto]. exists x, o, ty, val. auto.
Qed.

Lemma scan_guards bs v w ks vd v' w' : scan cb m e bs v w ks vd v' w' ->
  forall k, In k ks -> exists d x o ty val, In (d, CRow x o) bs /\ x_guard x = Guard ty val /\
    signature k = (CGuard ty val, guard_args m e d x o).
Proof.
  intros H. induction H; intros k Hk; try (destruct Hk as [<-|[]] || destruct Hk; fail).
  - destruct Hk as [<-|[]]. exists d, x, o, ty, val. repeat split; auto. now left.
  - destruct Hk as [<-|Hk].
    + exists d, x, o, ty, val. repeat split; auto. now left.
    + destruct (IHscan k Hk) as (d' & x' & o' & ty' & val' & Hin & Hg & E).
      exists d', x', o', ty', val'. repeat split; auto. now right.
  - destruct Hk as [<-|[]]. exists d, x, o, ty, val. repeat split; auto. now left.
Qed.

Lemma scan_det bs v w ks vd v' w' : scan cb m e bs v w ks vd v' w' ->
  forall ks2 vd2 v2 w2, scan cb m e bs v w ks2 vd2 v2 w2 -> ks2 = ks /\ vd2 = vd /\ v2 = v' /\ w2 = w'.
Proof.
  intros H. induction H; intros ks2 vd2 v2 w2 H2; inversion H2; subst; auto; try congruence;
    repeat match goal with A : x_guard ?y = _, B : x_guard ?y = _ |- _ => rewrite A in B; inversion B; subst; clear B end;
    match goal with A : cb ?c ?a ?v ?w = _, B : cb ?c ?a ?v ?w = _ |- _ => rewrite A in B; inversion B; subst; clear B end;
    auto.
  match goal with A : scan _ _ _ _ _ _ _ _ _ _ |- _ => destruct (IHscan _ _ _ _ A) as (-> & -> & -> & ->) end.
  auto.
Qed.
End Scan.

(** * Effects of a row *)
Lemma body_calls_callees env x o : forall b e d,
  map (fun p => (p_callee p, mkArgs e o (p_targ p) d)) (body_calls (action_target env x o) (target_state env x) b) =
  map (fun c => (c, call_args env e d x o c)) (callees b).
Proof.
  induction b as [f|f|f|l IH] using abody_ind2; intros e d; try reflexivity.
  cbn [body_calls callees]. induction IH as [|b l Hb Hl IHl]; [reflexivity|].
  cbn [flat_map]. rewrite !map_app, Hb. f_equal. exact IHl.
Qed.

Lemma effects_signature env x o e d :
  map (fun p => (p_callee p, mkArgs e o (p_targ p) d)) (effects env x o) = row_signature env e d x o.
Proof.
  assert (P : forall cs, (forall c, In c cs -> match c with CExit _ | CEntry _ => True | _ => False end) ->
    map (fun p => (p_callee p, mkArgs e o (p_targ p) d)) (map (fun c => mkPrim c (action_target env x o) true None) cs) =
    map (fun c => (c, call_args env e d x o c)) cs).
  { intros cs H. rewrite map_map. apply map_ext_in. intros c Hc. specialize (H c Hc).
    destruct c; try contradiction; reflexivity. }
  unfold effects, row_signature, row_calls. rewrite !map_app, !P.
  - f_equal. f_equal. unfold action_calls. destruct (x_act x) as [|ty b]; [reflexivity|]. apply body_calls_callees.
  - unfold initial_entry_call. intros c. destruct (x_tgt x) as [c0| | | | |]; try (intros []; fail).
    destruct (if is_composite env c0 then _ else _) as [[i| | | | |]|]; try (intros []; fail).
    destruct (has_entry env i); [intros [<-|[]]; exact I|intros []].
  - unfold entry_call. intros c. destruct (x_int x); [intros []|]. destruct (x_tgt x) as [c0| | | | |]; try (intros []; fail).
    destruct (has_entry env c0); [intros [<-|[]]; exact I|intros []].
  - unfold exit_call. intros c. destruct (x_int x); [intros []|]. destruct (x_src x) as [c0| | | |? p ?|]; try (intros []; fail).
    + destruct (has_exit env c0); [intros [<-|[]]; exact I|intros []].
    + destruct (has_exit env p); [intros [<-|[]]; exact I|intros []].
Qed.

Section Perform.
Context {V W : Type}.
Variable cb : cbfun V W.

Lemma perform_calls e d o ps v live w ks n v' live' w' :
  perform cb e d o ps v live w ks n v' live' w' ->
  map signature ks = firstn (length ks) (map (fun p => (p_callee p, mkArgs e o (p_targ p) d)) ps) /\
  match n with
  | None => length ks = length ps
  | Some k => exists c a u v2 w0, cb c a u w0 = Raise k v2 w' /\ 0 < length ks <= length ps /\
                nth_error ks (pred (length ks)) = Some (mkCall c a u)
  end.
Proof.
  intros H. induction H.
  - split; reflexivity.
  - destruct IHperform as [IH1 IH2]. split; [cbn [map length firstn]; now rewrite IH1|].
    destruct n as [k|]; cbn [length]; [|now rewrite IH2].
    destruct IH2 as (c & a & u & v2 & w0 & E & Hl & Hn). exists c, a, u, v2, w0.
    split; [exact E|]. split; [lia|]. destruct (length ks) as [|l]; [lia|]. exact Hn.
  - split; [reflexivity|]. do 5 eexists. split; [exact H|]. cbn. split; [lia|reflexivity].
Qed.

Lemma perform_det e d o ps v live w ks n v' live' w' :
  perform cb e d o ps v live w ks n v' live' w' ->
  forall ks2 n2 v2 live2 w2, perform cb e d o ps v live w ks2 n2 v2 live2 w2 ->
  ks2 = ks /\ n2 = n /\ v2 = v' /\ live2 = live' /\ w2 = w'.
Proof.
  intros H. induction H; intros ks2 n2 v2 live2 w2 H2; inversion H2; subst; auto;
  match goal with A : cb ?c ?a ?v ?w = _, B : cb ?c ?a ?v ?w = _ |- _ => rewrite A in B; inversion B; subst; clear B end;
  auto.
  match goal with A : perform _ _ _ _ _ _ _ _ _ _ _ _ _ |- _ => destruct (IHperform _ _ _ _ _ A) as (-> & -> & -> & -> & ->) end.
  auto.
Qed.
End Perform.

(** * Executing a row, handling a region *)
Section Step.
Context {V W : Type}.
Variable cb : cbfun V W.
Variable m : machine.
Notation env := (mc_env m).
Notation st := (rt V W).

Lemma moves_det r x (s s1 s2 : st) : moves m r x s s1 -> moves m r x s s2 -> s2 = s1.
Proof.
  intros H H2. destruct H; inversion H2; subst; try congruence;
    exfalso; match goal with A : is_history _ = false, B : x_tgt _ = SHistory _ _ |- _ =>
      rewrite B in A; discriminate end.
Qed.

Lemma executes_det r e d x o v s n v' s' : executes cb m r e d x o v s n v' s' ->
  forall n2 v2 s2, executes cb m r e d x o v s n2 v2 s2 -> n2 = n /\ v2 = v' /\ s2 = s'.
Proof.
  intros [v0 s0 s1 ks n0 v1 l1 w1 Hm Hp] n2 v2 s2 H. inversion H; subst.
  match goal with A : moves _ _ _ _ _ |- _ => rewrite (moves_det _ _ _ _ _ Hm A) in * end.
  match goal with A : perform _ _ _ _ _ _ _ _ _ n2 _ _ _ |- _ =>
    destruct (perform_det _ _ _ _ _ _ _ _ _ _ _ _ _ Hp _ _ _ _ _ A) as (-> & -> & -> & -> & ->) end.
  auto.
Qed.

Variable ds : list dep.

Lemma region_step_det r e v s vd v' s' : region_step cb m ds r e v s vd v' s' ->
  forall vd2 v2 s2, region_step cb m ds r e v s vd2 v2 s2 -> vd2 = vd /\ v2 = v' /\ s2 = s'.
Proof.
  intros H vd2 v2 s2 H2. destruct H; inversion H2; subst;
  match goal with A : at_place m ?s r = Some _, B : at_place m ?s r = Some _ |- _ =>
    rewrite A in B; inversion B; subst; clear B end;
  repeat match goal with A : scan _ _ _ _ _ _ _ _ _ _ , B : bound _ _ _ _ = [] |- _ =>
    rewrite B in A; inversion A; subst end;
  auto; try congruence;
  match goal with A : scan _ _ _ _ _ _ _ _ _ _, B : scan _ _ _ _ _ _ _ _ _ _ |- _ =>
    destruct (scan_det _ _ _ _ _ _ _ _ _ _ A _ _ _ _ B) as (E1 & E2 & E3 & E4); try discriminate;
    inversion E2; subst end; auto;
  match goal with A : executes _ _ _ _ _ _ _ _ _ _ _ _, B : executes _ _ _ _ _ _ _ _ _ _ _ _ |- _ =>
    destruct (executes_det _ _ _ _ _ _ _ _ _ _ A _ _ _ B) as (E5 & E6 & E7); try discriminate; inversion E5; subst end; auto.
Qed.

Lemma takes_det r e v s d x o v1 s1 d' x' o' v1' s1' :
  takes cb m ds r e v s d x o v1 s1 -> takes cb m ds r e v s d' x' o' v1' s1' ->
  d' = d /\ x' = x /\ o' = o /\ v1' = v1 /\ s1' = s1.
Proof.
  intros (pl & ks & w1 & P & Sc & ->) (pl' & ks' & w1' & P' & Sc' & ->).
  rewrite P in P'; inversion P'; subst pl'.
  destruct (scan_det _ _ _ _ _ _ _ _ _ _ Sc _ _ _ _ Sc') as (-> & E & -> & ->). inversion E; auto.
Qed.

Lemma executes_calls r e d x o v s n v' s' : executes cb m r e d x o v s n v' s' ->
  exists ks, rt_trace s' = rt_trace s ++ ks /\
    map signature ks = firstn (length ks) (row_signature env e d x o) /\
    match n with
    | None => map signature ks = row_signature env e d x o
    | Some k => 0 < length ks <= length (row_calls env x)
    end.
Proof.
  intros [v0 s0 s1 ks n0 v1 l1 w1 Hm Hp]. destruct (moves_rest _ _ _ _ _ Hm) as (_ & _ & _ & Ht & _).
  exists ks. split; [cbn; now rewrite Ht|].
  destruct (perform_calls _ _ _ _ _ _ _ _ _ _ _ _ _ Hp) as [P1 P2]. rewrite effects_signature in P1.
  assert (L : length (effects env x o) = length (row_calls env x)).
  { rewrite <- (map_length (fun p => (p_callee p, mkArgs e o (p_targ p) d))), effects_signature.
    unfold row_signature. apply map_length. }
  split; [exact P1|]. destruct n0 as [k|].
  - destruct P2 as (c & a & u & v2 & w0' & _ & Hl & _). rewrite <- L. exact Hl.
  - rewrite P1, P2, L. unfold row_signature. rewrite <- (map_length (fun c => (c, call_args env e d x o c)) (row_calls env x)).
    apply firstn_all.
Qed.

Lemma set_nth_hist_other (l : list (list N)) p l0 k : k <> p -> nth_error (set_nth p l0 l) k = nth_error l k.
Proof. intros H. now apply nth_set_other. Qed.

Lemma remember_history r (s : st) p k :
  (forall p0 q0, at_place m s 0 = Some (p0, q0) -> parent_pos m p <> parent_pos m p0 \/ k <> r) ->
  history_of m (remember m r s) p k = history_of m s p k.
Proof.
  intros H. unfold remember. destruct (at_place m s 0) as [[p0 q0]|] eqn:E0; [|reflexivity].
  destruct (nth_error (rt_cur s) r) as [[c|]|]; try reflexivity.
  destruct (nth_error (rt_hist s) (parent_pos m p0)) as [l|] eqn:El; [|reflexivity].
  unfold history_of. cbn [rt_hist with_hist]. specialize (H p0 q0 eq_refl).
  destruct (Nat.eq_dec (parent_pos m p) (parent_pos m p0)) as [E|Hn].
  - destruct H as [H|H]; [contradiction|]. rewrite E, El, nth_set_same; [|apply nth_error_Some; congruence].
    now apply nth_set_other.
  - now rewrite nth_set_other.
Qed.

(** What a move leaves alone. *)
Lemma moves_frame2 r x (s s' : st) : moves m r x s s' ->
  rt_queue s' = rt_queue s /\ rt_live s' = rt_live s /\ rt_world s' = rt_world s /\ rt_trace s' = rt_trace s /\
  (forall k, k <> r -> nth_error (rt_cur s') k = nth_error (rt_cur s) k) /\
  (forall p k, (forall p0 q0, at_place m s 0 = Some (p0, q0) -> parent_pos m p <> parent_pos m p0 \/ k <> r) ->
     history_of m s' p k = history_of m s p k) /\
  (x_int x = true -> s' = s) /\
  (has_history m = false -> rt_hist s' = rt_hist s).
Proof.
  intros H. destruct (moves_rest _ _ _ _ _ H) as (A & B & C & D & E).
  repeat (split; [assumption|]). destruct H as [s Hi|s pl Hi Hh _ _|s pl Hi Hh _ _ _|s w p0 c Hi Hh _ _ _].
  - repeat split; auto.
  - split; [|split]; [|congruence|]; intros; destruct (relocate_rest m r (code m pl) s) as (_ & _ & _ & _ & _ & Eh);
      [unfold history_of|]; now rewrite Eh.
  - split; [|split]; [|congruence|congruence]. intros p k Hp.
    destruct (relocate_rest m r (code m pl) (remember m r s)) as (_ & _ & _ & _ & _ & Eh).
    rewrite <- (remember_history r s p k Hp). unfold history_of. now rewrite Eh.
  - split; [|split]; [|congruence|congruence]. intros p k Hp.
    destruct (relocate_rest m r c (remember m r s)) as (_ & _ & _ & _ & _ & Eh).
    rewrite <- (remember_history r s p k Hp). unfold history_of. now rewrite Eh.
Qed.

Lemma at_place_relocate r c (s : st) pl : r < length (rt_cur s) ->
  nth_error (places m) (N.to_nat c) = Some pl -> at_place m (relocate m r c s) r = Some pl.
Proof.
  intros Hr Hp. unfold at_place. destruct (relocate_rest m r c s) as (_ & _ & _ & _ & -> & _).
  rewrite nth_set_same by exact Hr. exact Hp.
Qed.
Lemma at_place_relocate_out r c (s : st) : r < length (rt_cur s) ->
  nth_error (places m) (N.to_nat c) = None -> at_place m (relocate m r c s) r = None.
Proof.
  intros Hr Hp. unfold at_place. destruct (relocate_rest m r c s) as (_ & _ & _ & _ & -> & _).
  rewrite nth_set_same by exact Hr. exact Hp.
Qed.

Lemma moves_target (Hc : comp m) r x (s s' : st) pl : moves m r x s s' -> r < length (rt_cur s) ->
  x_int x = false -> is_history (x_tgt x) = false -> target_place env x = Some pl ->
  is_place env (mc_root m) pl -> at_place m s' r = Some pl.
Proof.
  intros H Hr Hi Hh Ht Hp.
  assert (D : nth_error (places m) (N.to_nat (code m pl)) = Some pl).
  { destruct pl as [p q]. apply (place_iff m Hc) in Hp. destruct Hp. now apply (decode_code m Hc). }
  destruct H as [s Hi'|s pl' _ _ Ht' _|s pl' _ _ _ Ht' _|s w p c _ _ Ht' _ _]; try congruence.
  - rewrite Ht in Ht'. inversion Ht'; subst. now apply at_place_relocate.
  - rewrite Ht in Ht'. inversion Ht'; subst. apply at_place_relocate; [|exact D].
    destruct (remember_rest m r s) as (_ & _ & _ & _ & -> & _). exact Hr.
  - rewrite Ht' in Hh. discriminate.
Qed.
End Step.

(** * Names behind the compile-time flags *)
Section Flags.
Variables (env : cenv) (root : cls) (m : machine).
Hypothesis Hm : compile env root = Some m.

Lemma events_iff e : In e (events m) <-> event_of env root e.
Proof.
  compiled Hm. rewrite (events_spec m). unfold event_of. split.
  - intros (x & Hx & E). exists x. split; [|exact E]. apply in_app_or in Hx. destruct Hx as [Hx|Hx].
    + left. now apply (flat_declared m Hc).
    + right. now apply (internal_flat_declared m Hc).
  - intros (x & [Hx|Hx] & E).
    + exists x. split; [|exact E]. apply in_or_app. left. now apply (flat_declared m Hc).
    + destruct (internal_flat_cover m Hc x Hx) as (y & Hy & Hk). exists y.
      split; [apply in_or_app; now right|]. apply xrow_key_same in Hk. destruct Hk as (_ & _ & Hk & _). congruence.
Qed.

Lemma anonymous_iff : has_anonymous m = true <-> exists x, declared env root x /\ x_ev x = ENone.
Proof.
  compiled Hm. unfold has_anonymous, is_anonymous. rewrite existsb_exists. split.
  - intros (x & Hx & H). exists x. split; [now apply (flat_declared m Hc)|].
    destruct (ev_eq_dec (x_ev x) ENone); [assumption|discriminate].
  - intros (x & Hx & H). exists x. split; [now apply (flat_declared m Hc)|].
    destruct (ev_eq_dec (x_ev x) ENone); [reflexivity|contradiction].
Qed.

Lemma history_iff : has_history m = true <-> exists x w p, declared env root x /\ x_tgt x = SHistory w p.
Proof.
  compiled Hm. unfold has_history. rewrite existsb_exists. split.
  - intros (x & Hx & H). unfold is_history in H. destruct (x_tgt x) as [| | | | |w p] eqn:E; try discriminate.
    exists x, w, p. split; [now apply (flat_declared m Hc)|exact E].
  - intros (x & w & p & Hx & H). exists x. split; [now apply (flat_declared m Hc)|]. now rewrite H.
Qed.

Lemma deferred_iff : has_deferred m = true <->
  exists x c l, declared env root x /\ unmarked (x_src x) = SState c /\ cd_defer (lookup env c) = Some l.
Proof.
  compiled Hm. unfold has_deferred. rewrite negb_true_iff, Nat.eqb_neq. split.
  - intros H. destruct (deferring m) as [|x l] eqn:E; [cbn in H; lia|].
    assert (Hx : In x (deferring m)) by (rewrite E; now left).
    unfold deferring in Hx. apply filter_In in Hx. destruct Hx as [Hx Hd].
    unfold defer_of in Hd. rewrite unwrap_unmarked in Hd.
    destruct (unmarked (x_src x)) as [c| | | | |] eqn:Es; try discriminate.
    destruct (cd_defer (lookup (mc_env m) c)) as [l'|] eqn:El; [|discriminate].
    exists x, c, l'. split; [now apply (flat_declared m Hc)|auto].
  - intros (x & c & l & Hx & Hs & Hd). apply (flat_declared m Hc) in Hx.
    assert (H : In x (deferring m)).
    { unfold deferring. apply filter_In. split; [exact Hx|]. unfold defer_of. rewrite unwrap_unmarked, Hs, Hd. reflexivity. }
    destruct (deferring m); [destruct H|cbn; lia].
Qed.

Lemma no_deferral e pl : has_deferred m = false -> ~ In CDefer (cands m e pl).
Proof.
  compiled Hm. intros H Hin. unfold cands, priority in Hin. rewrite !in_app_iff, <- !in_rev in Hin.
  destruct Hin as [Hin|[Hin|Hin]].
  - apply (defers_at_iff m) in Hin. destruct Hin as [_ (x & Hx & _ & _)].
    unfold has_deferred in H. destruct (deferring m); [destruct Hx|discriminate].
  - apply (rows_at_iff m) in Hin. destruct Hin as (? & ? & _ & _ & _ & E). discriminate.
  - apply (rows_at_iff m) in Hin. destruct Hin as (? & ? & _ & _ & _ & E). discriminate.
Qed.

Lemma deferral_first e pl : In CDefer (cands m e pl) -> exists rest, cands m e pl = CDefer :: rest.
Proof.
  compiled Hm. unfold cands, priority. rewrite !in_app_iff, <- !in_rev. intros [Hin|[Hin|Hin]].
  - assert (A : forall c, In c (rev (defers_at (deferred_events m) e pl (deferring m))) -> c = CDefer).
    { intros c Hcc. rewrite <- in_rev in Hcc. apply (defers_at_iff m) in Hcc. tauto. }
    rewrite in_rev in Hin.
    destruct (rev (defers_at (deferred_events m) e pl (deferring m))) as [|c l]; [destruct Hin|].
    rewrite (A c (or_introl eq_refl)). cbn. eauto.
  - apply (rows_at_iff m) in Hin. destruct Hin as (? & ? & _ & _ & _ & E). discriminate.
  - apply (rows_at_iff m) in Hin. destruct Hin as (? & ? & _ & _ & _ & E). discriminate.
Qed.

Lemma deferral_cands e pl : candidate env root e pl CDefer <-> In CDefer (cands m e pl).
Proof.
  compiled Hm. split; intros H.
  - exact (cands_complete m Hc e pl CDefer H).
  - now apply (cands_sound m Hc).
Qed.
End Flags.

(** * States during a call *)
Section During.
Context {V W : Type}.
Variable cb : cbfun V W.
Variables (env : cenv) (root : cls) (m : machine) (vnone : V).
Notation st := (rt V W).

Lemma during_rinvs ds d0 s : compile env root = Some m -> few_regions env root ->
  during cb m vnone ds d0 s -> rinvs m ds d0 s.
Proof.
  intros Hm Hfew H. pose proof (few_max_compiled _ _ _ Hm Hfew) as Hmax. compiled Hm.
  induction H as [ds d0 s H|ds d0 s r e v tv s' H IH E|ds d0 s r v bv s' H IH E|ds d0 s e v q H IH E].
  - eapply reachable_rinvs; eauto.
  - assert (exists vd v', region_step cb m ds r e v s vd v' s') as (vd & v' & R).
    { pose proof (try_region_sound cb m Hc ds d0 r e v s (ri_tinv _ _ _ _ IH)) as P.
      rewrite E in P. destruct tv as [[[| |]|] v']; eauto. destruct P; eauto. }
    split.
    + eapply frame_tinv; [eapply region_step_frame; eauto|apply IH].
    + eapply region_step_rinv; eauto. apply IH.
    + eapply region_step_settled; eauto. apply IH.
  - assert (exists vd v', region_step cb m ds r ENone v s vd v' s') as (vd & v' & R).
    { pose proof (anonymous_region_sound cb m Hc ds d0 r v s (ri_tinv _ _ _ _ IH)) as P.
      rewrite E in P. destruct bv as [[[|]|] v']; eauto. destruct P; eauto. }
    split.
    + eapply frame_tinv; [eapply region_step_frame; eauto|apply IH].
    + eapply region_step_rinv; eauto. apply IH.
    + eapply region_step_settled; eauto. apply IH.
  - destruct IH as [T R S]. split; [|exact R|exact S].
    apply (frame_tinv m ds d0 s); [split; reflexivity|exact T].
Qed.

Lemma handling_rinvs ds d0 s : handling cb env root m vnone ds d0 s -> rinvs m ds d0 s.
Proof. intros (Hm & Hfew & H). now apply during_rinvs. Qed.
Lemma running_rinvs ds d0 s : running cb env root m vnone ds d0 s -> rinvs m ds d0 s.
Proof. intros (Hm & Hfew & H). apply during_rinvs; auto. now constructor. Qed.
Lemma running_handling ds d0 s : running cb env root m vnone ds d0 s -> handling cb env root m vnone ds d0 s.
Proof. intros (Hm & Hfew & H). repeat (split; [assumption|]). now constructor. Qed.

Lemma get_entries_total (Hc : comp m) ds d0 e r (s : st) pl : tinv m ds d0 s -> In e (events m) ->
  at_place m s r = Some pl -> get_entries e r s = Done (map (bentry m) (bound m ds e pl)) s.
Proof.
  intros T He Hp. unfold get_entries.
  pose proof (filled_shape m Hc _ _ (ti_tabs _ _ _ _ T)) as [Sh1 Sh2].
  destruct (get_table (rt_tabs s) e) as [arr|] eqn:Eg.
  2:{ exfalso. rewrite <- Sh1 in He. apply get_table_In in He. destruct He. congruence. }
  unfold at_place in Hp. unfold read_cur. destruct (nth_error (rt_cur s) r) as [[c|]|] eqn:En; try discriminate.
  cbn [bind]. rewrite nth_at_nth. destruct pl as [p q]. destruct (places_at_inv m Hc _ _ _ Hp) as (Hp' & Hq & ->).
  pose proof (filled_get m Hc _ _ e p q (ti_tabs _ _ _ _ T) He Hp' Hq) as G.
  unfold tget in G. rewrite Eg in G. rewrite G. f_equal.
  unfold bound. rewrite map_flat_map. apply flat_map_ext_in. intros d _. rewrite map_map. reflexivity.
Qed.
End During.

Lemma filled_nonempty m ds t : filled m ds t -> ds <> [].
Proof. intros H. destruct H; discriminate. Qed.
Lemma bound_nil m ds e pl : ds <> [] -> (bound m ds e pl = [] <-> cands m e pl = []).
Proof.
  intros Hd. unfold bound. split; intros H.
  - destruct ds as [|d l]; [congruence|]. cbn in H. apply app_eq_nil in H. destruct H as [H _].
    destruct (cands m e pl); [reflexivity|discriminate].
  - rewrite H. cbn. clear. induction ds; auto.
Qed.

(** * One region *)
Section Region.
Context {V W : Type}.
Variable cb : cbfun V W.
Variables (env : cenv) (root : cls) (m : machine) (vnone : V) (ds : list dep) (d0 : dep).
Notation st := (rt V W).
Variable s : st.
Hypothesis Hs : handling cb env root m vnone ds d0 s.

Lemma region_verdict r e v :
  match try_region cb m r e v s with
  | Done (None, v') s' => region_step cb m ds r e v s RNothing v' s'
  | Done (Some Refused, v') s' => region_step cb m ds r e v s RRefused v' s'
  | Done (Some Fired, v') s' => exists x, region_step cb m ds r e v s (RFired x) v' s'
  | Done (Some Deferred, v') s' => region_step cb m ds r e v s RDeferred v' s'
  | Threw ex s' => exists n vd v', ex = XUser n /\ threw vd = Some n /\ region_step cb m ds r e v s vd v' s'
  | Undef _ => True
  | Timeout => False
  end.
Proof.
  pose proof (handling_rinvs _ _ _ _ _ _ _ _ Hs) as [T _ _]. destruct Hs as (Hm & _ & _). compiled Hm.
  exact (try_region_sound cb m Hc ds d0 r e v s T).
Qed.

Lemma first_enabled r e v pl cs : at_place m s r = Some pl -> candidate_list env root e pl cs ->
  let bs := flat_map (fun d => map (pair d) cs) ds in
  match try_region cb m r e v s with
  | Done (None, v') s' => cs = [] /\ v' = v /\ s' = s
  | Done (Some Refused, v') s' => cs <> [] /\
      exists ks w', scan cb m e bs v (rt_world s) ks VNone v' w' /\ s' = after s w' ks
  | Done (Some Deferred, v') s' => exists pre d rest ks w', bs = pre ++ (d, CDefer) :: rest /\
      scan cb m e pre v (rt_world s) ks VNone v' w' /\
      s' = with_queue (after s w' ks) (rt_queue s ++ [(e, v')])
  | Done (Some Fired, v') s' => exists pre d x o rest k1 k2 v1 w1 v2 w2,
      bs = pre ++ (d, CRow x o) :: rest /\
      scan cb m e pre v (rt_world s) k1 VNone v1 w1 /\
      accepts cb m e d x o v1 w1 k2 v2 w2 /\
      executes cb m r e d x o v2 (after s w2 (k1 ++ k2)) None v' s'
  | Threw ex s' => exists n pre d x o rest k1 v1 w1, ex = XUser n /\
      bs = pre ++ (d, CRow x o) :: rest /\
      scan cb m e pre v (rt_world s) k1 VNone v1 w1 /\
      ((exists ty val v2 w2, x_guard x = Guard ty val /\
          cb (CGuard ty val) (guard_args m e d x o) v1 w1 = Raise n v2 w2 /\
          s' = after s w2 (k1 ++ [mkCall (CGuard ty val) (guard_args m e d x o) v1])) \/
       (exists k2 v2 w2 v', accepts cb m e d x o v1 w1 k2 v2 w2 /\
          executes cb m r e d x o v2 (after s w2 (k1 ++ k2)) (Some n) v' s'))
  | Undef _ => True
  | Timeout => False
  end.
Proof.
  intros Hp Hcs bs. pose proof (region_verdict r e v) as P.
  assert (Eb : bs = bound m ds e pl /\ (cs = [] <-> bound m ds e pl = [])).
  { pose proof (handling_rinvs _ _ _ _ _ _ _ _ Hs) as [T _ _]. destruct Hs as (Hm & _ & _). compiled Hm.
    apply (candidate_list_cands m Hc) in Hcs. subst cs. split; [reflexivity|].
    symmetry. apply bound_nil. eapply filled_nonempty, (ti_tabs _ _ _ _ T). }
  destruct Eb as [-> Ecs]. clear Hcs.
  destruct (try_region cb m r e v s) as [[[[| |]|] v1] s1|ex s1|u|]; auto.
  - inversion P; subst. rewrite Hp in *. match goal with A : Some _ = Some _ |- _ => inversion A; subst; clear A end.
    split; [tauto|]. eauto.
  - destruct P as [x P]. inversion P; subst. rewrite Hp in *.
    match goal with A : Some _ = Some _ |- _ => inversion A; subst; clear A end.
    match goal with A : scan _ _ _ _ _ _ _ _ _ _ |- _ => apply scan_pick in A; destruct A as (pre & rest & k1 & k2 & va & wa & Eb & -> & Sc & Ac) end.
    rewrite Eb. exists pre, d, x, o, rest, k1, k2, va, wa. eauto 8.
  - inversion P; subst. rewrite Hp in *. match goal with A : Some _ = Some _ |- _ => inversion A; subst; clear A end.
    match goal with A : scan _ _ _ _ _ _ _ _ _ _ |- _ => apply scan_deferral in A; destruct A as (pre & d & rest & Eb & Sc) end.
    rewrite Eb. exists pre, d, rest. eauto.
  - inversion P; subst. rewrite Hp in *. match goal with A : Some _ = Some _ |- _ => inversion A; subst; clear A end.
    tauto.
  - destruct P as (n & vd & v' & -> & Ht & P). destruct P; try discriminate; cbn in Ht; inversion Ht; subst;
      rewrite Hp in *; match goal with A : Some _ = Some _ |- _ => inversion A; subst; clear A end.
    + match goal with A : scan _ _ _ _ _ _ _ _ _ _ |- _ => apply scan_thrower in A;
        destruct A as (pre & d & x & o & rest & k1 & ty & val & va & Eb & Hg & -> & wa & Sc & Ec) end.
      rewrite Eb. exists n, pre, d, x, o, rest, k1, v', wa. repeat (split; [auto; fail|]). left.
      exists ty, val, va, w'. auto.
    + match goal with A : scan _ _ _ _ _ _ _ _ _ _ |- _ => apply scan_pick in A;
        destruct A as (pre & rest & k1 & k2 & va & wa & Eb & -> & Sc & Ac) end.
      rewrite Eb. exists n, pre, d, x, o, rest, k1, va, wa. repeat (split; [auto; fail|]). right.
      exists k2, v1, w1, v'. auto.
Qed.

Lemma fired_takes r e v v' s' : try_region cb m r e v s = Done (Some Fired, v') s' ->
  exists d x o v1 s1, takes cb m ds r e v s d x o v1 s1 /\ executes cb m r e d x o v1 s1 None v' s'.
Proof.
  intros H. pose proof (region_verdict r e v) as P. rewrite H in P. destruct P as [x P].
  inversion P; subst. exists d, x, o, v1. eexists. split; [|eassumption].
  exists pl, ks, w1. auto.
Qed.

(** ** Deferral *)
Lemma region_defers r e v pl : event_of env root e -> at_place m s r = Some pl ->
  candidate env root e pl CDefer ->
  try_region cb m r e v s = Done (Some Deferred, v) (with_queue s (rt_queue s ++ [(e, v)])).
Proof.
  pose proof (handling_rinvs _ _ _ _ _ _ _ _ Hs) as [T _ _]. destruct Hs as (Hm & _ & _).
  intros He Hp Hd. apply (events_iff _ _ _ Hm) in He. apply (deferral_cands _ _ _ Hm) in Hd.
  apply (deferral_first _ _ _ Hm) in Hd. destruct Hd as [rest Hd]. compiled Hm.
  unfold try_region. rewrite (get_entries_total m Hc ds d0 e r s pl T He Hp). cbn [bind].
  pose proof (filled_nonempty _ _ _ (ti_tabs _ _ _ _ T)) as Hn.
  unfold bound. destruct ds as [|d l]; [congruence|]. cbn [flat_map]. rewrite Hd. reflexivity.
Qed.

Lemma region_nothing r e v pl : event_of env root e -> at_place m s r = Some pl ->
  candidate_list env root e pl [] -> try_region cb m r e v s = Done (None, v) s.
Proof.
  pose proof (handling_rinvs _ _ _ _ _ _ _ _ Hs) as [T _ _]. destruct Hs as (Hm & _ & _).
  intros He Hp Hd. apply (events_iff _ _ _ Hm) in He. compiled Hm.
  apply (candidate_list_cands m Hc) in Hd.
  unfold try_region. rewrite (get_entries_total m Hc ds d0 e r s pl T He Hp). cbn [bind].
  rewrite (proj2 (bound_nil m ds e pl (filled_nonempty _ _ _ (ti_tabs _ _ _ _ T))) (eq_sym Hd)). reflexivity.
Qed.
End Region.
