(** What one region's turn does: the row taken, its target, its calls, and what
    stays as it was. *)

From Coq Require Import List Arith NArith Bool Lia.
From Verif Require Import Types Static Dispatch Runtime ListFacts IndexFacts Spec
  DispatchFacts FlattenFacts Semantics RefineFacts StaticFacts TermFacts Reach ReachFacts TableFacts
  QueryFacts ProcessFacts.
Import ListNotations.

Section Targets.
Variables (env : cenv) (root : cls) (m : machine).
Hypothesis Hm : compile env root = Some m.

Lemma declared_parent x : declared env root x -> is_parent env root (x_parent x).
Proof.
  intros (p & r & Hu & Hr & ->). cbn. split; [exact Hu|]. intros E. rewrite E in Hr. destruct Hr.
Qed.

Lemma declared_fine x : declared env root x -> row_fine env root x.
Proof. assert (C : compiles env root) by (apply compile_compiles; eauto). intros H. now apply (co_rows _ _ C). Qed.

Lemma declared_leads x c : declared env root x -> leads_into (x_tgt x) c -> table env c <> [] ->
  is_parent env root c.
Proof.
  intros (p & r & Hu & Hr & ->) Hl Ht. cbn in Hl. split; [|exact Ht].
  eapply used_sub; eauto. unfold composite, table in *. destruct (cd_table (lookup env c)); congruence.
Qed.

Lemma initial_table_nonempty c i : first_initial env c = Some i -> table env c <> [].
Proof.
  unfold first_initial, initial_states, mentioned. intros H E. rewrite E in H. discriminate.
Qed.

(** The target of a row, by the way it is written. *)
Lemma target_cases x : declared env root x -> is_history (x_tgt x) = false ->
  exists pl, target_place env x = Some pl /\ is_state env root (snd pl) /\
    (is_place env root pl \/
     exists w p q, (x_tgt x = SEntry w p q \/ x_tgt x = SDirect w p q) /\ table env p = [] /\ fst pl = p).
Proof.
  intros Hd Hh. destruct (rf_target _ _ _ (declared_fine x Hd)) as (pl & Ht & Hs).
  exists pl. split; [exact Ht|]. split; [exact Hs|]. unfold is_place.
  pose proof (declared_parent x Hd) as Hp. unfold target_place in Ht.
  destruct (x_tgt x) as [c|w c|w p q|w p q|w p q|w p] eqn:Et; try discriminate.
  - destruct (is_composite env c) eqn:Ec; [|inversion Ht; subst; auto].
    destruct (first_initial env c) as [i|] eqn:Ei; [|discriminate]. inversion Ht; subst. left. split; [|exact Hs].
    apply (declared_leads x); [exact Hd|rewrite Et; constructor|]. eapply initial_table_nonempty; eauto.
  - inversion Ht; subst. auto.
  - inversion Ht; subst. destruct (table env p) as [|r0 t0] eqn:Etb.
    + right. exists w, p, q. auto.
    + left. split; [|exact Hs]. apply (declared_leads x); [exact Hd|rewrite Et; constructor|]. cbn. rewrite Etb. discriminate.
  - inversion Ht; subst. destruct (table env p) as [|r0 t0] eqn:Etb.
    + right. exists w, p, q. auto.
    + left. split; [|exact Hs]. apply (declared_leads x); [exact Hd|rewrite Et; constructor|]. cbn. rewrite Etb. discriminate.
  - inversion Ht; subst. auto.
Qed.
End Targets.

Section Fired.
Context {V W : Type}.
Variable cb : cbfun V W.
Variables (env : cenv) (root : cls) (m : machine) (vnone : V) (ds : list dep) (d0 : dep).
Notation st := (rt V W).
Variable s : st.
Hypothesis Hs : handling cb env root m vnone ds d0 s.

Lemma takes_candidate r e v d x o v1 s1 : takes cb m ds r e v s d x o v1 s1 ->
  In d ds /\ exists pl, at_place m s r = Some pl /\ candidate env root e pl (CRow x o) /\ In (CRow x o) (cands m e pl).
Proof.
  intros (pl & ks & w1 & Hp & Sc & ->). apply scan_pick in Sc.
  destruct Sc as (pre & rest & k1 & k2 & va & wa & Eb & _).
  assert (Hin : In (d, CRow x o) (bound m ds e pl)) by (rewrite Eb; apply in_or_app; right; now left).
  unfold bound in Hin. apply in_flat_map in Hin. destruct Hin as (d' & Hd & Hin).
  apply in_map_iff in Hin. destruct Hin as (c & E & Hin). inversion E; subst. split; [exact Hd|].
  exists pl. split; [exact Hp|]. split; [|exact Hin]. destruct Hs as (Hm & _ & _). compiled Hm. now apply (cands_sound m Hc).
Qed.

Lemma takes_declared r e v d x o v1 s1 : takes cb m ds r e v s d x o v1 s1 -> x_int x = false ->
  declared env root x.
Proof.
  intros H Hi. apply takes_candidate in H. destruct H as (_ & pl & _ & Hcand & _).
  inversion Hcand; subst; auto.
  match goal with A : declared_internal _ _ _ |- _ => destruct A; discriminate end.
Qed.

Lemma takes_after r e v d x o v1 s1 : takes cb m ds r e v s d x o v1 s1 ->
  exists ks w1, s1 = after s w1 ks /\
    forall k, In k ks -> exists d' x' o' ty val, In d' ds /\ x_guard x' = Guard ty val /\
      (exists pl, at_place m s r = Some pl /\ candidate env root e pl (CRow x' o')) /\
      signature k = (CGuard ty val, guard_args m e d' x' o').
Proof.
  intros (pl & ks & w1 & Hp & Sc & ->). exists ks, w1. split; [reflexivity|]. intros k Hk.
  destruct (scan_guards _ _ _ _ _ _ _ _ _ _ Sc k Hk) as (d' & x' & o' & ty & val & Hin & Hg & E).
  unfold bound in Hin. apply in_flat_map in Hin. destruct Hin as (d'' & Hd & Hin).
  apply in_map_iff in Hin. destruct Hin as (c & Ec & Hin). inversion Ec; subst.
  exists d', x', o', ty, val. split; [exact Hd|]. split; [exact Hg|]. split; [|exact E].
  exists pl. split; [exact Hp|]. destruct Hs as (Hm & _ & _). compiled Hm. now apply (cands_sound m Hc).
Qed.

Lemma takes_length r e v d x o v1 s1 : takes cb m ds r e v s d x o v1 s1 -> r < length (rt_cur s1).
Proof.
  intros (pl & ks & w1 & Hp & _ & ->). cbn. unfold at_place in Hp. apply nth_error_Some.
  destruct (nth_error (rt_cur s) r); congruence.
Qed.

(** ** Calls *)
Lemma fired_calls r e v v' s' : try_region cb m r e v s = Done (Some Fired, v') s' ->
  exists d x o v1 s1 ks, takes cb m ds r e v s d x o v1 s1 /\ executes cb m r e d x o v1 s1 None v' s' /\
    rt_trace s' = rt_trace s1 ++ ks /\ map signature ks = row_signature env e d x o.
Proof.
  intros H. destruct (fired_takes _ _ _ _ _ _ _ _ Hs _ _ _ _ _ H) as (d & x & o & v1 & s1 & Ht & He).
  destruct (executes_calls _ _ _ _ _ _ _ _ _ _ _ _ He) as (ks & E1 & E2 & E3).
  exists d, x, o, v1, s1, ks. repeat (split; [assumption|]).
  destruct Hs as (Hm & _ & _). compiled Hm. exact E3.
Qed.

Lemma fired_internal r e v v' s' : try_region cb m r e v s = Done (Some Fired, v') s' ->
  exists d x o v1 s1, takes cb m ds r e v s d x o v1 s1 /\ executes cb m r e d x o v1 s1 None v' s' /\
    (x_int x = true ->
       rt_cur s' = rt_cur s /\ rt_hist s' = rt_hist s /\ rt_regions s' = rt_regions s /\ rt_queue s' = rt_queue s /\
       exists ks, rt_trace s' = rt_trace s1 ++ ks /\
         map signature ks = map (fun c => (c, call_args env e d x o c)) (action_calls x ++ initial_entry_call env x)).
Proof.
  intros H. destruct (fired_calls _ _ _ _ _ H) as (d & x & o & v1 & s1 & ks & Ht & He & Et & Ek).
  exists d, x, o, v1, s1. split; [exact Ht|]. split; [exact He|]. intros Hi.
  destruct (takes_after _ _ _ _ _ _ _ _ Ht) as (kg & w1 & Es1 & _).
  destruct He as [v0 s0 s2 ks0 n0 v2 l2 w2 Hmv Hp]. destruct (moves_frame2 _ _ _ _ _ Hmv) as (_ & _ & _ & _ & _ & _ & Hid & _).
  specialize (Hid Hi). subst s2. subst s0. cbn. repeat (split; [reflexivity|]).
  exists ks. split; [exact Et|].
  unfold row_signature, row_calls in Ek.
  assert (Eexit : exit_call env x = []) by (unfold exit_call; now rewrite Hi).
  assert (Eentry : entry_call env x = []) by (unfold entry_call; now rewrite Hi).
  rewrite Eexit, Eentry in Ek. exact Ek.
Qed.

(** ** Exceptions *)
Lemma threw_region r e v ex s' : try_region cb m r e v s = Threw ex s' ->
  exists n, ex = XUser n /\
  ((exists ks w', s' = after s w' ks) \/
   (exists d x o v1 s1 v' ks, takes cb m ds r e v s d x o v1 s1 /\
      executes cb m r e d x o v1 s1 (Some n) v' s' /\
      rt_trace s' = rt_trace s1 ++ ks /\ 0 < length ks <= length (row_calls env x) /\
      map signature ks = firstn (length ks) (row_signature env e d x o))).
Proof.
  intros H. pose proof (region_verdict _ _ _ _ _ _ _ _ Hs r e v) as P. rewrite H in P.
  destruct P as (n & vd & v' & -> & Ht & P). exists n. split; [reflexivity|].
  destruct P; try discriminate; cbn in Ht; inversion Ht; subst.
  - left. eauto.
  - right. match goal with A : executes _ _ _ _ _ _ _ _ _ _ _ _ |- _ =>
      destruct (executes_calls _ _ _ _ _ _ _ _ _ _ _ _ A) as (ks' & E1 & E2 & E3) end.
    exists d, x, o, v1. eexists. exists v', ks'. split; [exists pl, ks, w1; repeat split; assumption|].
    split; [eassumption|]. split; [exact E1|]. destruct Hs as (Hm & _ & _). compiled Hm. auto.
Qed.

Lemma executes_moves r e d x o v1 s1 n v' s' : executes cb m r e d x o v1 s1 n v' s' ->
  exists s2 ks l w, moves m r x s1 s2 /\ s' = with_live (after s2 w ks) l.
Proof. intros [v0 s0 s2 ks n0 v2 l2 w2 Hmv Hp]. exists s2, ks, l2, w2. auto. Qed.

(** ** Targets *)
Lemma taken_target r e v d x o v1 s1 n v' s' : takes cb m ds r e v s d x o v1 s1 ->
  executes cb m r e d x o v1 s1 n v' s' -> x_int x = false ->
  (forall c, x_tgt x = SState c -> ~ composite env c -> at_place m s' r = Some (x_parent x, SState c)) /\
  (forall c, x_tgt x = SState c -> composite env c ->
     exists i, first_initial env c = Some i /\ at_place m s' r = Some (c, i)) /\
  (forall w c, x_tgt x = SInitial w c -> at_place m s' r = Some (x_parent x, SState c)) /\
  (forall w p q, x_tgt x = SExit w p q -> at_place m s' r = Some (x_parent x, SExit w p q)) /\
  (forall w p q, x_tgt x = SEntry w p q \/ x_tgt x = SDirect w p q ->
     (table env p <> [] -> at_place m s' r = Some (p, SState q)) /\
     (table env p = [] -> at_place m s' r = None)).
Proof.
  intros Ht He Hi. pose proof (takes_declared _ _ _ _ _ _ _ _ Ht Hi) as Hd.
  pose proof (takes_length _ _ _ _ _ _ _ _ Ht) as Hl.
  destruct (executes_moves _ _ _ _ _ _ _ _ _ _ He) as (s2 & ks & l & w & Hmv & ->).
  assert (Hat : at_place m (with_live (after s2 w ks) l) r = at_place m s2 r) by reflexivity. rewrite Hat. clear Hat.
  destruct Hs as (Hm & _ & _).
  assert (P : forall pl, is_history (x_tgt x) = false -> target_place env x = Some pl ->
    (is_place env root pl -> at_place m s2 r = Some pl) /\ (~ is_place env root pl -> at_place m s2 r = None)).
  { intros pl Hh Hpl. compiled Hm. split.
    - intros Hpp. eapply moves_target; eauto.
    - intros Hn. assert (D : nth_error (places m) (N.to_nat (code m pl)) = None).
      { unfold code. rewrite Nnat.Nat2N.id. apply nth_error_None. rewrite pos_absent; [lia|].
        intros Hin. apply Hn. now apply (in_places_iff m Hc). }
      destruct Hmv as [s1 Hi'|s1 pl' _ _ Ht' _|s1 pl' _ _ _ Ht' _|s1 w0 p c _ _ Ht' _ _]; try congruence.
      + rewrite Hpl in Ht'. inversion Ht'; subst. now apply at_place_relocate_out.
      + rewrite Hpl in Ht'. inversion Ht'; subst. apply at_place_relocate_out; [|exact D].
        destruct (remember_rest m r s1) as (_ & _ & _ & _ & -> & _). exact Hl.
      + rewrite Ht' in Hh. discriminate. }
  assert (Q : is_history (x_tgt x) = false -> exists pl, target_place env x = Some pl /\ is_state env root (snd pl) /\
    (is_place env root pl \/
     exists w p q, (x_tgt x = SEntry w p q \/ x_tgt x = SDirect w p q) /\ table env p = [] /\ fst pl = p)).
  { intros Hh. exact (target_cases env root m Hm x Hd Hh). }
  split; [|split; [|split; [|split]]].
  - intros c Et Hn. rewrite Et in *. destruct (Q eq_refl) as (pl & Hpl & Hst & [Hp|(w' & p & q & [E|E] & _)]); try discriminate.
    rewrite (proj1 (P pl eq_refl Hpl) Hp). unfold target_place in Hpl. rewrite Et in Hpl.
    unfold is_composite in Hpl. unfold composite in Hn. destruct (cd_table (lookup env c)); [exfalso; apply Hn; discriminate|].
    congruence.
  - intros c Et Hn. rewrite Et in *. destruct (Q eq_refl) as (pl & Hpl & Hst & [Hp|(w' & p & q & [E|E] & _)]); try discriminate.
    rewrite (proj1 (P pl eq_refl Hpl) Hp). unfold target_place in Hpl. rewrite Et in Hpl.
    unfold is_composite in Hpl. unfold composite in Hn. destruct (cd_table (lookup env c)); [|congruence].
    destruct (first_initial env c) as [i|]; [|discriminate]. exists i. split; [reflexivity|]. inversion Hpl; reflexivity.
  - intros w' c Et. rewrite Et in *. destruct (Q eq_refl) as (pl & Hpl & Hst & [Hp|(w'' & p & q & [E|E] & _)]); try discriminate.
    rewrite (proj1 (P pl eq_refl Hpl) Hp). unfold target_place in Hpl. rewrite Et in Hpl. congruence.
  - intros w' p q Et. rewrite Et in *. destruct (Q eq_refl) as (pl & Hpl & Hst & [Hp|(w'' & p' & q' & [E|E] & _)]); try discriminate.
    rewrite (proj1 (P pl eq_refl Hpl) Hp). unfold target_place in Hpl. rewrite Et in Hpl. congruence.
  - intros w' p q Et.
    assert (Hh : is_history (x_tgt x) = false) by (destruct Et as [-> | ->]; reflexivity).
    assert (Hpl : target_place env x = Some (p, SState q)).
    { unfold target_place. destruct Et as [-> | ->]; reflexivity. }
    destruct (P _ Hh Hpl) as [P1 P2]. destruct (Q Hh) as (pl & Hpl' & Hst & _).
    rewrite Hpl in Hpl'; inversion Hpl'; subst pl.
    split; intros Etb.
    + apply P1. split; [|exact Hst]. cbn. apply (declared_leads env root x); [exact Hd| |exact Etb].
      destruct Et as [-> | ->]; constructor.
    + apply P2. intros [[_ Hne] _]. cbn in Hne. congruence.
Qed.

(** ** Isolation *)
Lemma fired_isolated r e v v' s' : try_region cb m r e v s = Done (Some Fired, v') s' ->
  (forall k, k <> r -> nth_error (rt_cur s') k = nth_error (rt_cur s) k) /\
  (forall p k, is_parent env root p -> (k <> r \/ forall q, at_place m s 0 <> Some (p, q)) ->
     history_of m s' p k = history_of m s p k) /\
  rt_queue s' = rt_queue s.
Proof.
  intros H. destruct (fired_takes _ _ _ _ _ _ _ _ Hs _ _ _ _ _ H) as (d & x & o & v1 & s1 & Ht & He).
  destruct (takes_after _ _ _ _ _ _ _ _ Ht) as (kg & w1 & -> & _).
  destruct (executes_moves _ _ _ _ _ _ _ _ _ _ He) as (s2 & ks & l & w & Hmv & ->).
  destruct (moves_frame2 _ _ _ _ _ Hmv) as (Eq & _ & _ & _ & Ecur & Ehist & _ & _).
  split; [exact Ecur|]. split; [|exact Eq].
  intros p k Hp Hk. change (history_of m s2 p k = history_of m (after s w1 kg) p k). apply Ehist.
  intros p0 q0 E0. change (at_place m (after s w1 kg) 0) with (at_place m s 0) in E0.
  destruct Hk as [Hk|Hk]; [now right|]. left. intros E. destruct Hs as (Hm & _ & _). compiled Hm.
  unfold parent_pos in E. apply (parent_iff m Hc) in Hp. apply pos_inj in E; [|exact Hp]. subst p0.
  exact (Hk q0 E0).
Qed.
End Fired.
