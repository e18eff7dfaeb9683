(** Programs with one table and several regions are the machines of Joint.v. *)

From Coq Require Import List Arith NArith Bool Lia.
From Verif Require Import Types Static Dispatch Runtime ListFacts IndexFacts Spec
  DispatchFacts FlattenFacts Semantics RefineFacts StaticFacts TermFacts Reach ReachFacts TableFacts
  QueryFacts ProcessFacts CallFacts Safe SafeFacts SafeObjects TermRank TermMeta Graph GraphFacts GraphExact RegionFacts Flat FlatFacts Joint.
Import ListNotations.

Section Run.
Variables (env : cenv) (root : cls) (m : machine).
Hypothesis Hf : one_table env root.
Hypothesis Hm : compile env root = Some m.
Context {V W : Type}.
Variable cb : cbfun V W.
Variables (vnone : V) (d : dep).
Notation st := (rt V W).

Record posed (qs : list sref) (s : st) : Prop := mkPosed {
  po_len : length (rt_cur s) = length qs;
  po_all : length qs = length (initial_states env root);
  po_at : forall r q, nth_error qs r = Some q -> at_place m s r = Some (root, q);
  po_active : active m s = length qs }.

Lemma posed_same qs (s s' : st) : posed qs s -> rt_cur s' = rt_cur s -> rt_regions s' = rt_regions s -> posed qs s'.
Proof.
  intros [P1 P2 P3 P4] Ec Er. split; [congruence|exact P2| |].
  - intros r q H. unfold at_place. rewrite Ec. exact (P3 r q H).
  - unfold active in *. now rewrite Er.
Qed.
Lemma carry_on_perform q e t live : forall cs v w n ks v' w',
  carry_on cb d q e t cs v w = (n, ks, v', w') -> perform cb e d q (map (plain t) cs) v live w ks n v' live w'.
Proof.
  induction cs as [|c cs IH]; intros v w n ks v' w' H; cbn [carry_on] in H.
  - inversion H; subst. constructor.
  - destruct (cb c (mkArgs e q (TObj t) d) v w) as [b v1 w1|k v1 w1] eqn:K.
    + destruct (carry_on cb d q e t cs v1 w1) as [[[n0 ks0] v2] w2] eqn:C. inversion H; subst.
      cbn [map]. exact (pf_call cb e d q (plain t c) _ v live w b v1 w1 ks0 n v' live w' K (IH _ _ _ _ _ _ C)).
    + inversion H; subst. cbn [map]. exact (pf_raise cb e d q (plain t c) _ v' live w k v1 w' K).
Qed.
Lemma posed_relocate r q t qs (s : st) : posed qs s -> nth_error qs r = Some q -> is_place env root (root, t) ->
  posed (set_nth r t qs) (relocate m r (code m (root, t)) s) /\ settled m (relocate m r (code m (root, t)) s).
Proof.
  intros [P1 P2 P3 P4] Hq Pl. assert (Hr : r < length (rt_cur s)) by (rewrite P1; apply nth_error_Some; congruence).
  set (s1 := relocate m r (code m (root, t)) s). destruct (relocate_rest m r (code m (root, t)) s) as (_ & _ & _ & _ & Ec & _). fold s1 in Ec.
  assert (D : nth_error (places m) (N.to_nat (code m (root, t))) = Some (root, t)).
  { clear - Pl Hm. compiled Hm. apply (place_iff m Hc) in Pl. destruct Pl. now apply (decode_code m Hc). }
  assert (A : forall k q', nth_error (set_nth r t qs) k = Some q' -> at_place m s1 k = Some (root, q')).
  { intros k q' H. destruct (Nat.eq_dec k r) as [->|N].
    - rewrite nth_set_same in H by (rewrite <- P1; exact Hr). injection H as <-. now apply at_place_relocate.
    - rewrite nth_set_other in H by exact N. unfold at_place. rewrite Ec, nth_set_other by exact N. exact (P3 k q' H). }
  assert (Z : exists q0, at_place m s1 0 = Some (root, q0)).
  { destruct (nth_error (set_nth r t qs) 0) as [q0|] eqn:E0; [exists q0; now apply A|].
    apply nth_error_None in E0. rewrite set_nth_length in E0. rewrite <- P1 in E0. lia. }
  destruct Z as (q0 & Z). split; [split|].
  - rewrite Ec, !set_nth_length. exact P1.
  - now rewrite set_nth_length.
  - exact A.
  - rewrite set_nth_length. unfold active in *. destruct (parallel m) eqn:Ep; [|exact P4].
    unfold at_place in Z. rewrite Ec in Z. unfold s1, relocate. rewrite Ep.
    assert (X : at_place m (with_cur s (set_nth r (Some (code m (root, t))) (rt_cur s))) 0 = Some (root, q0)) by exact Z.
    rewrite X. cbn [rt_regions with_regions]. now rewrite (env_eq env root m Hm), P2.
  - intros _. congruence.
Qed.

Definition turns_out (t : turn) (vd : rverdict) : Prop :=
  match t with
  | Idle => vd = RNothing
  | Refusing => vd = RRefused
  | Moving => exists x, vd = RFired x
  | Failing n => threw vd = Some n
  end.
Lemma turn_step qs r q e v (s : st) t ks q' v' w' : posed qs s -> nth_error qs r = Some q ->
  turn_of cb env root d q e v (rt_world s) = (t, ks, q', v', w') ->
  exists vd v1 s', region_step cb m [d] r e v s vd v1 s' /\ (failure [t] = None -> v1 = v') /\ turns_out t vd /\ posed (set_nth r q' qs) s' /\
    rt_trace s' = rt_trace s ++ ks /\ rt_world s' = w'.
Proof.
  intros P Hq H. pose proof (po_at _ _ P r q Hq) as Hat.
  assert (Same : forall l (k : nat) a, nth_error l k = Some a -> set_nth k a l = (l : list sref)).
  { clear. induction l as [|b l IH]; intros [|k] a H; cbn in *; try discriminate; [congruence|f_equal; now apply IH]. }
  assert (Hi : incl (rows_for env root q e) (table env root)) by (intros x Hx; apply (rows_for_In env root q e x Hx)).
  pose proof (bound_one env root m Hf Hm d q e) as B. unfold turn_of in H. destruct (rows_for env root q e) as [|r0 rs0] eqn:R.
  - inversion H; subst. exists RNothing, v', s. split; [eapply rs_nothing; [exact Hat|now rewrite B]|]. split; [auto|]. split; [reflexivity|].
    rewrite (Same _ _ _ Hq). split; [exact P|]. split; [now rewrite app_nil_r|reflexivity].
  - rewrite <- R in B, Hi, H. destruct (choose cb d q e (rows_for env root q e) v (rt_world s)) as [[[c ks1] v1] w1] eqn:C.
    assert (Sc := choose_scan env root m Hf Hm cb d q e _ _ _ _ _ _ _ Hi C). rewrite <- B in Sc.
    assert (Nb : bound m [d] e (root, q) <> []) by (rewrite B, R; discriminate).
    destruct c as [|x|n]; cbn [verdict_of] in Sc.
    + inversion H; subst. eexists RRefused, _, _. split; [eapply Semantics.rs_refused; [exact Hat|exact Nb|exact Sc]|]. split; [auto|]. split; [reflexivity|].
      rewrite (Same _ _ _ Hq). split; [now apply (posed_same qs s)|]. split; reflexivity.
    + assert (Hx : In x (table env root)).
      { assert (K : forall rs v0 w0 c0 k0 v2 w2, choose cb d q e rs v0 w0 = (c0, k0, v2, w2) -> c0 = Chosen x -> In x rs).
        { clear. induction rs as [|y rs IH]; intros v0 w0 c0 k0 v2 w2 H E; cbn [choose] in H; [inversion H; congruence|].
          destruct (r_guard y) as [|ty val]; [inversion H; subst; left; congruence|].
          destruct (cb _ _ _ _) as [[|] va wa|k va wa]; [inversion H; subst; left; congruence| |inversion H; congruence].
          destruct (choose cb d q e rs va wa) as [[[c1 k1] v3] w3] eqn:C. inversion H; subst. right. eapply IH; eauto. }
        apply Hi. eapply K; eauto. }
      destruct (carry_on cb d q e (r_tgt x) (deeds env x) v1 w1) as [[[n ks2] v2] w2] eqn:K. injection H as <- <- <- <- <-.
      set (s1 := after s w1 ks1). assert (P1 : posed qs s1) by now apply (posed_same qs s).
      destruct (posed_relocate r q (r_tgt x) qs s1 P1 Hq (target_is_place env root Hf x Hx)) as (P2 & St).
      destruct (table_plain env root Hf m Hm) as (Hh & _).
      set (s2 := relocate m r (code m (root, r_tgt x)) s1) in *.
      assert (Em : moves m r (row_in root x) s1 s2).
      { apply mv_plain; [reflexivity|exact Hh| |exact St]. rewrite (env_eq env root m Hm). apply (row_target env root Hf x Hx). }
      destruct (relocate_rest m r (code m (root, r_tgt x)) s1) as (_ & _ & Ew & Et & _ & _). fold s2 in Ew, Et.
      change w1 with (rt_world s1) in K. rewrite <- Ew in K. apply (carry_on_perform q e (r_tgt x) (rt_live s2)) in K.
      rewrite <- (row_effects env root m Hf Hm x q Hx) in K.
      assert (X : executes cb m r e d (row_in root x) q v1 s1 n v2 (with_live (after s2 w2 ks2) (rt_live s2))) by (econstructor; [exact Em|exact K]).
      assert (P3 : posed (set_nth r (r_tgt x) qs) (with_live (after s2 w2 ks2) (rt_live s2))) by now apply (posed_same _ s2).
      destruct n as [n|].
      * eexists (REffectThrew (row_in root x) n), _, _. split; [eapply rs_effect_threw; [exact Hat|exact Sc|exact X]|]. split; [discriminate|]. split; [reflexivity|].
        split; [exact P3|]. split; [|reflexivity]. cbn. rewrite Et. cbn. now rewrite app_assoc.
      * eexists (RFired (row_in root x)), _, _. split; [eapply rs_fired; [exact Hat|exact Sc|exact X]|]. split; [auto|]. split; [cbn; eauto|].
        split; [exact P3|]. split; [|reflexivity]. cbn. rewrite Et. cbn. now rewrite app_assoc.
    + inversion H; subst. eexists (RGuardThrew n), _, _. split; [eapply rs_guard_threw; [exact Hat|exact Sc]|]. split; [discriminate|]. split; [reflexivity|].
      rewrite (Same _ _ _ Hq). split; [now apply (posed_same qs s)|]. split; reflexivity.
Qed.
Lemma round_run e : forall qs2 qs1 v (s : st) ts ks qs' v' w', posed (qs1 ++ qs2) s ->
  round cb env root d qs2 e v (rt_world s) = (ts, ks, qs', v', w') ->
  exists vds v1 s', regions_run cb m [d] e (length (qs1 ++ qs2)) (length qs1) v s vds v1 s' /\ (failure ts = None -> v1 = v') /\
    Forall2 turns_out ts vds /\ posed (qs1 ++ qs') s' /\ rt_trace s' = rt_trace s ++ ks /\ rt_world s' = w' /\
    (forall n, failure ts = Some n -> exists l vd, vds = l ++ [vd] /\ threw vd = Some n /\ existsb stops l = false).
Proof.
  induction qs2 as [|q qs2 IH]; intros qs1 v s ts ks qs' v' w' P H; cbn [round] in H.
  - inversion H; subst. exists [], v', s. split; [constructor; rewrite app_nil_r; lia|]. split; [auto|]. split; [constructor|].
    split; [exact P|]. split; [now rewrite app_nil_r|]. split; [reflexivity|discriminate].
  - destruct (turn_of cb env root d q e v (rt_world s)) as [[[[t ks1] q1] v1] w1] eqn:T.
    assert (Hq : nth_error (qs1 ++ q :: qs2) (length qs1) = Some q) by (rewrite nth_error_app2, Nat.sub_diag by lia; reflexivity).
    destruct (turn_step _ _ _ _ _ _ _ _ _ _ _ P Hq T) as (vd & va & s1 & Sx & Sv & So & P1 & Et & Ew).
    assert (Es : set_nth (length qs1) q1 (qs1 ++ q :: qs2) = qs1 ++ q1 :: qs2).
    { clear. induction qs1 as [|a l IHl]; cbn; [reflexivity|now rewrite IHl]. }
    rewrite Es in P1. assert (Hl : length qs1 < length (qs1 ++ q :: qs2)) by (rewrite app_length; cbn; lia).
    destruct (failure [t]) as [n|] eqn:Ef.
    + destruct t as [| | |n']; try discriminate. injection Ef as ->. injection H as <- <- <- <- <-.
      exists [vd], va, s1. cbn in So. split; [apply rr_stop; auto; destruct vd; try discriminate; reflexivity|]. split; [discriminate|].
      split; [constructor; [exact So|constructor]|]. split; [exact P1|]. split; [exact Et|]. split; [exact Ew|].
      intros k X. injection X as <-. exists [], vd. auto.
    + assert (X : (let '(ts0, ks', qs0, v2, w2) := round cb env root d qs2 e v1 w1 in (t :: ts0, ks1 ++ ks', q1 :: qs0, v2, w2)) = (ts, ks, qs', v', w'))
        by (destruct t; try discriminate Ef; exact H). clear H.
      rewrite <- Ew in X. rewrite <- (Sv eq_refl) in X. destruct (round cb env root d qs2 e va (rt_world s1)) as [[[[ts0 ks0] qs0] v2] w2] eqn:R. injection X as <- <- <- <- <-.
      assert (P2 : posed ((qs1 ++ [q1]) ++ qs2) s1) by (rewrite <- app_assoc; exact P1).
      destruct (IH (qs1 ++ [q1]) va s1 _ _ _ _ _ P2 R) as (vds & vb & s' & Rn & Rv & F & P3 & Et2 & Ew2 & Th).
      assert (St : stops vd = false) by (destruct t; cbn in So; try discriminate Ef; try (subst vd; reflexivity); destruct So as (x & ->); reflexivity).
      exists (vd :: vds), vb, s'. split.
      { eapply rr_next; [exact Hl|exact Sx|exact St|]. rewrite !app_length in *. cbn [length] in *.
        replace (S (length qs1)) with (length qs1 + 1) by lia. replace (length qs1 + S (length qs2)) with (length qs1 + 1 + length qs2) by lia. exact Rn. }
      split; [intros X; apply Rv; destruct t; try discriminate Ef; exact X|]. split; [now constructor|].
      split; [rewrite <- app_assoc in P3; exact P3|]. split; [rewrite Et2, Et; now rewrite app_assoc|]. split; [exact Ew2|].
      intros n X. assert (X' : failure ts0 = Some n) by (destruct t; try discriminate Ef; exact X).
      destruct (Th n X') as (l & vd' & -> & T1 & T2). exists (vd :: l), vd'. cbn. rewrite St. auto.
Qed.
Lemma joint_process qs e v (s : st) o ks qs' w' : posed qs s ->
  joint cb env root d qs e v (rt_world s) = (o, ks, qs', w') ->
  exists vds rp s', process cb m [d] vnone d e v s vds rp s' /\ reply_out rp = o /\
    posed qs' s' /\ rt_trace s' = rt_trace s ++ ks /\ rt_world s' = w'.
Proof.
  intros P H. destruct (table_plain env root Hf m Hm) as (Hh & Ha & Hd). unfold joint in H.
  destruct (round cb env root d qs e v (rt_world s)) as [[[[ts ks1] qs1] v1] w1] eqn:R.
  destruct (round_run e qs [] v s _ _ _ _ _ P R) as (vds & va & s1 & Rn & Rv & F & P1 & Et & Ew & Th). cbn [app length] in *.
  rewrite <- (po_active _ _ P) in Rn.
  destruct (failure ts) as [n|] eqn:Ef.
  - injection H as <- <- <- <-. destruct (Th n eq_refl) as (l & vd & -> & T1 & _). exists (l ++ [vd]), (Exception n), s1. split.
    { eapply pr_threw. eapply of_threw; [exact Rn|exact T1]. }
    split; [reflexivity|]. auto.
  - specialize (Rv eq_refl). subst va.
    assert (Ns : existsb stops vds = false).
    { clear - F Ef. induction F as [|t vd ts vds Hv F IH]; [reflexivity|]. cbn [existsb].
      assert (stops vd = false) as -> by (destruct t; cbn in Hv; try (subst vd; reflexivity); [destruct Hv as (x & ->); reflexivity|discriminate]).
      apply IH. destruct t; try discriminate; exact Ef. }
    assert (Ev : existsb fired vds = existsb moving ts).
    { clear - F. induction F as [|t vd ts vds Hv F IH]; [reflexivity|]. cbn [existsb]. rewrite IH. f_equal.
      destruct t; cbn in Hv; try (subst vd; reflexivity); [destruct Hv as (x & ->); reflexivity|destruct vd; try discriminate; reflexivity]. }
    assert (Eu : unhandled vds = forallb idle ts).
    { clear - F. unfold unhandled. induction F as [|t vd ts vds Hv F IH]; [reflexivity|]. cbn [forallb]. rewrite IH. f_equal.
      destruct t; cbn in Hv; try (subst vd; reflexivity); [destruct Hv as (x & ->); reflexivity|destruct vd; try discriminate; reflexivity]. }
    destruct (existsb moving ts) eqn:Em.
    + injection H as <- <- <- <-. exists vds, (Returned true v1), s1. split.
      { eapply (pr_handled cb m [d] vnone d e v s _ [] v1 s1 None); [|rewrite Hd; auto].
        eapply of_handled; [exact Rn|exact Ns|now rewrite Ev|rewrite Ha; auto]. }
      split; [reflexivity|]. auto.
    + destruct (forallb idle ts) eqn:Ei.
      * assert (Of : offer cb m [d] vnone e v s vds [] OfUnhandled v1 s1) by (apply of_unhandled; [exact Rn|now rewrite Eu]).
        cbn [andb] in H. destruct (cd_unexpected (lookup env root)) eqn:U.
        -- assert (U' : cd_unexpected (lookup (mc_env m) (mc_root m)) = true) by (now rewrite (env_eq env root m Hm), (root_eq env root m Hm)).
           assert (Hq : exists q, hd (SState root) qs = q /\ at_place m s1 0 = Some (root, q)).
           { assert (qs1 = qs) as ->.
             { clear - R Ei. revert ts ks1 qs1 v1 w1 v Ei R. generalize (rt_world s). induction qs as [|q qs IH]; intros w ts ks1 qs1 v1 w1 v Ei R; cbn [round] in R; [now inversion R|].
               destruct (turn_of cb env root d q e v w) as [[[[t k] q1] va] wa] eqn:T.
               assert (I : q1 = q \/ idle t = false).
               { unfold turn_of in T. destruct (rows_for env root q e); [inversion T; auto|]. destruct (choose _ _ _ _ _ _ _) as [[[c kk] vv] ww].
                 destruct c; [inversion T; auto| |inversion T; auto]. destruct (carry_on _ _ _ _ _ _ _ _) as [[[n' kk'] vv'] ww']. inversion T. right. now destruct n'. }
               destruct t; try (destruct (round cb env root d qs e va wa) as [[[[ts0 k0] qs0] v0] w0] eqn:R0); inversion R; subst; cbn [forallb idle] in Ei; try discriminate.
               destruct I as [->|I]; [|discriminate]. f_equal. eapply IH; eauto. }
             destruct qs as [|q qs]; [|exists q; split; [reflexivity|apply (po_at _ _ P1 0); reflexivity]].
             pose proof (po_all _ _ P1) as X. pose proof (proj1 (ot_regions _ _ Hf)) as Y. cbn in X. lia. }
           destruct Hq as (q & Eq & Hat). rewrite Eq in H. rewrite <- Ew in H.
           destruct (cb CHandler (mkArgs e q TNone d) v1 (rt_world s1)) as [b v2 w2|n v2 w2] eqn:K; injection H as <- <- <- <-.
           ++ eexists vds, (Returned false v2), _. split.
              { eapply (pr_unhandled cb m [d] vnone d e v s vds v1 s1 None); [exact Of|]. eapply ux_handled; [exact U'|exact Hat|exact K]. }
              split; [reflexivity|]. split; [now apply (posed_same qs1 s1)|]. split; [|reflexivity]. cbn. rewrite Et. now rewrite app_assoc.
           ++ eexists vds, (Exception n), _. split.
              { eapply (pr_unhandled cb m [d] vnone d e v s vds v1 s1 (Some n)); [exact Of|]. eapply ux_threw; [exact U'|exact Hat|exact K]. }
              split; [reflexivity|]. split; [now apply (posed_same qs1 s1)|]. split; [|reflexivity]. cbn. rewrite Et. now rewrite app_assoc.
        -- injection H as <- <- <- <-. exists vds, (Returned false v1), s1. split.
           { eapply (pr_unhandled cb m [d] vnone d e v s vds v1 s1 None); [exact Of|]. apply ux_no_handler. now rewrite (env_eq env root m Hm), (root_eq env root m Hm). }
           split; [reflexivity|]. auto.
      * cbn [andb] in H. injection H as <- <- <- <-. exists vds, (Returned false v1), s1. split.
        { eapply (pr_not_taken cb m [d] vnone d e v s vds OfRefused); [|now left]. apply of_refused; auto; now rewrite ?Eu, ?Ev. }
        split; [reflexivity|]. auto.
Qed.
End Run.

Lemma table_regions env root (Hf : one_table env root) r : region_exists env root r <-> r < length (initial_states env root).
Proof.
  split.
  - intros (p & (Hu & _) & H). apply (flat_used env root Hf) in Hu. now subst p.
  - intros H. exists root. split; [apply (FlatFacts.root_parent env root Hf)|exact H].
Qed.
Lemma table_width env root m (Hf : one_table env root) (Hm : compile env root = Some m) {V W} (cb : cbfun V W) fuel d (w : W) (s : rt V W) :
  construct m fuel d w = Done tt s -> length (rt_cur s) = length (initial_states env root).
Proof.
  intros E. assert (X : max_initials m = length (initial_states env root)).
  { assert (Y : forall r, r < max_initials m <-> r < length (initial_states env root)) by (intros r; rewrite <- (region_exists_max env root m Hm); now apply table_regions).
    pose proof (Y (max_initials m)). pose proof (Y (length (initial_states env root))). lia. }
  rewrite <- X. pose proof (ot_regions _ _ Hf) as [_ L]. compiled Hm.
  destruct (construct_sound m Hc fuel d w s) as [(F & _) _]; [rewrite initials_spec; exact L|exact E|exact F].
Qed.
Lemma joint_step env root m : compile env root = Some m -> one_table env root ->
  exists bound, 256 <= bound /\ forall V W (cb : cbfun V W) vnone fuel d s qs e v, bound <= fuel ->
    reachable cb m vnone [d] d s -> event_of env root e -> posed env root m qs s ->
    forall o ks qs' w', joint cb env root d qs e v (rt_world s) = (o, ks, qs', w') ->
    exists s', do_call_catch cb m vnone fuel (KProcess e v) s = Done o s' /\
      posed env root m qs' s' /\ rt_trace s' = rt_trace s ++ ks /\ rt_world s' = w'.
Proof.
  intros Hm Hf. destruct (rank_bounds_calls env root m Hm (flat_few env root Hf) _ (flat_ranked env root Hf)) as (b & Hb).
  exists (Nat.max b 256). split; [lia|]. intros V W cb vnone fuel d s qs e v Hle R He P o ks qs' w' E.
  destruct (joint_process env root m Hf Hm cb vnone d qs e v s o ks qs' w' P E) as (vds & rp & s1 & Pr & Ro & P1 & P2 & P3).
  assert (Hle' : b <= fuel) by lia. specialize (Hb V W cb vnone fuel [d] d s (KProcess e v) Hle' R).
  destruct (call_well_formed cb env root m Hm vnone fuel [d] d s (KProcess e v) (flat_well_formed env root Hf m Hm) R He) as (U1 & U2).
  pose proof (process_agrees cb env root m vnone [d] d s fuel e v (conj Hm (conj (flat_few env root Hf) R))) as A.
  unfold do_call_catch, do_call in *. destruct (process_event cb m vnone fuel e v s) as [[bb v'] s'|x s'|u|]; cbn [bind fst] in *.
  - destruct A as (_ & A). destruct (A _ _ _ Pr) as (-> & ->). exists s'. cbn in Ro. subst o. auto.
  - destruct A as (n & -> & _ & A). destruct (A _ _ _ Pr) as (-> & ->). exists s'. cbn in Ro. subst o. auto.
  - exfalso. exact (U1 u eq_refl).
  - contradiction.
Qed.

Lemma joint_session env root m : compile env root = Some m -> one_table env root ->
  exists bound, forall V W (cb : cbfun V W) vnone fuel d w l outs ks qs w', bound <= fuel ->
    Forall (fun ev => event_of env root (fst ev)) l ->
    joints cb env root d (initial_states env root) l w = (outs, ks, qs, w') ->
    exists s, session cb m vnone fuel d w (map (fun ev => KProcess (fst ev) (snd ev)) l) = Done outs s /\
      (forall r q, nth_error qs r = Some q -> at_place m s r = Some (root, q)) /\ length (rt_cur s) = length qs /\ rt_trace s = ks /\ rt_world s = w'.
Proof.
  intros Hm Hf. destruct (joint_step env root m Hm Hf) as (b & Hb2 & Hb). exists b.
  intros V W cb vnone fuel d w l outs ks qs w' Hle Hl H. pose proof (ot_regions _ _ Hf) as [L1 L2].
  destruct (construct_defined (V:=V) (W:=W) env root m Hm fuel d w) as (s0 & E0);
    [exact (wp_sources _ _ (wf_placed _ _ (flat_well_formed env root Hf m Hm)))|lia|lia|intros _ F; rewrite F in L1; inversion L1|].
  destruct (construct_result env root m Hm fuel d w s0 L2 E0) as (C1 & C2 & C3 & C4 & _ & _ & _ & Ct & Cw).
  unfold session. rewrite E0. cbn [bind].
  assert (R0 : reachable cb m vnone [d] d s0) by (econstructor; exact E0).
  assert (A0 : posed env root m (initial_states env root) s0).
  { split; [exact (table_width env root m Hf Hm cb fuel d w s0 E0)|reflexivity|exact C1|].
    destruct (Nat.eq_dec (length (initial_states env root)) 1) as [E1|N1].
    - rewrite C4; [auto|]. intros X. apply (table_regions env root Hf) in X. lia.
    - apply C3. apply (table_regions env root Hf). lia. }
  assert (G : exists s, run cb m vnone fuel (map (fun ev => KProcess (fst ev) (snd ev)) l) s0 = Done outs s /\
      posed env root m qs s /\ rt_trace s = rt_trace s0 ++ ks /\ rt_world s = w').
  { clear E0 C1 C2 C3 C4 Ct L1 L2. revert s0 w outs ks qs w' Cw A0 R0 H. generalize (initial_states env root). 
    induction Hl as [|[e v] l He Hl IH]; intros i s0 w outs ks qs w' Cw A0 R0 H.
    - cbn in H. inversion H; subst. exists s0. cbn [map run]. rewrite app_nil_r. auto.
    - cbn [joints] in H. destruct (joint cb env root d i e v w) as [[[o k1] q1] w1] eqn:E1.
      destruct (joints cb env root d q1 l w1) as [[[os k2] q2] w2] eqn:E2. inversion H; subst.
      destruct (Hb V W cb vnone fuel d s0 i e v Hle R0 He A0 _ _ _ _ E1) as (s1 & D1 & P1 & P2 & P3).
      assert (R1 : reachable cb m vnone [d] d s1) by (exact (reach_call cb m vnone fuel [d] d s0 (KProcess e v) o s1 R0 D1)).
      destruct (IH q1 s1 w1 os k2 qs w' P3 P1 R1 E2) as (s2 & D2 & Q1 & Q2 & Q3).
      exists s2. cbn [map fst snd run]. rewrite D1. cbn [bind]. rewrite D2. cbn [bind]. split; [reflexivity|].
      split; [exact Q1|]. split; [|exact Q3]. rewrite Q2, P2. now rewrite app_assoc. }
  destruct G as (s & D & Q1 & Q2 & Q3). rewrite Ct in Q2. exists s. split; [exact D|]. split; [exact (po_at _ _ _ _ _ Q1)|]. split; [exact (po_len _ _ _ _ _ Q1)|]. auto.
Qed.
