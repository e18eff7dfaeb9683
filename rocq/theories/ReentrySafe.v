(** Well-formed machines are safe with user code that uses them. *)

From Coq Require Import List Arith NArith Bool Lia.
From Verif Require Import Types Static Dispatch Runtime ListFacts IndexFacts Spec
  DispatchFacts FlattenFacts Semantics RefineFacts StaticFacts TermFacts Reach ReachFacts TableFacts
  QueryFacts ProcessFacts Safe SafeFacts SafeObjects Reentry ReentryFacts.
Import ListNotations.

Section Machine.
Context {V W : Type}.
Notation st := (rt V W).
Variable m : machine.
Notation env := (mc_env m).
Notation root := (mc_root m).
Hypothesis Hm : compile env root = Some m.
Let Hc : comp m := proj1 (compile_comp _ _ _ Hm).
Hypothesis Hw : wpm m.
Hypothesis Ho : objm m.
Hypothesis Ha : anonm m.
Variable d0 : dep.

Definition sound (s : st) : Prop := exists ds, placed m ds d0 s /\ stocked m s.

(** [keep]: nothing in this part of the execution sets dependencies. *)
Section Keep.
Variable keep : Prop.
Definition fine {A} (s : st) (r : res V W A) : Prop :=
  match r with
  | Done _ s' | Threw _ s' => sound s' /\ (keep -> rt_tabs s' = rt_tabs s)
  | Undef _ => False
  | Timeout => True
  end.

Lemma fine_bind {A B} s (r : res V W A) (f : A -> st -> res V W B) :
  fine s r -> (forall a s', sound s' -> fine s' (f a s')) -> fine s (bind r f).
Proof.
  intros H1 H2. destruct r as [a s1|x s1|u|]; cbn in *; auto. destruct H1 as [S1 T1].
  specialize (H2 a s1 S1). destruct (f a s1); cbn in *; auto; (split; [apply H2|]); intros K; rewrite <- (T1 K); now apply H2.
Qed.
Lemma fine_done {A} s (a : A) : sound s -> fine s (Done a s).
Proof. cbn. auto. Qed.

Lemma fine_tabs {A} s s1 (r : res V W A) : rt_tabs s1 = rt_tabs s -> fine s1 r -> fine s r.
Proof. intros E. unfold fine. rewrite E. auto. Qed.

Lemma sound_same (s s' : st) : sound s -> rt_cur s' = rt_cur s -> rt_hist s' = rt_hist s ->
  rt_tabs s' = rt_tabs s -> rt_htabs s' = rt_htabs s -> rt_regions s' = rt_regions s ->
  rt_queue s' = rt_queue s -> rt_live s' = rt_live s -> sound s'.
Proof.
  intros (ds & P & S) E1 E2 E3 E4 E5 E6 E7. exists ds. split.
  - apply (placed_same m ds d0 s); auto. rewrite E6. apply P.
  - unfold stocked. now rewrite E7.
Qed.

Variable inv : callee -> args -> V -> st -> res V W (bool * V).
Hypothesis H_inv : forall c a v s, sound s -> fine s (inv c a v s).
Hypothesis H_guard : forall ty val a v s bv s', sound s ->
  inv (CGuard ty val) a v s = Done bv s' -> rt_tabs s' = rt_tabs s.

Lemma keep_fine s r : fine s r -> fine s (keep_payload (V := V) r).
Proof. intros H. apply fine_bind; [exact H|]. intros. now apply fine_done. Qed.

(** A candidate of the machine. *)
Definition good (en : entry) (e : ev) : Prop :=
  exists d c pl, en = bentry m (d, c) /\ In c (cands m e pl).

Lemma guard_fine d x o e v s pl : In (CRow x o) (cands m e pl) -> sound s ->
  fine s (g_guard inv (btrans m d x o) e v s) /\
  (forall bv s', g_guard inv (btrans m d x o) e v s = Done bv s' -> rt_tabs s' = rt_tabs s).
Proof.
  intros Hin Hs. unfold g_guard. cbn [t_guard btrans t_src t_int t_tgt].
  destruct (x_guard x) as [|ty val] eqn:Eg.
  - split; [now apply fine_done|]. intros bv s' H. now inversion H.
  - destruct Hs as (ds & P & S). destruct (cand_object m Hm _ _ _ _ Hin) as [Ho1 Hd1].
    destruct (om_cands m Ho _ _ _ _ Hin) as (Hg & _ & _). destruct (Hg ty val Eg) as [G1 G2].
    rewrite (stocked_alive m s o S Ho1 G1). cbn [andb].
    rewrite (stocked_alive m s (if x_int x then o else dst_of m x) S); [|destruct (x_int x); assumption|exact G2].
    assert (Hs : sound s) by (exists ds; auto). split; [now apply H_inv|]. intros bv s'. now apply H_guard.
Qed.

Lemma set_live_sound (s : st) x ty b bb : row_accepted m x = true -> x_act x = Action ty b -> needs_ptr b = true ->
  sound s -> sound (set_live s (dst_of m x) bb).
Proof.
  intros Hacc Ea Hn (ds & P & S). exists ds. split.
  - apply (placed_same m ds d0 s); auto. apply P.
  - assert (Hd : defctor env (dst_of m x) = false).
    { unfold row_accepted in Hacc. unfold dst_of. destruct (resolve_dst env x); [|discriminate].
      apply andb_true_iff in Hacc. destruct Hacc as [_ Hacc]. rewrite Ea, Hn in Hacc. cbn in Hacc.
      now destruct (defctor env s0). }
    intros q Hq Hdq. cbn. assert (Hne : q <> dst_of m x) by (intros ->; congruence).
    specialize (S q Hq Hdq). destruct bb.
    + destruct (in_dec sref_eq_dec (dst_of m x) (rt_live s)); [exact S|now right].
    + apply filter_In. split; [exact S|]. now destruct (sref_eq_dec q (dst_of m x)).
Qed.

Lemma body_fine d x o e ty b0 : row_accepted m x = true -> x_act x = Action ty b0 -> forall b,
  ~ reuses b -> (needs_ptr b = true -> needs_ptr b0 = true) -> forall v s, sound s ->
  fine s (g_body inv b (btrans m d x o) e v s).
Proof.
  intros Hacc Ea. induction b as [f|f|f|l IH] using abody_ind2; intros Hr Hn v s Hs; cbn [g_body].
  - apply keep_fine. now apply H_inv.
  - apply fine_bind; [now apply H_inv|]. intros bv s' Hs'. cbn [t_tgt btrans].
    split; [|reflexivity]. apply (set_live_sound s' x ty b0); auto.
  - exfalso. apply Hr. constructor.
  - assert (Hl : forall b, In b l -> ~ reuses b /\ (needs_ptr b = true -> needs_ptr b0 = true)).
    { intros b Hb. split; [intros H; apply Hr; econstructor; eauto|]. intros H. apply Hn. cbn.
      apply existsb_exists. eauto. }
    clear Hr Hn. revert v s Hs. induction IH as [|b l Hb _ IHl]; intros v s Hs; [now apply fine_done|].
    apply fine_bind.
    + apply Hb; auto; apply Hl; now left.
    + intros v' s' Hs'. apply IHl; auto. intros b' Hb'. apply Hl. now right.
Qed.

Lemma steps_fine d x o e : row_accepted m x = true -> forall l,
  (forall b, In (StAct b) l -> exists ty, x_act x = Action ty b /\ ~ reuses b) -> forall v s, sound s ->
  fine s (g_steps inv l (btrans m d x o) e v s).
Proof.
  intros Hacc. induction l as [|a l IH]; intros Hl v s Hs; cbn [g_steps]; [now apply fine_done|].
  apply fine_bind; [|intros v' s' Hs'; apply IH; auto; intros b Hb; apply Hl; now right].
  destruct a as [c|b|c|c]; cbn [g_step]; try (apply keep_fine; now apply H_inv).
  destruct (Hl b (or_introl eq_refl)) as (ty & Ea & Hr). apply (body_fine d x o e ty b); auto.
Qed.

Lemma action_fine d x o e v s pl : In (CRow x o) (cands m e pl) -> sound s ->
  fine s (g_action inv (btrans m d x o) e v s).
Proof.
  intros Hin Hs. pose proof (cands_accepted m Hc _ _ _ _ Hin) as Hacc.
  destruct (om_cands m Ho _ _ _ _ Hin) as (_ & Hob & Hr). destruct (cand_object m Hm _ _ _ _ Hin) as [Ho1 Hd1].
  unfold g_action. cbn [t_act btrans t_src t_ptr t_int t_tgt].
  destruct (resolve_action env x) as [steps|] eqn:E; [|now apply fine_done].
  assert (Hta : has_action env x = true).
  { unfold resolve_action in E. destruct (has_action env x); [reflexivity|discriminate]. }
  destruct Hs as (ds & P & S). rewrite (stocked_alive m s o S Ho1 (Hob Hta)). cbn [andb].
  replace (negb (defctor env (dst_of m x)) || x_int x || alive s (dst_of m x)) with true.
  - apply (steps_fine d x o e Hacc); [|exists ds; auto]. intros b Hb.
    destruct (resolve_action_body m x steps b E Hb) as [ty Ea]. exists ty. split; [exact Ea|]. eapply Hr; eauto.
  - destruct (defctor env (dst_of m x)) eqn:Ed; [|reflexivity].
    rewrite (stocked_alive m s _ S Hd1 Ed). now rewrite orb_true_r.
Qed.

Lemma update_fine d x o e pl r s : In (CRow x o) (cands m e pl) -> sound s -> r < max_initials m ->
  fine s (update_current_state m r (bentry m (d, CRow x o)) s).
Proof.
  intros Hin (ds & P & S) Hr. pose proof (cands_accepted m Hc _ _ _ _ Hin) as Hacc.
  destruct (update_total m Hc Hw ds d0 d x o r s P Hr Hacc) as (s1 & -> & P1 & Hmv).
  { intros Hi. eapply cands_flat; eauto. }
  destruct (moves_rest m _ _ _ _ Hmv) as (Eq & El & Et & _).
  split; [exists ds; split; [exact P1|unfold stocked; now rewrite El]|].
  intros _. apply (moves_frame m) in Hmv. apply Hmv.
Qed.

Lemma entries_fine here r e : In e (events m) -> r < max_initials m -> forall ens,
  (forall en, In en ens -> good en e) -> forall v s, sound s -> fine s (g_entries inv m ens here r e v s).
Proof.
  intros He Hr. induction ens as [|en ens IH]; intros Hg v s Hs; cbn [g_entries]; [now apply fine_done|].
  assert (IH' : forall v s, sound s -> fine s (g_entries inv m ens here r e v s)) by (intros; apply IH; auto; intros; apply Hg; now right).
  destruct (Hg en (or_introl eq_refl)) as (d & [|x o] & pl & -> & Hin).
  - cbn. split; [|reflexivity]. destruct Hs as (ds & P & S). exists ds. split; [|exact S].
    apply (placed_same m ds d0 s); auto. cbn. intros e' v'. rewrite in_app_iff. intros [H|[H|[]]].
    + eapply (pd_queue _ _ _ _ P); eauto.
    + now inversion H; subst.
  - rewrite bentry_tr. cbn [en_defer bentry centry fst snd entry_of_row].
    destruct (guard_fine d x o e v s pl Hin Hs) as [Hgf Hgt].
    destruct (g_guard inv (btrans m d x o) e v s) as [[b v1] s1|ex s1|u|]; cbn [bind fst snd]; auto.
    specialize (Hgt _ _ eq_refl).
    destruct Hgf as [S1 _]. apply (fine_tabs s s1); [exact Hgt|]. destruct b.
    + apply fine_bind; [now apply (update_fine d x o e pl)|]. intros _ s2 S2.
      apply fine_bind; [now apply (action_fine d x o e _ _ pl)|]. intros v' s3 S3. now apply fine_done.
    + unfold count at 1. rewrite Hgt. fold (count e here s). rewrite Nat.eqb_refl. now apply IH'.
Qed.

Lemma bound_good ds e pl en : In en (map (bentry m) (bound m ds e pl)) -> good en e.
Proof.
  intros H. apply in_map_iff in H. destruct H as ([d c] & <- & H). exists d, c, pl. split; [reflexivity|].
  unfold bound in H. apply in_flat_map in H. destruct H as (d' & _ & H).
  apply in_map_iff in H. destruct H as (c' & E & H). now inversion E; subst.
Qed.

Lemma region_fine r e v s : In e (events m) -> sound s -> r < max_initials m -> fine s (g_region inv m r e v s).
Proof.
  intros He Hs Hr. destruct (Hs) as (ds & P & S). destruct (pd_at _ _ _ _ P r Hr) as [pl Hat]. unfold g_region.
  rewrite (get_entries_total m Hc ds d0 e r s pl (pd_tinv _ _ _ _ P) He Hat). cbn [bind].
  destruct (placed_cur m Hc ds d0 s r P Hr) as (c & p & q & Ec & _).
  pose proof (entries_fine c r e He Hr _ (bound_good ds e pl) v s Hs) as F.
  destruct (map (bentry m) (bound m ds e pl)); [now apply fine_done|].
  unfold read_cur. rewrite Ec. cbn [bind]. apply fine_bind; [exact F|]. intros. now apply fine_done.
Qed.

Lemma regions_le s : sound s -> current_regions m s <= max_initials m.
Proof. intros (ds & P & S). apply (current_regions_le m Hc ds d0 (fun _ => True) s (conj P I)). Qed.

Lemma loop_fine e : In e (events m) -> forall fuel limit r agf ati v s,
  limit <= max_initials m -> sound s -> fine s (g_loop inv m fuel limit r agf ati e v s).
Proof.
  intros He. induction fuel as [|fuel IH]; intros limit r agf ati v s Hl Hs; [exact I|].
  cbn [g_loop]. destruct (Nat.ltb_spec r limit) as [Hr|Hr]; [|now apply fine_done].
  apply fine_bind; [apply region_fine; auto; lia|]. intros [o v1] s1 Hs1. cbn [fst snd].
  destruct o as [[| |]|]; auto. now apply fine_done.
Qed.

Lemma anonymous_fine here r : has_anonymous m = true -> r < max_initials m -> forall ens,
  (forall en, In en ens -> good en ENone) -> forall v s, sound s -> fine s (g_anonymous inv m ens here r v s).
Proof.
  intros He Hr. induction ens as [|en ens IH]; intros Hg v s Hs; cbn [g_anonymous]; [now apply fine_done|].
  assert (IH' : forall v s, sound s -> fine s (g_anonymous inv m ens here r v s)) by (intros; apply IH; auto; intros; apply Hg; now right).
  destruct (Hg en (or_introl eq_refl)) as (d & [|x o] & pl & -> & Hin).
  - exfalso. exact (Ha He pl Hin).
  - rewrite bentry_tr. destruct (guard_fine d x o ENone v s pl Hin Hs) as [Hgf Hgt].
    destruct (g_guard inv (btrans m d x o) ENone v s) as [[b v1] s1|ex s1|u|]; cbn [bind fst snd]; auto.
    specialize (Hgt _ _ eq_refl).
    destruct Hgf as [S1 _]. apply (fine_tabs s s1); [exact Hgt|]. destruct b.
    + apply fine_bind; [now apply (update_fine d x o ENone pl)|]. intros _ s2 S2.
      apply fine_bind; [now apply (action_fine d x o ENone _ _ pl)|]. intros v' s3 S3. now apply fine_done.
    + unfold count at 1. rewrite Hgt. fold (count ENone here s). rewrite Nat.eqb_refl. now apply IH'.
Qed.
Lemma anonymous_region_fine r v s : has_anonymous m = true -> sound s -> r < max_initials m ->
  fine s (g_anonymous_region inv m r v s).
Proof.
  intros He Hs Hr. destruct (Hs) as (ds & P & S). destruct (pd_at _ _ _ _ P r Hr) as [pl Hat]. unfold g_anonymous_region.
  rewrite (get_entries_total m Hc ds d0 ENone r s pl (pd_tinv _ _ _ _ P) (none_event m He) Hat). cbn [bind].
  destruct (placed_cur m Hc ds d0 s r P Hr) as (c & p & q & Ec & _).
  pose proof (anonymous_fine c r He Hr _ (bound_good ds ENone pl) v s Hs) as F.
  destruct (map (bentry m) (bound m ds ENone pl)); [now apply fine_done|].
  unfold read_cur. rewrite Ec. cbn [bind]. apply fine_bind; [exact F|]. intros. now apply fine_done.
Qed.
Lemma pass_fine : has_anonymous m = true -> forall fuel limit r agf v s,
  limit <= max_initials m -> sound s -> fine s (g_pass inv m fuel limit r agf v s).
Proof.
  intros He. induction fuel as [|fuel IH]; intros limit r agf v s Hl Hs; [exact I|].
  cbn [g_pass]. destruct (Nat.ltb_spec r limit) as [Hr|Hr]; [|now apply fine_done].
  apply fine_bind; [apply anonymous_region_fine; auto; lia|]. intros [o v1] s1 Hs1. cbn [fst snd].
  destruct o as [b|]; auto. now apply fine_done.
Qed.
Lemma anonymous_loop_fine : has_anonymous m = true -> forall rfuel fuel v s,
  sound s -> fine s (g_anonymous_loop inv m rfuel fuel v s).
Proof.
  intros He rfuel. induction fuel as [|fuel IH]; intros v s Hs; [exact I|]. cbn [g_anonymous_loop].
  apply fine_bind; [apply pass_fine; auto using regions_le|].
  intros [[[|]|] v1] s1 Hs1; cbn [fst snd]; auto; now apply fine_done.
Qed.

Variable vnone : V.
Lemma internal_fine fuel e v s : In e (events m) -> sound s -> fine s (g_internal inv m vnone fuel e v s).
Proof.
  intros He Hs. unfold g_internal. apply fine_bind; [apply loop_fine; auto using regions_le|].
  intros [p v1] s1 Hs1. cbn [fst]. destruct p; try now apply fine_done.
  apply fine_bind; [|intros; now apply fine_done]. unfold g_completion.
  case_eq (has_anonymous m); intros E; [now apply anonymous_loop_fine|now apply fine_done].
Qed.
Lemma handler_fine e v s : In e (events m) -> sound s -> fine s (g_handler inv m e v s).
Proof.
  intros He Hs. unfold g_handler. case_eq (cd_unexpected (lookup env root)); intros Eu; [|now apply fine_done].
  destruct (Hs) as (ds & P & S).
  destruct (placed_cur m Hc ds d0 s 0 P (max_pos m Hc)) as (c & p & q & E & Ep & Hp & Hq).
  unfold at_cur. rewrite E. cbn [bind].
  pose proof (ti_htabs _ _ _ _ (pd_tinv _ _ _ _ P) Eu) as Hh.
  pose proof (fill_handlers_get m Hc d0 (rt_htabs s) e p q Hh He Hp Hq) as G.
  destruct (get_table (rt_htabs s) e) as [arr|]; [|contradiction]. destruct G as [G _].
  destruct (places_at_inv m Hc _ _ _ Ep) as (_ & _ & ->). rewrite nth_at_nth, G.
  rewrite (stocked_alive m s q S Hq (om_handler m Ho Eu q Hq)). apply keep_fine. now apply H_inv.
Qed.
Lemma process_fine fuel e v s : In e (events m) -> sound s -> fine s (g_process inv m vnone fuel e v s).
Proof.
  intros He Hs. unfold g_process. destruct (in_dec ev_eq_dec e (events m)); [|contradiction].
  apply fine_bind; [now apply internal_fine|]. intros [p v1] s1 Hs1. cbn [fst snd].
  destruct p; try now apply fine_done.
  - apply fine_bind; [now apply handler_fine|]. intros. now apply fine_done.
  - apply fine_bind; [|intros; now apply fine_done]. unfold g_deferred. destruct (has_deferred m); [|now apply fine_done].
    destruct (rt_queue s1) as [|[e' v'] q] eqn:Eq; [now apply fine_done|]. destruct Hs1 as (ds & P & S).
    apply (fine_bind s1); [|intros; now apply fine_done]. apply (fine_tabs s1 (with_queue s1 q)); [reflexivity|].
    apply internal_fine; [apply (pd_queue _ _ _ _ P e' v'); rewrite Eq; now left|].
    exists ds. split; [|exact S]. apply (placed_same m ds d0 s1); auto. cbn. intros e2 v2 Hin.
    apply (pd_queue _ _ _ _ P e2 v2). rewrite Eq. now right.
Qed.

(** Calls other than set_dependency. *)
Lemma call_fine fuel k s : sound s -> typed m k -> no_dependency k -> fine s (g_call_catch inv m vnone fuel k s).
Proof.
  intros Hs Ht Hn.
  assert (G : fine s (g_call inv m vnone fuel k s)).
  { destruct Hs as (ds & P & S). assert (Hs : sound s) by (exists ds; auto).
    destruct k as [e v|r p q|p|r p q|d|]; cbn [g_call typed] in *; (apply fine_bind; [|intros; now apply fine_done]).
    - now apply process_fine.
    - unfold q_is. destruct (current_parent_placed m Hc ds d0 s P) as (p0 & q0 & _ & _ & ->). cbn [bind].
      destruct (N.eqb _ _); [|now apply fine_done]. unfold current_state, at_cur.
      destruct (nth_error (rt_cur s) (to_region r)) as [[c|]|] eqn:E; cbn; auto.
      assert (Hr : to_region r < max_initials m).
      { rewrite <- (ti_cur _ _ _ _ (pd_tinv _ _ _ _ P)). apply nth_error_Some. congruence. }
      destruct (placed_cur m Hc ds d0 s _ P Hr) as (c & p1 & q1 & E1 & _). congruence.
    - unfold q_parent_is. destruct (current_parent_placed m Hc ds d0 s P) as (p0 & q0 & _ & _ & ->). now apply fine_done.
    - destruct Ht as [Hp Hq].
      destruct (set_state_placed m Hc ds d0 r p q s P Hp Hq) as [(s' & E & P' & L & Hh & A)| E]; rewrite E; cbn; [|auto].
      split; [exists ds; split; [exact P'|unfold stocked; now rewrite L]|]. intros _.
      unfold set_state in E. destruct (in_dec _ _ _); [|discriminate]. destruct (in_dec _ _ _); [|discriminate].
      destruct (upd_nth _ _ _); inversion E. reflexivity.
    - exfalso. now apply (Hn d).
    - assert (L : forall f l r s, l <= max_initials m -> sound s -> fine s (status_loop m f l r s)).
      { clear Hs P S s ds. intros f. induction f as [|f IH]; intros l r s Hl Hs; [exact I|]. cbn [status_loop].
        destruct (Nat.ltb_spec r l) as [Hr|Hr]; [|now apply fine_done].
        destruct (Hs) as (ds & P & S).
        destruct (placed_cur m Hc ds d0 s r P ltac:(lia)) as (c & p & q & E & _).
        destruct (current_parent_placed m Hc ds d0 s P) as (p0 & q0 & _ & _ & Ep).
        unfold current_state, read_cur, at_cur. rewrite E. cbn [bind]. rewrite Ep. cbn [bind]. rewrite E. cbn [bind].
        apply fine_bind; [apply IH; auto; lia|]. intros; now apply fine_done. }
      apply L; auto using regions_le. }
  unfold g_call_catch. destruct (g_call inv m vnone fuel k s); cbn in *; auto.
Qed.
End Keep.

Lemma fine_drop (keep keep' : Prop) {A} s (r : res V W A) : (keep' -> keep) -> fine keep s r -> fine keep' s r.
Proof. intros H. destruct r; cbn; tauto. Qed.

(** * The knot *)
Variable cb : rcbfun V W.
Hypothesis cb_typed : forall c a v w, uses (typed m) (cb c a v w).
Hypothesis cb_guards : guards_leave_tables cb.
Variable vnone : V.

Definition no_dep_code : Prop := forall c a v w, uses no_dependency (cb c a v w).

Section Use.
Variable use : call V -> st -> res V W out.
Hypothesis use_sound : forall k s, sound s -> typed m k -> fine False s (use k s).
Hypothesis use_keep : forall k s, sound s -> typed m k -> no_dependency k -> fine no_dep_code s (use k s).
Hypothesis use_query : forall k s, sound s -> typed m k -> no_dependency k -> no_event k -> fine True s (use k s).

Lemma dep_dec (k : call V) : no_dependency k \/ exists d, k = KSetDep d.
Proof. destruct k; try (left; intros d'; discriminate). right. eauto. Qed.

Lemma world_sound (s : st) w tr : sound s -> sound (with_user s w tr).
Proof. intros H. now apply (sound_same s). Qed.

Lemma prog_fine p : uses (typed m) p -> (no_dep_code -> uses no_dependency p) -> forall s, sound s ->
  fine no_dep_code s (run_prog use p s).
Proof.
  intros Ht. induction Ht as [b v w|x w|k w next Hk _ IH]; intros Hn s Hs; cbn [run_prog].
  - split; [now apply world_sound|reflexivity].
  - split; [now apply world_sound|reflexivity].
  - apply (fine_tabs _ s (with_world s w)); [reflexivity|]. apply fine_bind.
    + assert (S1 : sound (with_world s w)) by now apply world_sound.
      destruct (dep_dec k) as [Hd|[d ->]]; [now apply use_keep|].
      pose proof (use_sound (KSetDep d) _ S1 Hk) as F. destruct (use _ _); cbn in *; auto;
        (split; [apply F|]; intros K; specialize (Hn K); inversion Hn as [| |? ? ? Hx]; exfalso; exact (Hx d eq_refl)).
    + intros o s1 S1. apply IH; auto. intros K. specialize (Hn K). inversion Hn. auto.
Qed.
Lemma query_fine p : uses (typed m) p -> uses no_dependency p -> uses no_event p -> forall s, sound s ->
  fine True s (run_prog use p s).
Proof.
  intros Ht. induction Ht as [b v w|x w|k w next Hk _ IH]; intros H1 H2 s Hs; cbn [run_prog].
  - split; [now apply world_sound|reflexivity].
  - split; [now apply world_sound|reflexivity].
  - inversion H1; subst. inversion H2; subst.
    apply (fine_tabs _ s (with_world s w)); [reflexivity|]. apply fine_bind.
    + apply use_query; auto. now apply world_sound.
    + intros o s1 S1. apply IH; auto.
Qed.

Lemma rinvoke_fine c a v s : sound s -> fine no_dep_code s (rinvoke use cb c a v s).
Proof.
  intros Hs. unfold rinvoke. apply (fine_tabs _ s (with_user s (rt_world s) (rt_trace s ++ [mkCall c a v]))); [reflexivity|].
  apply prog_fine; auto using world_sound.
Qed.
Lemma rinvoke_guard ty val a v s bv s' : sound s -> rinvoke use cb (CGuard ty val) a v s = Done bv s' ->
  rt_tabs s' = rt_tabs s.
Proof.
  intros Hs E. destruct cb_guards as [G [G'|G']].
  - pose proof (rinvoke_fine (CGuard ty val) a v s Hs) as F. rewrite E in F. now apply F.
  - unfold rinvoke in E.
    pose proof (query_fine _ (cb_typed (CGuard ty val) a v (rt_world s)) (G ty val a v (rt_world s))
      (G' ty val a v (rt_world s)) _ (world_sound s (rt_world s) (rt_trace s ++ [mkCall (CGuard ty val) a v]) Hs)) as F.
    rewrite E in F. now apply F.
Qed.
End Use.

Lemma query_call inv fuel k s : sound s -> typed m k -> no_dependency k -> no_event k ->
  fine True s (g_call_catch inv m vnone fuel k s).
Proof.
  intros Hs Ht H1 H2.
  assert (E : g_call_catch inv m vnone fuel k s = g_call_catch (fun _ _ _ _ => Timeout) m vnone fuel k s).
  { unfold g_call_catch, g_call. destruct k; auto. exfalso. eapply H2; reflexivity. }
  rewrite E. apply call_fine; auto.
  - intros; exact I.
  - intros; discriminate.
Qed.

Lemma r_call_fine : forall depth fuel k s, sound s -> typed m k ->
  fine False s (r_call cb m vnone depth fuel k s) /\
  (no_dependency k -> fine no_dep_code s (r_call cb m vnone depth fuel k s)) /\
  (no_dependency k -> no_event k -> fine True s (r_call cb m vnone depth fuel k s)).
Proof.
  induction depth as [|depth IH]; intros fuel k s Hs Ht; [cbn; auto|]. cbn [r_call].
  assert (I1 : forall c a v s, sound s -> fine no_dep_code s (rinvoke (r_call cb m vnone depth fuel) cb c a v s)).
  { intros c a v s0. apply rinvoke_fine; intros k1 s1 S1 T1; [|intros N1]; now apply IH. }
  assert (I2 : forall ty val a v s bv s', sound s ->
     rinvoke (r_call cb m vnone depth fuel) cb (CGuard ty val) a v s = Done bv s' -> rt_tabs s' = rt_tabs s).
  { intros ty val a v s0 bv s0'. apply rinvoke_guard; intros k1 s1 S1 T1; [|intros N1|intros N1 N2]; now apply IH. }
  assert (K : no_dependency k -> fine no_dep_code s (g_call_catch (rinvoke (r_call cb m vnone depth fuel) cb) m vnone fuel k s)).
  { intros Hn. now apply call_fine. }
  split; [|split; [exact K|intros; now apply query_call]].
  destruct (dep_dec k) as [Hd|[d ->]].
  - apply (fine_drop no_dep_code); [intros []|]. now apply K.
  - destruct Hs as (ds & P & S). destruct (set_dependency_placed m Hc Hw ds d0 d s P) as (t & E & P').
    unfold g_call_catch, g_call. rewrite E. cbn. split; [|intros []]. exists (d :: ds). split; [exact P'|exact S].
Qed.

Lemma r_run_fine depth fuel : forall ks s, sound s -> Forall (typed m) ks ->
  match r_run cb m vnone depth fuel ks s with
  | Done _ s' => sound s'
  | Timeout => True
  | _ => False
  end.
Proof.
  induction ks as [|k ks IH]; intros s Hs Ht; cbn [r_run]; [exact Hs|].
  inversion Ht as [|? ? T1 T2]; subst. destruct (r_call_fine depth fuel k s Hs T1) as [F _].
  assert (G : forall x s', r_call cb m vnone depth fuel k s <> Threw x s').
  { destruct depth; cbn [r_call]; [discriminate|]. unfold g_call_catch. intros x s'.
    destruct (g_call _ _ _ _ k s); discriminate. }
  destruct (r_call cb m vnone depth fuel k s) as [o s1|x s1|u|]; cbn in *; auto.
  - specialize (IH s1 (proj1 F) T2). destruct (r_run cb m vnone depth fuel ks s1); cbn; auto.
  - exact (G x s1 eq_refl).
Qed.
End Machine.

Lemma uses_weaken {V W} (P Q : call V -> Prop) : (forall k, P k -> Q k) ->
  forall p : prog V W, uses P p -> uses Q p.
Proof. intros H p Hp. induction Hp; constructor; auto. Qed.

Lemma reentrant_safe V W (cb : rcbfun V W) env root m : compile env root = Some m ->
  forall vnone depth fuel d w ks, well_formed env root ->
  (forall c a v w, uses (well_typed env root) (cb c a v w)) -> guards_leave_tables cb ->
  Forall (well_typed env root) ks ->
  match r_session cb m vnone depth fuel d w ks with
  | Done _ s => sound_state env root m s
  | Timeout => True
  | _ => False
  end.
Proof.
  intros Hm vnone depth fuel d w ks Hwf Hu Hg Ht.
  destruct (wf_inv env root m Hm Hwf) as (H1 & H2 & H3).
  destruct (compiled_itself env root m Hm) as (Hm' & He & Hr).
  pose proof (proj1 (compile_comp _ _ _ Hm)) as Hc.
  assert (Hu' : forall c a v w, uses (typed m) (cb c a v w)).
  { intros c a v w0. eapply uses_weaken; [|apply Hu]. intros k. now apply (typed_iff env root m k Hm). }
  apply (typed_all env root m ks Hm) in Ht.
  unfold r_session. pose proof (construct_placed (V := V) m Hc H1 fuel d w) as P.
  destruct (construct m fuel d w) as [[] s|x s|u|]; cbn [bind]; auto.
  destruct P as (P1 & P2 & _).
  assert (Hs : sound m d s).
  { exists [d]. split; [exact P1|]. intros q Hq Hd. rewrite P2. now apply filter_In. }
  pose proof (r_run_fine m Hm' H1 H2 H3 d cb Hu' Hg vnone depth fuel ks s Hs Ht) as F.
  destruct (r_run cb m vnone depth fuel ks s) as [os s'|x s'|u|]; auto.
  destruct F as (ds & P & _). eapply placed_sound; eauto.
Qed.
