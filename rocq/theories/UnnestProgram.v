(** The program with one table compiles and does the same. *)

From Coq Require Import List Arith NArith Bool Lia.
From Verif Require Import Types Static Dispatch Runtime ListFacts IndexFacts Spec Semantics EquivUse Interp Probe ProbeFacts
  FlattenFacts StaticFacts TableFacts RefineFacts InterpFacts Reach Safe SafeObjects Unnest UnnestFacts UnnestRun.
Import ListNotations.

(** * It compiles *)
Section Compiles.
Variable env : cenv.
Variable root : cls.
Variable m : machine.
Hypothesis Hm : compile env root = Some m.
Hypothesis Or : orderly env root (outer_rows env root) (inner_rows env root) = true.
Hypothesis One : one_region env root.
Hypothesis Size : (N.of_nat (S (length (spots env root))) < two64)%N.
Notation spots := (spots env root).
Notation one := (one env root).
Notation alias := (alias env root).
Notation env' := (unnested env root).
Notation rows' := (one_rows env root).

Lemma used_one p : used env' one p <-> p = one.
Proof.
  clear Size. split; [|intros ->; constructor]. induction 1 as [|p r c Hu IH Hr Hl Hc]; [reflexivity|]. subst p. rewrite table_one in Hr.
  destruct (row_target env root m Hm One r Hr) as (q & Hq & E). rewrite E in Hl. inversion Hl; subst.
  exfalso. apply Hc. apply lookup_new. pose proof (alias_lt env root q Hq). lia.
Qed.
Lemma row_states r : In r rows' -> (exists q, In q spots /\ unmarked (r_src r) = SState (alias q)) /\
  exists q, In q spots /\ r_tgt r = SState (alias q).
Proof.
  intros Hr. split; [|now apply (row_target env root m Hm One)]. apply in_rows in Hr.
  destruct Hr as (pl & e & x & o & Hp & _ & _ & ->). exists pl. split; [exact Hp|]. apply unmarked_alias.
Qed.
Lemma child_one s : child env' one s -> exists q, In q spots /\ s = SState (alias q).
Proof.
  intros (r & Hr & E). rewrite table_one in Hr. destruct (row_states r Hr) as [(q & Hq & E1) (q' & Hq' & E2)].
  destruct E as [E|E]; subst s; eauto.
Qed.
Lemma first_row : exists r, In r rows'.
Proof.
  destruct (begins_spot env root m Hm Or One) as (Hb & e & x & o & He & Hx).
  eexists. apply in_rows. exists (begins env root), e, x, o. split; [exact Hb|]. split; [exact He|]. split; [exact Hx|reflexivity].
Qed.
Lemma one_parent : is_parent env' one one.
Proof. split; [constructor|]. rewrite table_one. destruct first_row as (r & Hr). intros E. rewrite E in Hr. destruct Hr. Qed.
Lemma row_state r : In r rows' -> is_state env' one (unmarked (r_src r)) /\ is_state env' one (r_tgt r).
Proof. intros Hr. split; right; exists one; (split; [constructor|]); exists r; rewrite table_one; auto. Qed.
Lemma alias_leaf q : In q spots -> is_composite env' (alias q) = false.
Proof.
  intros Hq. destruct (is_composite env' (alias q)) eqn:E; [|reflexivity]. apply new_composite in E. pose proof (alias_lt env root q Hq). lia.
Qed.
Lemma no_internal flat : internal_rows env' one flat = [].
Proof.
  unfold internal_rows. induction (occurrences one flat) as [|pl l IH]; [reflexivity|]. cbn [flat_map]. rewrite IH.
  unfold internal_rows_of. destruct (snd pl); try reflexivity. unfold internals.
  destruct (lookup_members env root c) as (_ & _ & _ & ->). reflexivity.
Qed.
Lemma unnested_compiles : compiles env' one.
Proof.
  split.
  - exact (proj2 one_parent).
  - intros (p & c & Hu & (r & Hr & Hl & Hc) & _). apply used_one in Hu. subst p. rewrite table_one in Hr.
    destruct (row_target env root m Hm One r Hr) as (q & Hq & E). rewrite E in Hl. inversion Hl; subst.
    apply Hc. apply lookup_new. pose proof (alias_lt env root q Hq). lia.
  - exists one. split; [exact one_parent|]. rewrite (new_initial env root m Hm Or One). discriminate.
  - intros c Hc. rewrite (new_initial env root m Hm Or One) in Hc. destruct Hc as [E|[]]. injection E as <-.
    pose proof (alias_lt env root _ (proj1 (begins_spot env root m Hm Or One))) as L. split; [|apply lookup_members].
    intros N. apply N, lookup_new. lia.
  - intros x (p & r & Hu & Hr & ->). apply used_one in Hu. subst p. rewrite table_one in Hr.
    destruct (row_states r Hr) as [(q & Hq & E1) (q' & Hq' & E2)]. destruct (row_state r Hr) as [S1 S2]. split.
    + exists (one, SState (alias q')). unfold target_place. cbn [row_in x_tgt x_parent]. rewrite E2, (alias_leaf q' Hq').
      split; [reflexivity|]. cbn [snd]. now rewrite <- E2.
    + assert (Es : snd (source_place (row_in one r)) = unmarked (r_src r)).
      { unfold source_place. cbn [row_in x_src x_parent]. destruct (r_src r); try discriminate; reflexivity. }
      now rewrite Es.
    + intros w p E. cbn [row_in x_tgt] in E. congruence.
    + intros ty b E N. exfalso. apply in_rows in Hr. destruct Hr as (pl & e & x & o & _ & _ & _ & ->). cbn [row_in x_act r_act] in E.
      unfold alias_action in E. destruct (called_with env x o) as [|c l]; [discriminate|]. injection E as <- <-.
      inversion N as [| |b1 l1 Hb Nb]; subst. apply in_map_iff in Hb || idtac.
      match goal with H : In ?b ?l |- _ => assert (T : exists k, b = ACall k) end.
      { cbn [In map] in *. repeat match goal with H : _ \/ _ |- _ => destruct H as [<-|H]; [eauto|] end.
        match goal with H : In _ (map _ _) |- _ => apply in_map_iff in H; destruct H as (k & <- & _); eauto end. }
      destruct T as (k & ->). inversion Nb.
  - intros flat ints x _ K Hx. exfalso. rewrite no_internal in K. inversion K; subst. destruct Hx.
  - intros x e (p & r & Hu & Hr & ->) He. apply used_one in Hu. subst p. rewrite table_one in Hr.
    destruct (row_states r Hr) as [(q & Hq & E1) _]. unfold deferred_by in He. cbn [row_in x_src] in He. rewrite E1 in He.
    rewrite (defers_alias env root q Hq) in He. apply filter_In in He. destruct He as [He _].
    destruct (occasions_tried env root Or e He) as (y & pl & o & Hp & Hy).
    exists (new_row env root e pl y o). split; [|reflexivity]. left. exists one. eexists. split; [constructor|]. split; [|reflexivity].
    rewrite table_one. apply in_rows. exists pl, e, y, o. auto.
  - intros p Hu Hc. apply used_one in Hu. subst p. apply child_one in Hc. destruct Hc as (q & Hq & E). injection E as E.
    pose proof (alias_lt env root q Hq). lia.
  - intros ps ss Np Ns Hps Hss. assert (L1 : length ps <= 1).
    { apply (NoDup_incl_length (l' := [one]) Np). intros p Hp. left. symmetry. apply used_one. exact (proj1 (Hps p Hp)). }
    assert (L2 : length ss <= S (length spots)).
    { replace (S (length spots)) with (length (SState one :: map (fun q => SState (alias q)) spots)) by (cbn; now rewrite map_length).
      apply (NoDup_incl_length Ns). intros s Hs. destruct (Hss s Hs) as [->|(p & Hu & Hc)]; [now left|]. right.
      apply used_one in Hu. subst p. apply child_one in Hc. destruct Hc as (q & Hq & ->). apply in_map_iff. eauto. }
    apply N.le_lt_trans with (1 * N.of_nat (S (length spots)))%N; [apply N.mul_le_mono; lia|now rewrite N.mul_1_l].
Qed.
End Compiles.

(** * It does the same *)
Record same_run {V W} (env : cenv) (root : cls) (m m' : machine) (s s' : rt V W) : Prop := mkSameRun {
  u_at : exists pl, is_place env root pl /\ at_place m s 0 = Some pl /\
         at_place m' s' 0 = Some (one env root, SState (alias env root pl));
  u_queue : rt_queue s' = rt_queue s;
  u_world : rt_world s' = rt_world s;
  u_trace : rt_trace s = map (in_old_words env root) (rt_trace s') }.

Section Same.
Context {V W : Type}.
Variable cb : cbfun V W.
Variable env : cenv.
Variable root : cls.
Variable cb' : cbfun V W.
Hypothesis Hcb : forall c a v w, cb' c a v w = translated env root cb c a v w.
Hypothesis One : one_region env root.
Variables m m' : machine.
Hypothesis Hm : compile env root = Some m.
Hypothesis Hm' : compile (unnested env root) (one env root) = Some m'.

Definition speaks (z : zout) : Prop := match z with ZStatus _ => False | _ => True end.
Lemma serve_speaks cb1 env1 root1 vnone fuel k (z z1 : mach V W) o : plain_call k = true ->
  serve_catch cb1 env1 root1 (outer_rows env1 root1) (inner_rows env1 root1) vnone fuel k z = Ok o z1 -> speaks o.
Proof.
  intros K. unfold serve_catch, serve. destruct k as [[|n] v| | | |dd|]; try discriminate.
  - destruct (dispatch _ _ _ _ _ _ _ _ _ _); cbn [next]; intros E; try discriminate; injection E as <- _; exact I.
  - intros E. injection E as <- _. exact I.
Qed.
Lemma all_speak cb1 env1 root1 vnone fuel ks : forallb plain_call ks = true -> forall (z z1 : mach V W) os,
  serve_all cb1 env1 root1 (outer_rows env1 root1) (inner_rows env1 root1) vnone fuel ks z = Ok os z1 -> Forall speaks os.
Proof.
  induction ks as [|k ks IH]; cbn [forallb serve_all]; intros K z z1 os E; [injection E as <- _; constructor|].
  apply andb_true_iff in K. destruct K as [K1 K2].
  destruct (serve_catch cb1 env1 root1 _ _ vnone fuel k z) as [o z2| | |] eqn:E1; cbn [next] in E; try discriminate.
  destruct (serve_all cb1 env1 root1 _ _ vnone fuel ks z2) as [os1 z3| | |] eqn:E2; cbn [next] in E; try discriminate.
  injection E as <- _. constructor; [now apply (serve_speaks _ _ _ _ _ _ _ _ _ K1 E1)|now apply (IH K2 _ _ _ E2)].
Qed.
Lemma told os : Forall speaks os -> forall m1 m2 l1 l2, Forall2 (tells m1) l1 os -> Forall2 (tells m2) l2 os -> l1 = l2.
Proof.
  induction 1 as [|o os So F IH]; intros m1 m2 l1 l2 F1 F2; inversion F1; inversion F2; subst; [reflexivity|].
  f_equal; [|eapply IH; eauto]. destruct o; try contradiction; cbn in *; congruence.
Qed.
Lemma few : few_regions env root.
Proof. intros p Hp. pose proof (or_width env root One p Hp). lia. Qed.
Lemma shown_at env1 root1 m1 (H1 : compile env1 root1 = Some m1) (s : rt V W) z pl : shows m1 s z -> z_at z = [Some (At pl)] ->
  a_place root1 (outer_rows env1 root1) pl = true -> at_place m1 s 0 = Some pl.
Proof.
  intros S E P. unfold at_place. rewrite (sh_at _ _ _ S), E. cbn [map option_map nth_error number].
  destruct (rows_compiled env1 root1 m1 H1) as [Eo _]. rewrite Eo in P. compiled H1. apply a_place_iff in P; [|assumption..].
  unfold Semantics.code. rewrite Nnat.Nat2N.id. now apply nth_pos.
Qed.

Theorem session_unnested vnone fuel d w ks : 255 < fuel -> forallb plain_call ks = true ->
  match session cb m vnone fuel d w ks with
  | Done outs s => exists s', session cb' m' vnone fuel d w ks = Done outs s' /\ same_run env root m m' s s'
  | Threw x s => exists s', session cb' m' vnone fuel d w ks = Threw x s' /\ same_run env root m m' s s'
  | Undef _ => True
  | Timeout => session cb' m' vnone fuel d w ks = Timeout
  end.
Proof.
  intros Fu K.
  pose proof (interpreter_session V W cb env root m vnone fuel d w ks Hm few Fu) as P.
  destruct (orderly env root (outer_rows env root) (inner_rows env root)) eqn:Or.
  2:{ unfold interpreter, interpret in P. rewrite Or in P. destruct (session cb m vnone fuel d w ks); cbn in P; try contradiction. exact I. }
  pose proof (interpreter_session V W cb' _ _ m' vnone fuel d w ks Hm' (new_few env root m Hm Or One) Fu) as P'.
  pose proof (r_interpret cb env root cb' Hcb m Hm Or One m' Hm' vnone fuel d w ks K) as C.
  assert (Sp : forall os z, interpreter cb env root vnone fuel d w ks = Ok os z -> Forall speaks os).
  { unfold interpreter, interpret. rewrite Or. intros os z E. destruct (recount _ _ _) as [u z0| | |]; cbn [next] in E; try discriminate.
    now apply (all_speak _ _ _ _ _ _ K _ _ _ E). }
  assert (R : forall (s s' : rt V W) z z', shows m s z -> shows m' s' z' -> sim env root z z' -> same_run env root m m' s s').
  { intros s s' z z' S1 S2 S. split.
    - destruct (s_at _ _ _ _ S) as (pl & Hp & Hl & A1 & A2). exists pl. split; [now apply (spots_places env root m Hm)|]. split.
      + apply (shown_at env root m Hm s z pl S1 A1). now apply spots_iff.
      + apply (shown_at _ _ m' Hm' s' z' _ S2 A2). now apply (live_a_place env root m Hm One m' Hm').
    - rewrite (sh_queue _ _ _ S1), (sh_queue _ _ _ S2). apply (s_queue _ _ _ _ S).
    - rewrite (sh_world _ _ _ S1), (sh_world _ _ _ S2). apply (s_world _ _ _ _ S).
    - rewrite (sh_trace _ _ _ S1), (sh_trace _ _ _ S2). apply (s_trace _ _ _ _ S). }
  destruct (session cb m vnone fuel d w ks) as [outs s|x s|u|]; [| |exact I|];
  destruct (interpreter cb env root vnone fuel d w ks) as [os z|y z|u'|]; cbn [same_answer] in P; try contradiction; cbn [covers] in C.
  - destruct P as [T S1]. destruct C as (z' & E & S). rewrite E in P'.
    destruct (session cb' m' vnone fuel d w ks) as [outs' s'|x' s'|u'|]; cbn [same_answer] in P'; try contradiction.
    destruct P' as [T' S2]. exists s'. split; [f_equal; exact (told os (Sp os z eq_refl) _ _ _ _ T' T)|exact (R s s' z z' S1 S2 S)].
  - destruct P as [T S1]. destruct C as (z' & E & S). rewrite E in P'.
    destruct (session cb' m' vnone fuel d w ks) as [outs' s'|x' s'|u'|]; cbn [same_answer] in P'; try contradiction.
    destruct P' as [T' S2]. exists s'. split; [congruence|exact (R s s' z z' S1 S2 S)].
  - rewrite C in P'. destruct (session cb' m' vnone fuel d w ks); cbn [same_answer] in P'; try contradiction. reflexivity.
Qed.
Theorem session_unnested_safe vnone fuel d w ks : 255 < fuel -> forallb plain_call ks = true ->
  well_formed env root -> Forall (well_typed env root) ks ->
  match session cb m vnone fuel d w ks with
  | Done outs s => exists s', session cb' m' vnone fuel d w ks = Done outs s' /\ same_run env root m m' s s'
  | Timeout => session cb' m' vnone fuel d w ks = Timeout
  | _ => False
  end.
Proof.
  intros Fu K Wf Wt. pose proof (session_unnested vnone fuel d w ks Fu K) as P.
  destruct (session_well_formed (V := V) (W := W) cb env root m Hm vnone fuel d w ks Wf Wt) as [N1 N2].
  destruct (session cb m vnone fuel d w ks) as [outs s|x s|u|]; [exact P|now apply (N2 x s)|now apply (N1 u)|exact P].
Qed.
End Same.
Theorem session_one : forall V W (cb : cbfun V W) env root, one_region env root ->
  forall m m', compile env root = Some m -> compile (unnested env root) (one env root) = Some m' ->
  forall vnone fuel d w ks, 255 < fuel -> forallb plain_call ks = true ->
  match session cb m vnone fuel d w ks with
  | Done outs s => exists s', session (translated env root cb) m' vnone fuel d w ks = Done outs s' /\ same_run env root m m' s s'
  | Threw x s => exists s', session (translated env root cb) m' vnone fuel d w ks = Threw x s' /\ same_run env root m m' s s'
  | Undef _ => True
  | Timeout => session (translated env root cb) m' vnone fuel d w ks = Timeout
  end.
Proof. intros. now apply session_unnested. Qed.
Theorem session_one_safe : forall V W (cb : cbfun V W) env root, one_region env root ->
  forall m m', compile env root = Some m -> compile (unnested env root) (one env root) = Some m' ->
  forall vnone fuel d w ks, 255 < fuel -> forallb plain_call ks = true ->
  well_formed env root -> Forall (well_typed env root) ks ->
  match session cb m vnone fuel d w ks with
  | Done outs s => exists s', session (translated env root cb) m' vnone fuel d w ks = Done outs s' /\ same_run env root m m' s s'
  | Timeout => session (translated env root cb) m' vnone fuel d w ks = Timeout
  | _ => False
  end.
Proof. intros. now apply session_unnested_safe. Qed.

(** A well-formed program has no row that would be offered outside of the machine. *)
Lemma well_formed_orderly env root m : compile env root = Some m -> few_regions env root -> well_formed env root ->
  orderly env root (outer_rows env root) (inner_rows env root) = true.
Proof.
  intros Hm F Wf. destruct (orderly _ _ _ _) eqn:E; [reflexivity|]. exfalso.
  set (cb := (fun _ _ v w => Ret true v w) : cbfun unit unit).
  destruct (session_well_formed (V := unit) (W := unit) cb env root m Hm tt 256 0 tt [] Wf (Forall_nil _)) as [N _].
  pose proof (interpreter_session unit unit cb env root m tt 256 0 tt [] Hm F (le_n 256)) as P.
  unfold interpreter, interpret in P. rewrite E in P. destruct (session cb m tt 256 0 tt []); cbn in P; try contradiction.
  now apply (N u).
Qed.
Theorem unnested_accepted : forall env root m, compile env root = Some m -> one_region env root -> well_formed env root ->
  (N.of_nat (S (length (spots env root))) < two64)%N ->
  exists m', compile (unnested env root) (one env root) = Some m'.
Proof.
  intros env root m Hm One Wf Size. apply compile_compiles, (unnested_compiles env root m Hm); auto.
  apply (well_formed_orderly env root m); auto. now apply few.
Qed.
