(** Lookers change neither whether a program compiles nor what it does. *)

From Coq Require Import List Arith NArith Bool Lia.
From Verif Require Import Types Static Dispatch Runtime IndexFacts Spec Semantics Interp Probe ProbeFacts ProbeRun
  StaticFacts TableFacts InterpFacts Reach Safe SafeObjects.
Import ListNotations.

Section Program.
Variable watch : callee -> bool.
Variable ty : option nat -> option nat.
Variables env env' : cenv.
Variable root : cls.
Hypothesis H : watched watch ty env env' root.
Notation sr := (same_row watch ty).

(** * Names *)
Lemma p_row c r : In r (table env c) -> exists r', In r' (table env' c) /\ watched_row watch ty r r'.
Proof. apply both_in_left. apply (same_table _ _ _ _ _ H). Qed.
Lemma p_row_back c r' : In r' (table env' c) -> exists r, In r (table env c) /\ watched_row watch ty r r'.
Proof. apply both_in. apply (same_table _ _ _ _ _ H). Qed.
Lemma p_irow c r : In r (internals env c) -> exists r', In r' (internals env' c) /\ watched_irow watch ty r r'.
Proof. apply both_in_left. apply (same_internals _ _ _ _ _ H). Qed.
Lemma p_irow_back c r' : In r' (internals env' c) -> exists r, In r (internals env c) /\ watched_irow watch ty r r'.
Proof. apply both_in. apply (same_internals _ _ _ _ _ H). Qed.
Lemma p_composite c : composite env' c <-> composite env c.
Proof. apply (composite_same _ _ _ _ _ H). Qed.
Lemma p_used a p : used env' a p <-> used env a p.
Proof.
  split; induction 1 as [|p r c Hu IH Hr Hl Hc]; try constructor.
  - destruct (p_row_back _ _ Hr) as (r0 & Hr0 & (_ & _ & _ & E & _)). rewrite E in Hl.
    apply (used_sub env a p r0 c); auto. now apply p_composite.
  - destruct (p_row _ _ Hr) as (r0 & Hr0 & (_ & _ & _ & E & _)). rewrite <- E in Hl.
    apply (used_sub env' a p r0 c); auto. now apply p_composite.
Qed.
Lemma p_child c s : child env' c s <-> child env c s.
Proof.
  split; intros (r & Hr & E).
  - destruct (p_row_back _ _ Hr) as (r0 & Hr0 & (E1 & _ & _ & E2 & _)). exists r0. split; [exact Hr0|]. now rewrite <- E1, <- E2.
  - destruct (p_row _ _ Hr) as (r0 & Hr0 & (E1 & _ & _ & E2 & _)). exists r0. split; [exact Hr0|]. now rewrite E1, E2.
Qed.
Lemma p_written c s : written_in env' c s <-> written_in env c s.
Proof.
  split; intros (r & Hr & E).
  - destruct (p_row_back _ _ Hr) as (r0 & Hr0 & (E1 & _ & _ & E2 & _)). exists r0. split; [exact Hr0|]. now rewrite <- E1, <- E2.
  - destruct (p_row _ _ Hr) as (r0 & Hr0 & (E1 & _ & _ & E2 & _)). exists r0. split; [exact Hr0|]. now rewrite E1, E2.
Qed.
Lemma p_state s : is_state env' root s <-> is_state env root s.
Proof. unfold is_state. split; intros [E|(p & Hu & Hc)]; auto; right; exists p; now rewrite ?p_used, ?p_child in *. Qed.
Lemma p_empty c : table env' c = [] <-> table env c = [].
Proof. symmetry. apply (both_nil (watched_row watch ty)), (same_table _ _ _ _ _ H). Qed.
Lemma p_parent p : is_parent env' root p <-> is_parent env root p.
Proof. unfold is_parent. now rewrite p_used, p_empty. Qed.
Lemma p_initial c : initial_states env' c = initial_states env c.
Proof. apply (same_initial _ _ _ _ _ H). Qed.
Lemma p_few : few_regions env' root <-> few_regions env root.
Proof. unfold few_regions. split; intros F p Hp; [rewrite <- p_initial|rewrite p_initial]; now apply F, p_parent. Qed.
Lemma p_steps a b : steps_to env' a b <-> steps_to env a b.
Proof.
  split; intros (r & Hr & Hl & Hc); apply p_composite in Hc.
  - destruct (p_row_back _ _ Hr) as (r0 & Hr0 & (_ & _ & _ & E & _)). exists r0. rewrite <- E. auto.
  - destruct (p_row _ _ Hr) as (r0 & Hr0 & (_ & _ & _ & E & _)). exists r0. rewrite E. auto.
Qed.
Lemma p_recursive : recursive env' root <-> recursive env root.
Proof. unfold recursive. split; intros (p & c & A & B & C); exists p, c; rewrite ?p_used, ?p_steps in *; auto. Qed.
Lemma p_occurs p s : occurs env' root p s <-> occurs env root p s.
Proof. split; intros [|q t Hu Hc]; constructor; rewrite ?p_used, ?p_child in *; auto. Qed.
Lemma p_declared x : declared env root x -> exists x', declared env' root x' /\ sr x x'.
Proof.
  intros (p & r & Hu & Hr & ->). destruct (p_row _ _ Hr) as (r' & Hr' & E). exists (row_in p r').
  split; [exists p, r'; now rewrite p_used|now apply same_in].
Qed.
Lemma p_declared_back x' : declared env' root x' -> exists x, declared env root x /\ sr x x'.
Proof.
  intros (p & r & Hu & Hr & ->). destruct (p_row_back _ _ Hr) as (r' & Hr' & E). exists (row_in p r').
  split; [exists p, r'; now rewrite <- p_used|now apply same_in].
Qed.
Lemma p_inner x : declared_internal env root x -> exists x', declared_internal env' root x' /\ sr x x'.
Proof.
  intros [p c i s Ho Hc Hi Hw|p c i Ho Hc Hi]; destruct (p_irow _ _ Hi) as (i' & Hi' & (E1 & E2 & E3)); eexists.
  - split; [apply (di_composite env' root p c i' s)|]; rewrite ?p_occurs, ?p_composite, ?p_written; auto. split; cbn; auto.
  - split; [apply (di_leaf env' root p c i')|]; rewrite ?p_occurs, ?p_composite; auto. split; cbn; auto.
Qed.
Lemma p_inner_back x' : declared_internal env' root x' -> exists x, declared_internal env root x /\ sr x x'.
Proof.
  intros [p c i s Ho Hc Hi Hw|p c i Ho Hc Hi]; destruct (p_irow_back _ _ Hi) as (i' & Hi' & (E1 & E2 & E3)); eexists.
  - rewrite p_occurs, p_composite, p_written in *. split; [apply (di_composite env root p c i' s)|]; auto. split; cbn; auto.
  - rewrite p_occurs, p_composite in *. split; [apply (di_leaf env root p c i')|]; auto. split; cbn; auto.
Qed.

(** * What compiles *)
Definition by_pointer (c : callee) : Prop := match c with CFactory _ | CReuse _ => True | _ => False end.
Lemma pointer_calls : forall b, needs_pointer b <-> exists c, In c (callees b) /\ by_pointer c.
Proof.
  intros b. split.
  - induction 1 as [f|f|b l Hb _ (c & Hc & P)]; [exists (CFactory f)|exists (CReuse f)|exists c]; cbn; auto.
    split; [|exact P]. apply in_flat_map. eauto.
  - revert b. fix IH 1. intros [f|f|f|l]; cbn [callees]; intros (c & Hc & P).
    + destruct Hc as [<-|[]]. destruct P.
    + constructor.
    + constructor.
    + assert (E : exists b, In b l /\ needs_pointer b).
      { induction l as [|b l IHl]; cbn [flat_map] in Hc; [destruct Hc|]. apply in_app_or in Hc. destruct Hc as [Hc|Hc].
        - exists b. split; [now left|]. apply IH. eauto.
        - destruct (IHl Hc) as (b' & Hb & N). exists b'. split; [now right|exact N]. }
      destruct E as (b & Hb & N). now apply (np_chain b l).
Qed.
Lemma fine_same x x' : sr x x' -> row_fine env' root x' <-> row_fine env root x.
Proof.
  intros Hx. pose proof (same_target _ _ _ _ _ H _ _ Hx) as ET. pose proof (same_target_state _ _ _ _ _ H _ _ Hx) as ES.
  pose proof (same_source _ _ _ _ Hx) as EO. pose proof (proj1 (sr_act _ _ _ _ Hx)) as EA.
  assert (K : forall c, by_pointer c -> In c (calls_of (x_act x')) <-> In c (calls_of (x_act x))).
  { intros c P. rewrite <- EA. unfold unwatched. rewrite filter_In. split; [|tauto]. intros Hc. split; [exact Hc|].
    destruct (watch c) eqn:E; [|reflexivity]. apply (wa_kinds _ _ _ _ _ H) in E. destruct c; cbn in E, P; contradiction. }
  split; intros [F1 F2 F3 F4]; constructor.
  - destruct F1 as (pl & E & I). exists pl. rewrite <- ET, <- p_state. auto.
  - now rewrite <- EO, <- p_state.
  - intros w p E. apply p_composite. apply (F3 w p). now rewrite (sr_tgt _ _ _ _ Hx).
  - intros t b E N. rewrite <- ES, <- (same_constructible _ _ _ _ _ H). apply pointer_calls in N. destruct N as (c & Hc & P).
    assert (Hc' : In c (calls_of (x_act x'))) by (apply K; [exact P|now rewrite E]).
    destruct (x_act x') as [|t' b'] eqn:E'; [destruct Hc'|]. apply (F4 t' b' eq_refl). apply pointer_calls. eauto.
  - destruct F1 as (pl & E & I). exists pl. rewrite ET, p_state. auto.
  - now rewrite EO, p_state.
  - intros w p E. apply p_composite. apply (F3 w p). now rewrite <- (sr_tgt _ _ _ _ Hx).
  - intros t b E N. rewrite ES, (same_constructible _ _ _ _ _ H). apply pointer_calls in N. destruct N as (c & Hc & P).
    assert (Hc' : In c (calls_of (x_act x))) by (apply K; [exact P|now rewrite E]).
    destruct (x_act x) as [|t' b'] eqn:E'; [destruct Hc'|]. apply (F4 t' b' eq_refl). apply pointer_calls. eauto.
Qed.
Lemma kept_inner l l' : Forall2 sr l l' -> forall ints ints',
  keeps_first same_cpp_type [] (internal_rows env root l) ints ->
  keeps_first same_cpp_type [] (internal_rows env' root l') ints' -> Forall2 sr ints ints'.
Proof.
  intros Hl ints ints' K K'.
  assert (F : forall r, keeps_first same_cpp_type [] r (firsts [] r)) by (intros r; apply firsts_keeps; intros x; tauto).
  rewrite (keeps_first_det _ _ _ _ (F _) _ K), (keeps_first_det _ _ _ _ (F _) _ K').
  apply (same_firsts _ _ _ _ _ H); [now apply (same_internal _ _ _ _ _ H)|constructor].
Qed.
Lemma visits_both flat' : visits env' root (table env' root) flat' -> forall flat, visits env root (table env root) flat ->
  Forall2 sr flat flat'.
Proof.
  intros Hv' flat Hv. destruct (same_visits _ _ _ _ _ H _ _ _ Hv _ (same_table _ _ _ _ _ H root)) as (l & Hv1 & Hl).
  now rewrite (visits_det _ _ _ _ Hv1 _ Hv').
Qed.
Lemma compiles_same : compiles env' root <-> compiles env root.
Proof.
  split; intros C; pose proof C as [C1 C2 C3 C4 C5 C6 C7 C8 C9]; constructor.
  - now rewrite <- p_empty.
  - now rewrite <- p_recursive.
  - destruct C3 as (p & Hp & Hi). exists p. now rewrite <- p_parent, <- p_initial.
  - intros k Hi. rewrite <- p_initial in Hi. rewrite <- p_composite, <- (no_internals _ _ _ _ _ H). auto.
  - intros x Hx. destruct (p_declared _ Hx) as (x' & Hx' & R). apply (fine_same _ _ R). auto.
  - intros flat ints x Hv Hk Hx. destruct (same_visits _ _ _ _ _ H _ _ _ Hv _ (same_table _ _ _ _ _ H root)) as (l & Hv1 & Hl).
    assert (K' : keeps_first same_cpp_type [] (internal_rows env' root l) (firsts [] (internal_rows env' root l)))
      by (apply firsts_keeps; intros y; tauto).
    destruct (both_in_left _ _ _ _ (kept_inner _ _ Hl _ _ Hk K') Hx) as (x' & Hx' & R). apply (fine_same _ _ R). eauto.
  - intros x e Hx He. destruct (p_declared _ Hx) as (x' & Hx' & R). rewrite <- (same_deferred _ _ _ _ _ H _ _ R) in He.
    destruct (C7 x' e Hx' He) as (y' & [Hy|Hy] & E).
    + destruct (p_declared_back _ Hy) as (y & Hy1 & Ry). exists y. split; [auto|]. now rewrite <- (sr_ev _ _ _ _ Ry).
    + destruct (p_inner_back _ Hy) as (y & Hy1 & Ry). exists y. split; [auto|]. now rewrite <- (sr_ev _ _ _ _ Ry).
  - intros p Hu. rewrite <- p_child. apply C8. now rewrite p_used.
  - intros ps ss N1 N2 A B. apply C9; auto; intros a Ha; [rewrite p_parent|rewrite p_state]; auto.
  - now rewrite p_empty.
  - now rewrite p_recursive.
  - destruct C3 as (p & Hp & Hi). exists p. now rewrite p_parent, p_initial.
  - intros k Hi. rewrite p_initial in Hi. rewrite p_composite, (no_internals _ _ _ _ _ H). auto.
  - intros x Hx. destruct (p_declared_back _ Hx) as (x' & Hx' & R). apply (fine_same _ _ R). auto.
  - intros flat ints x Hv Hk Hx. destruct (proj2 (compile_compiles env root) C) as (m & Hm).
    destruct (interpreter_rows _ _ _ Hm) as (Hv0 & Hk0).
    destruct (both_in _ _ _ _ (kept_inner _ _ (visits_both _ Hv _ Hv0) _ _ Hk0 Hk) Hx) as (x' & Hx' & R).
    apply (fine_same _ _ R). eauto.
  - intros x e Hx He. destruct (p_declared_back _ Hx) as (x' & Hx' & R). rewrite (same_deferred _ _ _ _ _ H _ _ R) in He.
    destruct (C7 x' e Hx' He) as (y' & [Hy|Hy] & E).
    + destruct (p_declared _ Hy) as (y & Hy1 & Ry). exists y. split; [auto|]. now rewrite (sr_ev _ _ _ _ Ry).
    + destruct (p_inner _ Hy) as (y & Hy1 & Ry). exists y. split; [auto|]. now rewrite (sr_ev _ _ _ _ Ry).
  - intros p Hu. rewrite p_child. apply C8. now rewrite <- p_used.
  - intros ps ss N1 N2 A B. apply C9; auto; intros a Ha; [rewrite <- p_parent|rewrite <- p_state]; auto.
Qed.

(** * Numbers *)
Variables m m' : machine.
Hypothesis Hm : compile env root = Some m.
Hypothesis Hm' : compile env' root = Some m'.
Lemma rows_both : Forall2 sr (outer_rows env root) (outer_rows env' root) /\
  Forall2 sr (inner_rows env root) (inner_rows env' root).
Proof.
  destruct (interpreter_rows _ _ _ Hm) as (Hv & Hk). destruct (interpreter_rows _ _ _ Hm') as (Hv' & Hk').
  assert (F := visits_both _ Hv' _ Hv). split; [exact F|]. exact (kept_inner _ _ F _ _ Hk Hk').
Qed.
Lemma flat_both : Forall2 sr (mc_flat m) (mc_flat m').
Proof.
  destruct (rows_compiled _ _ _ Hm) as [<- _]. destruct (rows_compiled _ _ _ Hm') as [<- _]. apply rows_both.
Qed.
Lemma parents_both : parents m' = parents m.
Proof. unfold parents. f_equal. apply (both_map _ _ _ _ _ flat_both). intros x x' Hx. apply (sr_parent _ _ _ _ Hx). Qed.
Lemma states_both : states m' = states m.
Proof.
  unfold states, child_states_rec. destruct (compile_comp _ _ _ Hm) as (_ & _ & ->). destruct (compile_comp _ _ _ Hm') as (_ & _ & ->).
  f_equal. f_equal. apply (both_flat_map _ _ _ _ _ flat_both). intros x x' Hx. now rewrite (sr_src _ _ _ _ Hx), (sr_tgt _ _ _ _ Hx).
Qed.
Lemma places_both : places m' = places m.
Proof. unfold places. now rewrite parents_both, states_both. Qed.
Lemma number_both sp : number m' sp = number m sp.
Proof. destruct sp; cbn [number]; unfold code; now rewrite places_both. Qed.
Lemma tells_both o o' z : tells m o z -> tells m' o' z -> o' = o.
Proof.
  destruct z; cbn [tells]; try congruence. intros -> ->. f_equal. apply map_ext. intros [[r sp] sp0].
  rewrite number_both. f_equal; [f_equal|].
  - destruct sp0 as [|[p s]]; cbn [parent_number]; unfold parent_idx; now rewrite parents_both.
  - destruct sp as [|[p s]]; cbn [state_number]; unfold state_idx; now rewrite ?states_both.
Qed.
Lemma all_tell os : forall os' zs, Forall2 (tells m) os zs -> Forall2 (tells m') os' zs -> os' = os.
Proof.
  induction os as [|o os IH]; intros os' zs A B; inversion A; subst; inversion B; subst; [reflexivity|].
  f_equal; [eapply tells_both; eauto|eapply IH; eauto].
Qed.

(** * Runs *)
Context {V W W' : Type}.
Variable view : W' -> W.
Variable cb : cbfun V W.
Variable cb' : cbfun V W'.
Hypothesis L : looks_only watch view cb cb'.

Lemma session_both vnone fuel d w ks : few_regions env root -> 255 < fuel ->
  match session cb' m' vnone fuel d w ks with
  | Done outs s' => exists s, session cb m vnone fuel d (view w) ks = Done outs s /\ same_but_watched watch view s s'
  | Threw x s' => exists s, session cb m vnone fuel d (view w) ks = Threw x s /\ same_but_watched watch view s s'
  | Undef UBNull => True
  | Undef u => session cb m vnone fuel d (view w) ks = Undef u
  | Timeout => session cb m vnone fuel d (view w) ks = Timeout
  end.
Proof.
  intros F Fu. pose proof (interpreter_session V W cb env root m vnone fuel d (view w) ks Hm F Fu) as P.
  pose proof (interpreter_session V W' cb' env' root m' vnone fuel d w ks Hm' (proj2 p_few F) Fu) as P'.
  unfold interpreter in *. destruct rows_both as [Fo Fi].
  pose proof (r_interpret watch ty env env' root H view cb cb' L _ _ _ _ Fo Fi vnone fuel d w ks) as A.
  assert (B : forall (s : rt V W) z (s' : rt V W') z', shows m s z -> shows m' s' z' -> ProbeRun.sim watch view z z' -> same_but_watched watch view s s').
  { intros s z s' z' [] [] []. split; try congruence.
    - rewrite sh_at0, sh_at, si_at. apply map_ext. intros [sp|]; [|reflexivity]. cbn. now rewrite number_both.
    - rewrite sh_mem0, sh_mem, parents_both. apply map_ext. intros p. rewrite si_mem. apply map_ext. apply number_both. }
  unfold same_answer in *.
  destruct (session cb' m' vnone fuel d w ks) as [outs' s'|x' s'|u'|],
    (interpret cb' env' root (outer_rows env' root) (inner_rows env' root) vnone fuel d w ks) as [zs' z'|y' z'|v'|];
    try contradiction; cbn [agrees_on] in A;
  destruct (session cb m vnone fuel d (view w) ks) as [outs s|x s|u|],
    (interpret cb env root (outer_rows env root) (inner_rows env root) vnone fuel d (view w) ks) as [zs z|y z|v|];
    try contradiction; try discriminate; try (destruct A as (A & S & _)); subst.
  all: try match type of P with _ /\ _ => destruct P as [P1 P2], P' as [P1' P2'] | _ => idtac end; subst; try reflexivity.
  - exists s. split; [|eauto]. f_equal. symmetry. eapply all_tell; eauto.
  - exists s. split; [reflexivity|eauto].
  - destruct v'; try exact I; discriminate.
  - destruct v'; try exact I; discriminate.
  - destruct v'; try exact I; congruence.
  - destruct v'; try exact I; discriminate.
Qed.
Lemma session_safe vnone fuel d w ks : few_regions env root -> 255 < fuel -> well_formed env' root ->
  Forall (well_typed env' root) ks ->
  match session cb' m' vnone fuel d w ks with
  | Done outs s' => exists s, session cb m vnone fuel d (view w) ks = Done outs s /\ same_but_watched watch view s s'
  | Timeout => session cb m vnone fuel d (view w) ks = Timeout
  | _ => False
  end.
Proof.
  intros F Fu Wf Wt. pose proof (session_both vnone fuel d w ks F Fu) as P.
  destruct (session_well_formed (V := V) (W := W') cb' env' root m' Hm' vnone fuel d w ks Wf Wt) as [N1 N2].
  destruct (session cb' m' vnone fuel d w ks) as [outs' s'|x' s'|u'|]; [exact P|now apply (N2 x' s')|now apply (N1 u')|exact P].
Qed.
End Program.
Theorem watched_compiles : forall watch ty env env' root, watched watch ty env env' root ->
  (exists m, compile env root = Some m) <-> (exists m', compile env' root = Some m').
Proof. intros. rewrite !compile_compiles. symmetry. eapply compiles_same; eauto. Qed.
