(** Which one-table programs compile. *)

From Coq Require Import List Arith NArith Bool Lia.
From Verif Require Import Types Static Spec Semantics ListFacts RefineFacts StaticFacts RegionFacts Flat FlatFacts.
Import ListNotations.

Section Accept.
Variables (env : cenv) (root : cls).
Hypothesis Hf : one_table env root.

Lemma children_In s : In s (children env root) <-> child env root s.
Proof.
  unfold children. rewrite <- unique_dedup, unique_In, in_flat_map. unfold child. split.
  - intros (r & Hr & [H|[H|[]]]); exists r; auto.
  - intros (r & Hr & [H|H]); exists r; (split; [exact Hr|]); rewrite H; cbn; auto.
Qed.
Lemma child_leaf s : child env root s -> exists a, s = SState a /\ ~ composite env a.
Proof.
  intros (r & Hr & H). destruct (ot_rows _ _ Hf r Hr) as (_ & (a & Ea & Ha) & b & Eb & Hb).
  destruct H as [-> | ->]; eauto.
Qed.
Lemma root_composite : composite env root.
Proof.
  intros E. apply (proj2 (root_parent env root Hf)). unfold table. now rewrite E.
Qed.
Lemma flat_state s : is_state env root s <-> s = SState root \/ child env root s.
Proof.
  unfold is_state. split; (intros [H|H]; [auto|]).
  - destruct H as (p & Hu & H). apply (flat_used env root Hf) in Hu. subst p. auto.
  - right. exists root. split; [constructor|exact H].
Qed.
Lemma initial_child s : In s (initial_states env root) -> child env root s.
Proof.
  unfold initial_states. rewrite in_map_iff. intros (t & <- & H). rewrite <- unique_dedup, unique_In, filter_In in H.
  destruct H as [H M]. unfold mentioned in H. apply in_flat_map in H. destruct H as (r & Hr & [H|[H|[]]]); exists r; (split; [exact Hr|]); subst t; [auto|].
  destruct (ot_rows _ _ Hf r Hr) as (_ & _ & b & Eb & _). rewrite Eb in M. discriminate.
Qed.

Lemma table_accepted :
  (exists m, compile env root = Some m) <->
  (forall r ty b, In r (table env root) -> r_act r = Action ty b -> ~ needs_pointer b) /\
  (forall i, In (SState i) (initial_states env root) -> cd_internal (lookup env i) = None) /\
  (N.of_nat (S (length (children env root))) < two64)%N.
Proof.
  split.
  - intros (m & Hm). split; [intros r ty b; apply (flat_pointer env root Hf m Hm)|].
    assert (C : compiles env root) by (apply compile_compiles; eauto). split.
    + intros i Hi. apply (co_root_initial _ _ C i). exact Hi.
    + pose proof (co_size _ _ C [root] (SState root :: children env root)) as S. rewrite N.mul_1_l in S. apply S.
      * constructor; [intros []|constructor].
      * constructor.
        -- rewrite children_In. intros H. destruct (child_leaf _ H) as (a & E & Ha). injection E as <-. exact (Ha root_composite).
        -- unfold children. rewrite <- unique_dedup. apply unique_NoDup.
      * intros p [<-|[]]. apply (root_parent env root Hf).
      * intros s [<-|H]; apply flat_state; [auto|]. right. now apply children_In.
  - intros (H1 & H2 & H3). apply compile_compiles. split.
    + exact (proj2 (root_parent env root Hf)).
    + intros (p & c & Hu & (r & Hr & Hl & Hc) & _). apply (flat_used env root Hf) in Hu. subst p.
      destruct (ot_rows _ _ Hf r Hr) as (_ & _ & b & Eb & Hb). rewrite Eb in Hl. inversion Hl; subst. contradiction.
    + exists root. split; [apply (root_parent env root Hf)|]. intros E. pose proof (proj1 (ot_regions _ _ Hf)) as L. rewrite E in L. inversion L.
    + intros c Hc. destruct (child_leaf _ (initial_child _ Hc)) as (a & E & Ha). inversion E; subst. split; [exact Ha|].
      apply H2. exact Hc.
    + intros x Hx. apply (flat_declared_row env root Hf) in Hx. destruct Hx as (r & Hr & ->). split.
      * exists (root, r_tgt r). split; [apply (row_target env root Hf r Hr)|]. apply (target_is_place env root Hf r Hr).
      * rewrite (row_source env root Hf r Hr). apply (source_is_place env root Hf r Hr).
      * cbn. intros w p E. destruct (ot_rows _ _ Hf r Hr) as (_ & _ & b & Eb & _). congruence.
      * cbn. intros ty b Ha Hb. contradiction (H1 r ty b Hr Ha Hb).
    + intros fl ints x Hv Hk Hx. exfalso.
      assert (Ei : internal_rows env root fl = []).
      { unfold internal_rows. induction (occurrences root fl) as [|[p s] l IH]; [reflexivity|]. cbn [flat_map]. rewrite IH, app_nil_r.
        unfold internal_rows_of. cbn [snd]. destruct s; try reflexivity. now rewrite (proj1 (ot_classes _ _ Hf c)). }
      rewrite Ei in Hk. inversion Hk; subst. destruct Hx.
    + intros x e Hx He. exfalso. unfold deferred_by in He. destruct (unmarked (x_src x)); try contradiction.
      rewrite (flat_no_defers env root Hf) in He. exact He.
    + intros p Hu H. apply (flat_used env root Hf) in Hu. subst p. destruct (child_leaf _ H) as (a & E & Ha). injection E as <-.
      exact (Ha root_composite).
    + intros ps ss N1 N2 A B. assert (L1 : length ps <= 1).
      { apply (NoDup_incl_length N1 (l' := [root])). intros p Hp. destruct (A p Hp) as (Hu & _). left. symmetry. now apply (flat_used env root Hf). }
      assert (L2 : length ss <= S (length (children env root))).
      { apply (NoDup_incl_length N2 (l' := SState root :: children env root)). intros s Hs. specialize (B s Hs). apply flat_state in B.
        destruct B as [-> | B]; [now left|]. right. now apply children_In. }
      apply N.le_lt_trans with (2 := H3). nia.
Qed.
End Accept.

Lemma flat_accepted env root : flat env root ->
  (exists m, compile env root = Some m) <->
  (forall r ty b, In r (table env root) -> r_act r = Action ty b -> ~ needs_pointer b) /\
  (forall i, first_initial env root = Some (SState i) -> cd_internal (lookup env i) = None) /\
  (N.of_nat (S (length (children env root))) < two64)%N.
Proof.
  intros Hf. rewrite (table_accepted env root Hf). pose proof (fl_one _ _ Hf) as L. unfold first_initial.
  destruct (initial_states env root) as [|x [|y l]]; try discriminate. cbn [hd_error In].
  split; intros (H1 & H2 & H3); (split; [exact H1|split; [|exact H3]]); intros i E; apply H2.
  - left. congruence.
  - destruct E as [->|[]]. reflexivity.
Qed.
