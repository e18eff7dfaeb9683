(** Index computations of the library as plain positions. *)

From Coq Require Import List Arith NArith Bool Lia.
From Verif Require Import Types Static Dispatch ListFacts.
Import ListNotations.

Lemma two64_pos : (0 < two64)%N.
Proof. reflexivity. Qed.

Section IndexOf.
Context {A : Type} (dec : forall a b : A, {a = b} + {a <> b}).

Lemma wadd_0_r a : (a < two64)%N -> wadd a 0 = a.
Proof. intros H. unfold wadd. rewrite N.add_0_r. apply N.mod_small. exact H. Qed.
Lemma wadd_0_l a : (a < two64)%N -> wadd 0 a = a.
Proof. intros H. unfold wadd. rewrite N.add_0_l. apply N.mod_small. exact H. Qed.

Lemma wsub_lt a b : (wsub a b < two64)%N.
Proof. unfold wsub. apply N.mod_lt. discriminate. Qed.

Lemma idx_sum_absent x l : forall i size, ~ In x l -> idx_sum dec x l i size = 0%N.
Proof.
  induction l as [|a l IH]; cbn; intros i size Hn; [reflexivity|].
  destruct (dec x a) as [->|Hne]; [tauto|]. rewrite IH by tauto. reflexivity.
Qed.

Lemma idx_sum_present x l : forall i size,
  NoDup l -> In x l ->
  idx_sum dec x l i size = wsub (i + N.of_nat (pos dec x l)) size.
Proof.
  induction l as [|a l IH]; cbn [idx_sum pos]; intros i size Hnd Hin; [destruct Hin|].
  inversion Hnd as [|? ? Hn Hnd']; subst.
  destruct (dec x a) as [->|Hne].
  - rewrite idx_sum_absent by exact Hn. rewrite wadd_0_r by apply wsub_lt.
    f_equal. lia.
  - rewrite IH; [|exact Hnd'|destruct Hin; congruence].
    rewrite wadd_0_l by apply wsub_lt. f_equal. lia.
Qed.

Lemma index_of_pos l x :
  NoDup l -> (N.of_nat (length l) < two64)%N ->
  index_of dec l x = N.of_nat (pos dec x l).
Proof.
  intros Hnd Hlen. unfold index_of.
  destruct (in_dec dec x l) as [Hin|Hn].
  - rewrite idx_sum_present by assumption.
    pose proof (proj1 (pos_lt dec x l) Hin) as Hlt.
    unfold wadd, wsub. rewrite N.add_0_l.
    set (L := N.of_nat (length l)) in *. set (P := N.of_nat (pos dec x l)).
    assert (HP : (P < L)%N) by (unfold P, L; lia).
    rewrite (N.mod_small L two64) by exact Hlen.
    rewrite (N.mod_small (P + (two64 - L))) by lia.
    replace (L + (P + (two64 - L)))%N with (P + 1 * two64)%N by lia.
    rewrite N.mod_add by discriminate. apply N.mod_small. lia.
  - rewrite idx_sum_absent by exact Hn. rewrite wadd_0_r by exact Hlen.
    rewrite pos_absent by exact Hn. reflexivity.
Qed.
End IndexOf.

(** The machine's row list is the flattened table of its root. *)
Definition flattened (m : machine) : Prop :=
  exists f, flatten f (mc_env m) (mc_root m) = Some (mc_flat m).

(** Facts the compiler guarantees. *)
Record comp (m : machine) : Prop := mkComp {
  cp_flat : mc_flat m <> [];
  cp_max : max_initials m <> 0;
  cp_rows : forall x, In x (mc_flat m ++ internal_flat m) -> row_accepted m x = true;
  cp_defer : forall x e, In x (deferring m) -> In e (deferred_events m x) -> In e (events m);
  cp_root : ~ In (SState (mc_root m)) (child_states_rec m);
  cp_size : (N.of_nat (n_parents m) * n_states m < two64)%N;
  cp_initab : forall s, In s (initials (mc_env m) (mc_root m)) ->
                has_table (mc_env m) s = false /\ has_internal (mc_env m) s = false;
  cp_fl : flattened m }.
Coercion cp_fl : comp >-> flattened.

Lemma compile_comp env root m :
  compile env root = Some m -> comp m /\ mc_env m = env /\ mc_root m = root.
Proof.
  unfold compile. destruct (flatten (S (length env)) env root) as [fl|] eqn:Hf; [|discriminate].
  destruct (accepted (mkMachine env root fl)) eqn:Ha; [|discriminate].
  intros H; injection H as <-. split; [|split; reflexivity].
  unfold accepted in Ha. rewrite !andb_true_iff in Ha.
  destruct Ha as [[[[[[[[H1 H2] H3] H4] H5] H6] H7] H8] H9].
  constructor.
  - intros Hnil. rewrite Hnil in H2. discriminate.
  - intros Hz. rewrite Hz in H3. discriminate.
  - intros x Hx. rewrite forallb_forall in H6. auto.
  - intros x e Hx He. rewrite forallb_forall in H7. specialize (H7 x Hx).
    rewrite forallb_forall in H7. specialize (H7 e He).
    destruct (in_dec ev_eq_dec e _); [assumption|discriminate].
  - intros Hin. destruct (in_dec sref_eq_dec _ _); [discriminate|tauto].
  - apply N.ltb_lt. exact H9.
  - intros s Hs. rewrite forallb_forall in H4, H5. specialize (H4 s Hs). specialize (H5 s Hs).
    rewrite negb_true_iff in H4, H5. auto.
  - exists (S (length env)). exact Hf.
Qed.

(** All (parent,state) pairs, in index order. *)
Definition places (m : machine) : list place := list_prod (parents m) (states m).

Section Machine.
Variable m : machine.
Hypothesis Hc : comp m.

Lemma parents_NoDup : NoDup (parents m).
Proof. apply unique_NoDup. Qed.
Lemma states_NoDup : NoDup (states m).
Proof.
  unfold states. apply NoDup_app_intro.
  - apply unique_NoDup.
  - constructor; [intros []|constructor].
  - intros x Hx [<-|[]]. apply (cp_root m Hc). exact Hx.
Qed.
Lemma states_nonempty : 0 < length (states m).
Proof. unfold states. rewrite app_length. cbn. lia. Qed.
Lemma parents_nonempty : 0 < length (parents m).
Proof.
  destruct (mc_flat m) as [|x l] eqn:E; [destruct (cp_flat m Hc E)|].
  assert (H : In (x_parent x) (parents m)).
  { unfold parents. rewrite unique_In, E. cbn. auto. }
  destruct (parents m); [destruct H|cbn; lia].
Qed.
Lemma n_states_pos : (0 < n_states m)%N.
Proof. unfold n_states. pose proof states_nonempty. lia. Qed.
Lemma n_states_lt : (n_states m < two64)%N.
Proof.
  pose proof (cp_size m Hc) as H. pose proof parents_nonempty as Hp.
  unfold n_parents in H. nia.
Qed.
Lemma n_parents_lt : (N.of_nat (length (parents m)) < two64)%N.
Proof.
  pose proof (cp_size m Hc) as H. pose proof n_states_pos as Hp.
  unfold n_parents in H. nia.
Qed.

Lemma places_NoDup : NoDup (places m).
Proof. apply NoDup_list_prod; [apply parents_NoDup|apply states_NoDup]. Qed.
Lemma places_length : N.of_nat (length (places m)) = (N.of_nat (n_parents m) * n_states m)%N.
Proof. unfold places, place, n_parents, n_states. rewrite list_prod_length. lia. Qed.
Lemma places_length_nat : length (places m) = N.to_nat (n_states m) * n_parents m.
Proof. unfold places, place, n_parents, n_states. rewrite list_prod_length. lia. Qed.
Lemma in_places p s : In (p, s) (places m) <-> In p (parents m) /\ In s (states m).
Proof. apply in_prod_iff. Qed.

Lemma parent_idx_pos p : parent_idx m p = N.of_nat (pos Nat.eq_dec p (parents m)).
Proof. apply index_of_pos; [apply parents_NoDup|apply n_parents_lt]. Qed.
Lemma state_idx_pos s : state_idx m s = N.of_nat (pos sref_eq_dec s (states m)).
Proof. apply index_of_pos; [apply states_NoDup|]. pose proof n_states_lt. exact H. Qed.
Lemma combined_idx_pos p s : combined_idx m p s = N.of_nat (pos place_eq_dec (p, s) (places m)).
Proof.
  apply index_of_pos; [apply places_NoDup|].
  fold (places m). rewrite places_length. apply (cp_size m Hc).
Qed.
Lemma combined_idx_formula p s : In p (parents m) -> In s (states m) ->
  combined_idx m p s = (parent_idx m p * n_states m + state_idx m s)%N.
Proof.
  intros Hp Hs. rewrite combined_idx_pos, parent_idx_pos, state_idx_pos.
  unfold place_eq_dec, places, place. rewrite pos_list_prod by assumption.
  unfold n_states, cls. rewrite Nat2N.inj_add, Nat2N.inj_mul. reflexivity.
Qed.
Lemma calc_combined_ok p s : In p (parents m) -> In s (states m) ->
  calc_combined_idx (n_states m) (parent_idx m p) (state_idx m s) = combined_idx m p s.
Proof.
  intros Hp Hs. rewrite combined_idx_formula by assumption.
  pose proof (cp_size m Hc) as Hsz. unfold calc_combined_idx, wadd.
  pose proof (combined_idx_formula p s Hp Hs) as Hf. rewrite combined_idx_pos in Hf.
  assert (Hin : In (p, s) (places m)) by (apply in_places; auto).
  apply (pos_lt place_eq_dec) in Hin. pose proof places_length as Hl.
  assert (Hlt : (parent_idx m p * n_states m + state_idx m s < two64)%N) by lia.
  rewrite (N.mod_small (parent_idx m p * n_states m)) by lia.
  apply N.mod_small. exact Hlt.
Qed.

Lemma state_idx_lt s : In s (states m) <-> (state_idx m s < n_states m)%N.
Proof. rewrite state_idx_pos, (pos_lt sref_eq_dec). unfold n_states. lia. Qed.
Lemma state_idx_le s : (state_idx m s <= n_states m)%N.
Proof. rewrite state_idx_pos. pose proof (pos_le sref_eq_dec s (states m)). unfold n_states. lia. Qed.
Lemma parent_idx_lt p : In p (parents m) <-> (parent_idx m p < N.of_nat (n_parents m))%N.
Proof. rewrite parent_idx_pos, (pos_lt Nat.eq_dec). unfold n_parents, cls. lia. Qed.

Lemma calc_parent_combined p s : In p (parents m) -> In s (states m) ->
  calc_parent_idx (n_states m) (combined_idx m p s) = parent_idx m p.
Proof.
  intros Hp Hs. rewrite combined_idx_formula by assumption. unfold calc_parent_idx.
  apply state_idx_lt in Hs. pose proof n_states_pos.
  rewrite N.div_add_l by lia. rewrite N.div_small by exact Hs. lia.
Qed.
Lemma calc_state_combined p s : In p (parents m) -> In s (states m) ->
  calc_state_idx (n_states m) (combined_idx m p s) = state_idx m s.
Proof.
  intros Hp Hs. rewrite combined_idx_formula by assumption. unfold calc_state_idx.
  apply state_idx_lt in Hs. pose proof n_states_pos.
  rewrite N.add_comm, N.mod_add by lia. apply N.mod_small. exact Hs.
Qed.
Lemma parent_idx_inj p q : In p (parents m) -> parent_idx m p = parent_idx m q -> p = q.
Proof.
  intros Hp He. rewrite !parent_idx_pos in He. apply (pos_inj Nat.eq_dec p q (parents m) Hp). lia.
Qed.
Lemma state_idx_inj s t : In s (states m) -> state_idx m s = state_idx m t -> s = t.
Proof.
  intros Hp He. rewrite !state_idx_pos in He. apply (pos_inj sref_eq_dec s t (states m) Hp). lia.
Qed.
Lemma combined_idx_inj p s q t : In p (parents m) -> In s (states m) ->
  combined_idx m p s = combined_idx m q t -> (p, s) = (q, t).
Proof.
  intros Hp Hs He. rewrite !combined_idx_pos in He.
  apply (pos_inj place_eq_dec _ _ (places m)); [apply in_places; auto|lia].
Qed.
Lemma combined_idx_lt p s :
  In p (parents m) /\ In s (states m) <->
  (combined_idx m p s < N.of_nat (n_parents m) * n_states m)%N.
Proof.
  rewrite combined_idx_pos, <- places_length, <- in_places, (pos_lt place_eq_dec). lia.
Qed.
Lemma combined_idx_absent p s : ~ (In p (parents m) /\ In s (states m)) ->
  combined_idx m p s = (N.of_nat (n_parents m) * n_states m)%N.
Proof.
  intros Hn. rewrite combined_idx_pos, <- places_length. f_equal. apply pos_absent.
  rewrite in_places. exact Hn.
Qed.
Lemma places_at_combined p s : In p (parents m) -> In s (states m) ->
  nth_error (places m) (N.to_nat (combined_idx m p s)) = Some (p, s).
Proof.
  intros Hp Hs. rewrite combined_idx_pos, Nat2N.id. apply nth_pos. apply in_places. auto.
Qed.
Lemma places_at_inv k p s : nth_error (places m) (N.to_nat k) = Some (p, s) ->
  In p (parents m) /\ In s (states m) /\ k = combined_idx m p s.
Proof.
  intros H. assert (Hin : In (p, s) (places m)) by (eapply nth_error_In; eauto).
  apply in_places in Hin. destruct Hin as [Hp Hs]. repeat split; auto.
  rewrite combined_idx_pos.
  apply (pos_nth place_eq_dec) in H; [|apply places_NoDup]. lia.
Qed.
End Machine.
