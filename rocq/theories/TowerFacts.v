(** Facts about towers. *)

From Coq Require Import List Arith NArith Bool Lia Permutation.
From Verif Require Import Types Static Dispatch Runtime Dsl Examples ListFacts IndexFacts Spec DispatchFacts Semantics Reach Safe Exact Graph
  FlattenFacts RefineFacts StaticFacts TableFacts ProcessFacts OutcomeFacts SafeFacts SafeObjects GraphExact Balance Copies CopiesFacts.
Import ListNotations.

Section Tower.
Variable n : nat.
Notation env := (tower n).

Definition level_rows (k : nat) : list row :=
  match k with
  | 0 => [ mkRow (SInitial WState 0) (EUser 3) (Guard 1 0) NoAction (SState 0) ]
  | _ => [ mkRow (SInitial WState 0) (EUser 1) NoGuard NoAction (SState k);
           mkRow (SState 0) (EUser 2) NoGuard NoAction (SState k) ]
  end.
Lemma lookup_seq : forall len a c, lookup (map (fun k => (S k, level k)) (seq a len)) (S c) =
  if Nat.leb a c && Nat.ltb c (a + len) then level c else Types.plain.
Proof.
  induction len as [|len IH]; intros a c.
  - cbn [seq map lookup]. destruct (Nat.leb_spec a c), (Nat.ltb_spec c (a + 0)); try reflexivity; lia.
  - cbn [seq map lookup]. destruct (Nat.eq_dec (S c) (S a)) as [E|E].
    + injection E as ->. rewrite Nat.leb_refl. destruct (Nat.ltb_spec a (a + S len)); [reflexivity|lia].
    + rewrite IH. destruct (Nat.leb_spec (S a) c), (Nat.leb_spec a c), (Nat.ltb_spec c (S a + len)), (Nat.ltb_spec c (a + S len)); try reflexivity; lia.
Qed.
Lemma lookup_zero : forall l : list nat, lookup (map (fun k => (S k, level k)) l) 0 = Types.plain.
Proof. induction l as [|a l IH]; cbn; [reflexivity|exact IH]. Qed.
Lemma t_level k : k <= n -> lookup env (S k) = level k.
Proof. intros H. unfold tower. rewrite lookup_seq. destruct (Nat.leb_spec 0 k), (Nat.ltb_spec k (0 + S n)); try reflexivity; lia. Qed.
Lemma t_leaf : lookup env 0 = Types.plain.
Proof. apply lookup_zero. Qed.
Lemma t_other k : n < k -> lookup env (S k) = Types.plain.
Proof. intros H. unfold tower. rewrite lookup_seq. destruct (Nat.leb_spec 0 k), (Nat.ltb_spec k (0 + S n)); try reflexivity; lia. Qed.
Lemma t_class c : (exists k, k <= n /\ c = S k) \/ lookup env c = Types.plain.
Proof. destruct c as [|k]; [right; apply t_leaf|]. destruct (Nat.leb_spec k n); [left; eauto|right; now apply t_other]. Qed.
Lemma t_table k : k <= n -> table env (S k) = level_rows k.
Proof. intros H. unfold table. rewrite t_level by exact H. destruct k; reflexivity. Qed.
Lemma t_composite c : composite env c <-> exists k, k <= n /\ c = S k.
Proof.
  unfold composite. split.
  - destruct (t_class c) as [H|H]; [auto|]. rewrite H. intros E. now contradiction E.
  - intros (k & H & ->). rewrite t_level by exact H. discriminate.
Qed.
Lemma t_plain c : internals env c = [] /\ defers env c = [] /\ has_entry env c = false /\ has_exit env c = false /\
  cd_internal (lookup env c) = None /\ cd_defctor (lookup env c) = true /\ cd_unexpected (lookup env c) = false.
Proof.
  unfold internals, defers, has_entry, has_exit. destruct (t_class c) as [(k & H & ->)|H]; [rewrite (t_level k H)|rewrite H]; repeat split; reflexivity.
Qed.
Lemma t_initials k : k <= n -> initial_states env (S k) = [SState 0].
Proof. intros H. unfold initial_states, mentioned. rewrite t_table by exact H. destruct k; reflexivity. Qed.
Lemma t_first k : k <= n -> first_initial env (S k) = Some (SState 0).
Proof. intros H. unfold first_initial. now rewrite t_initials. Qed.

(** Rows. *)
Lemma level_row k r : In r (level_rows k) ->
  unmarked (r_src r) = SState 0 /\ (r_src r = SState 0 \/ r_src r = SInitial WState 0) /\ r_tgt r = SState k /\ r_act r = NoAction /\
  (k = 0 /\ r_ev r = EUser 3 /\ r_guard r = Guard 1 0 \/ 0 < k /\ (r_ev r = EUser 1 \/ r_ev r = EUser 2) /\ r_guard r = NoGuard).
Proof. destruct k; cbn; [intros [<-|[]]|intros [<-|[<-|[]]]]; cbn; repeat split; auto; right; auto using Nat.lt_0_succ. Qed.
Lemma t_used c : used env (S n) c -> exists k, k <= n /\ c = S k.
Proof. intros H. destruct H as [|p r c _ _ _ C]; [exists n; auto|now apply t_composite]. Qed.
Lemma used_all : forall j, j <= n -> used env (S n) (S (n - j)).
Proof.
  induction j as [|j IH]; intros H; [rewrite Nat.sub_0_r; constructor|]. apply (used_sub _ _ (S (n - j)) (mkRow (SInitial WState 0) (EUser 1) NoGuard NoAction (SState (S (n - S j))))); [apply IH; lia| |constructor|].
  - rewrite t_table by lia. replace (n - j) with (S (n - S j)) by lia. left. reflexivity.
  - apply t_composite. exists (n - S j). split; [lia|reflexivity].
Qed.
Lemma t_used_iff c : used env (S n) c <-> exists k, k <= n /\ c = S k.
Proof. split; [apply t_used|]. intros (k & H & ->). replace k with (n - (n - k)) by lia. apply used_all. lia. Qed.
Lemma t_declared x : declared env (S n) x <-> exists k r, k <= n /\ In r (level_rows k) /\ x = row_in (S k) r.
Proof.
  split.
  - intros (p & r & U & H & ->). apply t_used in U. destruct U as (k & Hk & ->). rewrite t_table in H by exact Hk. eauto.
  - intros (k & r & Hk & H & ->). exists (S k), r. rewrite t_used_iff, t_table by exact Hk. split; [eauto|auto].
Qed.
Lemma t_no_internal x : ~ declared_internal env (S n) x.
Proof. intros H. destruct H as [p c i s _ _ Hi _|p c i _ _ Hi]; rewrite (proj1 (t_plain c)) in Hi; destruct Hi. Qed.

Lemma t_target k r : k <= n -> In r (level_rows k) ->
  target_place env (row_in (S k) r) = Some (match k with 0 => (1, SState 0) | _ => (k, SState 0) end).
Proof.
  intros Hk H. destruct (level_row _ _ H) as (_ & _ & Et & _). unfold target_place. cbn [row_in x_tgt x_parent]. rewrite Et.
  destruct k as [|k].
  - unfold is_composite. rewrite t_leaf. reflexivity.
  - unfold is_composite. rewrite t_level by lia. replace (cd_table (level k)) with (Some (level_rows k)) by (destruct k; reflexivity).
    now rewrite t_first by lia.
Qed.
Lemma t_source k r : In r (level_rows k) -> source_place (row_in (S k) r) = (S k, SState 0).
Proof. intros H. destruct (level_row _ _ H) as (_ & [E|E] & _); unfold source_place; cbn [row_in x_src x_parent]; now rewrite E. Qed.


Lemma t_state s : is_state env (S n) s <-> exists k, k <= S n /\ s = SState k.
Proof.
  unfold is_state, child. split.
  - intros [->|(p & U & r & Hr & H)]; [exists (S n); auto|]. apply t_used in U. destruct U as (k & Hk & ->). rewrite t_table in Hr by exact Hk.
    destruct (level_row _ _ Hr) as (Eu & _ & Et & _). rewrite Eu, Et in H. destruct H as [->| ->]; [exists 0|exists k]; split; auto; lia.
  - intros (k & Hk & ->). destruct (Nat.eq_dec k (S n)) as [->|D]; [now left|]. right. exists (S k). rewrite t_used_iff, t_table by lia.
    split; [exists k; split; [lia|reflexivity]|]. destruct k; eexists; (split; [left; reflexivity|auto]).
Qed.
Lemma t_parent p : is_parent env (S n) p <-> exists k, k <= n /\ p = S k.
Proof.
  unfold is_parent. rewrite t_used_iff. split; [tauto|]. intros (k & Hk & ->). split; [eauto|]. rewrite t_table by exact Hk. destruct k; discriminate.
Qed.
Lemma t_candidate e pl c : candidate env (S n) e pl c -> exists k r, k <= n /\ In r (level_rows k) /\ r_ev r = e /\
  pl = (S k, SState 0) /\ c = CRow (row_in (S k) r) (SState 0).
Proof.
  intros H. destruct H as [x D E|x c s D E Es C _|x D _|x c D _ Hd].
  - apply t_declared in D. destruct D as (k & r & Hk & Hr & ->). exists k, r. rewrite (t_source _ _ Hr). auto.
  - apply t_declared in D. destruct D as (k & r & Hk & Hr & ->). cbn in Es. destruct (level_row _ _ Hr) as (_ & [E1|E1] & _); [|congruence].
    rewrite E1 in Es. injection Es as <-. apply t_composite in C. destruct C as (j & _ & E2). discriminate.
  - contradiction (t_no_internal x D).
  - rewrite (proj1 (proj2 (t_plain c))) in Hd. destruct Hd.
Qed.

Lemma t_steps k c : k <= n -> steps_to env (S k) c -> c = k.
Proof.
  intros Hk (r & Hr & L & _). rewrite t_table in Hr by exact Hk. destruct (level_row _ _ Hr) as (_ & _ & Et & _). rewrite Et in L. now inversion L.
Qed.
Lemma t_used_from k c : k <= n -> used env (S k) c -> c <= S k.
Proof.
  intros Hk H. induction H as [|p r c U IH Hr L C]; [auto|]. destruct p as [|p]; [unfold table in Hr; rewrite t_leaf in Hr; destruct Hr|].
  rewrite (t_steps p c); [lia|lia|]. exists r. auto.
Qed.
Lemma t_compiles : (N.of_nat (S n) * N.of_nat (S (S n)) < two64)%N -> compiles env (S n).
Proof.
  intros Hsz. split.
  - rewrite t_table by lia. destruct n; discriminate.
  - intros (p & c & U & St & U'). apply t_used in U. destruct U as (k & Hk & ->). pose proof (t_steps k c Hk St). subst c.
    destruct k as [|k]; [|apply t_used_from in U'; lia]. destruct St as (_ & _ & _ & C). apply t_composite in C. destruct C as (j & _ & E). discriminate.
  - exists (S n). rewrite t_parent, t_initials by lia. split; [eauto|discriminate].
  - intros c. rewrite t_initials by lia. intros [E|[]]. injection E as <-. split; [|apply t_plain]. intros C. apply t_composite in C. destruct C as (j & _ & E). discriminate.
  - intros x D. apply t_declared in D. destruct D as (k & r & Hk & Hr & ->). destruct (level_row _ _ Hr) as (_ & _ & Et & Ea & _). split.
    + eexists. split; [apply (t_target k r Hk Hr)|]. apply t_state. exists 0. split; [lia|]. destruct k; reflexivity.
    + rewrite (t_source _ _ Hr). apply t_state. exists 0. split; [lia|reflexivity].
    + cbn. congruence.
    + cbn. congruence.
  - intros fl ints x _ Hk Hx. exfalso. apply (keeps_sub _ _ _ _ Hk) in Hx. unfold internal_rows in Hx. apply in_flat_map in Hx.
    destruct Hx as ([p s] & _ & Hx). unfold internal_rows_of in Hx. cbn [snd] in Hx. destruct s; try destruct Hx. rewrite (proj1 (t_plain c)) in Hx. destruct Hx.
  - intros x e _ He. exfalso. unfold deferred_by in He. destruct (unmarked (x_src x)); try destruct He. rewrite (proj1 (proj2 (t_plain c))) in He. destruct He.
  - intros p U (r & Hr & H). apply t_used in U. destruct U as (k & Hk & ->). rewrite t_table in Hr by exact Hk.
    destruct (level_row _ _ Hr) as (Eu & _ & Et & _). rewrite Eu, Et in H. destruct H as [H|H]; injection H; lia.
  - intros ps ss N1 N2 A B. assert (L1 : length ps <= S n).
    { rewrite <- (seq_length (S n) 1). apply NoDup_incl_length; [exact N1|]. intros p H. apply A in H. apply t_parent in H. destruct H as (k & Hk & ->). apply in_seq. lia. }
    assert (L2 : length ss <= S (S n)).
    { rewrite <- (seq_length (S (S n)) 0), <- (map_length SState). apply NoDup_incl_length; [exact N2|]. intros s H. apply B in H. apply t_state in H.
      destruct H as (k & Hk & ->). apply in_map. apply in_seq. lia. }
    apply N.le_lt_trans with (2 := Hsz). apply N.mul_le_mono; lia.
Qed.

(** The paths to the class in the middle. *)
Lemma t_path : forall k l, k <= n -> path env (S k) l 1 <-> In l (bits k).
Proof.
  induction k as [|k IH]; intros l Hk.
  - destruct l as [|i l]; cbn [path bits In]; [tauto|]. split; [|intros [H|[]]; discriminate]. intros (r & c & Er & L & C & _). exfalso.
    rewrite t_table in Er by exact Hk. apply nth_error_In, level_row in Er. destruct Er as (_ & _ & Et & _). rewrite Et in L. inversion L; subst.
    apply t_composite in C. destruct C as (j & _ & E). discriminate.
  - cbn [bits]. rewrite in_app_iff, !in_map_iff. destruct l as [|i l].
    + cbn. split; [discriminate|]. intros [(y & E & _)|(y & E & _)]; discriminate.
    + cbn [path]. rewrite t_table by exact Hk. split.
      * intros (r & c & Er & L & _ & P). pose proof (nth_error_In _ _ Er) as Hr. apply level_row in Hr. destruct Hr as (_ & _ & Et & _). rewrite Et in L.
        inversion L; subst. apply IH in P; [|lia]. destruct i as [|[|i]]; [left; eauto|right; eauto|destruct i; discriminate].
      * assert (Q : forall r, nth_error (level_rows (S k)) i = Some r -> In l (bits k) ->
            exists r c', nth_error (level_rows (S k)) i = Some r /\ leads_into (r_tgt r) c' /\ composite env c' /\ path env c' l 1).
        { intros r Er Hl. exists r, (S k). split; [exact Er|]. pose proof (nth_error_In _ _ Er) as Hr. apply level_row in Hr. destruct Hr as (_ & _ & Et & _).
          rewrite Et. split; [constructor|]. split; [apply t_composite; exists k; split; [lia|reflexivity]|]. apply IH; [lia|exact Hl]. }
        intros [(y & E & Hy)|(y & E & Hy)]; injection E as <- <-; eapply Q; eauto; reflexivity.
Qed.
Lemma bits_length k : length (bits k) = 2 ^ k.
Proof. induction k as [|k IH]; [reflexivity|]. cbn [bits]. rewrite app_length, !map_length, IH. cbn [Nat.pow]. lia. Qed.
Lemma bits_NoDup k : NoDup (bits k).
Proof.
  induction k as [|k IH]; [constructor; [intros []|constructor]|]. cbn [bits]. apply NoDup_app_intro.
  - apply FinFun.Injective_map_NoDup; [congruence|exact IH].
  - apply FinFun.Injective_map_NoDup; [congruence|exact IH].
  - intros x H H'. apply in_map_iff in H. apply in_map_iff in H'. destruct H as (y & <- & _), H' as (z & E & _). discriminate.
Qed.

Lemma t_visits : forall k l, k <= n -> visits env (S k) (table env (S k)) l -> length l + 2 = 3 * 2 ^ k.
Proof.
  induction k as [|k IH]; intros l Hk H; rewrite t_table in H by exact Hk.
  - inversion H as [|c r rs l' Hl Hv|c r rs c' sub l' L C Hs Hv]; subst.
    + inversion Hv; subst. reflexivity.
    + inversion L; subst. apply t_composite in C. destruct C as (j & _ & E). discriminate.
  - assert (C : composite env (S k)) by (apply t_composite; exists k; split; [lia|reflexivity]).
    inversion H as [|c r rs l' Hl Hv|c r rs c' sub l' L C' Hs Hv]; subst; [contradiction (Hl (S k) (li_state _) C)|].
    inversion L; subst. clear L. inversion Hv as [|c r rs l'' Hl Hv'|c r rs c' sub' l'' L C2 Hs' Hv']; subst; [contradiction (Hl (S k) (li_state _) C)|].
    inversion L; subst. inversion Hv'; subst. apply IH in Hs; [|lia]. apply IH in Hs'; [|lia]. cbn [length]. rewrite !app_length. cbn [length Nat.pow]. rewrite !app_length. cbn. lia.
Qed.
Lemma t_written : length (flat_map (fun k => table env (S k)) (seq 0 (S n))) = 2 * n + 1.
Proof.
  assert (G : forall j, j <= n -> length (flat_map (fun k => table env (S k)) (seq 0 (S j))) = 2 * j + 1).
  { induction j as [|j IH]; intros H; [cbn [seq flat_map]; rewrite t_table by lia; reflexivity|].
    rewrite seq_S, flat_map_app, app_length, IH by lia. cbn [flat_map Nat.add]. rewrite t_table by lia. cbn. lia. }
  apply G. lia.
Qed.

Lemma t_guards : guards_only env (S n) 1 0 1 0 (EUser 3).
Proof.
  split.
  - intros x D E. apply t_declared in D. destruct D as (k & r & Hk & Hr & ->). cbn in E |- *.
    destruct (level_row _ _ Hr) as (Eu & _ & _ & _ & [(-> & Ee & _)|(_ & _ & Eg)]); [auto|congruence].
  - intros x D. contradiction (t_no_internal x D).
  - intros C. apply t_composite in C. destruct C as (j & _ & E). discriminate.
Qed.

(** Conditions of other theorems. *)
Lemma t_single : single env (S n).
Proof. intros p H. apply t_parent in H. destruct H as (k & Hk & ->). now rewrite t_initials. Qed.
Lemma t_no_history : no_history env (S n).
Proof.
  intros (x & w & p & D & E). apply t_declared in D. destruct D as (k & r & Hk & Hr & ->). cbn in E.
  destruct (level_row _ _ Hr) as (_ & _ & Et & _). congruence.
Qed.
Lemma t_constructible s : default_constructible env s = true.
Proof. destruct s; try reflexivity. apply (t_plain c). Qed.
Variable m : machine.
Hypothesis Hm : compile env (S n) = Some m.

Lemma t_offered e pl c : offered env (S n) e pl c -> candidate env (S n) e pl c.
Proof.
  intros H. destruct (compile_comp _ _ _ Hm) as (Hc & He & Hr). rewrite <- He, <- Hr in H |- *.
  destruct H as (cs & H & Hin). apply (candidate_list_cands m Hc) in H. subst cs. now apply (cands_sound m Hc).
Qed.
Lemma t_well_formed : well_formed env (S n).
Proof.
  split.
  - split.
    + intros e pl c H. apply t_candidate in H. destruct H as (k & r & Hk & _ & _ & -> & _). split; [apply t_parent; eauto|].
      apply t_state. exists 0. split; [lia|reflexivity].
    + intros x pl D E. apply t_declared in D. destruct D as (k & r & Hk & Hr & ->). rewrite (t_target k r Hk Hr) in E. injection E as <-.
      apply t_parent. destruct k as [|k]; [exists 0|exists k]; split; auto; lia.
    + intros p H. apply t_single in H. lia.
    + intros p H. apply t_single in H. now rewrite t_initials.
    + intros (x & w & p & D & E). exfalso. apply t_no_history. eauto.
  - split.
    + intros. split; apply t_constructible.
    + intros. apply t_constructible.
    + intros e pl x o ty b H Ea. exfalso. apply t_offered, t_candidate in H. destruct H as (k & r & Hk & Hr & _ & _ & E). injection E as -> _.
      cbn in Ea. destruct (level_row _ _ Hr) as (_ & _ & _ & Ea' & _). congruence.
    + intros. apply t_constructible.
  - intros _ pl H. apply t_offered, t_candidate in H. destruct H as (k & r & _ & _ & _ & _ & E). discriminate.
Qed.
Lemma t_no_completion : ~ completion env (S n).
Proof.
  intros (x & D & E). apply t_declared in D. destruct D as (k & r & Hk & Hr & ->). cbn in E.
  destruct (level_row _ _ Hr) as (_ & _ & _ & _ & [(_ & Ee & _)|(_ & [Ee|Ee] & _)]); congruence.
Qed.
Lemma t_cands e k : k <= n -> exists cs, candidate_list env (S n) e (S k, SState 0) cs /\
  (forall c, In c cs -> exists r, In r (level_rows k) /\ r_ev r = e /\ c = CRow (row_in (S k) r) (SState 0)) /\
  (forall r, In r (level_rows k) -> r_ev r = e -> cs <> []).
Proof.
  intros Hk. destruct (compile_comp _ _ _ Hm) as (Hc & He & Hr). exists (cands m e (S k, SState 0)).
  assert (L : candidate_list env (S n) e (S k, SState 0) (cands m e (S k, SState 0))).
  { pose proof (proj2 (candidate_list_cands m Hc e (S k, SState 0) _) eq_refl) as A. now rewrite He, Hr in A. }
  split; [exact L|]. split.
  - intros c Hin. destruct (t_candidate e (S k, SState 0) c) as (j & r & Hj & Hr' & Ee & Ep & Ec); [apply t_offered; eexists; eauto|].
    injection Ep as <-. eauto.
  - intros r Hr' Ee E. assert (C : candidate env (S n) e (S k, SState 0) (CRow (row_in (S k) r) (SState 0))).
    { pose proof (cand_source env (S n) e (row_in (S k) r)) as C. rewrite (t_source _ _ Hr') in C. apply C; [apply t_declared; eauto|exact Ee]. }
    rewrite <- He, <- Hr in C. apply (cands_complete m Hc) in C. cbn [row_in x_int] in C. rewrite E in C. destruct C.
Qed.
Lemma t_climb : forall j, j <= n -> stays env (S n) (S (n - j), SState 0).
Proof.
  induction j as [|j IH]; intros Hj; [rewrite Nat.sub_0_r; apply sy_start; now apply t_first|]. specialize (IH ltac:(lia)).
  apply sy_incomplete; [|exact t_no_completion].
  assert (Ek : n - j = S (n - S j)) by lia. destruct (t_cands (EUser 1) (n - j) ltac:(lia)) as (cs & L & A & N).
  destruct cs as [|c cs].
  - exfalso. rewrite Ek in N. apply (N (mkRow (SInitial WState 0) (EUser 1) NoGuard NoAction (SState (S (n - S j))))); [now left|reflexivity|reflexivity].
  - destruct (A c (or_introl eq_refl)) as (r & Hr & Ee & ->). eapply (av_event _ _ (EUser 1) _ (row_in (S (n - j)) r) (SState 0)); [exact IH| |].
    + exists [], cs. split; [exact L|constructor].
    + unfold goes. cbn [row_in x_int]. rewrite (t_target (n - j) r ltac:(lia) Hr). rewrite Ek. reflexivity.
Qed.

Lemma t_reached : exists V W (cb : cbfun V W) vnone fuel d w ks outs s, never_throws cb /\ never_sets ks /\
    session cb m vnone fuel d w ks = Done outs s /\ at_place m s 0 = Some (1, SState 0).
Proof.
  apply (stays_exactly _ _ _ Hm _ t_single t_no_history t_well_formed). replace 1 with (S (n - n)) by lia. apply t_climb. lia.
Qed.

Lemma t_asked V W (cb : cbfun V W) vnone ds d0 s fuel v : running cb env (S n) m vnone ds d0 s -> 1 < fuel ->
  (forall a v w, exists v' w', cb (CGuard 1 0) a v w = Ret false v' w') ->
  at_place m s 0 = Some (1, SState 0) ->
  exists v' w' ks, process_event cb m vnone fuel (EUser 3) v s = Done (false, v') (after s w' ks) /\
    times (CGuard 1 0) ks = length ds * 2 ^ n.
Proof.
  intros Hs Hf Hno Hat. destruct (compile_comp _ _ _ Hm) as (Hc & He & Hr).
  assert (A : active m s = 1).
  { unfold active, parallel. rewrite (single_max _ _ _ Hm t_single). reflexivity. }
  destruct (t_cands (EUser 3) 0 ltac:(lia)) as (cs & L & Sd & N).
  assert (G : forall q, is_state env (S n) q -> In q (rt_live s)).
  { intros q Hq. destruct (wf_inv _ _ _ Hm t_well_formed) as (Hw & Ho & Ha).
    assert (R : reachable cb m vnone ds d0 s) by apply Hs.
    assert (Hm' : compile (mc_env m) (mc_root m) = Some m) by now rewrite He, Hr.
    destruct (reachable_stocked m Hm' cb vnone Hw Ho Ha ds d0 s R) as [_ St]. apply St.
    - apply (state_iff m Hc). now rewrite He, Hr.
    - rewrite He. pose proof (t_constructible q). exact H. }
  destruct (refused_asks cb env (S n) m vnone ds d0 s Hs 1 0 1 0 (EUser 3) (bits n) fuel v (fun _ => cs) t_guards (bits_NoDup n)) as (v' & w' & ks & E & T).
  - intros l. now rewrite (t_path n l).
  - exists (row_in 1 (mkRow (SInitial WState 0) (EUser 3) (Guard 1 0) NoAction (SState 0))). split; [left|reflexivity].
    apply t_declared. exists 0. eexists. split; [lia|]. split; [left; reflexivity|reflexivity].
  - lia.
  - intros r Hr'. rewrite A in Hr'. assert (r = 0) by lia. subst r. eauto.
  - exists 0. split; [lia|]. apply (N (mkRow (SInitial WState 0) (EUser 3) (Guard 1 0) NoAction (SState 0))); [now left|reflexivity].
  - intros r c _ Hin. destruct (Sd c Hin) as (rw & [<-|[]] & _ & ->).
    exists (row_in 1 (mkRow (SInitial WState 0) (EUser 3) (Guard 1 0) NoAction (SState 0))), (SState 0), 1, 0.
    split; [reflexivity|]. split; [reflexivity|].
    assert (G0 : In (SState 0) (rt_live s)) by (apply G, t_state; exists 0; split; [lia|reflexivity]).
    split; [exact G0|]. split; [|intros; apply Hno].
    cbn [row_in x_int]. unfold target_state. rewrite He.
    rewrite (t_target 0 _ ltac:(lia) (or_introl eq_refl)). exact G0.
  - exists v', w', ks. split; [exact E|]. rewrite T. unfold regions_in. rewrite A. cbn [seq filter]. rewrite Hat.
    destruct (place_eq_dec _ _); [|contradiction]. cbn [length]. rewrite bits_length. unfold rows_with. rewrite t_table by lia. cbn [level_rows filter r_guard guard_is Nat.eqb andb length].
    lia.
Qed.
End Tower.
