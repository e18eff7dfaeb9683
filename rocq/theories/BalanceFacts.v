(** Proofs about Balance.v. *)

From Coq Require Import List Arith NArith Bool Lia.
From Verif Require Import Types Static Dispatch Runtime ListFacts IndexFacts Spec
  DispatchFacts FlattenFacts Semantics RefineFacts StaticFacts TermFacts Reach ReachFacts TableFacts
  QueryFacts ProcessFacts RegionFacts CallFacts StepFacts Balance.
Import ListNotations.

Definition b2n (b : bool) : nat := if b then 1 else 0.

Lemma is_composite_iff env c : is_composite env c = true <-> composite env c.
Proof. unfold is_composite, composite. destruct (cd_table (lookup env c)); intuition congruence. Qed.

(** * Counting *)
Lemma times_app {V} k (a b : list (called V)) : times k (a ++ b) = times k a + times k b.
Proof. unfold times. now rewrite map_app, count_occ_app. Qed.
Lemma times_none {V} k (t : list (called V)) : (forall x, In x t -> k_callee x <> k) -> times k t = 0.
Proof.
  intros H. unfold times. apply count_occ_not_In. rewrite in_map_iff. intros (x & E & Hx). exact (H x Hx E).
Qed.

Lemma filter_set {A} (f : A -> bool) : forall l n a b, nth_error l n = Some a ->
  length (filter f (set_nth n b l)) + b2n (f a) = length (filter f l) + b2n (f b).
Proof.
  induction l as [|y l IH]; intros [|n] a b H; cbn in H; try discriminate.
  - inversion H; subst. cbn [set_nth filter]. destruct (f a), (f b); cbn [b2n length]; lia.
  - cbn [set_nth filter]. specialize (IH n a b H). destruct (f y); cbn [length]; lia.
Qed.

(** * Places *)
Section Places.
Variable m : machine.
Variable c : cls.
Definition in_class (o : option N) : bool :=
  match o with
  | Some n => match nth_error (places m) (N.to_nat n) with Some pl => at_class c pl | None => false end
  | None => false
  end.
Lemma regions_cur {V W} (s : rt V W) : regions_at m s c = length (filter in_class (rt_cur s)).
Proof.
  unfold regions_at, at_place.
  assert (G : forall l pre, rt_cur s = pre ++ l ->
    length (filter (fun r => match match nth_error (rt_cur s) r with Some (Some n) => nth_error (places m) (N.to_nat n) | _ => None end with
      Some pl => at_class c pl | None => false end) (seq (length pre) (length l))) = length (filter in_class l)).
  { induction l as [|o l IH]; intros pre E; [reflexivity|]. cbn [length seq filter].
    assert (N0 : nth_error (rt_cur s) (length pre) = Some o).
    { rewrite E, nth_error_app2 by lia. rewrite Nat.sub_diag. reflexivity. }
    rewrite N0. specialize (IH (pre ++ [o])). rewrite app_length in IH. cbn [length] in IH. rewrite Nat.add_1_r in IH.
    rewrite <- app_assoc in IH. specialize (IH E). unfold in_class at 1.
    destruct o as [n|]; [|exact IH]. destruct (nth_error (places m) (N.to_nat n)) as [pl|]; [|exact IH].
    destruct (at_class c pl); cbn [length]; [f_equal|]; exact IH. }
  exact (G (rt_cur s) [] eq_refl).
Qed.
Lemma regions_same {V W} (s s' : rt V W) : rt_cur s' = rt_cur s -> regions_at m s' c = regions_at m s c.
Proof. intros E. now rewrite !regions_cur, E. Qed.
Lemma regions_le {V W} (s : rt V W) : regions_at m s c <= length (rt_cur s).
Proof. rewrite regions_cur. induction (rt_cur s) as [|o l IH]; [auto|]. cbn. destruct (in_class o); cbn [length]; lia. Qed.
Lemma regions_move {V W} (s s' : rt V W) r n pl : at_place m s r = Some pl -> rt_cur s' = set_nth r (Some n) (rt_cur s) ->
  regions_at m s' c + b2n (at_class c pl) = regions_at m s c + b2n (in_class (Some n)).
Proof.
  intros H E. rewrite !regions_cur, E. unfold at_place in H. destruct (nth_error (rt_cur s) r) as [[n0|]|] eqn:E0; try discriminate.
  rewrite <- (filter_set in_class (rt_cur s) r (Some n0) (Some n) E0). unfold in_class at 3. rewrite H. reflexivity.
Qed.
End Places.

(** * Calls of a row *)
Definition entries_of (env : cenv) (c : cls) (x : xrow) : nat := count_occ who_dec (entry_call env x ++ initial_entry_call env x) (CEntry c).
Definition exits_of (env : cenv) (c : cls) (x : xrow) : nat := count_occ who_dec (exit_call env x) (CExit c).

Lemma callees_plain b k : In k (callees b) -> match k with CAction _ | CFactory _ | CReuse _ => True | _ => False end.
Proof.
  revert k. induction b as [f|f|f|l IH] using abody_ind2; intros k; cbn [callees]; try (intros [<-|[]]; exact I).
  intros H. apply in_flat_map in H. destruct H as (b & Hb & Hk). rewrite Forall_forall in IH. exact (IH b Hb k Hk).
Qed.
Lemma action_plain x k : In k (action_calls x) -> match k with CAction _ | CFactory _ | CReuse _ => True | _ => False end.
Proof. unfold action_calls. destruct (x_act x); [intros []|apply callees_plain]. Qed.
Lemma exit_plain env x k : In k (exit_call env x) -> exists c, k = CExit c.
Proof.
  unfold exit_call. destruct (x_int x); [intros []|]. destruct (x_src x); try (intros []; fail); destruct (has_exit env _); try (intros []; fail); intros [<-|[]]; eauto.
Qed.
Lemma entry_plain env x k : In k (entry_call env x ++ initial_entry_call env x) -> exists c, k = CEntry c.
Proof.
  rewrite in_app_iff. unfold entry_call, initial_entry_call. intros [H|H].
  - destruct (x_int x); [destruct H|]. destruct (x_tgt x); try (destruct H; fail). destruct (has_entry env c); [|destruct H]. destruct H as [<-|[]]. eauto.
  - destruct (x_tgt x) as [d| | | | |]; try (destruct H; fail). destruct (if is_composite env d then _ else _) as [[i| | | | |]|]; try (destruct H; fail).
    destruct (has_entry env i); [|destruct H]. destruct H as [<-|[]]. eauto.
Qed.
Lemma count_none l k : (forall x, In x l -> x <> k) -> count_occ who_dec l k = 0.
Proof. intros H. apply count_occ_not_In. intros Hk. exact (H k Hk eq_refl). Qed.

(** A prefix of the calls of a row: a prefix of its exits, or all of these and some entries. *)
Lemma prefix_app {A} (l1 l2 : list A) : forall t t', l1 ++ l2 = t ++ t' -> (exists u, l1 = t ++ u) \/ exists u, t = l1 ++ u /\ l2 = u ++ t'.
Proof.
  induction l1 as [|a l1 IH]; intros t t' E.
  - right. exists t. auto.
  - destruct t as [|b t]; [left; exists (a :: l1); reflexivity|]. cbn in E. injection E as -> E1. destruct (IH _ _ E1) as [(u & ->)|(u & -> & E2)]; [left|right]; exists u; auto.
Qed.
Lemma row_prefix env x c t t' : row_calls env x = t ++ t' ->
  (count_occ who_dec t (CEntry c) = 0 /\ count_occ who_dec t (CExit c) <= exits_of env c x) \/
  (count_occ who_dec t (CEntry c) <= entries_of env c x /\ count_occ who_dec t (CExit c) = exits_of env c x).
Proof.
  unfold row_calls. rewrite app_assoc. intros E. apply prefix_app in E.
  assert (P : forall l, (forall k, In k l -> In k (exit_call env x) \/ In k (action_calls x)) -> count_occ who_dec l (CEntry c) = 0).
  { intros l H. apply count_none. intros k Hk ->. destruct (H _ Hk) as [A|A]; [apply exit_plain in A; destruct A; discriminate|exact (action_plain _ _ A)]. }
  assert (X : count_occ who_dec (exit_call env x ++ action_calls x) (CExit c) = exits_of env c x).
  { rewrite count_occ_app. rewrite (count_none (action_calls x)); [unfold exits_of; lia|]. intros k Hk ->. exact (action_plain _ _ Hk). }
  destruct E as [(u & E)|(u & -> & E)].
  - left. split; [apply P; intros k Hk; apply in_app_iff; rewrite E; apply in_or_app; now left|].
    rewrite <- X, E, count_occ_app. lia.
  - right. rewrite !(fun k => count_occ_app who_dec (exit_call env x ++ action_calls x) u k), X, P by (intros k Hk; now apply in_app_iff).
    assert (U : count_occ who_dec u (CExit c) = 0).
    { apply count_none. intros k Hk ->. assert (A : In (CExit c) (entry_call env x ++ initial_entry_call env x)) by (rewrite E; apply in_or_app; now left).
      apply entry_plain in A. destruct A; discriminate. }
    split; [|lia]. unfold entries_of. rewrite E, count_occ_app. lia.
Qed.
Lemma row_counts env x c : count_occ who_dec (row_calls env x) (CEntry c) = entries_of env c x /\
  count_occ who_dec (row_calls env x) (CExit c) = exits_of env c x.
Proof.
  unfold row_calls, entries_of, exits_of. rewrite app_assoc. rewrite !(count_occ_app _ (exit_call env x ++ action_calls x)), !(count_occ_app _ (exit_call env x) (action_calls x)).
  rewrite !(count_none (action_calls x)) by (intros k Hk ->; exact (action_plain _ _ Hk)).
  rewrite (count_none (exit_call env x) (CEntry c)) by (intros k Hk ->; apply exit_plain in Hk; destruct Hk; discriminate).
  rewrite (count_none (entry_call env x ++ initial_entry_call env x) (CExit c)) by (intros k Hk ->; apply entry_plain in Hk; destruct Hk; discriminate).
  lia.
Qed.

(** * Rows *)
Section Rows.
Variables (env : cenv) (root : cls) (m : machine) (c : cls).
Hypothesis Hm : compile env root = Some m.

Lemma code_in_class pl : in_class m c (Some (code m pl)) = true -> at_class c pl = true.
Proof.
  unfold in_class. destruct (nth_error _ _) as [pl'|] eqn:E; [|discriminate].
  unfold code in E. rewrite Nnat.Nat2N.id in E. destruct (in_dec place_eq_dec pl (places m)) as [Hin|Hn].
  - rewrite nth_pos in E by exact Hin. now inversion E.
  - rewrite pos_absent in E by exact Hn. assert (H0 : nth_error (places m) (length (places m)) <> None) by congruence.
    apply nth_error_Some in H0. lia.
Qed.
Lemma class_in_code pl : is_place env root pl -> at_class c pl = true -> in_class m c (Some (code m pl)) = true.
Proof.
  compiled Hm. intros P. apply (place_iff m Hc) in P. destruct P as [P1 P2]. destruct pl as [p q].
  unfold in_class. rewrite (decode_code m Hc) by assumption. auto.
Qed.

Lemma at_class_iff (c0 : cls) pl : at_class c0 pl = true <-> fst pl = c0 \/ snd pl = SState c0.
Proof.
  unfold at_class. rewrite orb_true_iff, Nat.eqb_eq. destruct (snd pl) as [d| | | | |]; try (intuition discriminate).
  rewrite Nat.eqb_eq. intuition congruence.
Qed.
Lemma b2n_le b : b2n b <= 1.
Proof. destruct b; cbn; lia. Qed.

(** A row and the place it starts from. *)
Definition starts (x : xrow) (pl : place) : Prop :=
  pl = source_place x \/ exists d s, x_src x = SState d /\ composite env d /\ child env d s /\ pl = (d, s).
Lemma candidate_starts e pl x o : x_int x = false -> candidate env root e pl (CRow x o) -> declared env root x /\ starts x pl.
Proof.
  intros Hi H. inversion H as [y D|y d s D He Hs Hcc Hch|y D|]; subst.
  - split; [exact D|now left].
  - split; [exact D|]. right. eauto 10.
  - destruct D; discriminate.
Qed.

Lemma exits_le1 x : exits_of env c x <= 1.
Proof.
  unfold exits_of, exit_call. destruct (x_int x); [cbn; lia|].
  destruct (x_src x); try (cbn; lia); (destruct (has_exit env _); [|cbn; lia]); cbn [count_occ]; destruct (who_dec _ _); lia.
Qed.
Lemma exits_iff x : exits_of env c x <> 0 <-> x_int x = false /\ has_exit env c = true /\ (x_src x = SState c \/ exists w q, x_src x = SExit w c q).
Proof.
  unfold exits_of. rewrite <- count_occ_not_In. unfold exit_call. split.
  - intros H. destruct (in_dec who_dec (CExit c) (exit_call env x)) as [Hin|Hn]; [|now contradiction H].
    clear H. unfold exit_call in Hin. destruct (x_int x); [destruct Hin|].
    destruct (x_src x) as [d| | | |w d q|] eqn:E; try (destruct Hin; fail); (destruct (has_exit env d) eqn:Eh; [|destruct Hin]); destruct Hin as [Hin|[]]; inversion Hin; subst; eauto 10.
  - intros (Hi & Hh & Hs) Hn. apply Hn. rewrite Hi. destruct Hs as [->|(w & q & ->)]; rewrite Hh; now left.
Qed.
Lemma entries_iff x : entries_of env c x <> 0 <-> has_entry env c = true /\
  ((x_int x = false /\ x_tgt x = SState c) \/ exists d, x_tgt x = SState d /\ composite env d /\ first_initial env d = Some (SState c)).
Proof.
  unfold entries_of. rewrite <- count_occ_not_In. split.
  - intros H. destruct (in_dec who_dec (CEntry c) (entry_call env x ++ initial_entry_call env x)) as [Hin|Hn]; [|now contradiction H].
    clear H. apply in_app_iff in Hin. unfold entry_call, initial_entry_call in Hin. destruct Hin as [Hin|Hin].
    + destruct (x_int x); [destruct Hin|]. destruct (x_tgt x) as [d| | | | |]; try (destruct Hin; fail).
      destruct (has_entry env d) eqn:Eh; [|destruct Hin]. destruct Hin as [Hin|[]]. inversion Hin; subst. auto.
    + destruct (x_tgt x) as [d| | | | |]; try (destruct Hin; fail). destruct (is_composite env d) eqn:Ec; [|destruct Hin].
      destruct (first_initial env d) as [[i| | | | |]|] eqn:Ef; try (destruct Hin; fail).
      destruct (has_entry env i) eqn:Eh; [|destruct Hin]. destruct Hin as [Hin|[]]. inversion Hin; subst. split; [exact Eh|]. right. exists d. split; [reflexivity|]. split; [|exact Ef].
      now apply is_composite_iff.
  - intros (Hh & H) Hn. apply Hn. apply in_app_iff. destruct H as [[Hi Ht]|(d & Ht & Hd & Hf)].
    + left. unfold entry_call. rewrite Hi, Ht, Hh. now left.
    + right. unfold initial_entry_call. rewrite Ht. apply is_composite_iff in Hd. rewrite Hd, Hf, Hh. now left.
Qed.

(** Entered by name: what a row counts. *)
Lemma entered_row e pl x o pl' : entered_by_name env root c -> x_int x = false ->
  candidate env root e pl (CRow x o) -> target_place env x = Some pl' ->
  exits_of env c x <= b2n (at_class c pl) /\
  exits_of env c x + b2n (in_class m c (Some (code m pl'))) <= b2n (at_class c pl) + entries_of env c x.
Proof.
  intros B Hi Hc Ht. destruct (candidate_starts e pl x o Hi Hc) as [D St].
  assert (X : exits_of env c x <= b2n (at_class c pl)).
  { destruct (Nat.eq_dec (exits_of env c x) 0) as [->|Hn]; [lia|]. pose proof (exits_le1 x). apply exits_iff in Hn. destruct Hn as (_ & _ & Hs).
    replace (at_class c pl) with true; [cbn; lia|]. symmetry. apply at_class_iff. destruct Hs as [Hs|(w & q & Hs)].
    - destruct St as [->|(d & s & Hs' & _ & _ & ->)]; [right; unfold source_place; now rewrite Hs|left]. cbn. congruence.
    - destruct St as [->|(d & s & Hs' & _ & _ & ->)]; [left; unfold source_place; now rewrite Hs|congruence]. }
  split; [exact X|]. destruct (in_class m c (Some (code m pl'))) eqn:E; cbn [b2n]; [|lia]. apply code_in_class in E.
  destruct (Nat.eq_dec (entries_of env c x) 0) as [E0|]; [|lia]. rewrite E0.
  assert (Par : x_parent x = c).
  { destruct (Nat.eq_dec (x_parent x) c) as [|Np]; [assumption|exfalso].
    assert (Hz : ~ (entries_of env c x <> 0)) by lia. apply Hz, entries_iff. split; [apply B|].
    apply at_class_iff in E. unfold target_place in Ht. pose proof (eb_targets _ _ _ B x D) as T. pose proof (eb_history _ _ _ B x) as Hh.
    destruct (x_tgt x) as [d|w d|w p q|w p q|w p q|w p] eqn:Et.
    - destruct (is_composite env d) eqn:Ec.
      + destruct (first_initial env d) as [i|] eqn:Ef; [|discriminate]. inversion Ht; subst. cbn in E. apply is_composite_iff in Ec.
        destruct E as [-> | ->]; [left; auto|right; eauto].
      + inversion Ht; subst. cbn in E. destruct E as [E|E]; [contradiction|]. inversion E; subst. left. auto.
    - inversion Ht; subst. cbn in E. destruct E as [E|E]; [contradiction|]. inversion E; contradiction.
    - inversion Ht; subst. cbn in E. destruct T. destruct E as [E|E]; [contradiction|]. inversion E; contradiction.
    - inversion Ht; subst. cbn in E. destruct T. destruct E as [E|E]; [contradiction|]. inversion E; contradiction.
    - inversion Ht; subst. cbn in E. destruct E as [E|E]; [contradiction|discriminate].
    - destruct (Hh w p D eq_refl). }
  pose proof (eb_inner _ _ _ B x D Par) as In0.
  assert (F : fst pl = c /\ exits_of env c x = 0).
  { assert (Cc : composite env c).
    { destruct D as (p & r & Hu & Hr & ->). cbn in Par. subst p. intros E1. unfold table in Hr. rewrite E1 in Hr. destruct Hr. }
    assert (Z : exits_of env c x = 0).
    { destruct (Nat.eq_dec (exits_of env c x) 0) as [|Hn]; [assumption|]. apply exits_iff in Hn. destruct Hn as (_ & _ & [Hs|(w & q & Hs)]); rewrite Hs in In0; contradiction. }
    split; [|exact Z]. destruct St as [->|(d & s & Hs' & Hd & _ & ->)]; [|rewrite Hs' in In0; contradiction].
    unfold source_place. destruct (x_src x); cbn; auto. contradiction. }
  destruct F as [F ->]. replace (at_class c pl) with true; [cbn; lia|]. symmetry. apply at_class_iff. now left.
Qed.

Lemma in_dedup s : forall l, In s (dedup l) -> In s l.
Proof.
  induction l as [|a l IH]; [auto|]. cbn [dedup]. intros [->|H]; [now left|]. apply filter_In in H. right. apply IH, H.
Qed.
Lemma first_initial_written d i : first_initial env d = Some (SState i) -> exists w r, In r (table env d) /\ (r_src r = SInitial w i \/ r_tgt r = SInitial w i).
Proof.
  unfold first_initial, initial_states. intros H. assert (Hin : In (SState i) (map unmarked (dedup (filter marked (mentioned env d))))).
  { destruct (map unmarked _); inversion H; subst. now left. }
  apply in_map_iff in Hin. destruct Hin as (s & Hu & Hin). apply in_dedup in Hin. apply filter_In in Hin. destruct Hin as [Hin Hk].
  destruct s as [|w j| | | |]; try discriminate. cbn in Hu. inversion Hu; subst. exists w.
  unfold mentioned in Hin. apply in_flat_map in Hin. destruct Hin as (r & Hr & Hin). exists r. split; [exact Hr|]. cbn in Hin. intuition.
Qed.

(** Left by name: what a row counts. *)
Lemma left_row e pl x o pl' : left_by_name env root c -> x_int x = false ->
  candidate env root e pl (CRow x o) -> target_place env x = Some pl' ->
  entries_of env c x + b2n (at_class c pl) <= exits_of env c x + b2n (in_class m c (Some (code m pl'))).
Proof.
  intros B Hi Hc Ht. destruct (candidate_starts e pl x o Hi Hc) as [D St].
  assert (Nh : is_history (x_tgt x) = false).
  { pose proof (lb_history _ _ _ B x) as Hh. destruct (x_tgt x) as [| | | | |w p] eqn:Et; try reflexivity. destruct (Hh w p D eq_refl). }
  destruct (target_cases env root m Hm x D Nh) as (pl0 & Ht0 & Hs0 & Pl). rewrite Ht in Ht0. inversion Ht0; subst pl0. clear Ht0.
  assert (Used : forall d, x_tgt x = SState d -> composite env d -> used env root d).
  { intros d Et Hd. destruct D as (p & r & Hu & Hr & ->). cbn in Et. eapply used_sub; eauto. rewrite Et. constructor. }
  assert (E1 : entries_of env c x <= b2n (in_class m c (Some (code m pl')))).
  { destruct (Nat.eq_dec (entries_of env c x) 0) as [->|Hn]; [lia|].
    assert (Le : entries_of env c x <= 1).
    { unfold entries_of. rewrite count_occ_app. unfold entry_call, initial_entry_call. rewrite Hi.
      destruct (x_tgt x) as [d| | | | |] eqn:Et; try (cbn; lia).
      assert (A1 : count_occ who_dec (if has_entry env d then [CEntry d] else []) (CEntry c) <= b2n (Nat.eqb d c)).
      { destruct (has_entry env d); [|cbn; lia]. cbn [count_occ]. destruct (who_dec (CEntry d) (CEntry c)) as [E|]; [|lia]. inversion E. rewrite Nat.eqb_refl. cbn. lia. }
      destruct (is_composite env d) eqn:Ec.
      - destruct (first_initial env d) as [[i| | | | |]|] eqn:Ef; try (pose proof (b2n_le (Nat.eqb d c)); cbn [count_occ]; lia).
        assert (A2 : count_occ who_dec (if has_entry env i then [CEntry i] else []) (CEntry c) <= b2n (Nat.eqb i c)).
        { destruct (has_entry env i); [|cbn; lia]. cbn [count_occ]. destruct (who_dec (CEntry i) (CEntry c)) as [E|]; [|lia]. inversion E. rewrite Nat.eqb_refl. cbn. lia. }
        destruct (Nat.eqb d c) eqn:Edc; [|pose proof (b2n_le (Nat.eqb i c)); cbn [b2n] in *; lia].
        destruct (Nat.eqb i c) eqn:Eic; [|cbn [b2n] in *; lia]. exfalso. apply Nat.eqb_eq in Edc, Eic. subst d i.
        apply is_composite_iff in Ec. destruct (first_initial_written _ _ Ef) as (w & r & Hr & Hw).
        assert (Dr : declared env root (row_in c r)) by (exists c, r; auto).
        destruct Hw as [Hw|Hw].
        + pose proof (lb_sources _ _ _ B _ Dr) as Ls. cbn [x_src row_in] in Ls. rewrite Hw in Ls. now apply Ls.
        + exact (lb_targets _ _ _ B _ w Dr Hw).
      - pose proof (b2n_le (Nat.eqb d c)). cbn [count_occ]. lia. }
    apply entries_iff in Hn. destruct Hn as (_ & Hn). rewrite class_in_code; [cbn; lia| |].
    - destruct Pl as [Pl|(w & p & q & Et & _)]; [exact Pl|]. destruct Hn as [[_ Hn]|(d & Hn & _)]; destruct Et; congruence.
    - apply at_class_iff. unfold target_place in Ht. destruct Hn as [[_ Hn]|(d & Hn & Hd & Hf)]; rewrite Hn in Ht.
      + destruct (is_composite env c); [destruct (first_initial env c); [|discriminate]|]; inversion Ht; subst; cbn; auto.
      + apply is_composite_iff in Hd. rewrite Hd, Hf in Ht. inversion Ht; subst. cbn. auto. }
  destruct (at_class c pl) eqn:Ea; cbn [b2n]; [|lia].
  destruct (Nat.eq_dec (exits_of env c x) 0) as [Ex|Ex]; [|lia].
  apply at_class_iff in Ea.
  assert (Nx : ~ (x_src x = SState c \/ exists w q, x_src x = SExit w c q)).
  { intros Hs. assert (Hz : ~ (exits_of env c x <> 0)) by lia. apply Hz, exits_iff. split; [exact Hi|]. split; [apply B|exact Hs]. }
  pose proof (lb_sources _ _ _ B x D) as Ls.
  assert (Par : x_parent x = c).
  { destruct St as [->|(d & s & Hs & Hd & Hch & ->)].
    - unfold source_place in Ea. destruct (x_src x) as [d|w d|w p q|w p q|w p q|w p] eqn:Es; cbn in Ea.
      + destruct Ea as [Ea|Ea]; [exact Ea|]. inversion Ea; subst. exfalso. auto.
      + destruct Ea as [Ea|Ea]; [exact Ea|]. inversion Ea; contradiction.
      + destruct Ls as [L1 L2]. destruct Ea as [Ea|Ea]; [contradiction|]. inversion Ea; contradiction.
      + destruct Ea as [Ea|Ea]; [exact Ea|discriminate].
      + destruct Ea as [Ea|Ea]; [|inversion Ea; contradiction]. subst p. exfalso. apply Nx. right. exists w, q. reflexivity.
      + destruct Ea as [Ea|Ea]; [exact Ea|discriminate].
    - rewrite Hs in Ls. cbn in Ea. destruct Ls as [->|Ls]; [exfalso; auto|]. destruct Ea as [-> | ->]; [exfalso; auto|]. destruct (Ls Hd Hch). }
  assert (Cc : table env c <> []).
  { destruct D as (p & r & Hu & Hr & ->). cbn in Par. subst p. intros E2. rewrite E2 in Hr. destruct Hr. }
  assert (Cc' : composite env c).
  { intros E2. apply Cc. unfold table. now rewrite E2. }
  pose proof (lb_inner _ _ _ B x D Par) as Li.
  assert (Ez : entries_of env c x = 0).
  { destruct (Nat.eq_dec (entries_of env c x) 0) as [|Hn]; [assumption|]. apply entries_iff in Hn. destruct Hn as (_ & [[_ Hn]|(d & Hn & Hd & _)]); rewrite Hn in Li; contradiction. }
  rewrite Ez, class_in_code; [cbn; lia| |].
  - destruct Pl as [Pl|(w & p & q & [Et|Et] & Etb & _)]; [exact Pl| |]; rewrite Et in Li; subst p; contradiction.
  - apply at_class_iff. left. unfold target_place in Ht. destruct (x_tgt x) as [d|w d|w p q|w p q|w p q|w p] eqn:Et; try (inversion Ht; subst; cbn; congruence); try discriminate.
    destruct (is_composite env d) eqn:Ec; [|inversion Ht; subst; reflexivity]. apply is_composite_iff in Ec. contradiction.
Qed.
Lemma left_internal e pl x o : left_by_name env root c -> x_int x = true -> candidate env root e pl (CRow x o) -> entries_of env c x = 0.
Proof.
  intros B Hi Hc. destruct (Nat.eq_dec (entries_of env c x) 0) as [|Hn]; [assumption|exfalso]. apply entries_iff in Hn.
  destruct Hn as (_ & [[Hf _]|(d & Ht & Hd & Hf)]); [congruence|].
  inversion Hc as [y D|y d' s D|y D|]; subst.
  - destruct D as (p & r & _ & _ & ->). discriminate.
  - destruct D as (p & r & _ & _ & ->). discriminate.
  - exact (lb_internal _ _ _ B x d D Ht Hd Hf).
Qed.
Lemma internal_exits x : x_int x = true -> exits_of env c x = 0.
Proof. intros Hi. unfold exits_of, exit_call. now rewrite Hi. Qed.
End Rows.

(** * Steps *)
Section Steps.
Context {V W : Type}.
Variable cb : cbfun V W.
Variables (env : cenv) (root : cls) (m : machine) (vnone : V) (c : cls).
Hypothesis Hm : compile env root = Some m.
Hypothesis Hg : only_guards_throw cb.
Hypothesis Hh : forall x w p, declared env root x -> x_tgt x <> SHistory w p.
Notation st := (rt V W).

(** Calls of guards and of the handler of unexpected events. *)
Definition aside (t : list (called V)) : Prop := forall k, In k t -> k_callee k <> CEntry c /\ k_callee k <> CExit c.
Lemma aside_times t : aside t -> times (CEntry c) t = 0 /\ times (CExit c) t = 0.
Proof. intros H. split; apply times_none; intros k Hk; apply H, Hk. Qed.
Lemma aside_prefix t1 t2 : aside (t1 ++ t2) -> aside t1.
Proof. intros H k Hk. apply H, in_or_app. now left. Qed.

Definition did_row (ds : list dep) r e (s s' : st) (x : xrow) (pl : place) (gs ks : list (called V)) : Prop :=
  at_place m s r = Some pl /\ (exists o, candidate env root e pl (CRow x o)) /\ aside gs /\ map k_callee ks = row_calls env x /\
  rt_trace s' = rt_trace s ++ gs ++ ks /\
  (x_int x = true /\ rt_cur s' = rt_cur s \/
   x_int x = false /\ exists pl', target_place env x = Some pl' /\ rt_cur s' = set_nth r (Some (code m pl')) (rt_cur s)).

Lemma scan_aside e bs v w ks vd v' w' : scan cb m e bs v w ks vd v' w' -> aside ks.
Proof.
  intros H k Hk. destruct (scan_guards cb m e _ _ _ _ _ _ _ H k Hk) as (d & x & o & ty & val & _ & _ & E).
  unfold signature in E. inversion E as [[E1 E2]]. rewrite E1. split; discriminate.
Qed.
Lemma callees_of ks l (f : callee -> args) : map signature ks = map (fun k => (k, f k)) l -> map (@k_callee V) ks = l.
Proof.
  intros H. apply (f_equal (map fst)) in H. rewrite !map_map in H. cbn [fst] in H. rewrite map_id in H. exact H.
Qed.
Lemma effect_quiet (env0 : cenv) x o e d v live w ks n v' live' w' : perform cb e d o (effects env0 x o) v live w ks (Some n) v' live' w' -> False.
Proof.
  assert (P : forall p, In p (effects env0 x o) -> In (p_callee p) (row_calls env0 x)).
  { intros p Hp. pose proof (effects_signature env0 x o e d) as E. apply (f_equal (map fst)) in E. unfold row_signature in E. rewrite !map_map in E. cbn [fst] in E. rewrite map_id in E.
    rewrite <- E. apply in_map_iff. exists p. auto. }
  assert (Q : forall k, In k (row_calls env0 x) -> ~ (exists ty val, k = CGuard ty val) /\ k <> CHandler).
  { intros k Hk. unfold row_calls in Hk. rewrite !in_app_iff in Hk. destruct Hk as [Hk|[Hk|Hk]].
    - apply exit_plain in Hk. destruct Hk as [? ->]. split; [intros (? & ? & ?)|]; discriminate.
    - apply action_plain in Hk. split; [intros (? & ? & ->)|intros ->]; exact Hk.
    - apply in_app_iff, entry_plain in Hk. destruct Hk as [? ->]. split; [intros (? & ? & ?)|]; discriminate. }
  generalize (effects env0 x o), P. clear P. intros ps P H. remember (Some n) as on eqn:En. revert P. induction H; intros P; try discriminate.
  - apply IHperform; auto. intros q Hq. apply P. now right.
  - destruct (Q (p_callee p)) as [Q1 Q2]; [apply P; now left|]. destruct (Hg _ _ _ _ _ _ _ H) as [G|G]; auto.
Qed.

Lemma step_row ds r e v s vd v' s' : region_step cb m ds r e v s vd v' s' ->
  (exists gs, aside gs /\ rt_cur s' = rt_cur s /\ rt_trace s' = rt_trace s ++ gs) \/
  exists x pl gs ks, did_row ds r e s s' x pl gs ks.
Proof.
  destruct (compile_comp _ _ _ Hm) as (Hc & Ee & Er). unfold did_row. intros H. rewrite <- Er, <- Ee in *. destruct H as [v s pl|v s pl ks v' w' Hat Hb Hs|v s pl ks d x o v1 w1 v' s' Hat Hs Hx|v s pl ks v' w' Hat Hs|v s pl ks n v' w' Hat Hs|v s pl ks d x o v1 w1 n v' s' Hat Hs Hx].
  - left. exists []. rewrite app_nil_r. split; [intros k []|auto].
  - left. exists ks. split; [eapply scan_aside; eauto|auto].
  - right. inversion Hx as [v0 s0 s1 ks2 n0 v2 live' w' Mv Pf]; subst. exists x, pl, ks, ks2.
    split; [exact Hat|]. split; [exists o|split; [eapply scan_aside; eauto|]].
    { apply scan_pick in Hs. destruct Hs as (pre & rest & k1 & k2 & va & wa & Eb & _). apply (cands_sound m Hc).
      assert (In (d, CRow x o) (bound m ds e pl)) by (rewrite Eb; apply in_or_app; right; now left).
      unfold bound in H. apply in_flat_map in H. destruct H as (d1 & _ & H). apply in_map_iff in H. destruct H as (q & Eq & H). inversion Eq; subst. exact H. }
    split.
    { pose proof (perform_calls cb _ _ _ _ _ _ _ _ _ _ _ _ Pf) as [P1 P2]. rewrite effects_signature in P1.
      rewrite firstn_all2 in P1.
      - unfold row_signature in P1. eapply callees_of. exact P1.
      - rewrite <- (effects_signature (mc_env m) x o e d), map_length. lia. }
    assert (Nh : has_history m = false).
    { destruct (has_history m) eqn:E; [|reflexivity]. apply (history_iff _ _ m Hm) in E. destruct E as (y & w0 & p & Hy & Hz). destruct (Hh _ _ _ Hy Hz). }
    inversion Mv as [? Hi|? pl' Hi Hn Ht _|? ? ? Hn|? ? ? ? ? Hn]; subst; try congruence.
    + split; [cbn; now rewrite app_assoc|]. left. auto.
    + destruct (relocate_rest m r (code m pl') (after s w1 ks)) as (_ & _ & _ & Rt & Rc & _).
      cbn [rt_trace rt_cur with_live after with_user]. rewrite Rt, Rc. cbn. split; [now rewrite app_assoc|]. right. eauto.
  - left. exists ks. split; [eapply scan_aside; eauto|auto].
  - left. exists ks. split; [eapply scan_aside; eauto|auto].
  - exfalso. inversion Hx as [v0 s0 s1 ks2 n0 v2 live' w' Mv Pf]; subst. eapply effect_quiet. exact Pf.
Qed.

(** Prefixes of what was there, guards, and the calls of a row. *)
Lemma split_prefix (t gs ks t1 t2 : list (called V)) : t ++ gs ++ ks = t1 ++ t2 ->
  (exists u, t = t1 ++ u) \/ (exists g u, gs = g ++ u /\ t1 = t ++ g) \/ exists k u, ks = k ++ u /\ t1 = t ++ gs ++ k.
Proof.
  intros E. apply prefix_app in E. destruct E as [E|(u & -> & E)]; [now left|]. right.
  apply prefix_app in E. destruct E as [(u' & E)|(u' & -> & E)]; [left; exists u, u'; auto|right; exists u', t2; auto].
Qed.
Lemma row_times ks x k : map (@k_callee V) ks = row_calls env x -> times k ks = count_occ who_dec (row_calls env x) k.
Proof. unfold times. now intros ->. Qed.
Lemma row_times_prefix x k u : map (@k_callee V) (k ++ u) = row_calls env x ->
  (times (CEntry c) k = 0 /\ times (CExit c) k <= exits_of env c x) \/
  (times (CEntry c) k <= entries_of env c x /\ times (CExit c) k = exits_of env c x).
Proof. rewrite map_app. intros E. unfold times. eapply row_prefix. symmetry. exact E. Qed.

Definition kept_in (s0 s : st) : Prop := exists t, rt_trace s = rt_trace s0 ++ t /\
  times (CExit c) t + regions_at m s c <= times (CEntry c) t + regions_at m s0 c /\
  forall t1 t2, t = t1 ++ t2 -> times (CExit c) t1 <= times (CEntry c) t1 + regions_at m s0 c.
Definition kept_out (s0 s : st) : Prop := exists t, rt_trace s = rt_trace s0 ++ t /\ length (rt_cur s) = length (rt_cur s0) /\
  times (CEntry c) t + regions_at m s0 c <= times (CExit c) t + regions_at m s c /\
  forall t1 t2, t = t1 ++ t2 -> times (CEntry c) t1 + regions_at m s0 c <= times (CExit c) t1 + length (rt_cur s0).

Lemma kept_in_refl s : kept_in s s.
Proof.
  exists []. rewrite app_nil_r. split; [reflexivity|]. split; [auto|]. intros t1 t2 E. symmetry in E. apply app_eq_nil in E. destruct E as [-> _]. cbn. lia.
Qed.
Lemma kept_out_refl s : kept_out s s.
Proof.
  exists []. rewrite app_nil_r. split; [reflexivity|]. split; [reflexivity|]. split; [auto|]. intros t1 t2 E. symmetry in E. apply app_eq_nil in E. destruct E as [-> _]. cbn.
  apply regions_le.
Qed.
Lemma kept_in_aside s0 s s' gs : kept_in s0 s -> aside gs -> rt_cur s' = rt_cur s -> rt_trace s' = rt_trace s ++ gs -> kept_in s0 s'.
Proof.
  intros (t & Et & K & P) G Ec Eg. exists (t ++ gs). split; [rewrite Eg, Et; now rewrite app_assoc|]. rewrite (regions_same m c s s' Ec), !times_app.
  destruct (aside_times _ G) as [-> ->]. split; [lia|]. intros t1 t2 E. apply prefix_app in E. destruct E as [(u & E)|(u & -> & E)].
  - eapply P; eauto.
  - subst gs. destruct (aside_times _ (aside_prefix _ _ G)) as [G1 G2]. rewrite !times_app, G1, G2. specialize (P t [] (eq_sym (app_nil_r t))). lia.
Qed.
Lemma kept_out_aside s0 s s' gs : kept_out s0 s -> aside gs -> rt_cur s' = rt_cur s -> rt_trace s' = rt_trace s ++ gs -> kept_out s0 s'.
Proof.
  intros (t & Et & L & K & P) G Ec Eg. exists (t ++ gs). split; [rewrite Eg, Et; now rewrite app_assoc|]. rewrite (regions_same m c s s' Ec), !times_app, Ec.
  split; [exact L|].
  destruct (aside_times _ G) as [-> ->]. split; [lia|]. intros t1 t2 E. apply prefix_app in E. destruct E as [(u & E)|(u & -> & E)].
  - eapply P; eauto.
  - subst gs. destruct (aside_times _ (aside_prefix _ _ G)) as [G1 G2]. rewrite !times_app, G1, G2. specialize (P t [] (eq_sym (app_nil_r t))). lia.
Qed.

Lemma at_class_le (s : st) r pl : at_place m s r = Some pl -> b2n (at_class c pl) <= regions_at m s c.
Proof.
  intros H. pose proof (regions_move m c s (with_cur s (set_nth r (Some 0%N) (rt_cur s))) r 0%N pl H eq_refl) as E.
  rewrite regions_cur in E |- *. unfold at_place in H. destruct (nth_error (rt_cur s) r) as [[n|]|] eqn:En; try discriminate.
  destruct (at_class c pl) eqn:Ea; cbn [b2n]; [|lia].
  assert (Hin : In (Some n) (filter (in_class m c) (rt_cur s))).
  { apply filter_In. split; [eapply nth_error_In; eauto|]. unfold in_class. now rewrite H. }
  destruct (filter (in_class m c) (rt_cur s)); [destruct Hin|cbn; lia].
Qed.

Section Entered.
Hypothesis B : entered_by_name env root c.
Lemma step_in ds r e v s0 s vd v' s' : kept_in s0 s -> region_step cb m ds r e v s vd v' s' -> kept_in s0 s'.
Proof.
  intros K H. apply step_row in H. destruct H as [(gs & G & Ec & Et)|(x & pl & gs & ks & Hat & (o & Hca) & G & Ek & Et & Mv)]; [eapply kept_in_aside; eauto|].
  destruct K as (t & Ht & K & P). exists (t ++ gs ++ ks). split; [rewrite Et, Ht; now rewrite <- app_assoc|].
  destruct (row_counts env x c) as [C1 C2]. destruct (aside_times _ G) as [G1 G2].
  rewrite !times_app, G1, G2, (row_times ks x _ Ek), (row_times ks x _ Ek), C1, C2.
  pose proof (at_class_le s r pl Hat) as Le.
  assert (X : exits_of env c x <= b2n (at_class c pl) /\ exits_of env c x + regions_at m s' c <= regions_at m s c + entries_of env c x).
  { destruct Mv as [[Hi Ec]|[Hi (pl' & Tp & Ec)]].
    - rewrite (internal_exits env c x Hi), (regions_same m c s s' Ec). lia.
    - destruct (entered_row env root m c e pl x o pl' B Hi Hca Tp) as [X1 X2]. pose proof (regions_move m c s s' r _ pl Hat Ec). lia. }
  destruct X as [X1 X2]. split; [lia|]. intros t1 t2 E. apply split_prefix in E. destruct E as [(u & E)|[(g & u & E & ->)|(k & u & E & ->)]].
  - eapply P; eauto.
  - subst gs. destruct (aside_times _ (aside_prefix _ _ G)) as [G3 G4]. rewrite !times_app, G3, G4. lia.
  - subst ks. rewrite !times_app, G1, G2. destruct (row_times_prefix x k u Ek) as [[D1 D2]|[D1 D2]]; lia.
Qed.
End Entered.

Section Left.
Hypothesis B : left_by_name env root c.
Lemma step_out ds r e v s0 s vd v' s' : kept_out s0 s -> region_step cb m ds r e v s vd v' s' -> kept_out s0 s'.
Proof.
  intros K H. apply step_row in H. destruct H as [(gs & G & Ec & Et)|(x & pl & gs & ks & Hat & (o & Hca) & G & Ek & Et & Mv)]; [eapply kept_out_aside; eauto|].
  destruct K as (t & Ht & L & K & P). exists (t ++ gs ++ ks). split; [rewrite Et, Ht; now rewrite <- app_assoc|].
  assert (L' : length (rt_cur s') = length (rt_cur s0)).
  { destruct Mv as [[_ ->]|[_ (pl' & _ & ->)]]; [exact L|]. now rewrite set_nth_length. }
  split; [exact L'|].
  destruct (row_counts env x c) as [C1 C2]. destruct (aside_times _ G) as [G1 G2].
  rewrite !times_app, G1, G2, (row_times ks x _ Ek), (row_times ks x _ Ek), C1, C2.
  pose proof (regions_le m c s) as Le. pose proof (regions_le m c s') as Le'. rewrite L in Le. rewrite L' in Le'.
  assert (X : entries_of env c x + regions_at m s c <= exits_of env c x + regions_at m s' c).
  { destruct Mv as [[Hi Ec]|[Hi (pl' & Tp & Ec)]].
    - rewrite (left_internal env root c e pl x o B Hi Hca), (regions_same m c s s' Ec). lia.
    - pose proof (left_row env root m c Hm e pl x o pl' B Hi Hca Tp) as X. pose proof (regions_move m c s s' r _ pl Hat Ec). lia. }
  split; [lia|]. intros t1 t2 E. apply split_prefix in E. destruct E as [(u & E)|[(g & u & E & ->)|(k & u & E & ->)]].
  - eapply P; eauto.
  - subst gs. destruct (aside_times _ (aside_prefix _ _ G)) as [G3 G4]. rewrite !times_app, G3, G4. lia.
  - subst ks. rewrite !times_app, G1, G2. destruct (row_times_prefix x k u Ek) as [[D1 D2]|[D1 D2]]; lia.
Qed.
End Left.

(** * Calls *)
Section Calls.
Variable I : st -> Prop.
Hypothesis I_step : forall ds r e v s vd v' s', I s -> region_step cb m ds r e v s vd v' s' -> I s'.
Hypothesis I_aside : forall s s' gs, I s -> aside gs -> rt_cur s' = rt_cur s -> rt_trace s' = rt_trace s ++ gs -> I s'.
Hypothesis Hmax : max_initials m <= 255.

Lemma I_same s s' : I s -> rt_cur s' = rt_cur s -> rt_trace s' = rt_trace s -> I s'.
Proof. intros H Ec Et. eapply (I_aside s s' []); auto; [intros k []|]. now rewrite app_nil_r. Qed.
Lemma process_I ds d0 e v s vds rp s' : rinvs m ds d0 s -> process cb m ds vnone d0 e v s vds rp s' -> I s -> I s'.
Proof.
  destruct (compile_comp _ _ _ Hm) as (Hc & _ & _). intros [T R _] P HI.
  assert (O : forall s1 e1 v1 vds1 avds oe v2 s2, tinv m ds d0 s1 -> rinv m s1 -> I s1 -> offer cb m ds vnone e1 v1 s1 vds1 avds oe v2 s2 -> tinv m ds d0 s2 /\ rinv m s2 /\ I s2).
  { intros s1 e1 v1 vds1 avds oe v2 s2 T1 R1 I1 H. eapply (offer_keeps cb m Hc vnone ds d0 I); eauto. }
  destruct P as [v s vds v1 s1 n v' s' Of Ux|v s vds oe v' s' Of _|v s vds avds n v' s' Of|v s vds avds v' s1 n s' Of Rc].
  - destruct (O _ _ _ _ _ _ _ _ T R HI Of) as (_ & _ & I1). destruct Ux; [exact I1| |]; (eapply I_aside; [exact I1| |reflexivity|reflexivity]); intros k [<-|[]]; cbn; split; discriminate.
  - eapply O; eauto.
  - eapply O; eauto.
  - destruct (O _ _ _ _ _ _ _ _ T R HI Of) as (T1 & R1 & I1). destruct (has_deferred m); [|destruct Rc as [_ ->]; exact I1].
    destruct Rc as [s1|s1 e2 v2 q vds2 avds2 oe v3 s3 Eq Of2]; [exact I1|].
    refine (proj2 (proj2 (O _ _ _ _ _ _ _ _ _ _ _ Of2))).
    + apply (tinv_frame m ds d0 s1); auto.
    + exact R1.
    + eapply I_same; eauto.
Qed.
Lemma run_I fuel : forall ks ds d0 s os s', (forall r p q, ~ In (KSet r p q) ks) -> reachable cb m vnone ds d0 s ->
  run cb m vnone fuel ks s = Done os s' -> I s -> I s'.
Proof.
  destruct (compile_comp _ _ _ Hm) as (Hc & _ & _).
  induction ks as [|k ks IH]; intros ds d0 s os s' Hk R H HI; cbn [run] in H.
  - inversion H; subst. exact HI.
  - apply bind_Done in H. destruct H as (o & s1 & H1 & H). apply bind_Done in H. destruct H as (os' & s2 & H2 & H). inversion H; subst.
    eapply (IH (deps_after k ds) d0 s1); eauto; [intros r p q Hq; eapply Hk; right; eauto|eapply reach_call; eauto|].
    pose proof (reachable_call cb m Hc vnone Hmax ds d0 s fuel k o s1 R H1) as E.
    destruct k as [e v|r p q|p|r p q|d|]; cbn [call_effect] in E; try (subst; exact HI).
    + destruct E as (vds & rp & P & _). eapply process_I; eauto. now apply (reachable_rinvs cb m Hc vnone Hmax).
    + exfalso. eapply Hk. left. reflexivity.
    + destruct E as (_ & t & _ & ->). eapply I_same; eauto.
Qed.
End Calls.
End Steps.

(** * Whole runs *)
Section Runs.
Context {V W : Type}.
Variable cb : cbfun V W.
Variables (env : cenv) (root : cls) (m : machine) (vnone : V) (ds : list dep) (d0 : dep) (s : rt V W) (c : cls).
Hypothesis R : running cb env root m vnone ds d0 s.
Hypothesis Hg : only_guards_throw cb.
Variables (fuel : nat) (ks : list (call V)) (os : list out) (s' : rt V W).
Hypothesis Hk : forall r p q, ~ In (KSet r p q) ks.
Hypothesis Hr : run cb m vnone fuel ks s = Done os s'.

Lemma run_in : entered_by_name env root c -> kept_in m c s s'.
Proof.
  destruct R as (Hm & F & Re). intros B.
  eapply (run_I cb env root m vnone c Hm (kept_in m c s)); eauto using kept_in_refl, few_max_compiled, kept_in_aside.
  intros. eapply step_in; eauto. intros. apply B. assumption.
Qed.
Lemma run_out : left_by_name env root c -> kept_out m c s s'.
Proof.
  destruct R as (Hm & F & Re). intros B.
  eapply (run_I cb env root m vnone c Hm (kept_out m c s)); eauto using kept_out_refl, few_max_compiled, kept_out_aside.
  intros. eapply step_out; eauto. intros. apply B. assumption.
Qed.
Lemma run_both : entered_by_name env root c -> left_by_name env root c ->
  exists t, rt_trace s' = rt_trace s ++ t /\ times (CEntry c) t + regions_at m s c = times (CExit c) t + regions_at m s' c.
Proof.
  intros B1 B2. destruct (run_in B1) as (t & E & K & _). destruct (run_out B2) as (t' & E' & _ & K' & _).
  rewrite E in E'. apply app_inv_head in E'. subst t'. exists t. split; [exact E|]. lia.
Qed.
End Runs.

(** * Sessions *)
Lemma lists_same {A} : forall l k : list A, (forall n, nth_error l n = nth_error k n) -> l = k.
Proof.
  induction l as [|a l IH]; intros [|b k] H; [reflexivity|specialize (H 0); discriminate|specialize (H 0); discriminate|].
  pose proof (H 0) as H0. cbn in H0. inversion H0; subst. f_equal. apply IH. intros n. exact (H (S n)).
Qed.
Lemma fresh_regions {V W} env root m (s : rt V W) d w c : compile env root = Some m -> fresh m d w s ->
  regions_at m s c = length (filter (fun i => at_class c (root, i)) (initial_states env root)).
Proof.
  intros Hm. compiled Hm. intros (Hl & Hcur & _). rewrite regions_cur. rewrite initials_spec in Hcur.
  assert (E : rt_cur s = map (fun i => Some (code m (mc_root m, i))) (initial_states (mc_env m) (mc_root m)) ++
    repeat None (max_initials m - length (initial_states (mc_env m) (mc_root m)))).
  { apply lists_same. intros n. rewrite Hcur.
    assert (Le : length (initial_states (mc_env m) (mc_root m)) <= max_initials m) by (rewrite <- initials_spec; apply initials_le_max, root_parent; exact Hc).
    destruct (nth_error (initial_states (mc_env m) (mc_root m)) n) as [i|] eqn:E.
    - rewrite nth_error_app1 by (rewrite map_length; apply nth_error_Some; congruence). rewrite nth_error_map, E. reflexivity.
    - apply nth_error_None in E. rewrite nth_error_app2 by (rewrite map_length; exact E). rewrite map_length, nth_repeat.
      destruct (Nat.ltb_spec n (max_initials m)), (Nat.ltb_spec (n - length (initial_states (mc_env m) (mc_root m))) (max_initials m - length (initial_states (mc_env m) (mc_root m)))); auto; lia. }
  rewrite E, filter_app, app_length.
  assert (Z : forall n, length (filter (in_class m c) (repeat None n)) = 0) by (induction n; [reflexivity|exact IHn]).
  rewrite Z, Nat.add_0_r.
  assert (P : forall i, In i (initial_states (mc_env m) (mc_root m)) -> in_class m c (Some (code m (mc_root m, i))) = at_class c (mc_root m, i)).
  { intros i Hi. unfold in_class. rewrite (decode_code m Hc); [reflexivity|apply root_parent; exact Hc|].
    apply (initials_states m Hc (mc_root m)); [apply root_parent; exact Hc|]. now rewrite initials_spec. }
  revert P. generalize (initial_states (mc_env m) (mc_root m)). intros l P. induction l as [|i l IH]; [reflexivity|]. cbn [map filter].
  rewrite P by now left. assert (IH' := IH (fun j Hj => P j (or_intror Hj))). destruct (at_class c (mc_root m, i)); cbn [length]; [f_equal|]; exact IH'.
Qed.

Section Session.
Context {V W : Type}.
Variable cb : cbfun V W.
Variables (env : cenv) (root : cls) (m : machine) (vnone : V) (c : cls).
Hypothesis Hm : compile env root = Some m.
Hypothesis F : few_regions env root.
Hypothesis Hg : only_guards_throw cb.
Variables (fuel : nat) (d : dep) (w : W) (ks : list (call V)) (os : list out) (s' : rt V W).
Hypothesis Hk : forall r p q, ~ In (KSet r p q) ks.
Hypothesis Hr : session cb m vnone fuel d w ks = Done os s'.

Lemma session_runs : exists s, running cb env root m vnone [d] d s /\ run cb m vnone fuel ks s = Done os s' /\ rt_trace s = [] /\
  regions_at m s c = length (filter (fun i => at_class c (root, i)) (initial_states env root)).
Proof.
  unfold session in Hr. apply bind_Done in Hr. destruct Hr as ([] & s & H0 & H). exists s.
  split; [split; [exact Hm|split; [exact F|]]; econstructor; eauto|]. split; [exact H|].
  destruct (compile_comp _ _ _ Hm) as (Hc & _ & _).
  destruct (construct_sound m Hc _ _ _ _ (root_initials_le m Hc (few_max_compiled _ _ _ Hm F)) H0) as [Fr _].
  split; [apply Fr|]. eapply fresh_regions; eauto.
Qed.
Lemma session_both : entered_by_name env root c -> left_by_name env root c ->
  times (CEntry c) (rt_trace s') + length (filter (fun i => at_class c (root, i)) (initial_states env root)) =
  times (CExit c) (rt_trace s') + regions_at m s' c.
Proof.
  intros B1 B2. destruct session_runs as (s & R & H & Et & E).
  destruct (run_both cb env root m vnone [d] d s c R Hg fuel ks os s' Hk H B1 B2) as (t & Tt & K). rewrite Et in Tt. cbn in Tt. now rewrite Tt, <- E.
Qed.
End Session.

(** * Checks *)
Section Checks.
Variables (env : cenv) (root : cls) (m : machine) (c : cls).
Hypothesis Hm : compile env root = Some m.

Lemma entered_ok_iff : entered_ok m c = true <-> entered_by_name env root c.
Proof.
  compiled Hm. unfold entered_ok. rewrite andb_true_iff, forallb_forall. split.
  - intros [He H]. split; [exact He| | |].
    + intros x w p D E. apply (flat_declared m Hc) in D. specialize (H x D). rewrite E in H. discriminate.
    + intros x D. apply (flat_declared m Hc) in D. specialize (H x D). apply andb_true_iff in H. destruct H as [H _].
      destruct (x_tgt x); auto; try (apply negb_true_iff, Nat.eqb_neq in H; exact H); apply andb_true_iff in H; destruct H as [H1 H2];
      apply negb_true_iff, Nat.eqb_neq in H1, H2; auto.
    + intros x D P. apply (flat_declared m Hc) in D. specialize (H x D). apply andb_true_iff in H. destruct H as [_ H].
      rewrite P, Nat.eqb_refl in H. cbn in H. destruct (x_src x); auto; try discriminate.
      * apply negb_true_iff in H. intros Cc. apply is_composite_iff in Cc. congruence.
      * now apply Nat.eqb_eq.
  - intros [He Hh Ht Hi]. split; [exact He|]. intros x D. apply (flat_declared m Hc) in D. specialize (Hh x). specialize (Ht x D). specialize (Hi x D).
    apply andb_true_iff. split.
    + destruct (x_tgt x) as [d|w d|w p q|w p q|w p q|w p] eqn:E; auto.
      * apply negb_true_iff, Nat.eqb_neq, Ht.
      * destruct Ht. apply andb_true_iff. split; apply negb_true_iff, Nat.eqb_neq; assumption.
      * destruct Ht. apply andb_true_iff. split; apply negb_true_iff, Nat.eqb_neq; assumption.
      * destruct (Hh w p D eq_refl).
    + destruct (Nat.eqb_spec (x_parent x) c) as [P|P]; [|reflexivity]. specialize (Hi P). cbn. destruct (x_src x); auto; try contradiction.
      * apply negb_true_iff. destruct (is_composite (mc_env m) c0) eqn:Ec; [|reflexivity]. apply is_composite_iff in Ec. contradiction.
      * now apply Nat.eqb_eq.
Qed.

Lemma left_ok_iff : left_ok m c = true <-> left_by_name env root c.
Proof.
  compiled Hm. unfold left_ok. rewrite !andb_true_iff, !forallb_forall. split.
  - intros [[He H] Hi]. split; [exact He| | | | |].
    + intros x w p D E. apply (flat_declared m Hc) in D. specialize (H x D). rewrite E in H. rewrite !andb_true_iff in H. intuition discriminate.
    + intros x D. apply (flat_declared m Hc) in D. specialize (H x D). rewrite !andb_true_iff in H. destruct H as [[H _] _].
      destruct (x_src x) as [d|w d|w p q|w p q|w p q|w p]; auto; try (apply negb_true_iff, Nat.eqb_neq in H; exact H).
      * rewrite !orb_true_iff in H. destruct H as [[H|H]|H].
        -- left. now apply Nat.eqb_eq.
        -- right. intros Cc. apply is_composite_iff in Cc. rewrite Cc in H. discriminate.
        -- right. intros _ Hch. apply (child_typeids_iff m) in Hch. destruct (in_dec sref_eq_dec (SState c) (child_typeids (mc_env m) d)); [discriminate|contradiction].
      * apply andb_true_iff in H. destruct H as [H1 H2]. apply negb_true_iff, Nat.eqb_neq in H1, H2. auto.
    + intros x w D E. apply (flat_declared m Hc) in D. specialize (H x D). rewrite E in H. rewrite Nat.eqb_refl in H. rewrite !andb_true_iff in H. intuition discriminate.
    + intros x D P. apply (flat_declared m Hc) in D. specialize (H x D). rewrite !andb_true_iff in H. destruct H as [_ H].
      rewrite P, Nat.eqb_refl in H. cbn in H. destruct (x_tgt x); auto; try (now apply Nat.eqb_eq).
      apply negb_true_iff in H. intros Cc. apply is_composite_iff in Cc. congruence.
    + intros x d D E Cc Hf. apply (internal_flat_cover m Hc) in D. destruct D as (y & Hy & K). specialize (Hi y Hy).
      assert (Et : x_tgt y = SState d).
      { rewrite <- E. unfold xrow_key in K. inversion K. reflexivity. }
      rewrite Et in Hi. apply is_composite_iff in Cc. rewrite Cc, Hf in Hi. cbn [negb orb] in Hi. destruct (sref_eq_dec (SState c) (SState c)); [discriminate Hi|congruence].
  - intros [He Hh Hs Ht Hi Hn]. split; [split; [exact He|]|].
    + intros x D. apply (flat_declared m Hc) in D. specialize (Hh x). specialize (Hs x D). specialize (Ht x). specialize (Hi x D).
      rewrite !andb_true_iff. split; [split|].
      * destruct (x_src x) as [d|w d|w p q|w p q|w p q|w p]; auto; try (apply negb_true_iff, Nat.eqb_neq; assumption).
        -- rewrite !orb_true_iff. destruct Hs as [->|Hs]; [left; left; apply Nat.eqb_refl|].
           destruct (is_composite (mc_env m) d) eqn:Ec; [|left; right; reflexivity]. right. apply is_composite_iff in Ec.
           destruct (in_dec sref_eq_dec (SState c) (child_typeids (mc_env m) d)) as [Hin|]; [|reflexivity].
           exfalso. apply (Hs Ec). now apply (child_typeids_iff m).
        -- destruct Hs. apply andb_true_iff. split; apply negb_true_iff, Nat.eqb_neq; assumption.
      * destruct (x_tgt x) as [d|w d|w p q|w p q|w p q|w p] eqn:E; auto.
        -- apply negb_true_iff, Nat.eqb_neq. intros ->. exact (Ht w D eq_refl).
        -- destruct (Hh w p D eq_refl).
      * destruct (Nat.eqb_spec (x_parent x) c) as [P|P]; [|reflexivity]. specialize (Hi P). cbn. destruct (x_tgt x); auto; try (now apply Nat.eqb_eq).
        apply negb_true_iff. destruct (is_composite (mc_env m) c0) eqn:Ec; [|reflexivity]. apply is_composite_iff in Ec. contradiction.
    + intros x D. apply (internal_flat_declared m Hc) in D. specialize (Hn x). destruct (x_tgt x) as [d| | | | |]; auto.
      destruct (is_composite (mc_env m) d) eqn:Ec; [|reflexivity]. cbn. apply is_composite_iff in Ec. specialize (Hn d D eq_refl Ec).
      destruct (first_initial (mc_env m) d) as [i|]; [|reflexivity]. destruct (sref_eq_dec i (SState c)); [congruence|reflexivity].
Qed.
End Checks.
