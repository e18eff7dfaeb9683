(** Comparing two machines whose events carry data. *)

From Coq Require Import List Arith NArith Bool Lia.
From Verif Require Import Types Static Dispatch Runtime Data DataUse Script Explore Equiv SymTree.
Import ListNotations.

(** User code that reads its answers and leaves a new number in the event. *)
Definition numbering : cbfun nat (option (list reply) * nat) := fun _ _ _ w =>
  match w with
  | (Some (Say b :: l), n) => Ret b n (Some l, S n)
  | (Some (Fail k :: l), n) => Raise k 0 (Some l, n)
  | (_, n) => Raise 0 0 (None, n)
  end.
(** A configuration and the numbers of the data of its deferred events. *)
Definition place := (config * list nat)%type.
Definition place_eq_dec : forall a b : place, {a = b} + {a <> b}.
Proof. decide equality; [apply list_eq_dec, Nat.eq_dec|apply config_eq_dec]. Defined.
Definition places_eq_dec : forall a b : place * place, {a = b} + {a <> b}.
Proof. decide equality; apply place_eq_dec. Defined.
Definition at_place {W} tabs htabs (c : place) (w : W) : rt nat W :=
  mkRt (cf_cur (fst c)) (cf_hist (fst c)) (combine (cf_queue (fst c)) (snd c)) (cf_regions (fst c)) (cf_live (fst c)) tabs htabs w [].
(** The numbers in use in two machines, 0 first, and the place of a number among them. *)
Definition used (a b : list nat) : list nat := 0 :: nodup Nat.eq_dec (filter (fun i => negb (Nat.eqb i 0)) (a ++ b)).
Fixpoint rank (l : list nat) (i : nat) : nat :=
  match l with [] => 0 | x :: l' => if Nat.eqb x i then 0 else S (rank l' i) end.
Definition numbers {W} (s : rt nat W) : list nat := map snd (rt_queue s).
Definition renumber {W} (s1 s2 : rt nat W) : place * place :=
  ((config_of s1, map (rank (used (numbers s1) (numbers s2))) (numbers s1)), (config_of s2, map (rank (used (numbers s1) (numbers s2))) (numbers s2))).
(** A number that is not in use. *)
Definition unused (n : place * place) : nat := S (list_max (snd (fst n) ++ snd (snd n))).

Fixpoint same_numbered (alike : likeness) (a b : list (called nat)) : bool :=
  match a, b with
  | [], [] => true
  | x :: a', y :: b' => alike (bare_call x) (bare_call y) && Nat.eqb (k_payload x) (k_payload y) && same_numbered alike a' b'
  | _, _ => false
  end.

Definition try_call (m : machine) (fuel : nat) tabs htabs (c : place) (k : call unit) (n : nat) (p : list reply) : res nat (option (list reply) * nat) out :=
  do_call_catch numbering m 0 fuel (with_payload (fun _ => n) k) (at_place tabs htabs c (Some p, S n)).

Section Compare.
Variable alike : likeness.
Variables (m1 m2 : machine) (fuel : nat).
Variables (tabs1 tabs2 : tables) (htabs1 htabs2 : handler_tables).
Notation try1 := (try_call m1 fuel tabs1 htabs1).
Notation try2 := (try_call m2 fuel tabs2 htabs2).

Fixpoint compare_data (depth : nat) (c : place * place) (k : call unit * call unit) (n : nat) (p : list reply) : verdict (list (place * place)) :=
  match try1 (fst c) (fst k) n p, try2 (snd c) (snd k) n p with
  | Done o1 s1, Done o2 s2 =>
      if out_eq_dec o1 o2
      then if same_numbered alike (rt_trace s1) (rt_trace s2)
      then match fst (rt_world s1), fst (rt_world s2) with
           | Some _, Some _ => VSame [renumber s1 s2]
           | None, None =>
               match depth with
               | 0 => VUnknown
               | S depth' => both (compare_data depth' c k n (p ++ [Say true]))
                               (both (compare_data depth' c k n (p ++ [Say false])) (compare_data depth' c k n (p ++ [Fail 0])))
               end
           | _, _ => VUnknown
           end
      else VDiffer else VDiffer
  | Undef _, Undef _ => VSame []
  | Done _ _, Undef _ | Undef _, Done _ _ => VDiffer
  | _, _ => VUnknown
  end.
Fixpoint compare_all_data (depth : nat) (ks : list (call unit * call unit)) (c : place * place) : verdict (list (place * place)) :=
  match ks with
  | [] => VSame []
  | k :: ks' => both (compare_data depth c k (unused c) []) (compare_all_data depth ks' c)
  end.
Fixpoint fresh_places (seen l : list (place * place)) : list (place * place) :=
  match l with
  | [] => []
  | x :: l' => if in_dec places_eq_dec x seen then fresh_places seen l' else x :: fresh_places (x :: seen) l'
  end.
Fixpoint close_places (rounds depth : nat) (ks : list (call unit * call unit)) (seen todo : list (place * place)) : verdict (list (place * place)) :=
  match todo with
  | [] => VSame seen
  | c :: todo' =>
      match rounds with
      | 0 => VUnknown
      | S rounds' =>
          match compare_all_data depth ks c with
          | VSame l => let new := fresh_places seen l in close_places rounds' depth ks (seen ++ new) (todo' ++ new)
          | VDiffer => VDiffer
          | VUnknown => VUnknown
          end
      end
  end.
End Compare.

(** The verdict on two machines; a client of both makes pairs of calls, with the same data
    in both. *)
Definition compare_with_data (alike : likeness) (m1 m2 : machine) (fuel depth rounds : nat) (d : dep) (ks : list (call unit * call unit)) : option bool :=
  if existsb (fun k => is_set_dep (fst k) || is_set_dep (snd k)) ks then None
  else match construct (V:=unit) m1 fuel d tt, construct (V:=unit) m2 fuel d tt with
  | Done _ s1, Done _ s2 =>
      let start := ((config_of s1, []), (config_of s2, [])) in
      match close_places alike m1 m2 fuel (rt_tabs s1) (rt_tabs s2) (rt_htabs s1) (rt_htabs s2) rounds depth ks [start] [start] with
      | VSame _ => Some true
      | VDiffer => Some false
      | VUnknown => None
      end
  | Undef _, Undef _ => Some true
  | Done _ _, Undef _ | Undef _, Done _ _ => Some false
  | _, _ => None
  end.

(** Calls of user code that count as the same, with the same data. *)
Definition alike_call {V} (alike : likeness) (x y : called V) : Prop := alike (bare_call x) (bare_call y) = true /\ k_payload x = k_payload y.
Definition alike_calls {V} (alike : likeness) (a b : list (called V)) : Prop := Forall2 (alike_call alike) a b.
(** Two runs nobody can tell apart, and two runs somebody can. *)
Definition like_run {V W} (alike : likeness) (r1 r2 : res V W (list out)) : Prop :=
  match r1, r2 with
  | Done o1 s1, Done o2 s2 => o1 = o2 /\ rt_world s1 = rt_world s2 /\ alike_calls alike (rt_trace s1) (rt_trace s2)
  | Undef _, Undef _ => True
  | _, _ => False
  end.
Definition unlike_run {V W A} (alike : likeness) (r1 r2 : res V W A) : Prop :=
  match r1, r2 with
  | Done o1 s1, Done o2 s2 => ~ (o1 = o2 /\ alike_calls alike (rt_trace s1) (rt_trace s2))
  | Done _ _, Undef _ | Undef _, Done _ _ => True
  | _, _ => False
  end.
(** User code that does not see a difference between calls that count as the same. *)
Definition unseeing {V W} (alike : likeness) (cb : cbfun V W) : Prop :=
  forall x y v w, alike x y = true -> cb (k_callee x) (k_args x) v w = cb (k_callee y) (k_args y) v w.
(** A call with data. *)
Definition with_data {V} (k : call unit) (v : V) : call V := with_payload (fun _ => v) k.

Lemma same_numbered_alike alike a : forall b, same_numbered alike a b = true <-> alike_calls alike a b.
Proof.
  induction a as [|x a IH]; intros [|y b]; cbn; split; intros H; try discriminate; try constructor; try (inversion H; fail).
  - apply andb_true_iff in H as [H _]. apply andb_true_iff in H as [H1 H2]. split; [exact H1|now apply Nat.eqb_eq].
  - apply andb_true_iff in H as [_ H]. now apply IH.
  - inversion H as [|? ? ? ? [H1 H2] H3]; subst. rewrite H1, H2, Nat.eqb_refl. cbn. now apply IH.
Qed.

(** * One call *)
Definition settled {V W} (r : res V W out) : res V W out := match r with Threw x s => Done (OExn x) s | r => r end.
Lemma catch_settled {V W} (cb : cbfun V W) m vnone fuel k s : do_call_catch cb m vnone fuel k s = settled (do_call cb m vnone fuel k s).
Proof. unfold do_call_catch, settled. now destruct (do_call cb m vnone fuel k s). Qed.
Lemma fill_agree {V W} n (vals vals' : nat -> V) x (w : W) tr : numbered n x -> agree n vals vals' -> fill vals x w tr = fill vals' x w tr.
Proof. intros H A. unfold fill. f_equal. apply map_ext_in. intros q Hq. now rewrite (A _ (H q Hq)). Qed.
Lemma ext_agree {V} n (vals vals' : nat -> V) v : agree n vals vals' -> agree (S n) (ext vals n v) (ext vals' n v).
Proof. intros A i Hi. unfold ext. destruct (Nat.eqb_spec i n); [reflexivity|]. apply A. lia. Qed.
Lemma interp_agree {V W} (cb : cbfun V W) (t : tree (plain out)) : forall n vals vals' w tr, fits n t -> agree n vals vals' -> interp cb n vals t w tr = interp cb n vals' t w tr.
Proof.
  induction t as [l|c a i x yes IHy no IHn]; intros n vals vals' w tr F A.
  - destruct l as [o x|x|u|]; cbn in *; auto; [destruct F as [_ F]|]; now rewrite (fill_agree n vals vals' x w tr F A).
  - destruct F as (Fi & Fx & Fy & Fn). cbn [interp]. rewrite (A i Fi). destruct (cb c a (vals' i) w) as [[|] v w'|k v w'].
    + apply IHy; auto. now apply ext_agree.
    + apply IHn; auto. now apply ext_agree.
    + now rewrite (fill_agree n vals vals' x w' _ Fx A).
Qed.
(** The machine at a place, with values for the numbers. *)
Definition realizes {V W} (vals : nat -> V) (c : place) (s : rt V W) : Prop := config_of s = fst c /\ map snd (rt_queue s) = map vals (snd c).
Lemma realized {V W} tabs htabs vals c (s : rt V W) : rt_tabs s = tabs -> rt_htabs s = htabs -> realizes vals c s ->
  s = fill vals (at_place tabs htabs c tt) (rt_world s) (rt_trace s).
Proof.
  intros <- <- [H Hq]. destruct s as [cu hi q re li ta ht w tr], c as [[ccu chi cq cre cli] nums]. unfold config_of in H. cbn in *. injection H as <- <- <- <- <-. unfold fill. cbn. f_equal.
  revert nums Hq. induction q as [|[e v] q IH]; intros [|i nums]; cbn; try discriminate; auto. intros [= <- Hq]. f_equal. now apply IH.
Qed.
Lemma with_payload_twice {V} (vals : nat -> V) n (k : call unit) : with_payload vals (with_payload (fun _ => n) k) = with_data k (vals n).
Proof. now destruct k. Qed.
(** The tree of a call. *)
Lemma data_tree m fuel tabs htabs (c : place) k n : (forall i, In i (snd c) -> i < n) -> exists t : tree (plain out), fits (S n) t /\
  forall V W (cb : cbfun V W) vals s, rt_tabs s = tabs -> rt_htabs s = htabs -> realizes vals c s ->
  do_call_catch cb m (vals 0) fuel (with_data k (vals n)) s = settled (interp cb (S n) vals t (rt_world s) (rt_trace s)).
Proof.
  intros Hn. destruct (call_a m fuel (with_payload (fun _ => n) k) (S n) (at_place tabs htabs c tt)) as (t & F & Ht); try lia.
  - destruct k; cbn; auto.
  - intros q Hq. cbn in Hq. destruct q as [e i]. apply in_combine_r in Hq. specialize (Hn i Hq). cbn. lia.
  - exists t. split; [exact F|]. intros V W cb vals s Et Eh R. rewrite catch_settled, <- Ht, with_payload_twice. f_equal. f_equal. now apply realized.
Qed.
Definition tries (m : machine) fuel tabs htabs c k n (p : list reply) (T : list (called nat)) (u : tree (plain out)) (n' : nat) : Prop :=
  fits n' u /\ forall q, try_call m fuel tabs htabs c k n (p ++ q) = settled (interp numbering n' (fun i => i) u (Some q, n') T).
Lemma tries_ask m fuel tabs htabs c k n p T g a i x yes no n' (b : bool) : tries m fuel tabs htabs c k n p T (Ask g a i x yes no) n' ->
  tries m fuel tabs htabs c k n (p ++ [Say b]) (T ++ [mkCall g a i]) (if b then yes else no) (S n').
Proof.
  intros [(_ & _ & Fy & Fn) H]. split; [now destruct b|]. intros q. rewrite <- app_assoc. cbn [app]. rewrite H. cbn [interp numbering]. f_equal. apply interp_agree; [now destruct b|].
  intros j Hj. unfold ext. destruct (Nat.eqb_spec j n'); congruence.
Qed.
Lemma same_numbered_last alike a : forall b x y, same_numbered alike (a ++ [x]) (b ++ [y]) = true -> alike (bare_call x) (bare_call y) = true /\ k_payload x = k_payload y.
Proof.
  intros b x y H. apply same_numbered_alike in H. apply Forall2_app_inv_l in H as (b1 & b2 & H1 & H2 & E). inversion H2 as [|? y' ? ? H3 H4]; subst. inversion H4; subst.
  apply app_inj_tail in E as [_ ->]. exact H3.
Qed.

(** Trees nobody can tell apart; the ends are in [l]. *)
Definition value (l : leaf (plain out)) : option (out * rt nat unit) :=
  match l with LDone o x => Some (o, x) | LRange x => Some (OExn XOutOfRange, x) | _ => None end.
Inductive matches (alike : likeness) (l : list (place * place)) : tree (plain out) -> tree (plain out) -> Prop :=
| M_end a b o x y : value a = Some (o, x) -> value b = Some (o, y) -> In (renumber x y) l -> matches alike l (Leaf a) (Leaf b)
| M_undef u v : matches alike l (Leaf (LUndef u)) (Leaf (LUndef v))
| M_ask g a i x y1 n1 h b y y2 n2 : alike (mkCall g a tt) (mkCall h b tt) = true -> In (renumber x y) l ->
    matches alike l y1 y2 -> matches alike l n1 n2 -> matches alike l (Ask g a i x y1 n1) (Ask h b i y y2 n2).
Lemma matches_more alike l l' t u : incl l l' -> matches alike l t u -> matches alike l' t u.
Proof. intros I. induction 1; [eapply M_end|apply M_undef|apply M_ask]; eauto. Qed.
Lemma settled_leaf {V W} (cb : cbfun V W) n vals (a : leaf (plain out)) w tr : settled (interp cb n vals (Leaf a) w tr) =
  match value a with Some (o, x) => Done o (fill vals x w tr) | None => match a with LUndef u => Undef u | _ => Timeout end end.
Proof. now destruct a. Qed.
Lemma renumber_fill {W} x y (w w' : W) tr tr' : renumber (fill (fun i => i) x w tr) (fill (fun i => i) y w' tr') = renumber x y.
Proof.
  assert (E : forall x (w : W) tr, numbers (fill (fun i => i) x w tr) = numbers x).
  { intros. unfold numbers. cbn. rewrite map_map. cbn. reflexivity. }
  assert (C : forall x (w : W) tr, config_of (fill (fun i => i) x w tr) = config_of x).
  { intros. unfold config_of. cbn. f_equal. rewrite map_map. cbn. reflexivity. }
  unfold renumber. now rewrite !E, !C.
Qed.

Section Call.
Variable alike : likeness.
Variables (m1 m2 : machine) (fuel : nat).
Variables (tabs1 tabs2 : tables) (htabs1 htabs2 : handler_tables).
Notation compare := (compare_data alike m1 m2 fuel tabs1 tabs2 htabs1 htabs2).

Lemma compare_data_fail depth c k n p T1 T2 g a i x y1 n1 h b j y y2 n2 n' l :
  tries m1 fuel tabs1 htabs1 (fst c) (fst k) n p T1 (Ask g a i x y1 n1) n' -> tries m2 fuel tabs2 htabs2 (snd c) (snd k) n p T2 (Ask h b j y y2 n2) n' ->
  compare depth c k n (p ++ [Fail 0]) = VSame l -> In (renumber x y) l.
Proof.
  intros [_ H1] [_ H2]. specialize (H1 [Fail 0]). specialize (H2 [Fail 0]). destruct depth; cbn [compare_data]; rewrite H1, H2; cbn [interp numbering settled];
    destruct (out_eq_dec _ _); try discriminate; destruct (same_numbered _ _ _); try discriminate; cbn [rt_world fill fst]; intros [= <-]; left; apply renumber_fill.
Qed.
Lemma compare_data_matches depth c k n : forall p T1 T2 u1 u2 n' l,
  tries m1 fuel tabs1 htabs1 (fst c) (fst k) n p T1 u1 n' -> tries m2 fuel tabs2 htabs2 (snd c) (snd k) n p T2 u2 n' ->
  compare depth c k n p = VSame l -> matches alike l u1 u2.
Proof.
  induction depth as [|depth IH]; intros p T1 T2 u1 u2 n' l H1 H2; cbn [compare_data];
    pose proof (proj2 H1 []) as A1; pose proof (proj2 H2 []) as A2; rewrite app_nil_r in A1, A2; rewrite A1, A2;
    destruct u1 as [a1|g1 b1 i1 x1 y1 n1], u2 as [a2|g2 b2 i2 x2 y2 n2]; rewrite ?settled_leaf.
  1,5: destruct (value a1) as [[o1 x1]|] eqn:E1, (value a2) as [[o2 x2]|] eqn:E2;
    [ destruct (out_eq_dec o1 o2) as [->|]; [|discriminate]; destruct (same_numbered _ _ _); [|discriminate]; cbn [rt_world fill fst]; intros [= <-]; eapply M_end; [exact E1|exact E2|left; apply renumber_fill]
    | destruct a2; discriminate
    | destruct a1; discriminate
    | destruct a1, a2; try discriminate; intros _; constructor ].
  1,4: destruct (value a1) as [[o1 x1]|] eqn:E1; [|destruct a1; discriminate]; cbn [interp numbering settled rt_world fill fst];
    destruct (out_eq_dec _ _); [|discriminate]; destruct (same_numbered _ _ _); discriminate.
  1,3: destruct (value a2) as [[o2 x3]|] eqn:E2; [|destruct a2; discriminate]; cbn [interp numbering settled rt_world fill fst];
    destruct (out_eq_dec _ _); [|discriminate]; destruct (same_numbered _ _ _); discriminate.
  - cbn [interp numbering settled rt_world fill fst]. destruct (out_eq_dec _ _); [|discriminate]. destruct (same_numbered _ _ _); discriminate.
  - cbn [interp numbering settled]. destruct (out_eq_dec _ _) as [_|]; [|discriminate]. cbn [rt_trace rt_world fill fst]. destruct (same_numbered _ _ _) eqn:Es; [|discriminate].
    intros E. apply both_same in E as (la & lb & Ea & E & ->). apply both_same in E as (lc & ld & Ec & Ed & ->). apply same_numbered_last in Es as [Es Ei]. cbn in Es, Ei. subst i2. constructor.
    + exact Es.
    + apply in_or_app. right. apply in_or_app. right. eapply compare_data_fail; eauto.
    + eapply matches_more; [|eapply (IH (p ++ [Say true])); [exact (tries_ask _ _ _ _ _ _ _ _ _ _ _ _ _ _ _ _ true H1)|exact (tries_ask _ _ _ _ _ _ _ _ _ _ _ _ _ _ _ _ true H2)|exact Ea]].
      now apply incl_appl, incl_refl.
    + eapply matches_more; [|eapply (IH (p ++ [Say false])); [exact (tries_ask _ _ _ _ _ _ _ _ _ _ _ _ _ _ _ _ false H1)|exact (tries_ask _ _ _ _ _ _ _ _ _ _ _ _ _ _ _ _ false H2)|exact Ec]].
      now apply incl_appr, incl_appl, incl_refl.
Qed.
End Call.

(** Renumbering loses nothing. *)
Lemma rank_nth l : forall i, In i l -> nth (rank l i) l 0 = i.
Proof. induction l as [|x l IH]; cbn; [intros i []|]. intros i. destruct (Nat.eqb_spec x i) as [->|N]; [reflexivity|]. intros [E|H]; [contradiction|]. now apply IH. Qed.
Lemma used_in a b i : In i (a ++ b) -> In i (used a b).
Proof.
  intros H. unfold used. destruct (Nat.eq_dec i 0) as [->|N]; [now left|]. right. apply nodup_In, filter_In. split; [exact H|]. now destruct (Nat.eqb_spec i 0).
Qed.
Definition through {V} (vals : nat -> V) (l : list nat) : nat -> V := fun j => vals (nth j l 0).
Lemma through_rank {V} (vals : nat -> V) l a : (forall i, In i a -> In i l) -> map (through vals l) (map (rank l) a) = map vals a.
Proof. intros H. rewrite map_map. apply map_ext_in. intros i Hi. unfold through. now rewrite rank_nth by auto. Qed.
Lemma config_fill {V W} (vals : nat -> V) x (w : W) tr : config_of (fill vals x w tr) = config_of x.
Proof. unfold config_of. cbn. f_equal. rewrite map_map. cbn. reflexivity. Qed.
Lemma queue_fill {V W} (vals : nat -> V) x (w : W) tr : map snd (rt_queue (fill vals x w tr)) = map vals (numbers x).
Proof. unfold numbers. cbn. now rewrite !map_map. Qed.
Lemma renumber_realizes {V W} (vals : nat -> V) x y (w w' : W) tr tr' :
  let vals' := through vals (used (numbers x) (numbers y)) in
  vals' 0 = vals 0 /\ realizes vals' (fst (renumber x y)) (fill vals x w tr) /\ realizes vals' (snd (renumber x y)) (fill vals y w' tr').
Proof.
  intros vals'. split; [reflexivity|]. split; (split; [apply config_fill|]); cbn [fst snd renumber]; rewrite queue_fill; symmetry; apply through_rank; intros i Hi; apply used_in, in_or_app; auto.
Qed.

Lemma ext_zero {V} n (vals : nat -> V) v : 0 < n -> ext vals n v 0 = vals 0.
Proof. intros H. unfold ext. destruct n; [lia|reflexivity]. Qed.
(** Trees that match, with any data and any user code. *)
Lemma matches_runs {V W} alike (cb : cbfun V W) l t u : unseeing alike cb -> matches alike l t u -> forall n vals w tr1 tr2, 0 < n -> alike_calls alike tr1 tr2 ->
  match settled (interp cb n vals t w tr1), settled (interp cb n vals u w tr2) with
  | Done o1 s1, Done o2 s2 => o1 = o2 /\ rt_world s1 = rt_world s2 /\ alike_calls alike (rt_trace s1) (rt_trace s2) /\
      exists c vals', In c l /\ vals' 0 = vals 0 /\ realizes vals' (fst c) s1 /\ realizes vals' (snd c) s2
  | Undef _, Undef _ => True
  | _, _ => False
  end.
Proof.
  intros Hb. induction 1 as [a b o x y A B I|a b|g a i x y1 n1 h b y y2 n2 Ha I _ IHy _ IHn]; intros n vals w tr1 tr2 Hn Htr.
  - rewrite !settled_leaf, A, B. split; [reflexivity|]. split; [reflexivity|]. split; [exact Htr|]. eexists _, _. split; [exact I|]. apply renumber_realizes.
  - exact Logic.I.
  - cbn [interp]. pose proof (Hb _ _ (vals i) w Ha) as E. cbn in E. rewrite <- E.
    assert (Htr' : alike_calls alike (tr1 ++ [mkCall g a (vals i)]) (tr2 ++ [mkCall h b (vals i)])) by (apply Forall2_app; [exact Htr|]; constructor; [now split|constructor]).
    destruct (cb g a (vals i) w) as [[|] v w'|k v w'].
    + specialize (IHy (S n) (ext vals n v) w' _ _ ltac:(lia) Htr'). rewrite (ext_zero n vals v Hn) in IHy. exact IHy.
    + specialize (IHn (S n) (ext vals n v) w' _ _ ltac:(lia) Htr'). rewrite (ext_zero n vals v Hn) in IHn. exact IHn.
    + cbn [settled]. split; [reflexivity|]. split; [reflexivity|]. split; [exact Htr'|]. eexists _, _. split; [exact I|]. apply renumber_realizes.
Qed.
