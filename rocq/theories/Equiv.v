(** Comparing two machines: exploring both side by side, with the same calls and the same
    answers of user code. *)

From Coq Require Import List Arith NArith Bool Lia.
From Verif Require Import Types Static Dispatch Runtime Data DataUse Script Explore Tree.
Import ListNotations.

Definition exn_eq_dec : forall a b : exn, {a = b} + {a <> b}.
Proof. decide equality; apply Nat.eq_dec. Defined.
Definition out_eq_dec : forall a b : out, {a = b} + {a <> b}.
Proof.
  decide equality; [apply bool_dec| |apply exn_eq_dec]. apply list_eq_dec. intros [[[a1 b1] c1] d1] [[[a2 b2] c2] d2].
  destruct (Nat.eq_dec a1 a2), (N.eq_dec b1 b2), (N.eq_dec c1 c2), (N.eq_dec d1 d2); (left; congruence) || (right; congruence).
Defined.
Definition pair_eq_dec : forall a b : config * config, {a = b} + {a <> b}.
Proof. decide equality; apply config_eq_dec. Defined.

Inductive verdict (A : Type) := VSame (a : A) | VDiffer | VUnknown.
Arguments VSame {A}. Arguments VDiffer {A}. Arguments VUnknown {A}.
Definition both {A} (x y : verdict (list A)) : verdict (list A) :=
  match x, y with
  | VSame a, VSame b => VSame (a ++ b)
  | VDiffer, _ | _, VDiffer => VDiffer
  | _, _ => VUnknown
  end.
Lemma both_same {A} (x y : verdict (list A)) l : both x y = VSame l -> exists a b, x = VSame a /\ y = VSame b /\ l = a ++ b.
Proof. destruct x as [a| |], y as [b| |]; try discriminate. intros [= <-]. now exists a, b. Qed.
Lemma both_differ {A} (x y : verdict (list A)) : both x y = VDiffer -> x = VDiffer \/ y = VDiffer.
Proof. destruct x as [a| |], y as [b| |]; try discriminate; auto. Qed.
Lemma both_unknown {A} (x y : verdict (list A)) : both x y = VUnknown -> x = VUnknown \/ y = VUnknown.
Proof. destruct x as [a| |], y as [b| |]; try discriminate; auto. Qed.

(** Which calls of user code count as the same. *)
Definition likeness := called unit -> called unit -> bool.
Fixpoint same_calls (alike : likeness) (a b : list (called unit)) : bool :=
  match a, b with
  | [], [] => true
  | x :: a', y :: b' => alike x y && same_calls alike a' b'
  | _, _ => false
  end.

Section Compare.
Variable alike : likeness.
Variables (m1 m2 : machine) (fuel : nat).
Variables (tabs1 tabs2 : tables) (htabs1 htabs2 : handler_tables).
Notation attempt1 := (attempt m1 fuel tabs1 htabs1).
Notation attempt2 := (attempt m2 fuel tabs2 htabs2).

(** The pairs of configurations call [k1] of the first and call [k2] of the second machine
    lead to, if nothing tells the two calls apart. *)
Fixpoint compare (depth : nat) (c1 c2 : config) (k1 k2 : call unit) (p : list reply) : verdict (list (config * config)) :=
  match attempt1 c1 k1 p, attempt2 c2 k2 p with
  | Done o1 s1, Done o2 s2 =>
      if out_eq_dec o1 o2
      then if same_calls alike (rt_trace s1) (rt_trace s2)
      then match rt_world s1, rt_world s2 with
           | Some _, Some _ => VSame [(config_of s1, config_of s2)]
           | None, None =>
               match depth with
               | 0 => VUnknown
               | S depth' => both (compare depth' c1 c2 k1 k2 (p ++ [Say true]))
                               (both (compare depth' c1 c2 k1 k2 (p ++ [Say false])) (compare depth' c1 c2 k1 k2 (p ++ [Fail 0])))
               end
           | _, _ => VUnknown
           end
      else VDiffer else VDiffer
  | Undef _, Undef _ => VSame []
  | Done _ _, Undef _ | Undef _, Done _ _ => VDiffer
  | _, _ => VUnknown
  end.
Fixpoint compare_all (depth : nat) (ks : list (call unit * call unit)) (n : config * config) : verdict (list (config * config)) :=
  match ks with
  | [] => VSame []
  | k :: ks' => both (compare depth (fst n) (snd n) (fst k) (snd k) []) (compare_all depth ks' n)
  end.
Fixpoint fresh_pairs (seen l : list (config * config)) : list (config * config) :=
  match l with
  | [] => []
  | x :: l' => if in_dec pair_eq_dec x seen then fresh_pairs seen l' else x :: fresh_pairs (x :: seen) l'
  end.
Fixpoint close_pairs (rounds depth : nat) (ks : list (call unit * call unit)) (seen todo : list (config * config)) : verdict (list (config * config)) :=
  match todo with
  | [] => VSame seen
  | n :: todo' =>
      match rounds with
      | 0 => VUnknown
      | S rounds' =>
          match compare_all depth ks n with
          | VSame l => let new := fresh_pairs seen l in close_pairs rounds' depth ks (seen ++ new) (todo' ++ new)
          | VDiffer => VDiffer
          | VUnknown => VUnknown
          end
      end
  end.
End Compare.

(** The verdict on two machines; a client of both makes pairs of calls. *)
Definition compare_machines (alike : likeness) (m1 m2 : machine) (fuel depth rounds : nat) (d : dep) (ks : list (call unit * call unit)) : option bool :=
  if existsb (fun k => is_set_dep (fst k) || is_set_dep (snd k)) ks then None
  else match construct (V:=unit) m1 fuel d tt, construct (V:=unit) m2 fuel d tt with
  | Done _ s1, Done _ s2 =>
      match close_pairs alike m1 m2 fuel (rt_tabs s1) (rt_tabs s2) (rt_htabs s1) (rt_htabs s2) rounds depth ks [(config_of s1, config_of s2)] [(config_of s1, config_of s2)] with
      | VSame _ => Some true
      | VDiffer => Some false
      | VUnknown => None
      end
  | Undef _, Undef _ => Some true
  | Done _ _, Undef _ | Undef _, Done _ _ => Some false
  | _, _ => None
  end.

(** Two runs nobody can tell apart, and two runs somebody can. *)
Definition same_run {W} (alike : likeness) (r1 r2 : res unit W (list out)) : Prop :=
  match r1, r2 with
  | Done o1 s1, Done o2 s2 => o1 = o2 /\ rt_world s1 = rt_world s2 /\ same_calls alike (rt_trace s1) (rt_trace s2) = true
  | Undef _, Undef _ => True
  | _, _ => False
  end.
Definition differ {W A} (alike : likeness) (r1 r2 : res unit W A) : Prop :=
  match r1, r2 with
  | Done o1 s1, Done o2 s2 => ~ (o1 = o2 /\ same_calls alike (rt_trace s1) (rt_trace s2) = true)
  | Done _ _, Undef _ | Undef _, Done _ _ => True
  | _, _ => False
  end.
(** User code that does not see a difference between calls that count as the same. *)
Definition blind {W} (alike : likeness) (cb : cbfun unit W) : Prop :=
  forall x y w, alike x y = true -> cb (k_callee x) (k_args x) (k_payload x) w = cb (k_callee y) (k_args y) (k_payload y) w.

(** * One call *)
Definition caught {W} (r : res unit W out) : res unit W out := match r with Threw x s => Done (OExn x) s | r => r end.
Lemma catch_caught {W} (cb : cbfun unit W) m fuel k s : do_call_catch cb m tt fuel k s = caught (do_call cb m tt fuel k s).
Proof. unfold do_call_catch, caught. now destruct (do_call cb m tt fuel k s). Qed.
Lemma config_resume {X} tabs htabs c (w : X) : config_of (resume tabs htabs c w) = c.
Proof. destruct c. unfold config_of, resume. cbn. rewrite map_map. cbn. now rewrite map_id. Qed.
Lemma config_put {W} x (w : W) tr : config_of (put x w tr) = config_of x. Proof. reflexivity. Qed.
Lemma put_resume {W} tabs htabs (s : rt unit W) : rt_tabs s = tabs -> rt_htabs s = htabs -> put (resume tabs htabs (config_of s) tt) (rt_world s) (rt_trace s) = s.
Proof.
  intros <- <-. destruct s. unfold put, resume, config_of. cbn. f_equal. rewrite map_map. rewrite <- (map_id rt_queue) at 2. apply map_ext. now intros [e []].
Qed.
(** The tree of a call. *)
Lemma call_tree m fuel tabs htabs c k : exists t, forall W (cb : cbfun unit W) s, rt_tabs s = tabs -> rt_htabs s = htabs -> config_of s = c ->
  do_call_catch cb m tt fuel k s = caught (interp cb t (rt_world s) (rt_trace s)).
Proof.
  destruct (call_a m fuel k (resume tabs htabs c tt)) as [t Ht]. exists t. intros W cb s Et Eh <-. rewrite catch_caught, <- Ht, (put_resume tabs htabs s Et Eh). reflexivity.
Qed.
Definition attempts (m : machine) fuel tabs htabs c k (p : list reply) (T : list (called unit)) (u : tree out) : Prop :=
  forall q, attempt m fuel tabs htabs c k (p ++ q) = caught (interp reading u (Some q) T).
Lemma attempts_ask m fuel tabs htabs c k p T g a x yes no b : attempts m fuel tabs htabs c k p T (Ask g a x yes no) ->
  attempts m fuel tabs htabs c k (p ++ [Say b]) (T ++ [mkCall g a tt]) (if b then yes else no).
Proof. intros H q. rewrite <- app_assoc. cbn [app]. rewrite H. cbn [interp reading]. reflexivity. Qed.
Lemma same_calls_app alike a : forall b x y, same_calls alike a b = true -> alike x y = true -> same_calls alike (a ++ [x]) (b ++ [y]) = true.
Proof.
  induction a as [|z a IH]; intros [|z' b] x y; cbn; try discriminate; intros H Hx; [now rewrite Hx|].
  apply andb_true_iff in H as [H1 H2]. rewrite H1. cbn. now apply IH.
Qed.
Lemma same_calls_last alike a : forall b x y, same_calls alike (a ++ [x]) (b ++ [y]) = true -> alike x y = true.
Proof.
  induction a as [|z a IH]; intros [|z' b] x y; cbn.
  - now rewrite andb_true_r.
  - destruct b; cbn; rewrite andb_false_r; discriminate.
  - destruct a; cbn; rewrite andb_false_r; discriminate.
  - intros H. apply andb_true_iff in H as [_ H]. now apply (IH b).
Qed.
Lemma same_calls_length alike a : forall b, same_calls alike a b = true -> length a = length b.
Proof. induction a as [|x a IH]; intros [|y b]; cbn; try discriminate; auto. intros H. apply andb_true_iff in H as [_ H]. now rewrite (IH b H). Qed.

(** Trees nobody can tell apart; the ends are in [l]. *)
Definition value (l : leaf out) : option (out * rt unit unit) :=
  match l with LDone o x => Some (o, x) | LRange x => Some (OExn XOutOfRange, x) | _ => None end.
Inductive matching (alike : likeness) (l : list (config * config)) : tree out -> tree out -> Prop :=
| M_end a b o x y : value a = Some (o, x) -> value b = Some (o, y) -> In (config_of x, config_of y) l -> matching alike l (Leaf a) (Leaf b)
| M_undef u v : matching alike l (Leaf (LUndef u)) (Leaf (LUndef v))
| M_ask g a x y1 n1 h b y y2 n2 : alike (mkCall g a tt) (mkCall h b tt) = true -> In (config_of x, config_of y) l ->
    matching alike l y1 y2 -> matching alike l n1 n2 -> matching alike l (Ask g a x y1 n1) (Ask h b y y2 n2).
Lemma matching_more alike l l' t u : incl l l' -> matching alike l t u -> matching alike l' t u.
Proof. intros I. induction 1; [eapply M_end|apply M_undef|apply M_ask]; eauto. Qed.
Lemma caught_leaf {W} (cb : cbfun unit W) (a : leaf out) w tr : caught (interp cb (Leaf a) w tr) =
  match value a with Some (o, x) => Done o (put x w tr) | None => match a with LUndef u => Undef u | _ => Timeout end end.
Proof. now destruct a. Qed.

Section Call.
Variable alike : likeness.
Variables (m1 m2 : machine) (fuel : nat).
Variables (tabs1 tabs2 : tables) (htabs1 htabs2 : handler_tables).
Notation attempt1 := (attempt m1 fuel tabs1 htabs1).
Notation attempt2 := (attempt m2 fuel tabs2 htabs2).
Notation compare := (compare alike m1 m2 fuel tabs1 tabs2 htabs1 htabs2).

Lemma compare_fail depth c1 c2 k1 k2 p T1 T2 g a x y1 n1 h b y y2 n2 l :
  attempts m1 fuel tabs1 htabs1 c1 k1 p T1 (Ask g a x y1 n1) -> attempts m2 fuel tabs2 htabs2 c2 k2 p T2 (Ask h b y y2 n2) ->
  compare depth c1 c2 k1 k2 (p ++ [Fail 0]) = VSame l -> In (config_of x, config_of y) l.
Proof.
  intros H1 H2. specialize (H1 [Fail 0]). specialize (H2 [Fail 0]). destruct depth; cbn [Equiv.compare]; rewrite H1, H2; cbn [interp reading caught];
    destruct (out_eq_dec _ _); try discriminate; destruct (same_calls _ _ _); try discriminate; cbn [rt_world put]; intros [= <-]; now left.
Qed.
Lemma compare_matching depth c1 c2 k1 k2 : forall p T1 T2 u1 u2 l,
  attempts m1 fuel tabs1 htabs1 c1 k1 p T1 u1 -> attempts m2 fuel tabs2 htabs2 c2 k2 p T2 u2 ->
  compare depth c1 c2 k1 k2 p = VSame l -> matching alike l u1 u2.
Proof.
  induction depth as [|depth IH]; intros p T1 T2 u1 u2 l H1 H2; cbn [Equiv.compare];
    pose proof (H1 []) as A1; pose proof (H2 []) as A2; rewrite app_nil_r in A1, A2; rewrite A1, A2;
    destruct u1 as [a1|g1 b1 x1 y1 n1], u2 as [a2|g2 b2 x2 y2 n2]; rewrite ?caught_leaf.
  1,5: destruct (value a1) as [[o1 x1]|] eqn:E1, (value a2) as [[o2 x2]|] eqn:E2;
    [ destruct (out_eq_dec o1 o2) as [->|]; [|discriminate]; destruct (same_calls _ _ _); [|discriminate]; cbn [rt_world put]; intros [= <-]; eapply M_end; [exact E1|exact E2|now left]
    | destruct a2; discriminate
    | destruct a1; discriminate
    | destruct a1, a2; try discriminate; intros _; constructor ].
  1,4: destruct (value a1) as [[o1 x1]|] eqn:E1; [|destruct a1; discriminate]; cbn [interp reading caught rt_world put];
    destruct (out_eq_dec _ _); [|discriminate]; destruct (same_calls _ _ _); discriminate.
  1,3: destruct (value a2) as [[o2 x3]|] eqn:E2; [|destruct a2; discriminate]; cbn [interp reading caught rt_world put];
    destruct (out_eq_dec _ _); [|discriminate]; destruct (same_calls _ _ _); discriminate.
  - cbn [interp reading caught rt_world put]. destruct (out_eq_dec _ _); [|discriminate]. destruct (same_calls _ _ _); discriminate.
  - cbn [interp reading caught]. destruct (out_eq_dec _ _) as [_|]; [|discriminate]. cbn [rt_trace rt_world put]. destruct (same_calls _ _ _) eqn:Es; [|discriminate].
    intros E. apply both_same in E as (la & lb & Ea & E & ->). apply both_same in E as (lc & ld & Ec & Ed & ->). constructor.
    + now apply same_calls_last in Es.
    + apply in_or_app. right. apply in_or_app. right. eapply compare_fail; eauto.
    + eapply matching_more; [|eapply (IH (p ++ [Say true])); [exact (attempts_ask _ _ _ _ _ _ _ _ _ _ _ _ _ true H1)|exact (attempts_ask _ _ _ _ _ _ _ _ _ _ _ _ _ true H2)|exact Ea]].
      now apply incl_appl, incl_refl.
    + eapply matching_more; [|eapply (IH (p ++ [Say false])); [exact (attempts_ask _ _ _ _ _ _ _ _ _ _ _ _ _ false H1)|exact (attempts_ask _ _ _ _ _ _ _ _ _ _ _ _ _ false H2)|exact Ec]].
      now apply incl_appr, incl_appl, incl_refl.
Qed.
End Call.

(** Trees that match, with any user code. *)
Lemma matching_runs {W} alike (cb : cbfun unit W) l t u : blind alike cb -> matching alike l t u -> forall w tr1 tr2, same_calls alike tr1 tr2 = true ->
  match caught (interp cb t w tr1), caught (interp cb u w tr2) with
  | Done o1 s1, Done o2 s2 => o1 = o2 /\ rt_world s1 = rt_world s2 /\ same_calls alike (rt_trace s1) (rt_trace s2) = true /\ In (config_of s1, config_of s2) l
  | Undef _, Undef _ => True
  | _, _ => False
  end.
Proof.
  intros Hb. induction 1 as [a b o x y A B I|a b|g a x y1 n1 h b y y2 n2 Ha I _ IHy _ IHn]; intros w tr1 tr2 Htr.
  - rewrite !caught_leaf, A, B. cbn. auto.
  - exact Logic.I.
  - cbn [interp]. pose proof (Hb _ _ w Ha) as E. cbn in E. rewrite <- E. assert (Htr' := same_calls_app _ _ _ _ _ Htr Ha).
    destruct (cb g a tt w) as [[|] v w'|n v w']; [now apply IHy|now apply IHn|]. cbn. auto.
Qed.
(** A list of answers as a script. *)
Definition still {W} (s : rt unit W) : rt unit unit :=
  mkRt (rt_cur s) (rt_hist s) (rt_queue s) (rt_regions s) (rt_live s) (rt_tabs s) (rt_htabs s) tt [].
Definition script_like (t : tree out) (p : list reply) (tr : list (called unit)) : Prop :=
  match caught (interp reading t (Some p) tr) with
  | Done o s => exists T, rt_trace s = tr ++ T /\
      match rt_world s with
      | Some r => exists p0, p = p0 ++ r /\ length T = length p0 /\
          forall q tr', caught (interp scripted t (p0 ++ q) tr') = Done o (put (still s) q (tr' ++ T))
      | None => length T = S (length p) /\ forall q tr', caught (interp scripted t (p ++ Fail 0 :: q) tr') = Done o (put (still s) q (tr' ++ T))
      end
  | Undef u => forall q tr', caught (interp scripted t (p ++ q) tr') = Undef u
  | Timeout => forall q tr', caught (interp scripted t (p ++ q) tr') = Timeout
  | _ => False
  end.
Lemma script_say g a x yes no (b : bool) p tr : script_like (if b then yes else no) p (tr ++ [mkCall g a tt]) -> script_like (Ask g a x yes no) (Say b :: p) tr.
Proof.
  unfold script_like. intros IH. cbn [interp reading].
  destruct (caught (interp reading (if b then yes else no) (Some p) (tr ++ [mkCall g a tt]))) as [o s|x0 s|u|] eqn:E; auto.
  destruct IH as (T & HT & H). exists (mkCall g a tt :: T). split; [rewrite HT, <- app_assoc; reflexivity|].
  destruct (rt_world s) as [r|].
  - destruct H as (p0 & -> & Hl & H). exists (Say b :: p0). split; [reflexivity|]. split; [cbn; now rewrite Hl|]. intros q tr'. cbn [app scripted]. rewrite H, <- app_assoc. reflexivity.
  - destruct H as (Hl & H). split; [cbn; now rewrite Hl|]. intros q tr'. cbn [app scripted]. rewrite H, <- app_assoc. reflexivity.
  - intros q tr'. cbn [app scripted]. apply IH.
  - intros q tr'. cbn [app scripted]. apply IH.
Qed.
Lemma script_tree (t : tree out) : forall p tr, script_like t p tr.
Proof.
  induction t as [a|g a x yes IHy no IHn]; intros p tr.
  - unfold script_like. rewrite caught_leaf. destruct (value a) as [[o x]|] eqn:E.
    + exists []. cbn [rt_trace rt_world put]. split; [now rewrite app_nil_r|]. exists []. split; [reflexivity|]. split; [reflexivity|]. intros. rewrite caught_leaf, E, app_nil_r. reflexivity.
    + destruct a; try discriminate; intros; now rewrite caught_leaf.
  - destruct p as [|[b|n] p].
    + unfold script_like. cbn [interp reading caught]. exists [mkCall g a tt]. split; [reflexivity|]. cbn. split; reflexivity.
    + apply script_say. now destruct b.
    + unfold script_like. cbn [interp reading caught]. exists [mkCall g a tt]. split; [reflexivity|]. cbn [rt_world put]. exists [Fail n]. split; [reflexivity|]. split; reflexivity.
Qed.
(** The script that makes a call go like an attempt. *)
Lemma script_attempt m fuel tabs htabs c k p :
  match attempt m fuel tabs htabs c k p with
  | Done o s1 =>
      (forall q (s : rt unit (list reply)), rt_tabs s = tabs -> rt_htabs s = htabs -> config_of s = c -> rt_world s = p ++ Fail 0 :: q ->
        exists s', do_call_catch scripted m tt fuel k s = Done o s' /\ rt_trace s' = rt_trace s ++ rt_trace s1) /\
      (forall r, rt_world s1 = Some r -> length (rt_trace s1) + length r = length p /\
        forall q (s : rt unit (list reply)), rt_tabs s = tabs -> rt_htabs s = htabs -> config_of s = c -> rt_world s = firstn (length (rt_trace s1)) p ++ q ->
        exists s', do_call_catch scripted m tt fuel k s = Done o s' /\ rt_trace s' = rt_trace s ++ rt_trace s1 /\ rt_world s' = q /\ config_of s' = config_of s1)
  | Undef u => forall q (s : rt unit (list reply)), rt_tabs s = tabs -> rt_htabs s = htabs -> config_of s = c -> rt_world s = p ++ q -> do_call_catch scripted m tt fuel k s = Undef u
  | Timeout => True
  | _ => False
  end.
Proof.
  destruct (call_tree m fuel tabs htabs c k) as [t Ht]. unfold attempt. rewrite (Ht _ reading (resume tabs htabs c (Some p)) eq_refl eq_refl (config_resume _ _ _ _)).
  cbn [rt_world rt_trace resume]. pose proof (script_tree t p []) as H. unfold script_like in H.
  destruct (caught (interp reading t (Some p) [])) as [o s1|x s1|u|]; auto.
  - destruct H as (T & HT & H). cbn in HT. rewrite HT. split.
    + intros q s A B C D. rewrite (Ht _ scripted s A B C), D. destruct (rt_world s1) as [r|].
      * destruct H as (p0 & -> & _ & H). rewrite <- app_assoc, H. eexists. split; reflexivity.
      * destruct H as (_ & H). rewrite H. eexists. split; reflexivity.
    + intros r Er. rewrite Er in H. destruct H as (p0 & -> & Hl & H). rewrite app_length, Hl. split; [reflexivity|]. intros q s A B C D.
      rewrite (Ht _ scripted s A B C), D, firstn_app, Nat.sub_diag, firstn_all, app_nil_r, H. eexists. split; [reflexivity|]. cbn. auto.
  - intros q s A B C D. rewrite (Ht _ scripted s A B C), D. apply H.
Qed.

(** * Sessions *)
Lemma tabs_kept {W} (cb : cbfun unit W) m fuel k s o s' : is_set_dep k = false -> do_call_catch cb m tt fuel k s = Done o s' -> rt_tabs s' = rt_tabs s /\ rt_htabs s' = rt_htabs s.
Proof.
  intros Hk E. destruct (real_call m fuel (rt_tabs s) (rt_htabs s) cb tt k s eq_refl eq_refl Hk) as (L & H). rewrite E in H. now destruct H as (A & B & _).
Qed.
Lemma run_more m fuel k ks : forall (s : rt unit (list reply)) outs s1, run scripted m tt fuel ks s = Done outs s1 ->
  run scripted m tt fuel (ks ++ [k]) s = bind (do_call_catch scripted m tt fuel k s1) (fun o s => Done (outs ++ [o]) s).
Proof.
  induction ks as [|k0 ks IH]; intros sc outs s1 HL; cbn [run app] in *.
  - injection HL as <- <-. destruct (do_call_catch scripted m tt fuel k sc); reflexivity.
  - destruct (do_call_catch scripted m tt fuel k0 sc) as [o0 s0| | |]; cbn [bind] in *; try discriminate.
    destruct (run scripted m tt fuel ks s0) as [os s2| | |] eqn:E2; cbn [bind] in *; try discriminate. injection HL as <- <-.
    rewrite (IH _ _ _ E2). destruct (do_call_catch scripted m tt fuel k s2); reflexivity.
Qed.
Lemma session_more m fuel d w k ks outs s1 : session scripted m tt fuel d w ks = Done outs s1 ->
  session scripted m tt fuel d w (ks ++ [k]) = bind (do_call_catch scripted m tt fuel k s1) (fun o s => Done (outs ++ [o]) s).
Proof.
  unfold session. destruct (construct m fuel d w) as [[] s|x s|u|]; cbn [bind]; try discriminate. apply run_more.
Qed.
Lemma same_calls_both alike a : forall b c d, same_calls alike a b = true -> same_calls alike (a ++ c) (b ++ d) = same_calls alike c d.
Proof. induction a as [|x a IH]; intros [|y b] c d; cbn; try discriminate; auto. intros H. apply andb_true_iff in H as [-> H]. cbn. now apply IH. Qed.

Section Pairs.
Variable alike : likeness.
Variables (m1 m2 : machine) (fuel : nat) (d : dep).
Variable calls : list (call unit * call unit).
Hypothesis Hs : existsb (fun k => is_set_dep (fst k) || is_set_dep (snd k)) calls = false.
Variables (tabs1 tabs2 : tables) (htabs1 htabs2 : handler_tables).
Notation attempt1 := (attempt m1 fuel tabs1 htabs1).
Notation attempt2 := (attempt m2 fuel tabs2 htabs2).
Notation compare := (compare alike m1 m2 fuel tabs1 tabs2 htabs1 htabs2).
Notation compare_all := (compare_all alike m1 m2 fuel tabs1 tabs2 htabs1 htabs2).
Notation close_pairs := (close_pairs alike m1 m2 fuel tabs1 tabs2 htabs1 htabs2).

Lemma no_deps k : In k calls -> is_set_dep (fst k) = false /\ is_set_dep (snd k) = false.
Proof.
  intros Hk. apply orb_false_iff. destruct (is_set_dep (fst k) || is_set_dep (snd k)) eqn:E; [|reflexivity]. exfalso.
  assert (existsb (fun k => is_set_dep (fst k) || is_set_dep (snd k)) calls = true) by (apply existsb_exists; eauto). congruence.
Qed.
(** ** Nothing tells them apart *)
Definition closed (depth : nat) (l : list (config * config)) : Prop := forall n, In n l -> forall k, In k calls ->
  exists a, compare depth (fst n) (snd n) (fst k) (snd k) [] = VSame a /\ incl a l.
Lemma same_call {W} (cb : cbfun unit W) depth l k s1 s2 : blind alike cb -> closed depth l -> In (config_of s1, config_of s2) l -> In k calls ->
  rt_tabs s1 = tabs1 -> rt_htabs s1 = htabs1 -> rt_tabs s2 = tabs2 -> rt_htabs s2 = htabs2 -> rt_world s1 = rt_world s2 ->
  same_calls alike (rt_trace s1) (rt_trace s2) = true ->
  match do_call_catch cb m1 tt fuel (fst k) s1, do_call_catch cb m2 tt fuel (snd k) s2 with
  | Done o1 s1', Done o2 s2' => o1 = o2 /\ rt_world s1' = rt_world s2' /\ same_calls alike (rt_trace s1') (rt_trace s2') = true /\ In (config_of s1', config_of s2') l /\
      rt_tabs s1' = tabs1 /\ rt_htabs s1' = htabs1 /\ rt_tabs s2' = tabs2 /\ rt_htabs s2' = htabs2
  | Undef _, Undef _ => True
  | _, _ => False
  end.
Proof.
  intros Hb Hc Hin Hk T1 H1 T2 H2 Ew Etr. destruct (no_deps k Hk) as [D1 D2]. destruct (Hc _ Hin k Hk) as (a & Ea & Ia). cbn [fst snd] in Ea.
  destruct (call_tree m1 fuel tabs1 htabs1 (config_of s1) (fst k)) as [t1 Ht1]. destruct (call_tree m2 fuel tabs2 htabs2 (config_of s2) (snd k)) as [t2 Ht2].
  assert (M : matching alike a t1 t2).
  { refine (compare_matching alike m1 m2 fuel tabs1 tabs2 htabs1 htabs2 depth _ _ _ _ [] [] [] t1 t2 a _ _ Ea); intros q; cbn [app]; unfold attempt.
    - rewrite (Ht1 _ reading (resume tabs1 htabs1 (config_of s1) (Some q)) eq_refl eq_refl (config_resume _ _ _ _)). reflexivity.
    - rewrite (Ht2 _ reading (resume tabs2 htabs2 (config_of s2) (Some q)) eq_refl eq_refl (config_resume _ _ _ _)). reflexivity. }
  pose proof (matching_runs alike cb a t1 t2 Hb M (rt_world s1) _ _ Etr) as R.
  rewrite <- (Ht1 _ cb s1 T1 H1 eq_refl) in R. rewrite Ew, <- (Ht2 _ cb s2 T2 H2 eq_refl) in R.
  destruct (do_call_catch cb m1 tt fuel (fst k) s1) as [o1 s1'| | |] eqn:E1, (do_call_catch cb m2 tt fuel (snd k) s2) as [o2 s2'| | |] eqn:E2; auto.
  destruct R as (A & B & C & D). destruct (tabs_kept _ _ _ _ _ _ _ D1 E1), (tabs_kept _ _ _ _ _ _ _ D2 E2).
  split; [exact A|]. split; [exact B|]. split; [exact C|]. split; [now apply Ia|]. repeat split; congruence.
Qed.
Lemma same_runs {W} (cb : cbfun unit W) depth l : blind alike cb -> closed depth l -> forall ks s1 s2, (forall k, In k ks -> In k calls) -> In (config_of s1, config_of s2) l ->
  rt_tabs s1 = tabs1 -> rt_htabs s1 = htabs1 -> rt_tabs s2 = tabs2 -> rt_htabs s2 = htabs2 -> rt_world s1 = rt_world s2 ->
  same_calls alike (rt_trace s1) (rt_trace s2) = true ->
  same_run alike (run cb m1 tt fuel (map fst ks) s1) (run cb m2 tt fuel (map snd ks) s2).
Proof.
  intros Hb Hc. induction ks as [|k ks IH]; intros s1 s2 Hks Hin T1 H1 T2 H2 Ew Etr; cbn [map run]; [cbn; auto|].
  pose proof (same_call cb depth l k s1 s2 Hb Hc Hin (Hks k (or_introl eq_refl)) T1 H1 T2 H2 Ew Etr) as C.
  destruct (do_call_catch cb m1 tt fuel (fst k) s1) as [o1 s1'| | |], (do_call_catch cb m2 tt fuel (snd k) s2) as [o2 s2'| | |]; try contradiction; cbn [bind]; [|exact I].
  destruct C as (-> & A & B & C & D1 & D2 & D3 & D4). specialize (IH s1' s2' (fun k' H => Hks k' (or_intror H)) C D1 D2 D3 D4 A B).
  destruct (run cb m1 tt fuel (map fst ks) s1') as [os1 s1''| | |], (run cb m2 tt fuel (map snd ks) s2') as [os2 s2''| | |]; try contradiction; cbn [bind]; [|exact I].
  cbn in IH |- *. destruct IH as (-> & IH). auto.
Qed.
Lemma fresh_pairs_in l : forall seen n, In n (fresh_pairs seen l) -> In n l.
Proof.
  induction l as [|x l IH]; intros seen n; cbn [fresh_pairs]; [tauto|]. destruct (in_dec pair_eq_dec x seen); cbn.
  - intros H. right. eapply IH, H.
  - intros [H|H]; [now left|]. right. eapply IH, H.
Qed.
Lemma fresh_pairs_all l : forall seen n, In n l -> In n seen \/ In n (fresh_pairs seen l).
Proof.
  induction l as [|x l IH]; intros seen n; cbn [fresh_pairs]; [intros []|]. intros [->|H]; destruct (in_dec pair_eq_dec _ seen) as [i|i]; auto.
  - right. now left.
  - destruct (IH (x :: seen) n H) as [[->|H']|H']; auto; right; [now left|now right].
Qed.
Lemma compare_all_in depth n : forall ks a, compare_all depth ks n = VSame a -> forall k, In k ks ->
  exists b, compare depth (fst n) (snd n) (fst k) (snd k) [] = VSame b /\ incl b a.
Proof.
  induction ks as [|k0 ks IH]; intros a; cbn [Equiv.compare_all]; [intros _ k []|]. intros E k [<-|Hk].
  - apply both_same in E as (x & y & E & _ & ->). exists x. split; [exact E|]. now apply incl_appl, incl_refl.
  - apply both_same in E as (x & y & _ & E & ->). destruct (IH y E k Hk) as (b & Eb & I). exists b. split; [exact Eb|]. now apply incl_appr.
Qed.
Lemma compare_all_from depth n : forall ks a x, compare_all depth ks n = VSame a -> In x a ->
  exists k b, In k ks /\ compare depth (fst n) (snd n) (fst k) (snd k) [] = VSame b /\ In x b.
Proof.
  induction ks as [|k0 ks IH]; intros a x; cbn [Equiv.compare_all]; [intros [= <-] []|]. intros E Hx. apply both_same in E as (u & v & E1 & E2 & ->). apply in_app_or in Hx as [Hx|Hx].
  - exists k0, u. split; [now left|]. now split.
  - destruct (IH v x E2 Hx) as (k & b & Hk & H). exists k, b. split; [now right|exact H].
Qed.
Lemma compare_all_differ depth n : forall ks, compare_all depth ks n = VDiffer -> exists k, In k ks /\ compare depth (fst n) (snd n) (fst k) (snd k) [] = VDiffer.
Proof.
  induction ks as [|k0 ks IH]; cbn [Equiv.compare_all]; [discriminate|]. intros E. apply both_differ in E as [E|E].
  - exists k0. split; [now left|exact E].
  - destruct (IH E) as (k & Hk & H). exists k. split; [now right|exact H].
Qed.
Lemma close_pairs_closed depth rounds : forall seen todo l, close_pairs rounds depth calls seen todo = VSame l ->
  (forall n, In n seen -> In n todo \/ exists ns, compare_all depth calls n = VSame ns /\ incl ns seen) ->
  incl seen l /\ forall n, In n l -> exists ns, compare_all depth calls n = VSame ns /\ incl ns l.
Proof.
  induction rounds as [|rounds IH]; intros seen todo l; destruct todo as [|n todo]; cbn [Equiv.close_pairs]; try discriminate.
  - intros [= <-] H. split; [now intros x|]. intros n Hn. now destruct (H n Hn).
  - intros [= <-] H. split; [now intros x|]. intros n Hn. now destruct (H n Hn).
  - destruct (compare_all depth calls n) as [ns| |] eqn:En; try discriminate. intros E H. destruct (IH _ _ _ E) as [I C].
    + intros n' Hn'. apply in_app_or in Hn' as [Hn'|Hn'].
      * destruct (H n' Hn') as [[<-|Ht]|(ns' & E' & I')].
        -- right. exists ns. split; [exact En|]. intros x Hx. apply in_or_app. now apply fresh_pairs_all.
        -- left. apply in_or_app. now left.
        -- right. exists ns'. split; [exact E'|]. intros x Hx. apply in_or_app. left. now apply I'.
      * left. apply in_or_app. now right.
    + split; [|exact C]. intros x Hx. apply I, in_or_app. now left.
Qed.

(** ** A script tells them apart *)
Definition reached_pair (n : config * config) : Prop := exists script ks, (forall k, In k ks -> In k calls) /\ forall q, exists outs s1 s2,
  session scripted m1 tt fuel d (script ++ q) (map fst ks) = Done outs s1 /\ session scripted m2 tt fuel d (script ++ q) (map snd ks) = Done outs s2 /\
  same_calls alike (rt_trace s1) (rt_trace s2) = true /\ rt_world s1 = q /\ rt_world s2 = q /\ config_of s1 = fst n /\ config_of s2 = snd n /\
  rt_tabs s1 = tabs1 /\ rt_htabs s1 = htabs1 /\ rt_tabs s2 = tabs2 /\ rt_htabs s2 = htabs2.
Definition told_apart : Prop := exists script ks, (forall k, In k ks -> In k calls) /\
  differ alike (session scripted m1 tt fuel d script (map fst ks)) (session scripted m2 tt fuel d script (map snd ks)).

Lemma compare_real depth c1 c2 k1 k2 : forall p a n, compare depth c1 c2 k1 k2 p = VSame a -> In n a ->
  exists p' o s1 s2 r1 r2, attempt1 c1 k1 p' = Done o s1 /\ attempt2 c2 k2 p' = Done o s2 /\ same_calls alike (rt_trace s1) (rt_trace s2) = true /\
    rt_world s1 = Some r1 /\ rt_world s2 = Some r2 /\ n = (config_of s1, config_of s2).
Proof.
  induction depth as [|depth IH]; intros p a n; cbn [Equiv.compare];
    destruct (attempt1 c1 k1 p) as [o1 s1|x1 s1|u1|] eqn:E1, (attempt2 c2 k2 p) as [o2 s2|x2 s2|u2|] eqn:E2; try discriminate; try (intros [= <-]; contradiction).
  all: destruct (out_eq_dec o1 o2) as [->|]; [|discriminate]; destruct (same_calls alike (rt_trace s1) (rt_trace s2)) eqn:Es; [|discriminate];
    destruct (rt_world s1) as [r1|] eqn:W1, (rt_world s2) as [r2|] eqn:W2; try discriminate.
  1,2: intros [= <-] [<-|[]]; exists p, o2, s1, s2, r1, r2; auto 8.
  intros E Hn. apply both_same in E as (x & y & Ex & E & ->). apply both_same in E as (z & t & Ez & Et & ->).
  apply in_app_or in Hn as [Hn|Hn]; [exact (IH _ _ _ Ex Hn)|]. apply in_app_or in Hn as [Hn|Hn]; [exact (IH _ _ _ Ez Hn)|exact (IH _ _ _ Et Hn)].
Qed.
Lemma compare_differ depth c1 c2 k1 k2 : forall p, compare depth c1 c2 k1 k2 p = VDiffer -> exists p', differ alike (attempt1 c1 k1 p') (attempt2 c2 k2 p').
Proof.
  assert (B : forall p o1 s1 o2 s2, attempt1 c1 k1 p = Done o1 s1 -> attempt2 c2 k2 p = Done o2 s2 -> ~ (o1 = o2 /\ same_calls alike (rt_trace s1) (rt_trace s2) = true) ->
    exists p', differ alike (attempt1 c1 k1 p') (attempt2 c2 k2 p')) by (intros p o1 s1 o2 s2 E1 E2 H; exists p; now rewrite E1, E2).
  induction depth as [|depth IH]; intros p; cbn [Equiv.compare];
    destruct (attempt1 c1 k1 p) as [o1 s1|x1 s1|u1|] eqn:E1, (attempt2 c2 k2 p) as [o2 s2|x2 s2|u2|] eqn:E2; try discriminate;
    try (intros _; exists p; rewrite E1, E2; exact I).
  all: destruct (out_eq_dec o1 o2) as [<-|]; [|intros _; apply (B _ _ _ _ _ E1 E2); tauto]; destruct (same_calls alike (rt_trace s1) (rt_trace s2)) eqn:Es;
    [|intros _; apply (B _ _ _ _ _ E1 E2); intros [_ H]; congruence]; destruct (rt_world s1) as [r1|] eqn:W1, (rt_world s2) as [r2|] eqn:W2; try discriminate.
  intros E. apply both_differ in E as [E|E]; [exact (IH _ E)|]. apply both_differ in E as [E|E]; exact (IH _ E).
Qed.
Lemma pair_step depth n a x : reached_pair n -> compare_all depth calls n = VSame a -> In x a -> reached_pair x.
Proof.
  intros (script & ks & Hks & Hr) Ea Hx. destruct (compare_all_from _ _ _ _ _ Ea Hx) as (k & b & Hk & Eb & Hb). destruct (no_deps k Hk) as [D1 D2].
  destruct (compare_real _ _ _ _ _ _ _ _ Eb Hb) as (p & o & a1 & a2 & r1 & r2 & E1 & E2 & Es & W1 & W2 & ->).
  pose proof (script_attempt m1 fuel tabs1 htabs1 (fst n) (fst k) p) as S1. pose proof (script_attempt m2 fuel tabs2 htabs2 (snd n) (snd k) p) as S2.
  rewrite E1 in S1. rewrite E2 in S2. destruct S1 as [_ S1], S2 as [_ S2]. destruct (S1 _ W1) as [_ S1']. destruct (S2 _ W2) as [_ S2']. clear S1 S2.
  rewrite <- (same_calls_length _ _ _ Es) in S2'. set (p0 := firstn (length (rt_trace a1)) p) in *.
  exists (script ++ p0), (ks ++ [k]). split; [intros k' Hk'; apply in_app_or in Hk' as [Hk'|[<-|[]]]; auto|]. intros q.
  destruct (Hr (p0 ++ q)) as (outs & s1 & s2 & R1 & R2 & Et & V1 & V2 & C1 & C2 & T1 & H1 & T2 & H2). rewrite <- app_assoc, !map_app. cbn [map].
  destruct (S1' q s1 T1 H1 C1 V1) as (s1' & X1 & Y1 & Z1 & U1). destruct (S2' q s2 T2 H2 C2 V2) as (s2' & X2 & Y2 & Z2 & U2).
  destruct (tabs_kept _ _ _ _ _ _ _ D1 X1), (tabs_kept _ _ _ _ _ _ _ D2 X2).
  exists (outs ++ [o]), s1', s2'. rewrite (session_more _ _ _ _ _ _ _ _ R1), (session_more _ _ _ _ _ _ _ _ R2), X1, X2. cbn [bind fst snd].
  split; [reflexivity|]. split; [reflexivity|]. split; [rewrite Y1, Y2, same_calls_both; auto|]. repeat split; congruence.
Qed.
Lemma pair_differ depth n : reached_pair n -> compare_all depth calls n = VDiffer -> told_apart.
Proof.
  intros (script & ks & Hks & Hr) Ea. destruct (compare_all_differ _ _ _ Ea) as (k & Hk & Eb).
  destruct (compare_differ _ _ _ _ _ _ Eb) as (p & Hd).
  pose proof (script_attempt m1 fuel tabs1 htabs1 (fst n) (fst k) p) as S1. pose proof (script_attempt m2 fuel tabs2 htabs2 (snd n) (snd k) p) as S2.
  destruct (Hr (p ++ [Fail 0])) as (outs & s1 & s2 & R1 & R2 & Et & V1 & V2 & C1 & C2 & T1 & H1 & T2 & H2).
  exists (script ++ p ++ [Fail 0]), (ks ++ [k]). split; [intros k' Hk'; apply in_app_or in Hk' as [Hk'|[<-|[]]]; auto|].
  rewrite !map_app. cbn [map]. rewrite (session_more _ _ _ _ _ _ _ _ R1), (session_more _ _ _ _ _ _ _ _ R2).
  destruct (attempt1 (fst n) (fst k) p) as [o1 a1|x1 a1|u1|] eqn:E1, (attempt2 (snd n) (snd k) p) as [o2 a2|x2 a2|u2|] eqn:E2; cbn in Hd; try contradiction.
  - destruct S1 as [S1 _], S2 as [S2 _]. destruct (S1 [] s1 T1 H1 C1 V1) as (s1' & -> & Y1). destruct (S2 [] s2 T2 H2 C2 V2) as (s2' & -> & Y2).
    cbn [bind differ]. intros [E F]. apply Hd. split; [now apply app_inj_tail in E as [_ E]|]. now rewrite Y1, Y2, same_calls_both in F.
  - destruct S1 as [S1 _]. destruct (S1 [] s1 T1 H1 C1 V1) as (s1' & -> & Y1). rewrite (S2 [Fail 0] s2 T2 H2 C2 V2). exact I.
  - destruct S2 as [S2 _]. destruct (S2 [] s2 T2 H2 C2 V2) as (s2' & -> & Y2). rewrite (S1 [Fail 0] s1 T1 H1 C1 V1). exact I.
Qed.
Lemma close_pairs_differ depth rounds : forall seen todo, close_pairs rounds depth calls seen todo = VDiffer -> (forall n, In n todo -> reached_pair n) -> told_apart.
Proof.
  induction rounds as [|rounds IH]; intros seen todo; destruct todo as [|n todo]; cbn [Equiv.close_pairs]; try discriminate.
  destruct (compare_all depth calls n) as [ns| |] eqn:En; try discriminate; intros E H.
  - apply (IH _ _ E). intros x Hx. apply in_app_or in Hx as [Hx|Hx]; [apply H; now right|]. apply (pair_step depth n ns); [apply H; now left|exact En|]. eapply fresh_pairs_in, Hx.
  - apply (pair_differ depth n); [apply H; now left|exact En].
Qed.
End Pairs.

Lemma construct_blank {W} m fuel d (w : W) s : construct (V:=unit) m fuel d w = Done tt s -> rt_trace s = [] /\ rt_world s = w.
Proof.
  unfold construct. destruct (if cd_unexpected _ then _ else _) as [h|]; [|discriminate]. destruct (fill_dispatch _ _ _) as [t|]; [|discriminate].
  unfold init_current_state. destruct (nth_at _ _) as [l|]; [|discriminate].
  set (s1 := mkRt _ _ _ _ _ _ _ _ _). assert (H1 : rt_trace s1 = [] /\ rt_world s1 = w) by now split.
  assert (Hi : forall f r (s s' : rt unit W), rt_trace s = [] /\ rt_world s = w -> init_loop f l r s = Done tt s' -> rt_trace s' = [] /\ rt_world s' = w).
  { clear. induction f as [|f IH]; intros r s s' H; cbn [init_loop]; [discriminate|]. destruct (Nat.ltb _ _); [|intros [= <-]; exact H].
    destruct (nth_error l r) as [c|]; [|discriminate]. unfold write_cur. destruct (upd_nth _ _ _); cbn [bind]; [|discriminate]. now apply IH. }
  destruct (init_loop fuel l 0 s1) as [[] s2| | |] eqn:E; cbn [bind]; try discriminate. pose proof (Hi _ _ _ _ H1 E) as H2. clear -H2.
  unfold update_current_regions, current_parent, read_cur. destruct (parallel m); [|intros [= <-]; exact H2].
  destruct (nth_error (rt_cur s2) 0) as [[c|]|]; cbn [bind]; try discriminate. destruct (nth_at _ _); [|discriminate]. intros [= <-]. exact H2.
Qed.
Lemma start_pair alike m1 m2 fuel d calls s1 s2 : construct (V:=unit) m1 fuel d tt = Done tt s1 -> construct (V:=unit) m2 fuel d tt = Done tt s2 ->
  reached_pair alike m1 m2 fuel d calls (rt_tabs s1) (rt_tabs s2) (rt_htabs s1) (rt_htabs s2) (config_of s1, config_of s2).
Proof.
  intros E1 E2. exists [], []. split; [intros k []|]. intros q. cbn [app map].
  pose proof (construct_s (V := unit) (W := unit) (X := list reply) m1 fuel d tt q) as A1. pose proof (construct_s (V := unit) (W := unit) (X := list reply) m2 fuel d tt q) as A2.
  rewrite E1 in A1. rewrite E2 in A2. unfold session. rewrite A1, A2. cbn [bind run]. eexists _, _, _.
  split; [reflexivity|]. split; [reflexivity|]. split; [|rewrite !config_bare; repeat split].
  cbn [bare_from rt_trace]. destruct (construct_blank _ _ _ _ _ E1) as [-> _], (construct_blank _ _ _ _ _ E2) as [-> _]. reflexivity.
Qed.

(** Nothing tells two machines apart if the verdict is [true]. *)
Theorem compare_sound alike m1 m2 fuel depth rounds d calls : compare_machines alike m1 m2 fuel depth rounds d calls = Some true ->
  forall W (cb : cbfun unit W) w ks, blind alike cb -> (forall k, In k ks -> In k calls) ->
  same_run alike (session cb m1 tt fuel d w (map fst ks)) (session cb m2 tt fuel d w (map snd ks)).
Proof.
  unfold compare_machines. destruct (existsb _ calls) eqn:Es; [discriminate|]. intros E W cb w ks Hb Hks. unfold session.
  pose proof (construct_s (V := unit) (W := W) (X := unit) m1 fuel d w tt) as C1. pose proof (construct_s (V := unit) (W := W) (X := unit) m2 fuel d w tt) as C2.
  rewrite C1, C2 in E. clear C1 C2.
  destruct (construct m1 fuel d w) as [[] s1|x1 s1|u1|] eqn:E1, (construct m2 fuel d w) as [[] s2|x2 s2|u2|] eqn:E2; try discriminate; cbn [bind]; [|exact I].
  rewrite !config_bare in E. cbn [bare_from rt_tabs rt_htabs] in E.
  destruct (close_pairs _ _ _ _ _ _ _ _ _ _ _ _ _) as [l| |] eqn:El; try discriminate.
  destruct (close_pairs_closed _ _ _ _ calls _ _ _ _ _ _ _ _ _ El) as [I Cl]; [intros n Hn; now left|].
  destruct (construct_blank _ _ _ _ _ E1) as [A1 B1], (construct_blank _ _ _ _ _ E2) as [A2 B2].
  refine (same_runs alike m1 m2 fuel calls Es (rt_tabs s1) (rt_tabs s2) (rt_htabs s1) (rt_htabs s2) cb depth l Hb _ ks s1 s2 Hks _ eq_refl eq_refl eq_refl eq_refl _ _).
  - intros n Hn k Hk. destruct (Cl n Hn) as (ns & En & In'). destruct (compare_all_in _ _ _ _ _ _ _ _ _ _ _ _ En k Hk) as (b & Eb & Ib).
    exists b. split; [exact Eb|]. intros x Hx. now apply In', Ib.
  - apply I. now left.
  - congruence.
  - now rewrite A1, A2.
Qed.
(** A script tells them apart if it is [false]. *)
Theorem compare_complete alike m1 m2 fuel depth rounds d calls : compare_machines alike m1 m2 fuel depth rounds d calls = Some false ->
  told_apart alike m1 m2 fuel d calls.
Proof.
  unfold compare_machines. destruct (existsb _ calls) eqn:Es; [discriminate|].
  pose proof (construct_s (V := unit) (W := unit) (X := list reply) m1 fuel d tt []) as C1. pose proof (construct_s (V := unit) (W := unit) (X := list reply) m2 fuel d tt []) as C2.
  destruct (construct m1 fuel d tt) as [[] s1|x1 s1|u1|] eqn:E1, (construct m2 fuel d tt) as [[] s2|x2 s2|u2|] eqn:E2; try discriminate.
  - destruct (close_pairs _ _ _ _ _ _ _ _ _ _ _ _ _) as [l| |] eqn:El; try discriminate. intros _.
    refine (close_pairs_differ alike m1 m2 fuel d calls Es _ _ _ _ depth rounds _ _ El _).
    intros n [<-|[]]. now apply start_pair.
  - intros _. exists [], []. split; [intros k []|]. unfold session. cbn [map]. rewrite C1, C2. exact I.
  - intros _. exists [], []. split; [intros k []|]. unfold session. cbn [map]. rewrite C1, C2. exact I.
Qed.
