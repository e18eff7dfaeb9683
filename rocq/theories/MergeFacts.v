(** Facts about merging states. *)

From Coq Require Import List Arith NArith Bool Lia.
From Verif Require Import Types Static Dispatch Runtime Spec Semantics ListFacts RefineFacts StaticFacts RegionFacts ReorderSwap Flat FlatFacts FlatAccept EquivUse Merge.
Import ListNotations.

(** * What user code that is not told the states sees *)

Section Play.
Context {V W : Type}.
Variables (f : code V W) (d : dep) (e : ev).
Notation seen := (callee * ev * dep * V)%type.

Fixpoint carry (cs : list callee) (v : V) (w : W) : option nat * list seen * W :=
  match cs with
  | [] => (None, [], w)
  | c :: cs' =>
      match f c e d v w with
      | Ret _ v1 w1 => let '(n, ks, w2) := carry cs' v1 w1 in (n, (c, e, d, v) :: ks, w2)
      | Raise n _ w1 => (Some n, [(c, e, d, v)], w1)
      end
  end.
Definition result (n : option nat) : out := match n with None => OBool true | Some n => OExn (XUser n) end.
Fixpoint play (ms : list move) (v : V) (w : W) : out * list seen * option sref * W :=
  match ms with
  | [] => (OBool false, [], None, w)
  | (None, ds, t) :: _ => let '(n, ks, w') := carry ds v w in (result n, ks, Some t, w')
  | (Some g, ds, t) :: ms' =>
      match f g e d v w with
      | Ret true v1 w1 => let '(n, ks, w') := carry ds v1 w1 in (result n, (g, e, d, v) :: ks, Some t, w')
      | Ret false v1 w1 => let '(o, ks, q, w') := play ms' v1 w1 in (o, (g, e, d, v) :: ks, q, w')
      | Raise n _ w1 => (OExn (XUser n), [(g, e, d, v)], None, w1)
      end
  end.
Lemma play_cut : forall ms v w, play (cut ms) v w = play ms v w.
Proof.
  induction ms as [|[[[g|] ds] t] ms IH]; intros v w; cbn [cut play fst]; [reflexivity| |reflexivity].
  destruct (f g e d v w) as [[] v1 w1|n v1 w1]; try reflexivity. now rewrite IH.
Qed.
Definition handled (hd : option callee) (v : V) (w : W) : out * list seen * option sref * W :=
  match hd with
  | Some c => match f c e d v w with
              | Ret _ _ w1 => (OBool false, [(c, e, d, v)], None, w1)
              | Raise n _ w1 => (OExn (XUser n), [(c, e, d, v)], None, w1)
              end
  | None => (OBool false, [], None, w)
  end.
Definition answer (hd : option callee) (ms : list move) (v : V) (w : W) :=
  match ms with [] => handled hd v w | _ => play ms v w end.

Variables (lab : naming) (env : cenv) (root : cls).
Definition handler_name : option callee := if cd_unexpected (lookup env root) then Some (lab CHandler) else None.

Lemma carry_told q t : forall cs v w n ks w', carry_out (behind lab f) d q e t cs v w = (n, ks, w') ->
  carry (map lab cs) v w = (n, map (told lab) ks, w').
Proof.
  induction cs as [|c cs IH]; intros v w n ks w' H; cbn [carry_out carry map] in *; [now inversion H|].
  unfold behind in H at 1. cbn [a_ev a_dep] in H. destruct (f (lab c) e d v w) as [b v1 w1|k v1 w1]; [|now inversion H].
  destruct (carry_out _ _ _ _ _ cs v1 w1) as [[n1 ks1] w2] eqn:E. apply IH in E. rewrite E. now inversion H.
Qed.
Lemma choose_told q : forall rs v w c ks v1 w1, choose (behind lab f) d q e rs v w = (c, ks, v1, w1) ->
  play (map (move_of lab env) rs) v w =
  match c with
  | Nobody => (OBool false, map (told lab) ks, None, w1)
  | Objection n => (OExn (XUser n), map (told lab) ks, None, w1)
  | Chosen r => let '(n, ks', w') := carry (map lab (deeds env r)) v1 w1 in (result n, map (told lab) ks ++ ks', Some (r_tgt r), w')
  end.
Proof.
  induction rs as [|r rs IH]; intros v w c ks v1 w1 H; cbn [choose map play] in *; [now inversion H|].
  unfold move_of at 1. cbn [play]. destruct (r_guard r) as [|ty val]; cbn [guard_name].
  - inversion H; subst. cbn [map app]. destruct (carry _ _ _) as [[n ks'] w']. reflexivity.
  - unfold behind in H at 1. cbn [a_ev a_dep] in H. destruct (f (lab (CGuard ty val)) e d v w) as [[] v2 w2|k v2 w2].
    + inversion H; subst. cbn [map app]. destruct (carry _ _ _) as [[n ks'] w']. reflexivity.
    + destruct (choose _ _ _ _ rs v2 w2) as [[[c1 ks1] v3] w3] eqn:E. apply IH in E. inversion H; subst. rewrite E. cbn [map].
      destruct c as [|r'|n]; try reflexivity. destruct (carry _ _ _) as [[n ks'] w']. reflexivity.
    + inversion H; subst. reflexivity.
Qed.
Lemma cut_nil : forall l, cut l = [] -> l = [].
Proof. intros [|x l]; cbn [cut]; [reflexivity|]. destruct (fst (fst x)); discriminate. Qed.
Lemma react_told q v w o ks q' w' : react (behind lab f) env root d q e v w = (o, ks, q', w') ->
  exists t, answer handler_name (moves lab env root q e) v w = (o, map (told lab) ks, t, w') /\ q' = match t with Some t => t | None => q end.
Proof.
  unfold react, answer. destruct (rows_for env root q e) as [|r rs] eqn:Er.
  - replace (moves lab env root q e) with (@nil move) by (unfold moves; rewrite Er; reflexivity). unfold handler_name, handled.
    destruct (cd_unexpected (lookup env root)).
    + unfold behind. cbn [a_ev a_dep]. destruct (f (lab CHandler) e d v w) as [b v1 w1|k v1 w1]; intros H; inversion H; subst; exists None; split; reflexivity.
    + intros H; inversion H; subst. exists None. split; reflexivity.
  - rewrite <- Er. assert (N : moves lab env root q e <> []). { unfold moves. rewrite Er. intros H. apply cut_nil in H. discriminate. }
    replace (match moves lab env root q e with [] => handled handler_name v w | _ :: _ => play (moves lab env root q e) v w end)
      with (play (moves lab env root q e) v w) by (destruct (moves lab env root q e); congruence).
    unfold moves. rewrite play_cut.
    destruct (choose (behind lab f) d q e (rows_for env root q e) v w) as [[[c ks1] v1] w1] eqn:Ec. rewrite (choose_told q _ _ _ _ _ _ _ Ec).
    destruct c as [|r0|n].
    + intros H; inversion H; subst. exists None. split; reflexivity.
    + destruct (carry_out (behind lab f) d q e (r_tgt r0) (deeds env r0) v1 w1) as [[n ks2] w2] eqn:Ek. rewrite (carry_told _ _ _ _ _ _ _ _ Ek).
      intros H; inversion H; subst. exists (Some (r_tgt r0)). rewrite map_app. split; reflexivity.
    + intros H; inversion H; subst. exists None. split; reflexivity.
Qed.
End Play.

(** Rows that are alike are carried out alike. *)
Definition alike_move (P : list (sref * sref)) (x y : move) : Prop := fst x = fst y /\ In (snd x, snd y) P.
Lemma agree_iff P : forall l1 l2, agree P l1 l2 = true <-> Forall2 (alike_move P) l1 l2.
Proof.
  induction l1 as [|x l1 IH]; intros [|y l2]; cbn [agree].
  - split; [constructor|reflexivity].
  - split; [discriminate|intros H; inversion H].
  - split; [discriminate|intros H; inversion H].
  - rewrite !andb_true_iff, IH. split.
    + intros ((A & B) & C). constructor; [|exact C]. destruct (names_dec (fst x) (fst y)) as [E|]; [|discriminate].
      destruct (in_dec pair_dec (snd x, snd y) P) as [I|]; [|discriminate]. split; assumption.
    + intros H. inversion H as [|? ? ? ? [E I] F]; subst. split; [split|exact F].
      * destruct (names_dec (fst x) (fst y)); [reflexivity|contradiction].
      * destruct (in_dec pair_dec (snd x, snd y) P); [reflexivity|contradiction].
Qed.
Definition alike_end (P : list (sref * sref)) (a b : option sref) : Prop :=
  match a, b with None, None => True | Some x, Some y => In (x, y) P | _, _ => False end.
Lemma play_alike {V W} (f : code V W) d e P : forall l1 l2, Forall2 (alike_move P) l1 l2 -> forall v w,
  exists o ks t1 t2 w', play f d e l1 v w = (o, ks, t1, w') /\ play f d e l2 v w = (o, ks, t2, w') /\ alike_end P t1 t2.
Proof.
  induction 1 as [|[[g ds] t] [[g' ds'] t'] l1 l2 H F IH]; intros v w; [cbn [play]; do 5 eexists; repeat split|].
  destruct H as [E I]. cbn [fst snd] in E, I. injection E as <- <-. cbn [play]. destruct g as [g|].
  - destruct (f g e d v w) as [[] v1 w1|n v1 w1].
    + destruct (carry f d e ds v1 w1) as [[n ks] w']. do 5 eexists. repeat split. exact I.
    + destruct (IH v1 w1) as (o & ks & t1 & t2 & w' & -> & -> & A). do 5 eexists. repeat split. exact A.
    + do 5 eexists. repeat split.
  - destruct (carry f d e ds v w) as [[n ks] w']. do 5 eexists. repeat split. exact I.
Qed.
Lemma answer_alike {V W} (f : code V W) d e P hd l1 l2 : Forall2 (alike_move P) l1 l2 -> forall v w,
  exists o ks t1 t2 w', answer f d e hd l1 v w = (o, ks, t1, w') /\ answer f d e hd l2 v w = (o, ks, t2, w') /\ alike_end P t1 t2.
Proof.
  intros F v w. pose proof (play_alike f d e P l1 l2 F v w) as H. destruct F as [|x y l1 l2 A F]; [|exact H]. unfold answer, handled.
  destruct hd as [c|]; [destruct (f c e d v w)|]; do 5 eexists; repeat split.
Qed.

(** * The pairs that are left *)

Lemma filter_all {A} (f : A -> bool) : forall l, length (filter f l) = length l -> forall x, In x l -> f x = true.
Proof.
  assert (L : forall l, length (filter f l) <= length l). { induction l as [|y l IH]; cbn [filter]; [auto|]. destruct (f y); cbn [length]; lia. }
  induction l as [|y l IH]; cbn [filter]; intros H x Hx; [destruct Hx|]. specialize (L l). destruct (f y) eqn:E; cbn [length] in H; [|lia].
  destruct Hx as [<-|Hx]; [exact E|]. apply IH; [lia|exact Hx].
Qed.

Section Settle.
Variables (lab : naming) (env : cenv) (root : cls).
Notation consistent := (consistent lab env root).
Notation settle := (settle lab env root).
Notation moves := (moves lab env root).
Notation all_states := (all_states env root).

Lemma settle_keeps (Q : list (sref * sref) -> Prop) : (forall P, Q P -> Q (filter (consistent P) P)) -> forall n P, Q P -> Q (settle n P).
Proof.
  intros H. induction n as [|n IH]; intros P HP; cbn [Merge.settle]; [exact HP|]. destruct (Nat.eqb _ _); [exact HP|]. apply IH, H, HP.
Qed.
Lemma settle_stable : forall n P, length P <= n -> forall p, In p (settle n P) -> consistent (settle n P) p = true.
Proof.
  induction n as [|n IH]; intros P L p; cbn [Merge.settle].
  - destruct P; [intros []|cbn in L; lia].
  - destruct (Nat.eqb_spec (length (filter (consistent P) P)) (length P)) as [E|E].
    + intros Hp. exact (filter_all _ _ E p Hp).
    + apply IH. assert (length (filter (consistent P) P) <= length P); [|lia]. clear. generalize (consistent P). intros f.
      induction P as [|y l IH]; cbn [filter]; [auto|]. destruct (f y); cbn [length]; lia.
Qed.
Lemma cut_In x : forall l, In x (cut l) -> In x l.
Proof.
  induction l as [|y l IH]; cbn [cut]; [intros []|]. destruct (fst (fst y)); intros [H|H]; [now left|right; auto|now left|destruct H].
Qed.
Lemma moves_row q e x : In x (moves q e) -> exists r, In r (table env root) /\ unmarked (r_src r) = q /\ r_ev r = e /\ x = move_of lab env r.
Proof.
  intros H. apply cut_In, in_map_iff in H. destruct H as (r & <- & H). apply rows_for_In in H. exists r. tauto.
Qed.
Lemma child_state s : In s (children env root) -> In s all_states.
Proof. unfold Merge.all_states. destruct (first_initial env root); [now right|auto]. Qed.
Lemma goal_state r : In r (table env root) -> In (r_tgt r) all_states.
Proof. intros H. apply child_state. unfold children. rewrite <- unique_dedup, unique_In, in_flat_map. exists r. split; [exact H|]. right. now left. Qed.
Lemma source_state r : In r (table env root) -> In (unmarked (r_src r)) all_states.
Proof. intros H. apply child_state. unfold children. rewrite <- unique_dedup, unique_In, in_flat_map. exists r. split; [exact H|]. now left. Qed.
Lemma consistent_iff P p : consistent P p = true <-> forall e, Forall2 (alike_move P) (moves (fst p) e) (moves (snd p) e).
Proof.
  unfold Merge.consistent. rewrite forallb_forall. split.
  - intros H e. destruct (in_dec ev_eq_dec e (all_events env root)) as [I|I]; [apply agree_iff, H, I|].
    assert (N : forall q, moves q e = []).
    { intros q. destruct (moves q e) as [|x l] eqn:E; [reflexivity|]. exfalso. apply I. destruct (moves_row q e x) as (r & Hr & _ & He & _); [rewrite E; now left|].
      unfold all_events. rewrite in_map_iff. eauto. }
    rewrite !N. constructor.
  - intros H e _. apply agree_iff, H.
Qed.

Record equivalence (P : list (sref * sref)) : Prop := mkEquivalence {
  eq_in : forall a b, In (a, b) P -> In a all_states /\ In b all_states /\ entries lab env a = entries lab env b;
  eq_refl_ : forall a, In a all_states -> In (a, a) P;
  eq_sym_ : forall a b, In (a, b) P -> In (b, a) P;
  eq_trans_ : forall a b c, In (a, b) P -> In (b, c) P -> In (a, c) P }.
Lemma start_equivalence : equivalence (start lab env root).
Proof.
  assert (S : forall a b, In (a, b) (start lab env root) <-> In a all_states /\ In b all_states /\ entries lab env a = entries lab env b).
  { intros a b. unfold start. rewrite filter_In, in_prod_iff. cbn [fst snd]. destruct (list_eq_dec callee_eq_dec (entries lab env a) (entries lab env b)); intuition (congruence || tauto). }
  split; intros; rewrite ?S in *; intuition congruence.
Qed.
Lemma filter_equivalence P : equivalence P -> equivalence (filter (consistent P) P).
Proof.
  intros [A B C D]. split.
  - intros a b H. apply filter_In in H. apply A, H.
  - intros a H. apply filter_In. split; [auto|]. apply consistent_iff. intros e. cbn [fst snd].
    assert (T : forall x, In x (moves a e) -> In (snd x, snd x) P).
    { intros x Hx. destruct (moves_row a e x Hx) as (r & Hr & _ & _ & ->). apply B, goal_state, Hr. }
    induction (moves a e) as [|x l IH]; constructor; [split; [reflexivity|apply T; now left]|]. apply IH. intros y Hy. apply T. now right.
  - intros a b H. apply filter_In in H. destruct H as [H1 H2]. apply filter_In. split; [auto|]. rewrite consistent_iff in *. cbn [fst snd] in *.
    intros e. specialize (H2 e). induction H2 as [|x y l l' [E I] F IH]; constructor; [split; [now symmetry|auto]|exact IH].
  - intros a b c H H'. apply filter_In in H, H'. destruct H as [H1 H2], H' as [H1' H2']. apply filter_In. split; [eauto|]. rewrite consistent_iff in *. cbn [fst snd] in *.
    intros e. specialize (H2 e). specialize (H2' e). revert H2'. generalize (moves c e). induction H2 as [|x y l l' [E I] F IH]; intros l2 G; inversion G; subst; constructor.
    + match goal with H : alike_move _ y _ |- _ => destruct H as [E' I'] end. split; [congruence|eauto].
    + apply IH. assumption.
Qed.
Notation P := (equals lab env root).
Lemma equals_equivalence : equivalence P.
Proof. unfold equals. apply settle_keeps; [apply filter_equivalence|apply start_equivalence]. Qed.
Lemma equals_alike a b e : In (a, b) P -> Forall2 (alike_move P) (moves a e) (moves b e).
Proof. intros H. apply (proj1 (consistent_iff P (a, b))). apply settle_stable; [apply le_n|exact H]. Qed.

Notation rep := (stand_in env root P).
Lemma rep_find q : In q all_states -> exists x, find (fun x => if in_dec pair_dec (q, x) P then true else false) all_states = Some x /\ rep q = x.
Proof.
  intros H. unfold stand_in. destruct (find _ all_states) as [x|] eqn:E; [eauto|]. exfalso.
  pose proof (find_none _ _ E q H) as F. cbn beta in F. destruct (in_dec pair_dec (q, q) P) as [|N]; [discriminate|]. apply N, (eq_refl_ _ equals_equivalence), H.
Qed.
Lemma rep_equal q : In q all_states -> In (q, rep q) P.
Proof.
  intros H. destruct (rep_find q H) as (x & F & ->). apply find_some in F. destruct F as [_ F]. destruct (in_dec pair_dec (q, x) P); [assumption|discriminate].
Qed.
Lemma rep_state q : In q all_states -> In (rep q) all_states.
Proof. intros H. apply (eq_in _ equals_equivalence q), rep_equal, H. Qed.
Lemma rep_same a b : In (a, b) P -> rep a = rep b.
Proof.
  intros H. destruct (eq_in _ equals_equivalence _ _ H) as (Ha & Hb & _). destruct (rep_find a Ha) as (x & Fx & ->), (rep_find b Hb) as (y & Fy & ->).
  enough (G : forall l, find (fun x => if in_dec pair_dec (a, x) P then true else false) l = find (fun x => if in_dec pair_dec (b, x) P then true else false) l) by (rewrite G in Fx; congruence).
  induction l as [|z l IH]; [reflexivity|]. cbn [find]. destruct (in_dec pair_dec (a, z) P) as [I|I], (in_dec pair_dec (b, z) P) as [J|J]; try reflexivity; try exact IH; exfalso.
  - apply J. apply (eq_trans_ _ equals_equivalence b a z); [apply (eq_sym_ _ equals_equivalence), H|exact I].
  - apply I. exact (eq_trans_ _ equals_equivalence a b z H J).
Qed.
Lemma rep_rep q : In q all_states -> rep (rep q) = rep q.
Proof. intros H. symmetry. apply rep_same, rep_equal, H. Qed.
Lemma rep_initial i : first_initial env root = Some i -> rep i = i.
Proof.
  intros E. assert (H : In i all_states) by (unfold Merge.all_states; rewrite E; now left). destruct (rep_find i H) as (x & F & ->).
  revert F. unfold Merge.all_states. rewrite E. cbn [find]. destruct (in_dec pair_dec (i, i) P) as [|N]; [now intros [= ->]|]. exfalso. apply N, (eq_refl_ _ equals_equivalence), H.
Qed.
End Settle.
