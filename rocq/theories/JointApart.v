(** If the guards look at their arguments only and nothing throws, the regions of a
    one-table program do not notice each other. *)

From Coq Require Import List Arith NArith Bool Lia.
From Verif Require Import Types Static Dispatch Runtime Spec Semantics Reach TermFacts ProcessFacts Graph RegionFacts Flat FlatFacts Joint JointFacts.
Import ListNotations.

Section Apart.
Context {V W : Type}.
Variable cb : cbfun V W.
Variables (env : cenv) (root : cls) (d : dep) (G : nat -> nat -> args -> bool).
Hypothesis HG : guards_say cb G.
Hypothesis Hcb : never_throws cb.
Notation chosen := (chosen env root d G).
Notation go := (go env root d G).
Notation asked := (asked d G).
Notation calls_of := (calls_of env root d G).
Notation answers := (answers env root d G).
Notation all_calls := (all_calls env root d G).

Lemma choose_apart q e : forall rs v w, exists ks v' w',
  choose cb d q e rs v w = (match find (says_yes d G q e) rs with Some r => Chosen r | None => Nobody end, ks, v', w') /\
  map (@k_callee V) ks = asked q e rs.
Proof.
  induction rs as [|r rs IH]; intros v w; cbn [choose find Joint.asked]; [exists [], v, w; auto|].
  unfold says_yes at 1 3. destruct (r_guard r) as [|ty val]; [exists [], v, w; auto|].
  destruct (HG ty val (mkArgs e q (TObj (r_tgt r)) d) v w) as (v1 & w1 & ->).
  destruct (G ty val _); [eexists [_], v1, w1; cbn; auto|].
  destruct (IH v1 w1) as (ks & v2 & w2 & -> & E). eexists (_ :: ks), v2, w2. split; [reflexivity|]. cbn. now rewrite E.
Qed.
Lemma carry_apart q e t : forall cs v w, exists ks v' w', carry_on cb d q e t cs v w = (None, ks, v', w') /\ map (@k_callee V) ks = cs.
Proof.
  induction cs as [|c cs IH]; intros v w; cbn [carry_on]; [exists [], v, w; auto|].
  destruct (cb c (mkArgs e q (TObj t) d) v w) as [b v1 w1|n v1 w1] eqn:E; [|now apply Hcb in E].
  destruct (IH v1 w1) as (ks & v' & w' & -> & H). eexists (_ :: ks), v', w'. cbn. now rewrite H.
Qed.
Definition quiet_turn (q : sref) (e : ev) : turn :=
  match rows_for env root q e with [] => Idle | _ => match chosen q e with Some _ => Moving | None => Refusing end end.
Lemma turn_apart q e v w : exists ks v' w', turn_of cb env root d q e v w = (quiet_turn q e, ks, go q e, v', w') /\
  map (@k_callee V) ks = calls_of q e.
Proof.
  unfold turn_of, quiet_turn, Joint.go, Joint.calls_of, Joint.chosen. destruct (rows_for env root q e) as [|r rs] eqn:R; [exists [], v, w; auto|].
  rewrite <- R. destruct (choose_apart q e (rows_for env root q e) v w) as (ks & v1 & w1 & -> & E).
  destruct (find _ (rows_for env root q e)) as [x|]; [|exists ks, v1, w1; rewrite app_nil_r; auto].
  destruct (carry_apart q e (r_tgt x) (deeds env x) v1 w1) as (ks' & v2 & w2 & -> & E'). exists (ks ++ ks'), v2, w2. split; [reflexivity|].
  now rewrite map_app, E, E'.
Qed.
Lemma round_apart e : forall qs v w, exists ks v' w',
  round cb env root d qs e v w = (map (fun q => quiet_turn q e) qs, ks, map (fun q => go q e) qs, v', w') /\
  map (@k_callee V) ks = flat_map (fun q => calls_of q e) qs.
Proof.
  induction qs as [|q qs IH]; intros v w; cbn [round map flat_map]; [exists [], v, w; auto|].
  destruct (turn_apart q e v w) as (ks & v1 & w1 & -> & E). destruct (IH v1 w1) as (ks' & v2 & w2 & -> & E').
  exists (ks ++ ks'), v2, w2. rewrite map_app, E, E'. split; [|reflexivity].
  assert (N : forall n, quiet_turn q e <> Failing n).
  { intros n. unfold quiet_turn. destruct (rows_for env root q e); [discriminate|]. destruct (chosen q e); discriminate. }
  destruct (quiet_turn q e) as [| | |n]; try reflexivity. now destruct (N n).
Qed.
Lemma joint_apart qs e v w : exists ks w',
  joint cb env root d qs e v w = (OBool (answers qs e), ks, map (fun q => go q e) qs, w') /\ map (@k_callee V) ks = all_calls qs e.
Proof.
  unfold joint, Joint.all_calls. destruct (round_apart e qs v w) as (ks & v1 & w1 & -> & E).
  assert (F : failure (map (fun q => quiet_turn q e) qs) = None).
  { clear. induction qs as [|q qs IH]; [reflexivity|]. cbn [map failure]. unfold quiet_turn at 1. destruct (rows_for env root q e); [exact IH|]. destruct (chosen q e); exact IH. }
  assert (A : existsb moving (map (fun q => quiet_turn q e) qs) = answers qs e).
  { clear. unfold Joint.answers. induction qs as [|q qs IH]; [reflexivity|]. cbn [map existsb]. rewrite IH. f_equal.
    unfold quiet_turn, Joint.chosen. destruct (rows_for env root q e); [reflexivity|]. now destruct (find _ _). }
  assert (I : forallb idle (map (fun q => quiet_turn q e) qs) = nobody env root qs e).
  { clear. unfold nobody. induction qs as [|q qs IH]; [reflexivity|]. cbn [map forallb]. rewrite IH. f_equal.
    unfold quiet_turn. destruct (rows_for env root q e); [reflexivity|]. now destruct (chosen q e). }
  assert (N : answers qs e = true -> nobody env root qs e = false).
  { clear. unfold Joint.answers, nobody. induction qs as [|q qs IH]; [discriminate|]. cbn [existsb forallb]. unfold Joint.chosen at 1.
    destruct (rows_for env root q e); [exact IH|reflexivity]. }
  rewrite F, A, I. destruct (answers qs e).
  - rewrite (N eq_refl). exists ks, w1. cbn [andb]. rewrite app_nil_r. auto.
  - destruct (nobody env root qs e && cd_unexpected (lookup env root)); [|exists ks, w1; rewrite app_nil_r; auto].
    destruct (cb CHandler (mkArgs e (hd (SState root) qs) TNone d) v1 w1) as [b v2 w2|n v2 w2] eqn:K; [|now apply Hcb in K].
    eexists (ks ++ [_]), w2. split; [reflexivity|]. rewrite map_app, E. reflexivity.
Qed.
Lemma joints_apart : forall (l : list (ev * V)) qs w, exists ks w',
  joints cb env root d qs l w = (map OBool (fst (product env root d G qs (map fst l))), ks, map (fun q => fold_left go (map fst l) q) qs, w') /\
  map (@k_callee V) ks = snd (product env root d G qs (map fst l)).
Proof.
  induction l as [|[e v] l IH]; intros qs w; cbn [joints map fst fold_left product].
  - exists [], w. rewrite map_id. auto.
  - destruct (joint_apart qs e v w) as (ks & w1 & -> & E). destruct (IH (map (fun q => go q e) qs) w1) as (ks' & w2 & -> & E').
    exists (ks ++ ks'), w2. destruct (product env root d G (map (fun q => go q e) qs) (map fst l)) as [bs cs] eqn:P. cbn [fst snd map] in *.
    rewrite map_map, map_app, E, E'. auto.
Qed.
End Apart.

Lemma joint_product env root m : compile env root = Some m -> one_table env root ->
  exists bound, forall V W (cb : cbfun V W) vnone fuel d w (l : list (ev * V)) G, bound <= fuel ->
    guards_say cb G -> never_throws cb -> Forall (fun ev => event_of env root (fst ev)) l ->
    exists s, session cb m vnone fuel d w (map (fun ev => KProcess (fst ev) (snd ev)) l) =
        Done (map OBool (fst (product env root d G (initial_states env root) (map fst l)))) s /\
      (forall r i, nth_error (initial_states env root) r = Some i ->
         at_place m s r = Some (root, fold_left (go env root d G) (map fst l) i)) /\
      map (@k_callee V) (rt_trace s) = snd (product env root d G (initial_states env root) (map fst l)).
Proof.
  intros Hm Hf. destruct (joint_session env root m Hm Hf) as (b & Hb). exists b. intros V W cb vnone fuel d w l G Hle HG Hcb Hl.
  destruct (joints_apart cb env root d G HG Hcb l (initial_states env root) w) as (ks & w' & E & Ec).
  destruct (Hb V W cb vnone fuel d w l _ _ _ _ Hle Hl E) as (s & D & P & _ & T & _). exists s. split; [exact D|]. split; [|congruence].
  intros r i Hi. apply P. rewrite nth_error_map, Hi. reflexivity.
Qed.

(** * The regions as programs of their own *)
Section Alone.
Variables (env : cenv) (root : cls) (i : sref) (env' : cenv) (root' : cls).
Hypothesis Ha : alone env root i env' root'.
Variables (d : dep) (G : nat -> nat -> args -> bool).
Lemma alone_rows q e : map unmark (rows_for env' root' q e) = map unmark (rows_for env root q e).
Proof.
  unfold rows_for. rewrite !map_rev. f_equal. pose proof (al_rows _ _ _ _ _ Ha) as H.
  assert (X : forall l, map unmark (filter (row_for q e) l) = filter (row_for q e) (map unmark l)).
  { clear. induction l as [|r l IH]; [reflexivity|]. cbn [filter map]. assert (row_for q e (unmark r) = row_for q e r) as ->.
    { unfold row_for, unmark. cbn. destruct (r_src r); reflexivity. }
    destruct (row_for q e r); cbn [map]; now rewrite IH. }
  now rewrite !X, H.
Qed.
Lemma alone_chosen q e : option_map unmark (chosen env' root' d G q e) = option_map unmark (chosen env root d G q e).
Proof.
  unfold chosen. assert (X : forall l, option_map unmark (find (says_yes d G q e) l) = find (says_yes d G q e) (map unmark l)).
  { clear. induction l as [|r l IH]; [reflexivity|]. cbn [find map]. assert (says_yes d G q e (unmark r) = says_yes d G q e r) as -> by reflexivity.
    destruct (says_yes d G q e r); [reflexivity|exact IH]. }
  now rewrite !X, alone_rows.
Qed.
Lemma alone_go q e : go env' root' d G q e = go env root d G q e.
Proof.
  unfold go. pose proof (alone_chosen q e) as H. destruct (chosen env' root' d G q e), (chosen env root d G q e); cbn in H; try discriminate; [|reflexivity].
  apply (f_equal (option_map r_tgt)) in H. cbn in H. congruence.
Qed.
Lemma alone_goes l q : fold_left (go env' root' d G) l q = fold_left (go env root d G) l q.
Proof. revert q. induction l as [|e l IH]; intros q; [reflexivity|]. cbn [fold_left]. now rewrite alone_go, IH. Qed.
Lemma alone_initials : initial_states env' root' = [i].
Proof.
  pose proof (al_initial _ _ _ _ _ Ha) as H. pose proof (fl_one _ _ (al_flat _ _ _ _ _ Ha)) as L. unfold first_initial in H.
  destruct (initial_states env' root') as [|a [|b l]]; cbn in *; try discriminate. congruence.
Qed.
Lemma alone_event e : one_table env root -> event_of env root e -> event_of env' root' e.
Proof.
  intros Hf (x & [Hx|Hx] & E); [|exfalso; exact (flat_no_internal env root Hf x Hx)].
  apply (flat_declared_row env root Hf) in Hx. destruct Hx as (r & Hr & ->). cbn in E. subst e.
  apply (in_map unmark) in Hr. rewrite <- (al_rows _ _ _ _ _ Ha) in Hr. apply in_map_iff in Hr. destruct Hr as (r' & E' & Hr').
  exists (row_in root' r'). split; [left; apply (flat_declared_row env' root' (al_flat _ _ _ _ _ Ha)); eauto|].
  cbn. now apply (f_equal r_ev) in E'.
Qed.
End Alone.

Lemma product_length env root d G : forall l qs, length (fst (product env root d G qs l)) = length l.
Proof. induction l as [|e l IH]; intros qs; [reflexivity|]. cbn [product]. specialize (IH (map (fun q => go env root d G q e) qs)). destruct (product env root d G _ l). cbn in *. now rewrite IH. Qed.

Definition part_answer env root d G (l : list ev) (k : nat) (i : sref) : bool :=
  says (map OBool (fst (product env root d G [i] l))) k.
Lemma says_product env root d G : forall l qs k,
  says (map OBool (fst (product env root d G qs l))) k = existsb (part_answer env root d G l k) qs.
Proof.
  unfold part_answer. induction l as [|e l IH]; intros qs k.
  - cbn [product fst map]. induction qs as [|q qs IHq]; cbn [existsb]; [destruct k; reflexivity|]. rewrite <- IHq. destruct k; reflexivity.
  - cbn [product map]. specialize (IH (map (fun q => go env root d G q e) qs)) as A.
    assert (B : forall q, says (map OBool (fst (product env root d G [q] (e :: l)))) k =
       match k with 0 => answers env root d G [q] e | S k => says (map OBool (fst (product env root d G [go env root d G q e] l))) k end).
    { intros q. cbn [product map]. destruct (product env root d G [go env root d G q e] l). destruct k; reflexivity. }
    destruct (product env root d G (map (fun q => go env root d G q e) qs) l) as [bs cs]. cbn [fst] in *.
    destruct k as [|k].
    + change (answers env root d G qs e = existsb (fun i => says (map OBool (fst (product env root d G [i] (e :: l)))) 0) qs).
      clear -B. unfold answers. induction qs as [|q qs IHq]; [reflexivity|]. cbn [existsb]. rewrite <- IHq, B. unfold answers. cbn [existsb]. now rewrite orb_false_r.
    + change (says (map OBool bs) k = existsb (fun i => says (map OBool (fst (product env root d G [i] (e :: l)))) (S k)) qs). rewrite A.
      clear -B. induction qs as [|q qs IHq]; [reflexivity|]. cbn [existsb map]. now rewrite IHq, B.
Qed.
Lemma alone_answers env root i env' root' : alone env root i env' root' -> forall d G l q,
  fst (product env' root' d G [q] l) = fst (product env root d G [q] l).
Proof.
  intros Ha d G. induction l as [|e l IH]; intros q; [reflexivity|]. cbn [product map].
  rewrite (alone_go _ _ _ _ _ Ha). specialize (IH (go env root d G q e)).
  destruct (product env' root' d G [go env root d G q e] l), (product env root d G [go env root d G q e] l). cbn [fst] in *. subst l0. f_equal.
  unfold answers. cbn [existsb]. pose proof (alone_chosen _ _ _ _ _ Ha d G q e) as H. destruct (chosen env' root' d G q e), (chosen env root d G q e); cbn in H; congruence.
Qed.

Lemma joint_parts env root m parts : compile env root = Some m -> one_table env root -> parts_of env root parts ->
  exists bound, forall V W (cb : cbfun V W) vnone fuel d w (l : list (ev * V)) G, bound <= fuel ->
    guards_say cb G -> never_throws cb -> Forall (fun ev => event_of env root (fst ev)) l ->
    let ks := map (fun ev => KProcess (fst ev) (snd ev)) l in
    exists outs s oss, session cb m vnone fuel d w ks = Done outs s /\
      length outs = length l /\ length oss = length parts /\
      (forall r env' root' m', nth_error parts r = Some (env', root', m') ->
         exists os s' q, nth_error oss r = Some os /\ session cb m' vnone fuel d w ks = Done os s' /\ length os = length l /\
           at_place m' s' 0 = Some (root', q) /\ at_place m s r = Some (root, q)) /\
      forall k, says outs k = existsb (fun os => says os k) oss.
Proof.
  intros Hm Hf Hp. destruct (joint_product env root m Hm Hf) as (b & Hb).
  assert (B : exists b', forall r env' root' m', nth_error parts r = Some (env', root', m') ->
     exists i, nth_error (initial_states env root) r = Some i /\ alone env root i env' root' /\
     forall V W (cb : cbfun V W) vnone fuel d w (l : list (ev * V)) G, b' <= fuel ->
     guards_say cb G -> never_throws cb -> Forall (fun ev => event_of env' root' (fst ev)) l ->
     exists s, session cb m' vnone fuel d w (map (fun ev => KProcess (fst ev) (snd ev)) l) =
        Done (map OBool (fst (product env' root' d G [i] (map fst l)))) s /\
      at_place m' s 0 = Some (root', fold_left (go env' root' d G) (map fst l) i)).
  { unfold parts_of in Hp. clear Hb. induction Hp as [|i [[env' root'] m'] is ps (Ha & Hm') Hp IH]; [exists 0; intros [|r] ? ? ? H; discriminate|].
    destruct IH as (b2 & IH). destruct (joint_product env' root' m' Hm' (al_flat _ _ _ _ _ Ha)) as (b1 & H1). exists (Nat.max b1 b2).
    intros [|r] env2 root2 m2 H; cbn [nth_error] in *.
    - injection H as <- <- <-. exists i. split; [reflexivity|]. split; [exact Ha|]. intros V W cb vnone fuel d w l G Hle HG Hcb Hl.
      assert (Hle' : b1 <= fuel) by lia. destruct (H1 V W cb vnone fuel d w l G Hle' HG Hcb Hl) as (s & D & P & _).
      rewrite (alone_initials _ _ _ _ _ Ha) in D, P. exists s. split; [exact D|]. apply P. reflexivity.
    - destruct (IH r env2 root2 m2 H) as (j & Hj & Ha2 & K). exists j. split; [exact Hj|]. split; [exact Ha2|].
      intros V W cb vnone fuel d w l G Hle. apply K. lia. }
  destruct B as (b' & Hb'). exists (Nat.max b b'). intros V W cb vnone fuel d w l G Hle HG Hcb Hl ks.
  assert (Hle1 : b <= fuel) by lia. assert (Hle2 : b' <= fuel) by lia.
  destruct (Hb V W cb vnone fuel d w l G Hle1 HG Hcb Hl) as (s & D & P & _).
  set (bs := fun i => fst (product env root d G [i] (map fst l))).
  eexists _, s, (map (fun i => map OBool (bs i)) (initial_states env root)). split; [exact D|].
  split; [now rewrite map_length, product_length, map_length|]. split; [rewrite map_length; clear - Hp; unfold parts_of in Hp; induction Hp; cbn; congruence|]. split.
  - intros r env' root' m' Hr. destruct (Hb' r env' root' m' Hr) as (i & Hi & Ha & K).
    assert (Hl' : Forall (fun ev => event_of env' root' (fst ev)) l).
    { revert Hl. apply Forall_impl. intros a. apply (alone_event _ _ _ _ _ Ha _ Hf). }
    destruct (K V W cb vnone fuel d w l G Hle2 HG Hcb Hl') as (s' & D' & P'). rewrite (alone_answers _ _ _ _ _ Ha) in D'.
    rewrite (alone_goes _ _ _ _ _ Ha) in P'.
    eexists _, s', _. split; [rewrite nth_error_map, Hi; reflexivity|]. split; [exact D'|]. split; [unfold bs; now rewrite map_length, product_length, map_length|].
    split; [exact P'|]. exact (P r i Hi).
  - intros k. rewrite says_product. unfold part_answer. clear. induction (initial_states env root) as [|i is IH]; [reflexivity|].
    cbn [existsb map]. now rewrite IH.
Qed.
