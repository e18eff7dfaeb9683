(** The verdict of the comparison with data is right. *)

From Coq Require Import List Arith NArith Bool Lia.
From Verif Require Import Types Static Dispatch Runtime Data DataUse Script Explore Equiv SymTree SymEquiv.
Import ListNotations.

(** User code that reads its answers and what it leaves in the event; [zip f n p]: the
    answers [p], with the values of the numbers from [n] on. *)
Definition valued : cbfun nat (list (reply * nat)) := fun _ _ _ w =>
  match w with
  | [] => Ret false 0 []
  | (Say b, v) :: l => Ret b v l
  | (Fail k, v) :: l => Raise k v l
  end.
Fixpoint zip (f : nat -> nat) (n : nat) (p : list reply) : list (reply * nat) :=
  match p with [] => [] | r :: p' => (r, f n) :: zip f (S n) p' end.
Definition call_with (f : nat -> nat) (x : called nat) : called nat := mkCall (k_callee x) (k_args x) (f (k_payload x)).
Definition one_to_one (f : nat -> nat) : Prop := forall i j, f i = f j -> i = j.
Lemma alike_with alike f a : forall b, alike_calls alike a b -> alike_calls alike (map (call_with f) a) (map (call_with f) b).
Proof. intros b H. induction H as [|x y a b [H1 H2] H IH]; cbn; constructor; auto. split; [exact H1|]. cbn. now rewrite H2. Qed.
Lemma alike_without alike f a : one_to_one f -> forall b, alike_calls alike (map (call_with f) a) (map (call_with f) b) -> alike_calls alike a b.
Proof.
  intros Hf. induction a as [|x a IH]; intros [|y b] H; inversion H as [|? ? ? ? [H1 H2] H3]; subst; constructor; [|now apply IH].
  split; [exact H1|]. cbn in H2. now apply Hf.
Qed.
Lemma alike_app alike {V} (a b c e : list (called V)) : alike_calls alike a b -> alike_calls alike (a ++ c) (b ++ e) -> alike_calls alike c e.
Proof. induction 1 as [|x y a b H H' IH]; cbn; auto. intros K. inversion K; subst. now apply IH. Qed.
Lemma alike_length alike {V} (a b : list (called V)) : alike_calls alike a b -> length a = length b.
Proof. induction 1; cbn; congruence. Qed.

(** A list of answers as a script. *)
Definition script_like (t : tree (plain out)) (n : nat) (p : list reply) (tr : list (called nat)) : Prop :=
  match settled (interp numbering n (fun i => i) t (Some p, n) tr) with
  | Done o s => exists T x, s = fill (fun i => i) x (rt_world s) (tr ++ T) /\
      match fst (rt_world s) with
      | Some r => exists p0, p = p0 ++ r /\ length T = length p0 /\
          forall f q tr', settled (interp valued n f t (zip f n p0 ++ q) tr') = Done o (fill f x q (tr' ++ map (call_with f) T))
      | None => length T = S (length p) /\
          forall f v q tr', settled (interp valued n f t (zip f n p ++ (Fail 0, v) :: q) tr') = Done o (fill f x q (tr' ++ map (call_with f) T))
      end
  | Undef u => forall f q tr', settled (interp valued n f t (zip f n p ++ q) tr') = Undef u
  | Timeout => forall f q tr', settled (interp valued n f t (zip f n p ++ q) tr') = Timeout
  | Threw _ _ => False
  end.
Lemma ext_same {V} (f : nat -> V) n k : agree k (ext f n (f n)) f.
Proof. intros i _. unfold ext. destruct (Nat.eqb_spec i n); congruence. Qed.
Lemma script_like_say g a i x yes no (b : bool) n p tr : fits (S n) (if b then yes else no) -> script_like (if b then yes else no) (S n) p (tr ++ [mkCall g a i]) -> script_like (Ask g a i x yes no) n (Say b :: p) tr.
Proof.
  intros F. unfold script_like. intros IH. cbn [interp numbering].
  rewrite (interp_agree numbering (if b then yes else no) (S n) (ext (fun i => i) n n) (fun i => i) (Some p, S n) _ F (ext_same (fun i => i) n (S n))).
  assert (Step : forall f q tr', settled (interp valued n f (Ask g a i x yes no) ((Say b, f n) :: q) tr') = settled (interp valued (S n) f (if b then yes else no) q (tr' ++ [mkCall g a (f i)]))).
  { intros. cbn [interp valued]. now rewrite (interp_agree valued _ (S n) _ f _ _ F (ext_same f n (S n))). }
  destruct (settled (interp numbering (S n) (fun i => i) (if b then yes else no) (Some p, S n) (tr ++ [mkCall g a i]))) as [o s|x0 s|u|] eqn:E; auto.
  - destruct IH as (T & y & Hs & H). exists (mkCall g a i :: T), y. split; [rewrite Hs at 1; now rewrite <- app_assoc|].
    destruct (fst (rt_world s)) as [r|].
    + destruct H as (p0 & -> & Hl & H). exists (Say b :: p0). split; [reflexivity|]. split; [cbn; now rewrite Hl|]. intros f q tr'. cbn [zip app map]. etransitivity; [exact (Step f _ tr')|]. now rewrite H, <- app_assoc.
    + destruct H as (Hl & H). split; [cbn; now rewrite Hl|]. intros f v q tr'. cbn [zip app map]. etransitivity; [exact (Step f _ tr')|]. now rewrite H, <- app_assoc.
  - intros f q tr'. cbn [zip app]. etransitivity; [exact (Step f _ tr')|]. apply IH.
  - intros f q tr'. cbn [zip app]. etransitivity; [exact (Step f _ tr')|]. apply IH.
Qed.
Lemma script_like_tree (t : tree (plain out)) : forall n p tr, fits n t -> script_like t n p tr.
Proof.
  induction t as [a|g a i x yes IHy no IHn]; intros n p tr F.
  - unfold script_like. rewrite settled_leaf. destruct (value a) as [[o x]|] eqn:E.
    + exists [], x. cbn [rt_trace rt_world fill fst]. split; [now rewrite app_nil_r|]. exists []. split; [reflexivity|]. split; [reflexivity|]. intros. rewrite settled_leaf, E. cbn [map]. now rewrite app_nil_r.
    + destruct a; try discriminate; intros; now rewrite settled_leaf.
  - destruct F as (Fi & Fx & Fy & Fn). destruct p as [|[b|k] p].
    + unfold script_like. cbn [interp numbering settled]. exists [mkCall g a i], x. split; [reflexivity|]. cbn [rt_world fill fst]. split; reflexivity.
    + apply script_like_say; destruct b; auto.
    + unfold script_like. cbn [interp numbering settled]. exists [mkCall g a i], x. split; [reflexivity|]. cbn [rt_world fill fst]. exists [Fail k]. split; [reflexivity|]. split; reflexivity.
Qed.

Definition well (c : place) : Prop := length (cf_queue (fst c)) = length (snd c).
Lemma realizes_well {V W} (vals : nat -> V) c (s : rt V W) : realizes vals c s -> well c.
Proof. intros [E H]. unfold well. rewrite <- E. unfold config_of. cbn. rewrite map_length. apply (f_equal (@length V)) in H. now rewrite !map_length in H. Qed.
Lemma realizes_place {W} tabs htabs c (w : W) : well c -> realizes (fun i => i) c (at_place tabs htabs c w).
Proof.
  intros H. split.
  - destruct c as [[cu hi q re li] nums]. unfold well in H. cbn in H. unfold config_of, at_place. cbn. f_equal.
    revert nums H. induction q as [|e q IH]; intros [|i nums]; cbn; try discriminate; auto. intros [= H]. f_equal. now apply IH.
  - rewrite map_id. destruct c as [[cu hi q re li] nums]. unfold well in H. cbn in H |- *.
    revert nums H. induction q as [|e q IH]; intros [|i nums]; cbn; try discriminate; auto. intros [= H]. f_equal. now apply IH.
Qed.
(** The script that makes a call go like the attempt with numbers. *)
Lemma script_try m fuel tabs htabs c k n p : well c -> (forall i, In i (snd c) -> i < n) ->
  match try_call m fuel tabs htabs c k n p with
  | Done o a =>
      (forall f q v (s : rt nat (list (reply * nat))), rt_tabs s = tabs -> rt_htabs s = htabs -> realizes f c s -> rt_world s = zip f (S n) p ++ (Fail 0, v) :: q ->
        exists s', do_call_catch valued m (f 0) fuel (with_data k (f n)) s = Done o s' /\ rt_trace s' = rt_trace s ++ map (call_with f) (rt_trace a)) /\
      (forall r, fst (rt_world a) = Some r -> length (rt_trace a) + length r = length p /\
        forall f q (s : rt nat (list (reply * nat))), rt_tabs s = tabs -> rt_htabs s = htabs -> realizes f c s -> rt_world s = zip f (S n) (firstn (length (rt_trace a)) p) ++ q ->
        exists s', do_call_catch valued m (f 0) fuel (with_data k (f n)) s = Done o s' /\ rt_trace s' = rt_trace s ++ map (call_with f) (rt_trace a) /\ rt_world s' = q /\
          config_of s' = config_of a /\ map snd (rt_queue s') = map f (numbers a))
  | Undef u => forall f q (s : rt nat (list (reply * nat))), rt_tabs s = tabs -> rt_htabs s = htabs -> realizes f c s -> rt_world s = zip f (S n) p ++ q ->
      do_call_catch valued m (f 0) fuel (with_data k (f n)) s = Undef u
  | Timeout => True
  | Threw _ _ => False
  end.
Proof.
  intros Hw Hn. destruct (data_tree m fuel tabs htabs c k n Hn) as (t & F & Ht).
  assert (Et : try_call m fuel tabs htabs c k n p = settled (interp numbering (S n) (fun i => i) t (Some p, S n) [])).
  { exact (Ht _ _ numbering (fun i => i) (at_place tabs htabs c (Some p, S n)) eq_refl eq_refl (realizes_place _ _ _ _ Hw)). }
  rewrite Et. pose proof (script_like_tree t (S n) p [] F) as H. unfold script_like in H.
  destruct (settled (interp numbering (S n) (fun i => i) t (Some p, S n) [])) as [o a|x a|u|]; auto.
  - destruct H as (T & x & Ha & H). assert (HT : rt_trace a = T) by (now rewrite Ha). rewrite HT. split.
    + intros f q v s A B C D. rewrite (Ht _ _ valued f s A B C), D. destruct (fst (rt_world a)) as [r|].
      * destruct H as (p0 & -> & _ & H).
        assert (Z : forall l n r, zip f n (l ++ r) = zip f n l ++ zip f (n + length l) r).
        { induction l as [|y l IH]; intros n0 r0; cbn; [now rewrite Nat.add_0_r|]. rewrite IH. do 3 f_equal. lia. }
        rewrite Z, <- app_assoc, H. eexists. split; reflexivity.
      * destruct H as (_ & H). rewrite H. eexists. split; reflexivity.
    + intros r Er. rewrite Er in H. destruct H as (p0 & -> & Hl & H). rewrite app_length, Hl. split; [reflexivity|]. intros f q s A B C D.
      rewrite (Ht _ _ valued f s A B C), D, firstn_app, Nat.sub_diag, firstn_all, app_nil_r, H. eexists. split; [reflexivity|]. split; [reflexivity|]. split; [reflexivity|].
      split; [rewrite Ha, !config_fill; reflexivity|]. rewrite queue_fill. f_equal. unfold numbers. rewrite Ha. cbn. now rewrite map_map.
  - intros f q s A B C D. rewrite (Ht _ _ valued f s A B C), D. apply H.
Qed.

(** * Sessions *)
Lemma tabs_stay {V W} (cb : cbfun V W) m vnone fuel k s o s' : is_set_dep k = false -> do_call_catch cb m vnone fuel k s = Done o s' -> rt_tabs s' = rt_tabs s /\ rt_htabs s' = rt_htabs s.
Proof.
  intros Hk E. destruct (real_call m fuel (rt_tabs s) (rt_htabs s) cb vnone k s eq_refl eq_refl Hk) as (L & H). rewrite E in H. now destruct H as (A & B & _).
Qed.
Lemma run_and {V W} (cb : cbfun V W) m vnone fuel k ks : forall s outs s1, run cb m vnone fuel ks s = Done outs s1 ->
  run cb m vnone fuel (ks ++ [k]) s = bind (do_call_catch cb m vnone fuel k s1) (fun o s => Done (outs ++ [o]) s).
Proof.
  induction ks as [|k0 ks IH]; intros sc outs s1 HL; cbn [run app] in *.
  - injection HL as <- <-. destruct (do_call_catch cb m vnone fuel k sc); reflexivity.
  - destruct (do_call_catch cb m vnone fuel k0 sc) as [o0 s0| | |]; cbn [bind] in *; try discriminate.
    destruct (run cb m vnone fuel ks s0) as [os s2| | |] eqn:E2; cbn [bind] in *; try discriminate. injection HL as <- <-.
    rewrite (IH _ _ _ E2). destruct (do_call_catch cb m vnone fuel k s2); reflexivity.
Qed.
Lemma session_and {V W} (cb : cbfun V W) m vnone fuel d w k ks outs s1 : session cb m vnone fuel d w ks = Done outs s1 ->
  session cb m vnone fuel d w (ks ++ [k]) = bind (do_call_catch cb m vnone fuel k s1) (fun o s => Done (outs ++ [o]) s).
Proof. unfold session. destruct (construct m fuel d w) as [[] s|x s|u|]; cbn [bind]; try discriminate. apply run_and. Qed.
(** A client of both machines. *)
Definition for_first {V} (ks : list (call unit * call unit * V)) : list (call V) := map (fun k => with_data (fst (fst k)) (snd k)) ks.
Definition for_second {V} (ks : list (call unit * call unit * V)) : list (call V) := map (fun k => with_data (snd (fst k)) (snd k)) ks.
Lemma dep_with_data {V} k (v : V) : is_set_dep (with_data k v) = is_set_dep k. Proof. now destruct k. Qed.

Section Pairs.
Variable alike : likeness.
Variables (m1 m2 : machine) (fuel : nat) (d : dep).
Variable calls : list (call unit * call unit).
Hypothesis Hs : existsb (fun k => is_set_dep (fst k) || is_set_dep (snd k)) calls = false.
Variables (tabs1 tabs2 : tables) (htabs1 htabs2 : handler_tables).
Notation try1 := (try_call m1 fuel tabs1 htabs1).
Notation try2 := (try_call m2 fuel tabs2 htabs2).
Notation compare := (compare_data alike m1 m2 fuel tabs1 tabs2 htabs1 htabs2).
Notation compare_all := (compare_all_data alike m1 m2 fuel tabs1 tabs2 htabs1 htabs2).
Notation close := (close_places alike m1 m2 fuel tabs1 tabs2 htabs1 htabs2).

Lemma unused_bound c i : In i (snd (fst c)) \/ In i (snd (snd c)) -> i < unused c.
Proof.
  intros H. unfold unused. apply Nat.lt_succ_r. assert (F : Forall (fun k => k <= list_max (snd (fst c) ++ snd (snd c))) (snd (fst c) ++ snd (snd c))) by now apply list_max_le.
  rewrite Forall_forall in F. apply F, in_or_app. exact H.
Qed.
Lemma realizes_ext {V W} (vals : nat -> V) n v c (s : rt V W) : (forall i, In i (snd c) -> i < n) -> realizes vals c s -> realizes (ext vals n v) c s.
Proof.
  intros Hn [A B]. split; [exact A|]. rewrite B. apply map_ext_in. intros i Hi. unfold ext. specialize (Hn i Hi). destruct (Nat.eqb_spec i n); [lia|reflexivity].
Qed.
(** ** Nothing tells them apart *)
Definition closed_data (depth : nat) (l : list (place * place)) : Prop := forall c, In c l -> forall k, In k calls -> exists a, compare depth c k (unused c) [] = VSame a /\ incl a l.
Lemma alike_step {V W} (cb : cbfun V W) depth l k v vals c s1 s2 : unseeing alike cb -> closed_data depth l -> In c l -> In k calls ->
  realizes vals (fst c) s1 -> realizes vals (snd c) s2 ->
  rt_tabs s1 = tabs1 -> rt_htabs s1 = htabs1 -> rt_tabs s2 = tabs2 -> rt_htabs s2 = htabs2 -> rt_world s1 = rt_world s2 ->
  alike_calls alike (rt_trace s1) (rt_trace s2) ->
  match do_call_catch cb m1 (vals 0) fuel (with_data (fst k) v) s1, do_call_catch cb m2 (vals 0) fuel (with_data (snd k) v) s2 with
  | Done o1 s1', Done o2 s2' => o1 = o2 /\ rt_world s1' = rt_world s2' /\ alike_calls alike (rt_trace s1') (rt_trace s2') /\
      (exists c' vals', In c' l /\ vals' 0 = vals 0 /\ realizes vals' (fst c') s1' /\ realizes vals' (snd c') s2') /\
      rt_tabs s1' = tabs1 /\ rt_htabs s1' = htabs1 /\ rt_tabs s2' = tabs2 /\ rt_htabs s2' = htabs2
  | Undef _, Undef _ => True
  | _, _ => False
  end.
Proof.
  intros Hb Hc Hin Hk R1 R2 T1 H1 T2 H2 Ew Etr. destruct (no_deps calls Hs k Hk) as [D1 D2]. destruct (Hc _ Hin k Hk) as (a & Ea & Ia). set (n := unused c) in *.
  assert (N1 : forall i, In i (snd (fst c)) -> i < n) by (intros i Hi; apply unused_bound; now left).
  assert (N2 : forall i, In i (snd (snd c)) -> i < n) by (intros i Hi; apply unused_bound; now right).
  destruct (data_tree m1 fuel tabs1 htabs1 (fst c) (fst k) n N1) as (t1 & F1 & Ht1). destruct (data_tree m2 fuel tabs2 htabs2 (snd c) (snd k) n N2) as (t2 & F2 & Ht2).
  assert (M : matches alike a t1 t2).
  { refine (compare_data_matches alike m1 m2 fuel tabs1 tabs2 htabs1 htabs2 depth c k n [] [] [] t1 t2 (S n) a _ _ Ea); (split; [assumption|]); intros q; cbn [app].
    - exact (Ht1 _ _ numbering (fun i => i) (at_place tabs1 htabs1 (fst c) (Some q, S n)) eq_refl eq_refl (realizes_place _ _ _ _ (realizes_well _ _ _ R1))).
    - exact (Ht2 _ _ numbering (fun i => i) (at_place tabs2 htabs2 (snd c) (Some q, S n)) eq_refl eq_refl (realizes_place _ _ _ _ (realizes_well _ _ _ R2))). }
  set (vals1 := ext vals n v). assert (E0 : vals1 0 = vals 0) by (apply ext_zero; unfold n, unused; lia). assert (En : vals1 n = v) by (unfold vals1, ext; now rewrite Nat.eqb_refl).
  pose proof (matches_runs alike cb a t1 t2 Hb M (S n) vals1 (rt_world s1) _ _ (Nat.lt_0_succ n) Etr) as R.
  rewrite <- (Ht1 _ _ cb vals1 s1 T1 H1 (realizes_ext _ _ _ _ _ N1 R1)) in R. rewrite Ew, <- (Ht2 _ _ cb vals1 s2 T2 H2 (realizes_ext _ _ _ _ _ N2 R2)) in R. rewrite E0, En in R.
  destruct (do_call_catch cb m1 (vals 0) fuel (with_data (fst k) v) s1) as [o1 s1'| | |] eqn:E1, (do_call_catch cb m2 (vals 0) fuel (with_data (snd k) v) s2) as [o2 s2'| | |] eqn:E2; auto.
  destruct R as (A & B & C & (c' & vals' & Ic & Ev & X1 & X2)). rewrite <- (dep_with_data _ v) in D1. rewrite <- (dep_with_data _ v) in D2. destruct (tabs_stay _ _ _ _ _ _ _ _ D1 E1), (tabs_stay _ _ _ _ _ _ _ _ D2 E2).
  split; [exact A|]. split; [exact B|]. split; [exact C|]. split; [exists c', vals'; auto|]. repeat split; congruence.
Qed.
Lemma alike_runs {V W} (cb : cbfun V W) depth l : unseeing alike cb -> closed_data depth l -> forall ks vals c s1 s2, (forall k, In k ks -> In (fst k) calls) -> In c l ->
  realizes vals (fst c) s1 -> realizes vals (snd c) s2 ->
  rt_tabs s1 = tabs1 -> rt_htabs s1 = htabs1 -> rt_tabs s2 = tabs2 -> rt_htabs s2 = htabs2 -> rt_world s1 = rt_world s2 ->
  alike_calls alike (rt_trace s1) (rt_trace s2) ->
  like_run alike (run cb m1 (vals 0) fuel (for_first ks) s1) (run cb m2 (vals 0) fuel (for_second ks) s2).
Proof.
  intros Hb Hc. induction ks as [|k ks IH]; intros vals c s1 s2 Hks Hin R1 R2 T1 H1 T2 H2 Ew Etr; cbn [for_first for_second map run]; [cbn; auto|].
  pose proof (alike_step cb depth l (fst k) (snd k) vals c s1 s2 Hb Hc Hin (Hks k (or_introl eq_refl)) R1 R2 T1 H1 T2 H2 Ew Etr) as C.
  destruct (do_call_catch cb m1 (vals 0) fuel (with_data (fst (fst k)) (snd k)) s1) as [o1 s1'| | |], (do_call_catch cb m2 (vals 0) fuel (with_data (snd (fst k)) (snd k)) s2) as [o2 s2'| | |]; try contradiction; cbn [bind]; [|exact I].
  destruct C as (-> & A & B & (c' & vals' & C & Ev & X1 & X2) & D1 & D2 & D3 & D4). specialize (IH vals' c' s1' s2' (fun k' H => Hks k' (or_intror H)) C X1 X2 D1 D2 D3 D4 A B). rewrite Ev in IH. unfold for_first, for_second in IH.
  match goal with |- like_run _ (bind ?x _) (bind ?y _) => destruct x as [os1 s1''| | |], y as [os2 s2''| | |] end; try contradiction; cbn [bind]; [|exact I].
  cbn in IH |- *. destruct IH as (-> & IH). auto.
Qed.
Lemma fresh_places_in l : forall seen n, In n (fresh_places seen l) -> In n l.
Proof.
  induction l as [|x l IH]; intros seen n; cbn [fresh_places]; [tauto|]. destruct (in_dec places_eq_dec x seen); cbn.
  - intros H. right. eapply IH, H.
  - intros [H|H]; [now left|]. right. eapply IH, H.
Qed.
Lemma fresh_places_all l : forall seen n, In n l -> In n seen \/ In n (fresh_places seen l).
Proof.
  induction l as [|x l IH]; intros seen n; cbn [fresh_places]; [intros []|]. intros [->|H]; destruct (in_dec places_eq_dec _ seen) as [i|i]; auto.
  - right. now left.
  - destruct (IH (x :: seen) n H) as [[->|H']|H']; auto; right; [now left|now right].
Qed.
Lemma compare_all_data_in depth c : forall ks a, compare_all depth ks c = VSame a -> forall k, In k ks -> exists b, compare depth c k (unused c) [] = VSame b /\ incl b a.
Proof.
  induction ks as [|k0 ks IH]; intros a; cbn [compare_all_data]; [intros _ k []|]. intros E k [<-|Hk].
  - apply both_same in E as (x & y & E & _ & ->). exists x. split; [exact E|]. now apply incl_appl, incl_refl.
  - apply both_same in E as (x & y & _ & E & ->). destruct (IH y E k Hk) as (b & Eb & I). exists b. split; [exact Eb|]. now apply incl_appr.
Qed.
Lemma compare_all_data_from depth c : forall ks a x, compare_all depth ks c = VSame a -> In x a -> exists k b, In k ks /\ compare depth c k (unused c) [] = VSame b /\ In x b.
Proof.
  induction ks as [|k0 ks IH]; intros a x; cbn [compare_all_data]; [intros [= <-] []|]. intros E Hx. apply both_same in E as (u & v & E1 & E2 & ->). apply in_app_or in Hx as [Hx|Hx].
  - exists k0, u. split; [now left|]. now split.
  - destruct (IH v x E2 Hx) as (k & b & Hk & H). exists k, b. split; [now right|exact H].
Qed.
Lemma compare_all_data_differ depth c : forall ks, compare_all depth ks c = VDiffer -> exists k, In k ks /\ compare depth c k (unused c) [] = VDiffer.
Proof.
  induction ks as [|k0 ks IH]; cbn [compare_all_data]; [discriminate|]. intros E. apply both_differ in E as [E|E].
  - exists k0. split; [now left|exact E].
  - destruct (IH E) as (k & Hk & H). exists k. split; [now right|exact H].
Qed.
Lemma close_places_closed depth rounds : forall seen todo l, close rounds depth calls seen todo = VSame l ->
  (forall n, In n seen -> In n todo \/ exists ns, compare_all depth calls n = VSame ns /\ incl ns seen) ->
  incl seen l /\ forall n, In n l -> exists ns, compare_all depth calls n = VSame ns /\ incl ns l.
Proof.
  induction rounds as [|rounds IH]; intros seen todo l; destruct todo as [|n todo]; cbn [close_places]; try discriminate.
  - intros [= <-] H. split; [now intros x|]. intros n Hn. now destruct (H n Hn).
  - intros [= <-] H. split; [now intros x|]. intros n Hn. now destruct (H n Hn).
  - destruct (compare_all depth calls n) as [ns| |] eqn:En; try discriminate. intros E H. destruct (IH _ _ _ E) as [I C].
    + intros n' Hn'. apply in_app_or in Hn' as [Hn'|Hn'].
      * destruct (H n' Hn') as [[<-|Ht]|(ns' & E' & I')].
        -- right. exists ns. split; [exact En|]. intros x Hx. apply in_or_app. now apply fresh_places_all.
        -- left. apply in_or_app. now left.
        -- right. exists ns'. split; [exact E'|]. intros x Hx. apply in_or_app. left. now apply I'.
      * left. apply in_or_app. now right.
    + split; [|exact C]. intros x Hx. apply I, in_or_app. now left.
Qed.

(** ** A script tells them apart *)
Definition reached_places (c : place * place) : Prop := exists script ks f, one_to_one f /\ f 0 = 0 /\ (forall k, In k ks -> In (fst k) calls) /\ forall q, exists outs s1 s2,
  session valued m1 0 fuel d (script ++ q) (for_first ks) = Done outs s1 /\ session valued m2 0 fuel d (script ++ q) (for_second ks) = Done outs s2 /\
  alike_calls alike (rt_trace s1) (rt_trace s2) /\ rt_world s1 = q /\ rt_world s2 = q /\ realizes f (fst c) s1 /\ realizes f (snd c) s2 /\
  rt_tabs s1 = tabs1 /\ rt_htabs s1 = htabs1 /\ rt_tabs s2 = tabs2 /\ rt_htabs s2 = htabs2.
Definition told_apart_data : Prop := exists script (ks : list (call unit * call unit * nat)), (forall k, In k ks -> In (fst k) calls) /\
  unlike_run alike (session valued m1 0 fuel d script (for_first ks)) (session valued m2 0 fuel d script (for_second ks)).

Lemma compare_data_real depth c k n : forall p a x, compare depth c k n p = VSame a -> In x a ->
  exists p' o s1 s2 r1 r2, try1 (fst c) (fst k) n p' = Done o s1 /\ try2 (snd c) (snd k) n p' = Done o s2 /\ same_numbered alike (rt_trace s1) (rt_trace s2) = true /\
    fst (rt_world s1) = Some r1 /\ fst (rt_world s2) = Some r2 /\ x = renumber s1 s2.
Proof.
  induction depth as [|depth IH]; intros p a x; cbn [compare_data];
    destruct (try1 (fst c) (fst k) n p) as [o1 s1|x1 s1|u1|] eqn:E1, (try2 (snd c) (snd k) n p) as [o2 s2|x2 s2|u2|] eqn:E2; try discriminate; try (intros [= <-]; contradiction).
  all: destruct (out_eq_dec o1 o2) as [->|]; [|discriminate]; destruct (same_numbered alike (rt_trace s1) (rt_trace s2)) eqn:Es; [|discriminate];
    destruct (fst (rt_world s1)) as [r1|] eqn:W1, (fst (rt_world s2)) as [r2|] eqn:W2; try discriminate.
  1,2: intros [= <-] [<-|[]]; exists p, o2, s1, s2, r1, r2; auto 8.
  intros E Hn. apply both_same in E as (y & z & Ex & E & ->). apply both_same in E as (z' & t & Ez & Et & ->).
  apply in_app_or in Hn as [Hn|Hn]; [exact (IH _ _ _ Ex Hn)|]. apply in_app_or in Hn as [Hn|Hn]; [exact (IH _ _ _ Ez Hn)|exact (IH _ _ _ Et Hn)].
Qed.
Lemma compare_data_differ depth c k n : forall p, compare depth c k n p = VDiffer -> exists p', unlike_run alike (try1 (fst c) (fst k) n p') (try2 (snd c) (snd k) n p').
Proof.
  assert (B : forall p o1 s1 o2 s2, try1 (fst c) (fst k) n p = Done o1 s1 -> try2 (snd c) (snd k) n p = Done o2 s2 -> ~ (o1 = o2 /\ alike_calls alike (rt_trace s1) (rt_trace s2)) ->
    exists p', unlike_run alike (try1 (fst c) (fst k) n p') (try2 (snd c) (snd k) n p')) by (intros p o1 s1 o2 s2 E1 E2 H; exists p; now rewrite E1, E2).
  induction depth as [|depth IH]; intros p; cbn [compare_data];
    destruct (try1 (fst c) (fst k) n p) as [o1 s1|x1 s1|u1|] eqn:E1, (try2 (snd c) (snd k) n p) as [o2 s2|x2 s2|u2|] eqn:E2; try discriminate;
    try (intros _; exists p; rewrite E1, E2; exact I).
  all: destruct (out_eq_dec o1 o2) as [<-|]; [|intros _; apply (B _ _ _ _ _ E1 E2); tauto]; destruct (same_numbered alike (rt_trace s1) (rt_trace s2)) eqn:Es;
    [|intros _; apply (B _ _ _ _ _ E1 E2); intros [_ H]; apply same_numbered_alike in H; congruence]; destruct (fst (rt_world s1)) as [r1|] eqn:W1, (fst (rt_world s2)) as [r2|] eqn:W2; try discriminate.
  intros E. apply both_differ in E as [E|E]; [exact (IH _ E)|]. apply both_differ in E as [E|E]; exact (IH _ E).
Qed.
(** New names for the numbers, still one to one. *)
Definition names (f : nat -> nat) (l : list nat) : nat -> nat := fun j => if Nat.ltb j (length l) then f (nth j l 0) else S (list_max (map f l)) + j.
Lemma names_one f l : one_to_one f -> NoDup l -> one_to_one (names f l).
Proof.
  intros Hf Hl i j. unfold names.
  assert (B : forall i, i < length l -> f (nth i l 0) <= list_max (map f l)).
  { intros x Hx. assert (F : Forall (fun k => k <= list_max (map f l)) (map f l)) by now apply list_max_le. rewrite Forall_forall in F. apply F, in_map, nth_In, Hx. }
  destruct (Nat.ltb_spec i (length l)) as [Hi|Hi], (Nat.ltb_spec j (length l)) as [Hj|Hj]; intros E.
  - apply Hf in E. now apply (NoDup_nth l 0) in E.
  - specialize (B i Hi). lia.
  - specialize (B j Hj). lia.
  - lia.
Qed.
Lemma rank_less l : forall i, In i l -> rank l i < length l.
Proof. induction l as [|x l IH]; cbn; [intros i []|]. intros i. destruct (Nat.eqb_spec x i); [lia|]. intros [E|H]; [contradiction|]. specialize (IH i H). lia. Qed.
Lemma names_rank f l a : (forall i, In i a -> In i l) -> map (names f l) (map (rank l) a) = map f a.
Proof.
  intros H. rewrite map_map. apply map_ext_in. intros i Hi. unfold names. destruct (Nat.ltb_spec (rank l i) (length l)) as [|L]; [now rewrite rank_nth by auto|].
  pose proof (rank_less l i (H i Hi)). lia.
Qed.
Lemma used_nodup a b : NoDup (used a b).
Proof.
  unfold used. constructor; [|apply NoDup_nodup]. intros H. apply nodup_In, filter_In in H as [_ H]. discriminate.
Qed.
Lemma places_step depth c a x : reached_places c -> compare_all depth calls c = VSame a -> In x a -> reached_places x.
Proof.
  intros (script & ks & f & Hf & Hf0 & Hks & Hr) Ea Hx. destruct (compare_all_data_from _ _ _ _ _ Ea Hx) as (k & b & Hk & Eb & Hb). destruct (no_deps calls Hs k Hk) as [D1 D2]. set (n := unused c) in *.
  assert (N1 : forall i, In i (snd (fst c)) -> i < n) by (intros i Hi; apply unused_bound; now left).
  assert (N2 : forall i, In i (snd (snd c)) -> i < n) by (intros i Hi; apply unused_bound; now right).
  assert (Hw : well (fst c) /\ well (snd c)) by (destruct (Hr []) as (outs & s1 & s2 & _ & _ & _ & _ & _ & X1 & X2 & _); split; eapply realizes_well; eassumption). destruct Hw as [Hw1 Hw2].
  destruct (compare_data_real _ _ _ _ _ _ _ Eb Hb) as (p & o & a1 & a2 & r1 & r2 & E1 & E2 & Es & W1 & W2 & ->). apply same_numbered_alike in Es.
  pose proof (script_try m1 fuel tabs1 htabs1 (fst c) (fst k) n p Hw1 N1) as S1. pose proof (script_try m2 fuel tabs2 htabs2 (snd c) (snd k) n p Hw2 N2) as S2.
  rewrite E1 in S1. rewrite E2 in S2. destruct S1 as [_ S1], S2 as [_ S2]. destruct (S1 _ W1) as [_ S1']. destruct (S2 _ W2) as [_ S2']. clear S1 S2.
  rewrite <- (alike_length _ _ _ Es) in S2'. set (p0 := firstn (length (rt_trace a1)) p) in *.
  exists (script ++ zip f (S n) p0), (ks ++ [(k, f n)]), (names f (used (numbers a1) (numbers a2))). split; [apply names_one; [exact Hf|apply used_nodup]|]. split; [exact Hf0|].
  split; [intros k' Hk'; apply in_app_or in Hk' as [Hk'|[<-|[]]]; auto|]. intros q.
  destruct (Hr (zip f (S n) p0 ++ q)) as (outs & s1 & s2 & R1 & R2 & Et & V1 & V2 & C1 & C2 & T1 & H1 & T2 & H2). unfold for_first, for_second. rewrite <- app_assoc, !map_app. cbn [map fst snd].
  destruct (S1' f q s1 T1 H1 C1 V1) as (s1' & X1 & Y1 & Z1 & U1 & Q1). destruct (S2' f q s2 T2 H2 C2 V2) as (s2' & X2 & Y2 & Z2 & U2 & Q2). rewrite Hf0 in X1, X2.
  rewrite <- (dep_with_data _ (f n)) in D1. rewrite <- (dep_with_data _ (f n)) in D2. destruct (tabs_stay _ _ _ _ _ _ _ _ D1 X1), (tabs_stay _ _ _ _ _ _ _ _ D2 X2).
  exists (outs ++ [o]), s1', s2'. rewrite (session_and _ _ _ _ _ _ _ _ _ _ R1), (session_and _ _ _ _ _ _ _ _ _ _ R2), X1, X2. cbn [bind fst snd].
  split; [reflexivity|]. split; [reflexivity|]. split; [rewrite Y1, Y2; apply Forall2_app; [exact Et|now apply alike_with]|].
  split; [exact Z1|]. split; [exact Z2|]. split; [split; [exact U1|]; rewrite Q1; cbn [renumber fst snd]; symmetry; apply names_rank; intros i Hi; apply used_in, in_or_app; now left|].
  split; [split; [exact U2|]; rewrite Q2; cbn [renumber fst snd]; symmetry; apply names_rank; intros i Hi; apply used_in, in_or_app; now right|]. repeat split; congruence.
Qed.
Lemma places_differ depth c : reached_places c -> compare_all depth calls c = VDiffer -> told_apart_data.
Proof.
  intros (script & ks & f & Hf & Hf0 & Hks & Hr) Ea. destruct (compare_all_data_differ _ _ _ Ea) as (k & Hk & Eb). set (n := unused c) in *.
  assert (N1 : forall i, In i (snd (fst c)) -> i < n) by (intros i Hi; apply unused_bound; now left).
  assert (N2 : forall i, In i (snd (snd c)) -> i < n) by (intros i Hi; apply unused_bound; now right).
  destruct (compare_data_differ _ _ _ _ _ Eb) as (p & Hd).
  destruct (Hr (zip f (S n) p ++ [(Fail 0, 0)])) as (outs & s1 & s2 & R1 & R2 & Et & V1 & V2 & C1 & C2 & T1 & H1 & T2 & H2).
  pose proof (script_try m1 fuel tabs1 htabs1 (fst c) (fst k) n p (realizes_well _ _ _ C1) N1) as S1. pose proof (script_try m2 fuel tabs2 htabs2 (snd c) (snd k) n p (realizes_well _ _ _ C2) N2) as S2.
  exists (script ++ zip f (S n) p ++ [(Fail 0, 0)]), (ks ++ [(k, f n)]). split; [intros k' Hk'; apply in_app_or in Hk' as [Hk'|[<-|[]]]; auto|].
  unfold for_first, for_second. rewrite !map_app. cbn [map fst snd]. rewrite (session_and _ _ _ _ _ _ _ _ _ _ R1), (session_and _ _ _ _ _ _ _ _ _ _ R2).
  destruct (try1 (fst c) (fst k) n p) as [o1 a1|x1 a1|u1|] eqn:E1, (try2 (snd c) (snd k) n p) as [o2 a2|x2 a2|u2|] eqn:E2; cbn in Hd; try contradiction.
  - destruct S1 as [S1 _], S2 as [S2 _]. destruct (S1 f [] 0 s1 T1 H1 C1 V1) as (s1' & X1 & Y1). destruct (S2 f [] 0 s2 T2 H2 C2 V2) as (s2' & X2 & Y2). rewrite Hf0 in X1, X2. rewrite X1, X2.
    cbn [bind unlike_run]. intros [E F]. apply Hd. split; [now apply app_inj_tail in E as [_ E]|]. rewrite Y1, Y2 in F. apply alike_app in F; [|exact Et]. now apply alike_without in F.
  - destruct S1 as [S1 _]. destruct (S1 f [] 0 s1 T1 H1 C1 V1) as (s1' & X1 & Y1). specialize (S2 f [(Fail 0, 0)] s2 T2 H2 C2 V2). rewrite Hf0 in X1, S2. rewrite X1, S2. exact I.
  - destruct S2 as [S2 _]. destruct (S2 f [] 0 s2 T2 H2 C2 V2) as (s2' & X2 & Y2). specialize (S1 f [(Fail 0, 0)] s1 T1 H1 C1 V1). rewrite Hf0 in X2, S1. rewrite X2, S1. exact I.
Qed.
Lemma close_places_differ depth rounds : forall seen todo, close rounds depth calls seen todo = VDiffer -> (forall n, In n todo -> reached_places n) -> told_apart_data.
Proof.
  induction rounds as [|rounds IH]; intros seen todo; destruct todo as [|n todo]; cbn [close_places]; try discriminate.
  destruct (compare_all depth calls n) as [ns| |] eqn:En; try discriminate; intros E H.
  - apply (IH _ _ E). intros x Hx. apply in_app_or in Hx as [Hx|Hx]; [apply H; now right|]. apply (places_step depth n ns); [apply H; now left|exact En|]. eapply fresh_places_in, Hx.
  - apply (places_differ depth n); [apply H; now left|exact En].
Qed.
End Pairs.

Lemma construct_empty {V W} m fuel d (w : W) s : construct (V:=V) m fuel d w = Done tt s -> rt_trace s = [] /\ rt_world s = w /\ rt_queue s = [].
Proof.
  unfold construct. destruct (if cd_unexpected _ then _ else _) as [h|]; [|discriminate]. destruct (fill_dispatch _ _ _) as [t|]; [|discriminate].
  unfold init_current_state. destruct (nth_at _ _) as [l|]; [|discriminate].
  set (s1 := mkRt _ _ _ _ _ _ _ _ _). assert (H1 : rt_trace s1 = [] /\ rt_world s1 = w /\ rt_queue s1 = []) by now repeat split.
  assert (Hi : forall f r (s s' : rt V W), rt_trace s = [] /\ rt_world s = w /\ rt_queue s = [] -> init_loop f l r s = Done tt s' -> rt_trace s' = [] /\ rt_world s' = w /\ rt_queue s' = []).
  { clear. induction f as [|f IH]; intros r s s' H; cbn [init_loop]; [discriminate|]. destruct (Nat.ltb _ _); [|intros [= <-]; exact H].
    destruct (nth_error l r) as [c|]; [|discriminate]. unfold write_cur. destruct (upd_nth _ _ _); cbn [bind]; [|discriminate]. now apply IH. }
  destruct (init_loop fuel l 0 s1) as [[] s2| | |] eqn:E; cbn [bind]; try discriminate. pose proof (Hi _ _ _ _ H1 E) as H2. clear -H2.
  unfold update_current_regions, current_parent, read_cur. destruct (parallel m); [|intros [= <-]; exact H2].
  destruct (nth_error (rt_cur s2) 0) as [[c|]|]; cbn [bind]; try discriminate. destruct (nth_at _ _); [|discriminate]. intros [= <-]. exact H2.
Qed.

(** Nothing tells two machines apart if the verdict is [true]. *)
Theorem compare_data_sound alike m1 m2 fuel depth rounds d calls : compare_with_data alike m1 m2 fuel depth rounds d calls = Some true ->
  forall V W (cb : cbfun V W) vnone w ks, unseeing alike cb -> (forall k, In k ks -> In (fst k) calls) ->
  like_run alike (session cb m1 vnone fuel d w (for_first ks)) (session cb m2 vnone fuel d w (for_second ks)).
Proof.
  unfold compare_with_data. destruct (existsb _ calls) eqn:Es; [discriminate|]. intros E V W cb vnone w ks Hb Hks. unfold session.
  pose proof (construct_s (V := V) (W := W) (X := unit) m1 fuel d w tt) as C1. pose proof (construct_s (V := V) (W := W) (X := unit) m2 fuel d w tt) as C2.
  rewrite C1, C2 in E. clear C1 C2.
  destruct (construct m1 fuel d w) as [[] s1|x1 s1|u1|] eqn:E1, (construct m2 fuel d w) as [[] s2|x2 s2|u2|] eqn:E2; try discriminate; cbn [bind]; [|exact I].
  rewrite !config_bare in E. cbn [bare_from rt_tabs rt_htabs] in E.
  destruct (close_places _ _ _ _ _ _ _ _ _ _ _ _ _) as [l| |] eqn:El; try discriminate.
  destruct (close_places_closed _ _ _ _ calls _ _ _ _ _ _ _ _ _ El) as [I Cl]; [intros n Hn; now left|].
  destruct (construct_empty _ _ _ _ _ E1) as (A1 & B1 & Q1), (construct_empty _ _ _ _ _ E2) as (A2 & B2 & Q2).
  refine (alike_runs alike m1 m2 fuel calls Es (rt_tabs s1) (rt_tabs s2) (rt_htabs s1) (rt_htabs s2) cb depth l Hb _ ks (fun _ => vnone) ((config_of s1, []), (config_of s2, [])) s1 s2 Hks _ _ _ eq_refl eq_refl eq_refl eq_refl _ _).
  - intros n Hn k Hk. destruct (Cl n Hn) as (ns & En & In'). destruct (compare_all_data_in _ _ _ _ _ _ _ _ _ _ _ _ En k Hk) as (b & Eb & Ib).
    exists b. split; [exact Eb|]. intros x Hx. now apply In', Ib.
  - apply I. now left.
  - split; [reflexivity|]. now rewrite Q1.
  - split; [reflexivity|]. now rewrite Q2.
  - congruence.
  - rewrite A1, A2. constructor.
Qed.
(** Where both start. *)
Lemma construct_unit m fuel d (q : list (reply * nat)) : match construct (V:=nat) m fuel d q with
    | Done _ s => exists s', construct (V:=unit) m fuel d tt = Done tt s' /\ config_of s' = config_of s /\ rt_tabs s' = rt_tabs s /\ rt_htabs s' = rt_htabs s /\
        rt_trace s = [] /\ rt_world s = q /\ rt_queue s = []
    | Threw x _ => exists s', construct (V:=unit) m fuel d tt = Threw x s'
    | Undef u => construct (V:=unit) m fuel d tt = Undef u
    | Timeout => construct (V:=unit) m fuel d tt = Timeout
    end.
Proof.
  pose proof (construct_s (V := nat) (W := list (reply * nat)) (X := unit) m fuel d q tt) as C. rewrite C. clear C. destruct (construct m fuel d q) as [[] s|x s|u|] eqn:E; eauto.
  eexists. split; [reflexivity|]. rewrite config_bare. split; [reflexivity|]. split; [reflexivity|]. split; [reflexivity|]. now apply (construct_empty m fuel d q).
Qed.
Lemma start_places alike m1 m2 fuel d calls s1 s2 : construct (V:=unit) m1 fuel d tt = Done tt s1 -> construct (V:=unit) m2 fuel d tt = Done tt s2 ->
  reached_places alike m1 m2 fuel d calls (rt_tabs s1) (rt_tabs s2) (rt_htabs s1) (rt_htabs s2) ((config_of s1, []), (config_of s2, [])).
Proof.
  intros E1 E2. exists [], [], (fun i => i). split; [intros i j H; exact H|]. split; [reflexivity|]. split; [intros k []|]. intros q. cbn [app for_first for_second map]. unfold session.
  pose proof (construct_unit m1 fuel d q) as C1. pose proof (construct_unit m2 fuel d q) as C2. rewrite E1 in C1. rewrite E2 in C2.
  destruct (construct (V:=nat) m1 fuel d q) as [[] t1| | |]; try discriminate; [|destruct C1; discriminate].
  destruct (construct (V:=nat) m2 fuel d q) as [[] t2| | |]; try discriminate; [|destruct C2; discriminate]. cbn [bind run].
  destruct C1 as (s1' & [= <-] & A1 & A2 & A3 & A4 & A5 & A6), C2 as (s2' & [= <-] & B1 & B2 & B3 & B4 & B5 & B6).
  eexists _, _, _. split; [reflexivity|]. split; [reflexivity|]. rewrite A4, B4. split; [constructor|]. split; [exact A5|]. split; [exact B5|].
  split; [split; [easy|]; now rewrite A6|]. split; [split; [easy|]; now rewrite B6|]. auto.
Qed.
(** Numbers and a script tell them apart if it is [false]. *)
Theorem compare_data_complete alike m1 m2 fuel depth rounds d calls : compare_with_data alike m1 m2 fuel depth rounds d calls = Some false ->
  told_apart_data alike m1 m2 fuel d calls.
Proof.
  unfold compare_with_data. destruct (existsb _ calls) eqn:Es; [discriminate|].
  destruct (construct (V:=unit) m1 fuel d tt) as [[] s1|x1 s1|u1|] eqn:E1, (construct (V:=unit) m2 fuel d tt) as [[] s2|x2 s2|u2|] eqn:E2; try discriminate.
  - destruct (close_places _ _ _ _ _ _ _ _ _ _ _ _ _) as [l| |] eqn:El; try discriminate. intros _.
    refine (close_places_differ alike m1 m2 fuel d calls Es _ _ _ _ depth rounds _ _ El _). intros n [<-|[]]. now apply start_places.
  - intros _. exists [], []. split; [intros k []|]. unfold session. cbn [for_first for_second map]. pose proof (construct_unit m1 fuel d []) as C1. pose proof (construct_unit m2 fuel d []) as C2. rewrite E1 in C1. rewrite E2 in C2.
    destruct (construct (V:=nat) m1 fuel d []) as [[] t1| | |]; try discriminate; [|destruct C1; discriminate].
    destruct (construct (V:=nat) m2 fuel d []) as [[] t2| | |]; try discriminate; [destruct C2 as (? & ? & _); discriminate|destruct C2; discriminate|]. exact I.
  - intros _. exists [], []. split; [intros k []|]. unfold session. cbn [for_first for_second map]. pose proof (construct_unit m1 fuel d []) as C1. pose proof (construct_unit m2 fuel d []) as C2. rewrite E1 in C1. rewrite E2 in C2.
    destruct (construct (V:=nat) m2 fuel d []) as [[] t2| | |]; try discriminate; [|destruct C2; discriminate].
    destruct (construct (V:=nat) m1 fuel d []) as [[] t1| | |]; try discriminate; [destruct C1 as (? & ? & _); discriminate|destruct C1; discriminate|]. exact I.
Qed.
