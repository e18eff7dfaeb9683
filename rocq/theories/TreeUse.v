(** What user code can and cannot cause. *)

From Coq Require Import List Arith NArith Bool Lia.
From Verif Require Import Types Static Dispatch Runtime TermFacts Data DataUse Script Explore ExploreUse Tree Equiv.
Import ListNotations.

(** The answers user code gives to a list of calls, one after the other. *)
Fixpoint hear {W} (cb : cbfun unit W) (w : W) (l : list (called unit)) : list reply * W :=
  match l with
  | [] => ([], w)
  | x :: l' =>
      match cb (k_callee x) (k_args x) (k_payload x) w with
      | Ret b _ w' => (Say b :: fst (hear cb w' l'), snd (hear cb w' l'))
      | Raise n _ w' => (Fail n :: fst (hear cb w' l'), snd (hear cb w' l'))
      end
  end.
Definition answers {W} (cb : cbfun unit W) (w : W) (l : list (called unit)) : list reply := fst (hear cb w l).
Lemma hear_app {W} (cb : cbfun unit W) l : forall w l', hear cb w (l ++ l') = (answers cb w l ++ answers cb (snd (hear cb w l)) l', snd (hear cb (snd (hear cb w l)) l')).
Proof.
  unfold answers. induction l as [|x l IH]; intros w l'; cbn [hear app fst snd]; [now destruct (hear cb w l')|].
  destruct (cb (k_callee x) (k_args x) (k_payload x) w) as [b v w'|n v w']; rewrite IH; reflexivity.
Qed.
Lemma answers_length {W} (cb : cbfun unit W) l : forall w, length (answers cb w l) = length l.
Proof.
  unfold answers. induction l as [|x l IH]; intros w; cbn [hear]; [reflexivity|]. destruct (cb _ _ _ w); cbn; now rewrite IH.
Qed.

(** Two lists of calls with their answers: the same, or the same up to a call that was
    answered differently. *)
Inductive parting : list (called unit) -> list reply -> list (called unit) -> list reply -> Prop :=
| part T A x y1 y2 T1 T2 A1 A2 : length T = length A -> y1 <> y2 -> parting (T ++ x :: T1) (A ++ y1 :: A1) (T ++ x :: T2) (A ++ y2 :: A2).
Lemma parting_spec T1 A1 T2 A2 : parting T1 A1 T2 A2 -> exists before x after1 after2 a y1 y2 a1 a2, T1 = before ++ x :: after1 /\ T2 = before ++ x :: after2 /\ length before = length a /\
  A1 = a ++ y1 :: a1 /\ A2 = a ++ y2 :: a2 /\ y1 <> y2.
Proof. intros H. destruct H as [T A x y1 y2 T1 T2 A1 A2 E N]. exists T, x, T1, T2, A, y1, y2, A1, A2. auto 8. Qed.
Lemma parting_front T A T1 A1 T2 A2 : length T = length A -> parting T1 A1 T2 A2 -> parting (T ++ T1) (A ++ A1) (T ++ T2) (A ++ A2).
Proof. intros E H. destruct H. rewrite !app_assoc. constructor; [rewrite !app_length; lia|assumption]. Qed.
Lemma parting_behind T1 A1 T2 A2 B1 C1 B2 C2 : parting T1 A1 T2 A2 -> parting (T1 ++ B1) (A1 ++ C1) (T2 ++ B2) (A2 ++ C2).
Proof. intros H. destruct H. rewrite <- !app_assoc. cbn [app]. now constructor. Qed.

(** One call with two kinds of user code. *)
Definition apart {W1 W2} (cb1 : cbfun unit W1) (w1 : W1) (cb2 : cbfun unit W2) (w2 : W2) (same : Prop) (T1 T2 : list (called unit)) : Prop :=
  same /\ T1 = T2 /\ answers cb1 w1 T1 = answers cb2 w2 T2 \/ parting T1 (answers cb1 w1 T1) T2 (answers cb2 w2 T2).
Lemma tree_grows {W} (cb : cbfun unit W) (t : tree out) : forall w tr,
  match caught (interp cb t w tr) with
  | Done o s => exists T, rt_trace s = tr ++ T /\ rt_world s = snd (hear cb w T)
  | _ => True
  end.
Proof.
  induction t as [a|g a x yes IHy no IHn]; intros w tr.
  - rewrite caught_leaf. destruct (value a) as [[o x]|] eqn:E; [|destruct a; exact I]. exists []. cbn. now rewrite app_nil_r.
  - cbn [interp]. destruct (cb g a tt w) as [[|] v w'|n v w'] eqn:E.
    + specialize (IHy w' (tr ++ [mkCall g a tt])). destruct (caught _); auto. destruct IHy as (T & A & B). exists (mkCall g a tt :: T). rewrite A, <- app_assoc. cbn. now rewrite E.
    + specialize (IHn w' (tr ++ [mkCall g a tt])). destruct (caught _); auto. destruct IHn as (T & A & B). exists (mkCall g a tt :: T). rewrite A, <- app_assoc. cbn. now rewrite E.
    + cbn. exists [mkCall g a tt]. cbn. now rewrite E.
Qed.
Lemma tree_apart {W1 W2} (cb1 : cbfun unit W1) (cb2 : cbfun unit W2) (t : tree out) : forall w1 w2 tr1 tr2,
  match caught (interp cb1 t w1 tr1), caught (interp cb2 t w2 tr2) with
  | Done o1 s1, Done o2 s2 => exists T1 T2, rt_trace s1 = tr1 ++ T1 /\ rt_trace s2 = tr2 ++ T2 /\
      rt_world s1 = snd (hear cb1 w1 T1) /\ rt_world s2 = snd (hear cb2 w2 T2) /\
      apart cb1 w1 cb2 w2 (o1 = o2 /\ still s1 = still s2) T1 T2
  | _, _ => True
  end.
Proof.
  assert (U : forall v : unit, v = tt) by now intros [].
  induction t as [a|g a x yes IHy no IHn]; intros w1 w2 tr1 tr2.
  - rewrite !caught_leaf. destruct (value a) as [[o x]|] eqn:E; [|destruct a; exact I].
    exists [], []. cbn. rewrite !app_nil_r. split; [reflexivity|]. split; [reflexivity|]. split; [reflexivity|]. split; [reflexivity|]. left. now repeat split.
  - cbn [interp].
    assert (G : forall (t : tree out) b v1 v2 w1' w2', cb1 g a tt w1 = Ret b v1 w1' -> cb2 g a tt w2 = Ret b v2 w2' ->
      (forall w1 w2 tr1 tr2, match caught (interp cb1 t w1 tr1), caught (interp cb2 t w2 tr2) with
        | Done o1 s1, Done o2 s2 => exists T1 T2, rt_trace s1 = tr1 ++ T1 /\ rt_trace s2 = tr2 ++ T2 /\
          rt_world s1 = snd (hear cb1 w1 T1) /\ rt_world s2 = snd (hear cb2 w2 T2) /\ apart cb1 w1 cb2 w2 (o1 = o2 /\ still s1 = still s2) T1 T2
        | _, _ => True end) ->
      match caught (interp cb1 t w1' (tr1 ++ [mkCall g a tt])), caught (interp cb2 t w2' (tr2 ++ [mkCall g a tt])) with
      | Done o1 s1, Done o2 s2 => exists T1 T2, rt_trace s1 = tr1 ++ T1 /\ rt_trace s2 = tr2 ++ T2 /\
          rt_world s1 = snd (hear cb1 w1 T1) /\ rt_world s2 = snd (hear cb2 w2 T2) /\ apart cb1 w1 cb2 w2 (o1 = o2 /\ still s1 = still s2) T1 T2
      | _, _ => True end).
    { clear IHy IHn. intros t b v1 v2 w1' w2' E1 E2 IH. specialize (IH w1' w2' (tr1 ++ [mkCall g a tt]) (tr2 ++ [mkCall g a tt])).
      destruct (caught (interp cb1 t w1' (tr1 ++ [mkCall g a tt]))) as [o1 s1| | |]; auto. destruct (caught (interp cb2 t w2' (tr2 ++ [mkCall g a tt]))) as [o2 s2| | |]; auto.
      destruct IH as (T1 & T2 & H1 & H2 & H3 & H4 & H5). exists (mkCall g a tt :: T1), (mkCall g a tt :: T2). rewrite H1, H2, <- !app_assoc. cbn [app].
      split; [reflexivity|]. split; [reflexivity|]. cbn [hear k_callee k_args k_payload]. rewrite E1, E2. cbn [snd]. split; [exact H3|]. split; [exact H4|].
      unfold apart, answers. cbn [hear k_callee k_args k_payload]. rewrite E1, E2. cbn [fst]. destruct H5 as [(A & B & C)|H5].
      - left. split; [exact A|]. unfold answers in C. now rewrite C, B.
      - right. exact (parting_front [mkCall g a tt] [Say b] _ _ _ _ eq_refl H5). }
    assert (Y : forall {W} (cb : cbfun unit W) w tr, match caught (interp cb (Ask g a x yes no) w tr) with
      | Done o s => exists T, rt_trace s = tr ++ mkCall g a tt :: T /\ rt_world s = snd (hear cb w (mkCall g a tt :: T)) | _ => True end).
    { intros W cb w tr. cbn [interp hear k_callee k_args k_payload]. destruct (cb g a tt w) as [b v w'|n v w'].
      - pose proof (tree_grows cb (if b then yes else no) w' (tr ++ [mkCall g a tt])) as H. destruct (caught _); auto. destruct H as (T & A & B). exists T. rewrite A, <- app_assoc. auto.
      - cbn. now exists []. }
    pose proof (Y _ cb1 w1 tr1) as Y1. pose proof (Y _ cb2 w2 tr2) as Y2. cbn [interp] in Y1, Y2. clear Y.
    assert (Hd : forall b1 b2, fst (hear cb1 w1 [mkCall g a tt]) = [b1] -> fst (hear cb2 w2 [mkCall g a tt]) = [b2] -> b1 <> b2 ->
      forall T1 T2, parting (mkCall g a tt :: T1) (answers cb1 w1 (mkCall g a tt :: T1)) (mkCall g a tt :: T2) (answers cb2 w2 (mkCall g a tt :: T2))).
    { intros b1 b2 F1 F2 Hne T1 T2. unfold answers. change (mkCall g a tt :: T1) with ([mkCall g a tt] ++ T1) at 2. change (mkCall g a tt :: T2) with ([mkCall g a tt] ++ T2) at 2.
      rewrite !hear_app. unfold answers. cbn [fst]. rewrite F1, F2. cbn [app]. now apply (part [] []). }
    assert (D : forall b1 b2, fst (hear cb1 w1 [mkCall g a tt]) = [b1] -> fst (hear cb2 w2 [mkCall g a tt]) = [b2] -> b1 <> b2 -> forall o1 s1 o2 s2,
      (exists T, rt_trace s1 = tr1 ++ mkCall g a tt :: T /\ rt_world s1 = snd (hear cb1 w1 (mkCall g a tt :: T))) ->
      (exists T, rt_trace s2 = tr2 ++ mkCall g a tt :: T /\ rt_world s2 = snd (hear cb2 w2 (mkCall g a tt :: T))) ->
      exists T1 T2, rt_trace s1 = tr1 ++ T1 /\ rt_trace s2 = tr2 ++ T2 /\
          rt_world s1 = snd (hear cb1 w1 T1) /\ rt_world s2 = snd (hear cb2 w2 T2) /\ apart cb1 w1 cb2 w2 ((o1 : out) = o2 /\ still s1 = still s2) T1 T2).
    { intros b1 b2 F1 F2 Hne o1 s1 o2 s2 (T1 & A1 & B1) (T2 & A2 & B2). exists (mkCall g a tt :: T1), (mkCall g a tt :: T2).
      split; [exact A1|]. split; [exact A2|]. split; [exact B1|]. split; [exact B2|]. right. exact (Hd b1 b2 F1 F2 Hne T1 T2). }
    clear Hd.
    destruct (cb1 g a tt w1) as [b1 v1 w1'|n1 v1 w1'] eqn:E1, (cb2 g a tt w2) as [b2 v2 w2'|n2 v2 w2'] eqn:E2.
    + destruct (bool_dec b1 b2) as [<-|Hne].
      * destruct b1; [apply (G yes _ _ _ _ _ eq_refl eq_refl IHy)|apply (G no _ _ _ _ _ eq_refl eq_refl IHn)].
      * destruct (caught (interp cb1 (if b1 then yes else no) w1' _)) as [o1 s1| | |]; auto. destruct (caught (interp cb2 (if b2 then yes else no) w2' _)) as [o2 s2| | |]; auto.
        apply (D (Say b1) (Say b2)); auto; [cbn; now rewrite E1|cbn; now rewrite E2|congruence].
    + destruct (caught (interp cb1 (if b1 then yes else no) w1' _)) as [o1 s1| | |]; auto. apply (D (Say b1) (Fail n2)); auto; [cbn; now rewrite E1|cbn; now rewrite E2|discriminate].
    + destruct (caught (interp cb2 (if b2 then yes else no) w2' _)) as [o1 s1| | |]; cbn [caught] in *; auto. apply (D (Fail n1) (Say b2)); auto; [cbn; now rewrite E1|cbn; now rewrite E2|discriminate].
    + cbn [caught]. exists [mkCall g a tt], [mkCall g a tt]. split; [reflexivity|]. split; [reflexivity|]. cbn. rewrite E1, E2. split; [reflexivity|]. split; [reflexivity|].
      unfold apart, answers. cbn. rewrite E1, E2. cbn. destruct (Nat.eq_dec n1 n2) as [<-|Hne]; [left; now repeat split|right].
      apply (part [] []); [reflexivity|congruence].
Qed.

(** A session with two kinds of user code. *)
Section Twice.
Context {W1 W2 : Type}.
Variables (cb1 : cbfun unit W1) (cb2 : cbfun unit W2).
Variables (m : machine) (fuel : nat).

Lemma run_apart ks : forall s1 s2 outs1 outs2 s1' s2', still s1 = still s2 -> run cb1 m tt fuel ks s1 = Done outs1 s1' -> run cb2 m tt fuel ks s2 = Done outs2 s2' ->
  exists T1 T2, rt_trace s1' = rt_trace s1 ++ T1 /\ rt_trace s2' = rt_trace s2 ++ T2 /\ rt_world s1' = snd (hear cb1 (rt_world s1) T1) /\ rt_world s2' = snd (hear cb2 (rt_world s2) T2) /\
    apart cb1 (rt_world s1) cb2 (rt_world s2) (outs1 = outs2 /\ still s1' = still s2') T1 T2.
Proof.
  assert (Rest : forall {W} (cb : cbfun unit W) ks s outs s', run cb m tt fuel ks s = Done outs s' -> exists T, rt_trace s' = rt_trace s ++ T /\ rt_world s' = snd (hear cb (rt_world s) T)).
  { intros W cb. induction ks0 as [|k ks0 IH]; intros s outs s'; cbn [run]; [intros [= _ <-]; exists []; cbn; now rewrite app_nil_r|].
    destruct (call_a m fuel k (still s)) as [t Ht]. rewrite catch_caught. assert (Es : s = put (still s) (rt_world s) (rt_trace s)) by now destruct s.
    rewrite Es at 1. rewrite Ht. pose proof (tree_grows cb t (rt_world s) (rt_trace s)) as G. destruct (caught _) as [o s1| | |]; cbn [bind]; try discriminate.
    destruct (run cb m tt fuel ks0 s1) as [os s2| | |] eqn:E; cbn [bind]; try discriminate. intros [= _ <-]. destruct (IH _ _ _ E) as (T2 & A2 & B2). destruct G as (T & A & B).
    exists (T ++ T2). rewrite A2, A, <- app_assoc, B2, B, hear_app. auto. }
  induction ks as [|k ks IH]; intros s1 s2 outs1 outs2 s1' s2' Es; cbn [run].
  { intros [= <- <-] [= <- <-]. exists [], []. cbn. rewrite !app_nil_r. split; [reflexivity|]. split; [reflexivity|]. split; [reflexivity|]. split; [reflexivity|]. left. now repeat split. }
  destruct (call_a m fuel k (still s1)) as [t Ht]. rewrite !catch_caught.
  assert (E1 : s1 = put (still s1) (rt_world s1) (rt_trace s1)) by now destruct s1. assert (E2 : s2 = put (still s1) (rt_world s2) (rt_trace s2)) by (rewrite Es; now destruct s2).
  assert (H1 : do_call cb1 m tt fuel k s1 = interp cb1 t (rt_world s1) (rt_trace s1)) by (rewrite E1 at 1; apply Ht).
  assert (H2 : do_call cb2 m tt fuel k s2 = interp cb2 t (rt_world s2) (rt_trace s2)) by (rewrite E2 at 1; apply Ht).
  rewrite H1, H2. pose proof (tree_apart cb1 cb2 t (rt_world s1) (rt_world s2) (rt_trace s1) (rt_trace s2)) as G.
  destruct (caught (interp cb1 t _ _)) as [o1 a1| | |]; cbn [bind]; try discriminate. destruct (caught (interp cb2 t _ _)) as [o2 a2| | |]; cbn [bind]; try (intros; discriminate).
  destruct (run cb1 m tt fuel ks a1) as [os1 b1| | |] eqn:R1; cbn [bind]; try discriminate. destruct (run cb2 m tt fuel ks a2) as [os2 b2| | |] eqn:R2; cbn [bind]; try (intros; discriminate).
  intros [= <- <-] [= <- <-]. destruct G as (T1 & T2 & A1 & A2 & B1 & B2 & G).
  destruct G as [((-> & Ec) & -> & Ea)|G].
  - destruct (IH _ _ _ _ _ _ Ec R1 R2) as (U1 & U2 & C1 & C2 & D1 & D2 & G). exists (T2 ++ U1), (T2 ++ U2). rewrite C1, C2, A1, A2, <- !app_assoc, D1, D2, B1, B2, !hear_app.
    split; [reflexivity|]. split; [reflexivity|]. split; [reflexivity|]. split; [reflexivity|]. unfold apart, answers at 1 2 3 4. rewrite !hear_app. cbn [fst]. rewrite B1, B2 in G. rewrite <- Ea.
    destruct G as [((-> & Eb) & -> & G)|G].
    + left. split; [now split|]. split; [reflexivity|]. now rewrite G.
    + right. apply parting_front; [now rewrite answers_length|exact G].
  - destruct (Rest _ _ _ _ _ _ R1) as (U1 & C1 & D1). destruct (Rest _ _ _ _ _ _ R2) as (U2 & C2 & D2).
    exists (T1 ++ U1), (T2 ++ U2). rewrite C1, C2, A1, A2, <- !app_assoc, D1, D2, B1, B2, !hear_app.
    split; [reflexivity|]. split; [reflexivity|]. split; [reflexivity|]. split; [reflexivity|]. right. unfold answers. rewrite !hear_app. cbn [fst]. apply parting_behind. exact G.
Qed.
Theorem session_apart d w1 w2 ks outs1 outs2 s1 s2 : session cb1 m tt fuel d w1 ks = Done outs1 s1 -> session cb2 m tt fuel d w2 ks = Done outs2 s2 ->
  outs1 = outs2 /\ config_of s1 = config_of s2 /\ rt_trace s1 = rt_trace s2 /\ answers cb1 w1 (rt_trace s1) = answers cb2 w2 (rt_trace s2) \/
  exists before x after1 after2 a y1 y2 a1 a2, rt_trace s1 = before ++ x :: after1 /\ rt_trace s2 = before ++ x :: after2 /\ length before = length a /\
    answers cb1 w1 (rt_trace s1) = a ++ y1 :: a1 /\ answers cb2 w2 (rt_trace s2) = a ++ y2 :: a2 /\ y1 <> y2.
Proof.
  unfold session. pose proof (construct_s (V := unit) (W := W1) (X := W2) m fuel d w1 w2) as C. rewrite C. clear C.
  destruct (construct m fuel d w1) as [[] c1| | |] eqn:E1; cbn [bind]; try discriminate. intros R1 R2.
  destruct (construct_blank _ _ _ _ _ E1) as [A1 B1].
  assert (Es : still c1 = still (bare_from 0 c1 w2)).
  { unfold still. cbn. f_equal. rewrite <- (map_id (rt_queue c1)) at 1. apply map_ext. now intros [e []]. }
  destruct (run_apart _ _ _ _ _ _ _ Es R1 R2) as (T1 & T2 & X1 & X2 & _ & _ & G). rewrite A1 in X1. cbn [bare_from rt_trace rt_world] in X2, G. rewrite A1 in X2. cbn in X1, X2. rewrite B1 in G. subst T1 T2.
  destruct G as [((-> & Eb) & Et & G)|G].
  - left. split; [reflexivity|]. split; [|now split]. change (config_of (still s1) = config_of (still s2)). now rewrite Eb.
  - right. exact (parting_spec _ _ _ _ G).
Qed.
End Twice.
