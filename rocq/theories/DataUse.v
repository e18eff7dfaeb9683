(** What follows from [session_d]: translated data, invariants of data, two machines. *)

From Coq Require Import List Arith NArith Bool Lia.
From Verif Require Import Types Static Dispatch Runtime Data.
Import ListNotations.

(** * Translated data *)
Definition with_payload {V V'} (f : V -> V') (k : call V) : call V' :=
  match k with
  | KProcess e v => KProcess e (f v)
  | KIs r p q => KIs r p q
  | KParentIs p => KParentIs p
  | KSet r p q => KSet r p q
  | KSetDep d => KSetDep d
  | KStatus => KStatus
  end.
Definition translated {V V' W W'} (f : V -> V') (g : W -> W') (s : rt V W) : rt V' W' :=
  mkRt (rt_cur s) (rt_hist s) (map (fun x => (fst x, f (snd x))) (rt_queue s)) (rt_regions s) (rt_live s) (rt_tabs s) (rt_htabs s)
    (g (rt_world s)) (map (fun k => mkCall (k_callee k) (k_args k) (f (k_payload k))) (rt_trace s)).
Definition answer {V V' W W'} (f : V -> V') (g : W -> W') (a : cbres V W) : cbres V' W' :=
  match a with Ret b v w => Ret b (f v) (g w) | Raise n v w => Raise n (f v) (g w) end.
Definition outcome {V V' W W' A} (f : V -> V') (g : W -> W') (r : res V W A) : res V' W' A :=
  match r with
  | Done a s => Done a (translated f g s)
  | Threw x s => Threw x (translated f g s)
  | Undef u => Undef u
  | Timeout => Timeout
  end.

Section Translate.
Context {V V' W W' : Type}.
Variables (f : V -> V') (g : W -> W').
Notation RV := (fun v v' => v' = f v).
Notation RW := (fun w w' => w' = g w).

Lemma sbd_translated s s' : same_but_data RV RW s s' -> s' = translated f g s.
Proof.
  intros [H1 H2 H3 H4 H5 H6 H7 H8 H9]. destruct s as [a b q n l t h w tr], s' as [a' b' q' n' l' t' h' w' tr']. cbn in *. subst. unfold translated. cbn. f_equal.
  - clear -H3. induction H3 as [|[e v] [e' v'] q q' [E Ev] _ IH]; [reflexivity|]. cbn in *. now subst.
  - clear -H9. induction H9 as [|[c x v] [c' x' v'] q q' [E1 E2 E3] _ IH]; [reflexivity|]. cbn in *. now subst.
Qed.
Lemma translated_sbd s : same_but_data RV RW s (translated f g s).
Proof.
  split; try reflexivity; cbn.
  - induction (rt_queue s) as [|[e v] q IH]; cbn; constructor; auto. now split.
  - induction (rt_trace s) as [|[c x v] q IH]; cbn; constructor; auto. now split.
Qed.
Lemma end_translated {A} r r' : same_end RV RW (@eq A) r r' -> r' = outcome f g r.
Proof. intros H. destruct H as [a a' s s' E Hs|x s s' Hs| |]; cbn; try reflexivity; [subst a'|]; now rewrite (sbd_translated _ _ Hs). Qed.

Variables (cb : cbfun V W) (cb' : cbfun V' W') (m : machine) (vnone : V) (fuel : nat).
Hypothesis Hcb : forall c a v w, cb' c a (f v) (g w) = answer f g (cb c a v w).
Lemma translated_user : related_user RV RW cb cb'.
Proof. intros c a v v' w w' -> ->. rewrite Hcb. destruct (cb c a v w); now constructor. Qed.
Lemma same_call_payload k : same_call RV k (with_payload f k).
Proof. destruct k; now constructor. Qed.
Lemma session_translated d w ks :
  session cb' m (f vnone) fuel d (g w) (map (with_payload f) ks) = outcome f g (session cb m vnone fuel d w ks).
Proof.
  apply end_translated. apply session_d; auto using translated_user. induction ks; cbn; constructor; auto using same_call_payload.
Qed.
Lemma run_translated ks s :
  run cb' m (f vnone) fuel (map (with_payload f) ks) (translated f g s) = outcome f g (run cb m vnone fuel ks s).
Proof.
  apply end_translated. apply run_d; auto using translated_user, translated_sbd. induction ks; cbn; constructor; auto using same_call_payload.
Qed.
Lemma catch_translated k s :
  do_call_catch cb' m (f vnone) fuel (with_payload f k) (translated f g s) = outcome f g (do_call_catch cb m vnone fuel k s).
Proof. apply end_translated. apply catch_d; auto using translated_user, translated_sbd, same_call_payload. Qed.
End Translate.

(** * Invariants of data *)
Definition payload_ok {V} (P : V -> Prop) (k : call V) : Prop := match k with KProcess _ v => P v | _ => True end.
Definition user_keeps {V W} (PV : V -> Prop) (PW : W -> Prop) (cb : cbfun V W) : Prop :=
  forall c a v w, PV v -> PW w -> match cb c a v w with Ret _ v' w' | Raise _ v' w' => PV v' /\ PW w' end.
(** The user's world, the waiting events and the events given to user code. *)
Record data_ok {V W} (PV : V -> Prop) (PW : W -> Prop) (s : rt V W) : Prop := mkDataOk {
  do_world : PW (rt_world s);
  do_queue : Forall (fun x => PV (snd x)) (rt_queue s);
  do_trace : Forall (fun k => PV (k_payload k)) (rt_trace s) }.
Section Invariant.
Context {V W : Type}.
Variables (PV : V -> Prop) (PW : W -> Prop).
Notation RV := (fun v v' : V => v' = v /\ PV v).
Notation RW := (fun w w' : W => w' = w /\ PW w).
Lemma sbd_ok s s' : same_but_data RV RW s s' -> data_ok PV PW s.
Proof.
  intros [H1 H2 H3 H4 H5 H6 H7 [_ H8] H9]. split; [exact H8| |].
  - clear -H3. induction H3 as [|x x' q q' [_ [_ H]] _ IH]; constructor; auto.
  - clear -H9. induction H9 as [|x x' q q' [_ _ [_ H]] _ IH]; constructor; auto.
Qed.
Lemma session_keeps (cb : cbfun V W) m vnone fuel d w ks : user_keeps PV PW cb ->
  PV vnone -> PW w -> Forall (payload_ok PV) ks ->
  match session cb m vnone fuel d w ks with Done _ s | Threw _ s => data_ok PV PW s | _ => True end.
Proof.
  intros Hcb Hn Hw Hks. assert (E : same_end RV RW eq (session cb m vnone fuel d w ks) (session cb m vnone fuel d w ks)).
  { apply session_d; auto.
    - intros c a v v' w1 w1' [-> Hv] [-> Hw1]. specialize (Hcb c a v w1 Hv Hw1). destruct (cb c a v w1), Hcb; now constructor.
    - induction Hks as [|k ks Hk Hks IH]; constructor; auto. destruct k; constructor; auto. }
  inversion E; auto; eapply sbd_ok; eauto.
Qed.
End Invariant.

(** * Two machines in one program *)
Section Two.
Context {V1 V2 A B : Type}.
Variables (cb1 : cbfun V1 A) (cb2 : cbfun V2 B).
(** Both have their data in one world; the user code of each leaves the data of the
    other alone. *)
Definition on_first : cbfun V1 (A * B) := fun c a v w => answer (fun v => v) (fun x => (x, snd w)) (cb1 c a v (fst w)).
Definition on_second : cbfun V2 (A * B) := fun c a v w => answer (fun v => v) (fun y => (fst w, y)) (cb2 c a v (snd w)).
Definition in_world {V W W'} (w : W') (s : rt V W) : rt V W' :=
  mkRt (rt_cur s) (rt_hist s) (rt_queue s) (rt_regions s) (rt_live s) (rt_tabs s) (rt_htabs s) w (rt_trace s).
Variables (m1 m2 : machine) (vn1 : V1) (vn2 : V2) (fuel : nat).

(** Calls of the two objects in any order; each finds the world the last call left. *)
Fixpoint both (ks : list (call V1 + call V2)) (s1 : rt V1 (A * B)) (s2 : rt V2 (A * B))
  : option (list out * rt V1 (A * B) * rt V2 (A * B)) :=
  match ks with
  | [] => Some ([], s1, s2)
  | inl k :: ks' =>
      match do_call_catch on_first m1 vn1 fuel k s1 with
      | Done o s1' => match both ks' s1' (in_world (rt_world s1') s2) with Some (os, t1, t2) => Some (o :: os, t1, t2) | None => None end
      | _ => None
      end
  | inr k :: ks' =>
      match do_call_catch on_second m2 vn2 fuel k s2 with
      | Done o s2' => match both ks' (in_world (rt_world s2') s1) s2' with Some (os, t1, t2) => Some (o :: os, t1, t2) | None => None end
      | _ => None
      end
  end.
Fixpoint firsts {X Y} (l : list (X + Y)) : list X := match l with [] => [] | inl x :: l => x :: firsts l | inr _ :: l => firsts l end.
Fixpoint seconds {X Y} (l : list (X + Y)) : list Y := match l with [] => [] | inl _ :: l => seconds l | inr y :: l => y :: seconds l end.
(** The answers to the calls of the first and of the second. *)
Fixpoint tagged {X Y O} (l : list (X + Y)) (os : list O) : list (O + O) :=
  match l, os with
  | inl _ :: l, o :: os => inl o :: tagged l os
  | inr _ :: l, o :: os => inr o :: tagged l os
  | _, _ => []
  end.

Lemma id_queue {X Y} (l : list (X * Y)) : map (fun x => (fst x, snd x)) l = l.
Proof. induction l as [|[x y] l IH]; cbn; [reflexivity|now rewrite IH]. Qed.
Lemma id_trace {V} (l : list (called V)) : map (fun k => mkCall (k_callee k) (k_args k) (k_payload k)) l = l.
Proof. induction l as [|[x y z] l IH]; cbn; [reflexivity|now rewrite IH]. Qed.
Lemma translated_world {V W W'} (g : W -> W') (s : rt V W) : translated (fun v => v) g s = in_world (g (rt_world s)) s.
Proof. destruct s. unfold translated, in_world. cbn. now rewrite id_queue, id_trace. Qed.
Lemma payload_id {V} (k : call V) : with_payload (fun v => v) k = k.
Proof. now destruct k. Qed.

Lemma first_step k s1 y : do_call_catch on_first m1 vn1 fuel k (in_world (rt_world s1, y) s1) =
  outcome (fun v => v) (fun x => (x, y)) (do_call_catch cb1 m1 vn1 fuel k s1).
Proof.
  rewrite <- (catch_translated (fun v => v) (fun x => (x, y)) cb1 on_first m1 vn1 fuel), payload_id, translated_world; [reflexivity|].
  intros c a v w. reflexivity.
Qed.
Lemma second_step k s2 x : do_call_catch on_second m2 vn2 fuel k (in_world (x, rt_world s2) s2) =
  outcome (fun v => v) (fun y => (x, y)) (do_call_catch cb2 m2 vn2 fuel k s2).
Proof.
  rewrite <- (catch_translated (fun v => v) (fun y => (x, y)) cb2 on_second m2 vn2 fuel), payload_id, translated_world; [reflexivity|].
  intros c a v w. reflexivity.
Qed.

(** Each behaves as if it were alone. *)
Lemma both_alone : forall ks s1 s2,
  both ks (in_world (rt_world s1, rt_world s2) s1) (in_world (rt_world s1, rt_world s2) s2) =
  match run cb1 m1 vn1 fuel (firsts ks) s1, run cb2 m2 vn2 fuel (seconds ks) s2 with
  | Done os1 t1, Done os2 t2 =>
      match both ks (in_world (rt_world s1, rt_world s2) s1) (in_world (rt_world s1, rt_world s2) s2) with
      | Some (os, _, _) => Some (os, in_world (rt_world t1, rt_world t2) t1, in_world (rt_world t1, rt_world t2) t2)
      | None => None
      end
  | _, _ => None
  end /\
  forall os1 t1 os2 t2, run cb1 m1 vn1 fuel (firsts ks) s1 = Done os1 t1 -> run cb2 m2 vn2 fuel (seconds ks) s2 = Done os2 t2 ->
  exists os u1 u2, both ks (in_world (rt_world s1, rt_world s2) s1) (in_world (rt_world s1, rt_world s2) s2) = Some (os, u1, u2) /\
    length os = length ks /\ firsts (tagged ks os) = os1 /\ seconds (tagged ks os) = os2.
Proof.
  induction ks as [|[k|k] ks IH]; intros s1 s2.
  - cbn. split; [reflexivity|]. intros os1 t1 os2 t2 E1 E2. inversion E1; inversion E2; subst. exists [], (in_world (rt_world t1, rt_world t2) t1), (in_world (rt_world t1, rt_world t2) t2). auto.
  - cbn [both firsts seconds run]. rewrite first_step. destruct (do_call_catch cb1 m1 vn1 fuel k s1) as [o s1'|x s1'|u|]; cbn [bind outcome].
    2-4: (split; [reflexivity|discriminate]).
    rewrite translated_world. cbn [rt_world in_world]. change (in_world ?w (in_world _ s2)) with (in_world w s2).
    destruct (IH s1' s2) as [IH1 IH2]. destruct (run cb1 m1 vn1 fuel (firsts ks) s1') as [os1 t1| | |]; cbn [bind].
    2-4: (split; [now rewrite IH1|discriminate]).
    destruct (run cb2 m2 vn2 fuel (seconds ks) s2) as [os2 t2| | |].
    2-4: (split; [now rewrite IH1|discriminate]).
    destruct (IH2 _ _ _ _ eq_refl eq_refl) as (os & u1 & u2 & E & L & F1 & F2). rewrite E in *. split.
    + inversion IH1; subst. reflexivity.
    + intros os1' t1' os2' t2' E1 E2. inversion E1; inversion E2; subst. exists (o :: os), u1, u2. cbn [tagged firsts seconds length]. repeat split; congruence.
  - cbn [both firsts seconds run]. rewrite second_step. destruct (do_call_catch cb2 m2 vn2 fuel k s2) as [o s2'|x s2'|u|]; cbn [bind outcome].
    2-4: (split; [now destruct (run cb1 m1 vn1 fuel (firsts ks) s1)|intros; discriminate]).
    rewrite translated_world. cbn [rt_world in_world]. change (in_world ?w (in_world _ s1)) with (in_world w s1).
    destruct (IH s1 s2') as [IH1 IH2]. destruct (run cb1 m1 vn1 fuel (firsts ks) s1) as [os1 t1| | |]; cbn [bind].
    2-4: (split; [now rewrite IH1|discriminate]).
    destruct (run cb2 m2 vn2 fuel (seconds ks) s2') as [os2 t2| | |]; cbn [bind].
    2-4: (split; [now rewrite IH1|discriminate]).
    destruct (IH2 _ _ _ _ eq_refl eq_refl) as (os & u1 & u2 & E & L & F1 & F2). rewrite E in *. split.
    + inversion IH1; subst. reflexivity.
    + intros os1' t1' os2' t2' E1 E2. inversion E1; inversion E2; subst. exists (o :: os), u1, u2. cbn [tagged firsts seconds length]. repeat split; congruence.
Qed.

Theorem two_machines ks s1 s2 :
  match run cb1 m1 vn1 fuel (firsts ks) s1, run cb2 m2 vn2 fuel (seconds ks) s2 with
  | Done os1 t1, Done os2 t2 => exists os,
      both ks (in_world (rt_world s1, rt_world s2) s1) (in_world (rt_world s1, rt_world s2) s2) =
        Some (os, in_world (rt_world t1, rt_world t2) t1, in_world (rt_world t1, rt_world t2) t2) /\
      length os = length ks /\ firsts (tagged ks os) = os1 /\ seconds (tagged ks os) = os2
  | _, _ => both ks (in_world (rt_world s1, rt_world s2) s1) (in_world (rt_world s1, rt_world s2) s2) = None
  end.
Proof.
  destruct (both_alone ks s1 s2) as [H1 H2].
  destruct (run cb1 m1 vn1 fuel (firsts ks) s1) as [os1 t1| | |]; try exact H1.
  destruct (run cb2 m2 vn2 fuel (seconds ks) s2) as [os2 t2| | |]; try exact H1.
  destruct (H2 _ _ _ _ eq_refl eq_refl) as (os & u1 & u2 & E & L & F). exists os. rewrite E in H1. rewrite E, H1. auto.
Qed.
End Two.
