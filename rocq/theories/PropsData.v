(** C77, C78. User data: the library does not look at it; two machines. *)

From Coq Require Import List Arith NArith Bool Lia.
From Verif Require Import Types Static Dispatch Runtime Dsl Examples Demo Data DataUse.
Import ListNotations.

(** C77. Two sorts of user data and user code that are related, the same answers from
    related data: the runs end alike, with the same results, the same numbers and objects
    in the machine, and with related data. *)
Theorem C77_related : forall V V' W W' (RV : V -> V' -> Prop) (RW : W -> W' -> Prop) cb cb' m vnone vnone' fuel d w w' ks ks',
  related_user RV RW cb cb' -> RV vnone vnone' -> RW w w' -> Forall2 (same_call RV) ks ks' ->
  same_end RV RW eq (session cb m vnone fuel d w ks) (session cb' m vnone' fuel d w' ks').
Proof. intros. now apply session_d. Qed.
Print Assumptions C77_related.

(** Data that are translated by functions. *)
Theorem C77_translated : forall V V' W W' (f : V -> V') (g : W -> W') (cb : cbfun V W) (cb' : cbfun V' W') m vnone fuel,
  (forall c a v w, cb' c a (f v) (g w) = answer f g (cb c a v w)) ->
  forall d w ks, session cb' m (f vnone) fuel d (g w) (map (with_payload f) ks) = outcome f g (session cb m vnone fuel d w ks).
Proof. exact @session_translated. Qed.
Print Assumptions C77_translated.

(** What all user code keeps, the machine keeps. *)
Theorem C77_invariant : forall V W (PV : V -> Prop) (PW : W -> Prop) (cb : cbfun V W) m vnone fuel d w ks,
  user_keeps PV PW cb -> PV vnone -> PW w -> Forall (payload_ok PV) ks ->
  match session cb m vnone fuel d w ks with Done _ s | Threw _ s => data_ok PV PW s | _ => True end.
Proof. exact @session_keeps. Qed.
Print Assumptions C77_invariant.

(** Actions add the payload to the world and change it, guards compare it; and the same
    for data of twice the size. *)
Definition adds : cbfun nat nat := fun c _ v w =>
  match c with CGuard _ _ => Ret (Nat.leb v 10) v w | CHandler => Raise 3 v w | _ => Ret true (S v) (w + v) end.
Definition twice (n : nat) : nat := n + n.
Definition adds_twice : cbfun nat nat := fun c _ v w =>
  match c with CGuard _ _ => Ret (Nat.leb v 20) v w | CHandler => Raise 3 v w | _ => Ret true (2 + v) (w + v) end.
Lemma adds_related c a v w : adds_twice c a (twice v) (twice w) = answer twice twice (adds c a v w).
Proof.
  unfold twice. destruct c; cbn; try reflexivity; f_equal; try lia.
  destruct (Nat.leb_spec v 10), (Nat.leb_spec (v + v) 20); try reflexivity; lia.
Qed.
Definition waits : list (call nat) := 
  [KProcess (EUser 2) 6; KProcess (EUser 2) 7; KProcess (EUser 3) 8; KProcess (EUser 4) 8; KProcess (EUser 4) 8; KProcess (EUser 1) 6].
(** A session with deferred events, an exception and a final world that is not 0. *)
Example C77_applies : exists m outs s, compile Defer.env 50 = Some m /\
  session adds m 0 300 0 0 waits = Done outs s /\ In (OExn (XUser 3)) outs /\ rt_queue s <> [] /\ rt_world s <> 0 /\
  session adds_twice m 0 300 0 0 (map (with_payload twice) waits) = Done outs (translated twice twice s) /\
  data_ok (fun v => v <= 100) (fun w => True) s.
Proof.
  assert (H : match compile Defer.env 50 with Some m =>
      match session adds m 0 300 0 0 waits with
      | Done outs s => In (OExn (XUser 3)) outs /\ rt_queue s <> [] /\ rt_world s <> 0 /\
          Forall (fun x => snd x <= 100) (rt_queue s) /\ Forall (fun k => k_payload k <= 100) (rt_trace s)
      | _ => False end | None => False end).
  { vm_compute. repeat split; try discriminate; auto 10; repeat (constructor; [lia|]); constructor. }
  destruct (compile Defer.env 50) as [m|]; [|destruct H].
  destruct (session adds m 0 300 0 0 waits) as [outs s| | |] eqn:E; try (destruct H; fail).
  exists m, outs, s. destruct H as (H1 & H2 & H3 & H4 & H5). repeat (split; [assumption || reflexivity|]). split; [|now split].
  pose proof (C77_translated _ _ _ _ twice twice adds adds_twice m 0 300 adds_related 0 0 waits) as T. rewrite E in T. exact T.
Qed.

(** C78. Two machines in one program, each with user code that leaves the data of the
    other alone, used in any order: each behaves as if it were alone. If one of them has no
    defined result alone, the program has none. *)
Theorem C78_two_machines : forall V1 V2 A B (cb1 : cbfun V1 A) (cb2 : cbfun V2 B) m1 m2 vn1 vn2 fuel ks s1 s2,
  match run cb1 m1 vn1 fuel (firsts ks) s1, run cb2 m2 vn2 fuel (seconds ks) s2 with
  | Done os1 t1, Done os2 t2 => exists os,
      both cb1 cb2 m1 m2 vn1 vn2 fuel ks (in_world (rt_world s1, rt_world s2) s1) (in_world (rt_world s1, rt_world s2) s2) =
        Some (os, in_world (rt_world t1, rt_world t2) t1, in_world (rt_world t1, rt_world t2) t2) /\
      length os = length ks /\ firsts (tagged ks os) = os1 /\ seconds (tagged ks os) = os2
  | _, _ => both cb1 cb2 m1 m2 vn1 vn2 fuel ks (in_world (rt_world s1, rt_world s2) s1) (in_world (rt_world s1, rt_world s2) s2) = None
  end.
Proof. exact @two_machines. Qed.
Print Assumptions C78_two_machines.

(** Two objects of one class, with different calls. *)
Example C78_applies : demo_state adds Defer.env 50 [] (fun m s =>
  match both adds adds m m 0 0 300 [inl (KProcess (EUser 2) 5); inr (KProcess (EUser 1) 7); inl (is_ 50 1); inr (is_ 50 1); inl (KProcess (EUser 1) 3)]
    (in_world (0, 0) s) (in_world (0, 0) s) with
  | Some (os, t1, t2) => os = [F; T; T; F; T] /\ rt_world t1 = (8, 7) /\ rt_world t2 = (8, 7)
  | None => False
  end).
Proof. apply demo_intro. vm_compute. repeat split. Qed.
