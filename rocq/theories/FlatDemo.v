(** A boolean check for one-table programs; the player of benchmark/simple/hsm.cpp. *)

From Coq Require Import List Arith NArith Bool.
From Verif Require Import Types Static Dispatch Runtime Dsl Examples Spec Semantics Flat FlatFacts.
Import ListNotations.

Definition leaf_b (env : cenv) (s : sref) : bool :=
  match s with SState c => match cd_table (lookup env c) with None => true | Some _ => false end | _ => false end.
Definition flat_row (env : cenv) (r : row) : bool :=
  (if ev_eq_dec (r_ev r) ENone then false else true) && leaf_b env (unmarked (r_src r)) && leaf_b env (r_tgt r).
Definition flat_class (d : cdef) : bool :=
  match cd_internal d with None => true | Some _ => false end &&
  match cd_defer d with None => true | Some _ => false end && cd_defctor d.
Definition flat_check (env : cenv) (root : cls) : bool :=
  forallb (flat_row env) (table env root) && Nat.eqb (length (initial_states env root)) 1 &&
  forallb (fun cd => flat_class (snd cd)) env.

Lemma leaf_iff env s : leaf_b env s = true <-> exists a, s = SState a /\ ~ composite env a.
Proof.
  unfold composite. split.
  - destruct s; cbn; try discriminate. destruct (cd_table (lookup env c)) eqn:E; [discriminate|]. intros _. exists c. rewrite E. auto.
  - intros (a & -> & H). cbn. destruct (cd_table (lookup env a)); [exfalso; apply H; discriminate|reflexivity].
Qed.
Lemma flat_intro env root : flat_check env root = true -> flat env root.
Proof.
  unfold flat_check. rewrite !andb_true_iff, forallb_forall, Nat.eqb_eq. intros ((H1 & H2) & H3). split.
  - intros r Hr. specialize (H1 r Hr). unfold flat_row in H1. rewrite !andb_true_iff, !leaf_iff in H1.
    destruct H1 as ((A & B) & C). split; [|auto]. destruct (ev_eq_dec (r_ev r) ENone); [discriminate|assumption].
  - exact H2.
  - intros c. unfold internals. clear H1 H2. induction env as [|[c' d] l IH]; [repeat split|]. cbn [forallb snd] in H3.
    apply andb_true_iff in H3. destruct H3 as [A B]. cbn [lookup]. destruct (Nat.eq_dec c c'); [|auto].
    unfold flat_class in A. rewrite !andb_true_iff in A. destruct A as ((A1 & A2) & A3).
    destruct (cd_internal d); [discriminate|]. destruct (cd_defer d); [discriminate|]. auto.
Qed.

(** benchmark/simple/hsm.cpp 13-58 (the functors are the actions 0 ... 8). *)
Module Player.
Definition Empty := SState 1.  Definition Open := SState 2.  Definition Stopped := SState 3.
Definition Playing := SState 4.  Definition Pause := SState 5.
Definition play := EUser 1.  Definition end_pause := EUser 2.  Definition stop := EUser 3.
Definition pause2 := EUser 4.  Definition open_close := EUser 5.  Definition cd_detected := EUser 6.
Definition start_playback := Action 10 (ACall 0).  Definition resume_playback := Action 11 (ACall 1).
Definition close_drawer := Action 12 (ACall 2).  Definition open_drawer := Action 13 (ACall 3).
Definition stop_and_open := Action 14 (ACall 4).  Definition stopped_again := Action 15 (ACall 5).
Definition store_cd_info := Action 16 (ACall 6).  Definition pause_playback := Action 17 (ACall 7).
Definition stop_playback := Action 18 (ACall 8).
Definition player : cls := 50.
Definition env : cenv :=
 [ (player, tbl
   [ mkRow Stopped play NoGuard start_playback Playing;
     mkRow Pause end_pause NoGuard resume_playback Playing;
     mkRow Open open_close NoGuard close_drawer Empty;
     mkRow (SInitial WState 1) open_close NoGuard open_drawer Open;
     mkRow Pause open_close NoGuard stop_and_open Open;
     mkRow Stopped open_close NoGuard open_drawer Open;
     mkRow Playing open_close NoGuard stop_and_open Open;
     mkRow Playing pause2 NoGuard pause_playback Pause;
     mkRow Playing stop NoGuard stop_playback Stopped;
     mkRow Pause stop NoGuard stop_playback Stopped;
     mkRow Empty cd_detected NoGuard store_cd_info Stopped;
     mkRow Stopped stop NoGuard stopped_again Stopped ]) ].
(** The loop of main (70-84). *)
Definition loop : list ev :=
  [ open_close; open_close; cd_detected; play; pause2; end_pause; pause2; stop; stop; open_close; open_close ].
Definition loop_calls : list callee :=
  map CAction [3; 2; 6; 0; 7; 1; 7; 8; 5; 3; 2].
End Player.
