(** Programs for PropsNewest.v. *)

From Coq Require Import List Arith NArith Bool.
From Verif Require Import Types Static Dispatch Runtime Spec DispatchFacts Semantics Reach ReachFacts Dsl Examples Demo
  Newest.
Import ListNotations.

(** A guarded row. *)
Module Gate.
Definition env : cenv :=
 [ (50, tbl [ sega_to (st_ega (star_state 1) (eg_action (event_guard (EUser 1) ok) act)) (state 2);
              se_to (st_event (state 2) (EUser 2)) (state 1) ]) ].
End Gate.

(** A guard that accepts dependency 7 only. *)
Definition seven_cb : cbfun nat nat := fun c a v w =>
  match c with CGuard _ _ => Ret (Nat.eqb (a_dep a) 7) v w | _ => Ret true v w end.
Lemma seven_silent : refuses_silently seven_cb.
Proof. intros ty val a v w v' w' H. cbn in H. now injection H as _ <- <-. Qed.
(** A guard that accepts every second time. *)
Definition second_cb : cbfun nat nat := fun c a v w =>
  match c with CGuard _ _ => Ret (Nat.eqb w 1) v (S w) | _ => Ret true v w end.
Lemma second_ignores : ignores_dependency second_cb.
Proof. intros ty val e o t d d' v w. reflexivity. Qed.

Lemma seven_remembered : demo_state seven_cb Gate.env 50 [] (fun m s => deps_run (V := nat) [] [0] = [0] /\
  (exists s', run seven_cb m 0 300 [KSetDep 7; KSetDep 0; pe 1] s = Done [OUnit; OUnit; OBool true] s' /\ map (fun k => a_dep (k_args k)) (rt_trace s') = [0; 7; 7]) /\
  exists s', run seven_cb m 0 300 [KSetDep 0; pe 1] s = Done [OUnit; OBool false] s').
Proof. apply demo_intro. vm_compute. repeat split; eexists; repeat split. Qed.
Lemma second_asked : demo_state second_cb Gate.env 50 [] (fun m s =>
  (exists s', run second_cb m 0 300 [KSetDep 0; pe 1] s = Done [OUnit; OBool true] s') /\
  exists s', run second_cb m 0 300 [pe 1] s = Done [OBool false] s').
Proof. apply demo_intro. vm_compute. repeat split; eexists; repeat split. Qed.

(** The guards of [ex_cb]. *)
Lemma ex_ignores : ignores_dependency ex_cb.
Proof. intros ty val e o t d d' v w. reflexivity. Qed.
Lemma ex_silent : refuses_silently ex_cb.
Proof. intros ty val a v w v' w' H. cbn in H. now inversion H. Qed.

(** Two machines of one program. *)
Definition demo_states (cb : cbfun nat nat) (env : cenv) (root : cls) (ks ks' : list (call nat))
    (P : machine -> rt nat nat -> rt nat nat -> Prop) : Prop :=
  exists m s s', running cb env root m 0 (deps_run ks [0]) 0 s /\ running cb env root m 0 (deps_run ks' [0]) 0 s' /\ P m s s'.
Lemma demos_intro cb env root ks ks' (P : machine -> rt nat nat -> rt nat nat -> Prop) :
  match demo cb env root ks, demo cb env root ks' with
  | Some (m, _, s), Some (_, _, s') => Nat.leb (max_initials m) 255 = true /\ P m s s'
  | _, _ => False
  end -> demo_states cb env root ks ks' P.
Proof.
  destruct (demo cb env root ks) as [[[m os] s]|] eqn:E; [|intros []].
  destruct (demo cb env root ks') as [[[m' os'] s']|] eqn:E'; [|intros []]. intros [F H].
  assert (m' = m) as -> by (unfold demo in *; destruct (compile env root); [|discriminate];
    destruct (session cb m0 0 300 0 0 ks); try discriminate; destruct (session cb m0 0 300 0 0 ks'); try discriminate; congruence).
  exists m, s, s'. split; [exact (demo_reach _ _ _ _ _ _ _ E F)|]. split; [exact (demo_reach _ _ _ _ _ _ _ E' F)|exact H].
Qed.
Lemma guards_alike : demo_states ex_cb Guards.env 50 [KSetDep 7; KSetDep 0] [] (fun m s s' => same_but_guards s s' /\
  deps_run (V := nat) [KSetDep 7; KSetDep 0] [0] = [0; 7; 0] /\
  exists t t', run ex_cb m 0 300 [pe 3; pe 1] s = Done [OBool false; OBool true] t /\
    run ex_cb m 0 300 [pe 3; pe 1] s' = Done [OBool false; OBool true] t' /\
    length (rt_trace t) = 4 /\ length (rt_trace t') = 2 /\ rt_tabs t <> rt_tabs t').
Proof.
  apply demos_intro. vm_compute. split; [reflexivity|]. split; [constructor; reflexivity|]. split; [reflexivity|].
  do 2 eexists. repeat split; try (vm_compute; reflexivity). discriminate.
Qed.
