(** Machines for C88. *)

From Coq Require Import List Arith NArith Bool.
From Verif Require Import Types Static Dispatch Runtime Dsl Examples Spec Semantics Reach StaticFacts TableFacts FlattenFacts DispatchFacts IndexFacts Demo Waiting.
Import ListNotations.

(** The action on event 2, or on event 1, throws. *)
Definition recalled_throws : cbfun nat nat := fun c a v w =>
  match c, a_ev a with CAction _, EUser 2 => Raise 7 v w | _, _ => ex_cb c a v w end.
Definition first_throws : cbfun nat nat := fun c a v w =>
  match c, a_ev a with CAction _, EUser 1 => Raise 7 v w | _, _ => ex_cb c a v w end.

(** [Defer.env] without a handler of unexpected events. *)
Definition ready_env : cenv :=
 [ (1, mkCdef None None false false false (Some [EUser 2; EUser 3]) true);
   (50, tbl
     [ sea_to (st_ea (star_state 1) (event_action (EUser 1) act)) (state 2);
       sea_to (st_ea (state 1) (event_action (EUser 3) act)) (state 2);
       sea_to (st_ea (state 2) (event_action (EUser 2) act)) (state 1) ]) ].

Lemma run_same {V W} (cb : cbfun V W) m vnone fuel k o s : do_call_catch cb m vnone fuel k s = Done o s ->
  forall n, run cb m vnone fuel (repeat k n) s = Done (repeat o n) s.
Proof. intros H n. induction n as [|n IH]; cbn [repeat run]; [reflexivity|]. rewrite H. cbn [bind]. now rewrite IH. Qed.

Lemma ready_waits : exists env root m s e, running ex_cb env root m 0 [0] 0 s /\
  rt_queue s = [(e, 0)] /\ (exists pl x o, at_place m s 0 = Some pl /\ candidate env root e pl (CRow x o) /\ x_guard x = NoGuard) /\
  forall n, exists os, run ex_cb m 0 300 (repeat (pe 3) n) s = Done os s.
Proof.
  assert (D : demo_state ex_cb ready_env 50 [pe 3; pe 2; pe 1] (fun m s =>
    rt_queue s = [(EUser 2, 0)] /\ at_place m s 0 = Some (50, SState 2) /\
    (exists x o, In (CRow x o) (cands m (EUser 2) (50, SState 2)) /\ x_guard x = NoGuard) /\
    do_call_catch ex_cb m 0 300 (pe 3) s = Done F s)).
  { apply demo_intro. vm_compute. split; [reflexivity|]. split; [reflexivity|]. split; [reflexivity|].
    split; [|reflexivity]. eexists _, _. split; [left; reflexivity|reflexivity]. }
  destruct D as (m & s & Hm & Hf & R & Q & P & (x & o & C & G) & E).
  exists ready_env, 50, m, s, (EUser 2). split; [split; [exact Hm|split; [exact Hf|exact R]]|].
  split; [exact Q|]. split.
  - exists (50, SState 2), x, o. split; [exact P|]. split; [|exact G].
    clear - Hm C. destruct (compile_comp _ _ _ Hm) as (Hc & He & Hr). pose proof (cands_sound m Hc _ _ _ C) as X. now rewrite He, Hr in X.
  - intros n. exists (repeat F n). now apply run_same.
Qed.
