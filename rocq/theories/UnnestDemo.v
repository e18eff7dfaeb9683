(** Programs for C99. *)

From Coq Require Import List Arith NArith Bool.
From Verif Require Import Types Static Dispatch Runtime IndexFacts Spec Semantics FlattenFacts StaticFacts TableFacts InterpFacts Interp Probe ProbeFacts ProbeProgram
  Dsl Examples Demo SafeDemo InterpDemo Unnest UnnestFacts UnnestProgram ProbeDemo.
Import ListNotations.

Definition by_pointer_b (c : callee) : bool := match c with CFactory _ | CReuse _ => true | _ => false end.
Definition no_pointer_b (a : action) : bool := negb (existsb by_pointer_b (calls_of a)).
Definition no_pointers (env : cenv) : bool :=
  forallb (fun cd => forallb (fun r => no_pointer_b (r_act r)) (match cd_table (snd cd) with Some l => l | None => [] end) &&
                     forallb (fun i => no_pointer_b (i_act i)) (match cd_internal (snd cd) with Some l => l | None => [] end)) env.
Definition one_region_b (env : cenv) (root : cls) (m : machine) : bool :=
  forallb (fun p => Nat.leb (length (initial_states env p)) 1) (parents m) &&
  existsb (fun r => marked (r_src r)) (table env root) &&
  forallb (fun x => negb (is_history (x_tgt x))) (mc_flat m) &&
  forallb (fun x => match target_place env x with Some pl => if in_dec Nat.eq_dec (fst pl) (parents m) then true else false | None => true end)
          (mc_flat m) &&
  no_pointers env.
Lemma no_pointers_all env : no_pointers env = true -> forall c,
  (forall r, In r (table env c) -> no_pointer_b (r_act r) = true) /\
  (forall i, In i (internals env c) -> no_pointer_b (i_act i) = true).
Proof.
  intros E c. unfold table, internals. induction env as [|[k d] env IH]; [split; intros ? []|].
  unfold no_pointers in E. cbn [forallb snd] in E. apply andb_true_iff in E. destruct E as [E1 E2].
  apply andb_true_iff in E1. destruct E1 as [E0 E1]. cbn [lookup]. destruct (Nat.eq_dec c k); [|now apply IH].
  rewrite forallb_forall in E0, E1. auto.
Qed.
Lemma no_pointer ty b : no_pointer_b (Action ty b) = true -> ~ needs_pointer b.
Proof.
  intros E N. apply pointer_calls in N. destruct N as (c & Hc & P). unfold no_pointer_b in E. cbn [calls_of] in E.
  apply negb_true_iff in E. rewrite <- not_true_iff_false in E. apply E, existsb_exists. exists c. split; [exact Hc|]. destruct c; try destruct P; reflexivity.
Qed.
Lemma one_region_intro env root : match compile env root with Some m => one_region_b env root m | None => false end = true ->
  one_region env root.
Proof.
  destruct (compile env root) as [m|] eqn:Hm; [|discriminate]. unfold one_region_b. rewrite !andb_true_iff.
  intros [[[[H1 H2] H3] H4] H5]. rewrite forallb_forall in H1, H3, H4. apply existsb_exists in H2. compiled Hm.
  assert (FD : forall x, declared (mc_env m) (mc_root m) x -> In x (mc_flat m)).
  { intros x Hx. apply flat_declared; [exact (cp_fl m Hc)|exact Hx]. }
  split.
  - intros p Hp. apply Nat.leb_le. apply H1. now apply (parent_iff m Hc).
  - destruct H2 as (r & Hr & E). eauto.
  - intros x w p Hx E. specialize (H3 x (FD x Hx)). rewrite E in H3. discriminate.
  - intros x pl Hx E. specialize (H4 x (FD x Hx)). rewrite E in H4. destruct (in_dec _ _ _) as [I|]; [|discriminate].
    now apply (parent_iff m Hc).
  - intros x ty b Hx E. apply (no_pointer ty). rewrite <- E. pose proof (no_pointers_all _ H5) as P.
    destruct Hx as [(p & r & _ & Hr & ->)|[p c i s _ _ Hi _|p c i _ _ Hi]]; cbn; [now apply (proj1 (P p))|now apply (proj2 (P c))..].
Qed.

(** Two composites, one in the other, with entry and exit functions, a guard, a row out of
    the composite, an exit state, a direct entry, internal rows, a deferred event, an
    anonymous row and a handler. *)
Definition act (n : nat) : action := Action n (ACall n).
Definition user (s : sref) (e : nat) (g : guard) (a : action) (t : sref) : row := mkRow s (EUser e) g a t.
Definition nested : cenv :=
 [ (1, mkCdef None None true true false None true);
   (4, mkCdef None (Some [mkIrow (EUser 7) NoGuard (act 70)]) true true false (Some [EUser 5]) true);
   (7, mkCdef None None true false false None true);
   (11, mkCdef (Some [ user (star_state 4) 3 NoGuard (act 30) (state 12);
                       user (state 12) 4 (Guard 1 0) (act 40) (state 4);
                       user (state 12) 4 (Guard 0 0) (act 41) (state 9) ])
               (Some [mkIrow (EUser 8) NoGuard (act 80)]) true true false None true);
   (12, mkCdef (Some [ user (star_state 6) 5 NoGuard (act 50) (state 7);
                       mkRow (state 7) ENone NoGuard (act 51) (state 8) ]) None true true false None true);
   (50, mkCdef (Some [ user (star_state 1) 1 (Guard 1 1) (act 10) (state 11);
                       user (state 11) 2 NoGuard (Action 20 (AChain [ACall 20; ACall 21])) (state 1);
                       user (exit 11 4) 6 NoGuard (act 60) (state 1);
                       user (state 1) 6 NoGuard NoAction (entry 11 4) ]) None false false true None true) ].
(** Results, calls in the words of the program with composites, data of the user. *)
Definition heard (f : called nat -> called nat) (r : res nat nat (list out)) : option (list out * list (called nat) * nat) :=
  match r with Done os s => Some (os, map f (rt_trace s), rt_world s) | _ => None end.
(** With history. *)
Definition remembers : cenv :=
 [ (11, tbl [ user (star_state 4) 3 NoGuard NoAction (state 5); user (state 5) 4 NoGuard (act 40) (state 4) ]);
   (50, tbl [ user (star_state 1) 1 NoGuard NoAction (history 11); user (state 11) 2 NoGuard NoAction (state 1) ]) ].
Definition said (r : res nat nat (list out)) : option (list out * list callee) :=
  match r with Done os s => Some (os, map (@k_callee nat) (rt_trace s)) | _ => None end.
Lemma width_intro env root :
  match compile env root with Some m => forallb (fun p => Nat.leb (length (initial_states env p)) 1) (parents m) | None => false end = true ->
  forall p, is_parent env root p -> length (initial_states env p) <= 1.
Proof.
  destruct (compile env root) as [m|] eqn:Hm; [|discriminate]. intros H1 p Hp. rewrite forallb_forall in H1. compiled Hm.
  apply Nat.leb_le. apply H1. now apply (parent_iff m Hc).
Qed.
