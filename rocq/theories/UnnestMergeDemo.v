(** A program with a composite, two places of which cannot be told apart. *)

From Coq Require Import List Arith NArith Bool.
From Verif Require Import Types Static Dispatch Runtime IndexFacts Spec Semantics FlattenFacts StaticFacts TableFacts InterpFacts Dsl Examples Demo SafeDemo
  Flat FlatDemo Merge MergeDemo Unnest UnnestFacts UnnestProgram UnnestDemo UnnestMerge.
Import ListNotations.

(** The composite has an internal row, on_entry and on_exit; it is left by exit states. *)
Definition stations : cenv :=
 [ (4, mkCdef None None true true false None true);
   (11, mkCdef (Some [ user (star_state 4) 3 NoGuard (act 30) (state 5);
                       user (state 5) 3 (Guard 1 1) (act 31) (state 6);
                       user (state 6) 3 (Guard 1 1) (act 31) (state 5) ])
               (Some [mkIrow (EUser 8) NoGuard (act 80)]) true true false None true);
   (50, mkCdef (Some [ user (star_state 1) 1 NoGuard (act 10) (state 11);
                       user (exit 11 5) 2 NoGuard (act 20) (state 1);
                       user (exit 11 6) 2 NoGuard (act 20) (state 1) ]) None false false true None true) ].

Definition at_once_b (env : cenv) (m : machine) : bool :=
  forallb (fun x => if ev_eq_dec (x_ev x) ENone then false else true) (mc_flat m) &&
  forallb (fun x => match deferred_by env x with [] => true | _ => false end) (mc_flat m) &&
  forallb (fun cd => forallb (fun i => if ev_eq_dec (i_ev i) ENone then false else true)
                     (match cd_internal (snd cd) with Some l => l | None => [] end)) env.
Lemma internal_events env : forallb (fun cd => forallb (fun i => if ev_eq_dec (i_ev i) ENone then false else true)
                     (match cd_internal (snd cd) with Some l => l | None => [] end)) env = true ->
  forall c i, In i (internals env c) -> i_ev i <> ENone.
Proof.
  intros E c i. unfold internals. induction env as [|[k d] env IH]; [intros []|]. cbn [forallb snd] in E. apply andb_true_iff in E.
  destruct E as [E1 E2]. cbn [lookup]. destruct (Nat.eq_dec c k); [|now apply IH]. intros Hi. rewrite forallb_forall in E1.
  specialize (E1 i Hi). now destruct (ev_eq_dec (i_ev i) ENone).
Qed.
Lemma at_once_intro env root : match compile env root with Some m => at_once_b env m | None => false end = true -> at_once env root.
Proof.
  destruct (compile env root) as [m|] eqn:Hm; [|discriminate]. unfold at_once_b. rewrite !andb_true_iff. intros [[H1 H2] H3].
  rewrite forallb_forall in H1, H2. compiled Hm.
  assert (FD : forall x, declared (mc_env m) (mc_root m) x -> In x (mc_flat m)).
  { intros x Hx. apply flat_declared; [exact (cp_fl m Hc)|exact Hx]. }
  split.
  - intros x [Hx|Hx].
    + specialize (H1 x (FD x Hx)). now destruct (ev_eq_dec (x_ev x) ENone).
    + destruct Hx as [p c i s _ _ Hi _|p c i _ _ Hi]; cbn; exact (internal_events _ H3 c i Hi).
  - intros x Hx. specialize (H2 x (FD x Hx)). now destruct (deferred_by _ x).
Qed.

(** The states some rows lead to. *)
Definition follow (lab : naming) (env : cenv) (root : cls) (l : list sref) : list sref :=
  nodup sref_eq_dec (l ++ flat_map (fun q => flat_map (fun e => map snd (moves lab env root q e)) (nodup ev_eq_dec (all_events env root))) l).
Lemma follow_led lab env root l : Forall (led_to lab env root) l -> Forall (led_to lab env root) (follow lab env root l).
Proof.
  intros F. rewrite Forall_forall in *. intros a Ha. apply nodup_In, in_app_or in Ha. destruct Ha as [Ha|Ha]; [auto|].
  apply in_flat_map in Ha. destruct Ha as (q & Hq & Ha). apply in_flat_map in Ha. destruct Ha as (e & _ & Ha).
  apply in_map_iff in Ha. destruct Ha as (x & <- & Hx). exact (led_row lab env root q e x (F q Hq) Hx).
Qed.
Lemma led_intro lab env root n : match first_initial env root with
    | Some i => forallb (fun a => if in_dec sref_eq_dec a (Nat.iter n (follow lab env root) [i]) then true else false) (children env root)
    | None => false
    end = true -> forall a, In a (children env root) -> led_to lab env root a.
Proof.
  destruct (first_initial env root) as [i|] eqn:E; [|discriminate]. intros H a Ha. rewrite forallb_forall in H. specialize (H a Ha).
  destruct (in_dec _ _ _) as [I|]; [|discriminate].
  assert (F : Forall (led_to lab env root) (Nat.iter n (follow lab env root) [i])).
  { clear I. induction n as [|n IH]; [constructor; [now constructor|constructor]|]. apply follow_led, IH. }
  rewrite Forall_forall in F. now apply F.
Qed.
