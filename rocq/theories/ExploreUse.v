(** Uses of the exploration: safety for all user code, and concrete machines. *)

From Coq Require Import List Arith NArith Bool Lia.
From Verif Require Import Types Static Dispatch Runtime Dsl Examples IndexFacts Semantics TermFacts Data DataUse Script Explore.
Import ListNotations.

(** A client of the calls of [calls], whatever the payloads. *)
Definition client_of {V} (calls : list (call unit)) (ks : list (call V)) : Prop :=
  forall k, In k ks -> In (with_payload (fun _ => tt) k) calls.
(** The place of region [r] in a configuration. *)
Definition shows (m : machine) (c : config) (r : nat) : option place :=
  match nth_error (cf_cur c) r with
  | Some (Some x) => nth_error (places m) (N.to_nat x)
  | _ => None
  end.
Lemma shows_at {V W} m (s : rt V W) r : shows m (config_of s) r = at_place m s r.
Proof. reflexivity. Qed.

Lemma covers_more m fuel depth rounds d calls l : explore m fuel depth rounds d calls = Some l ->
  forall V W (cb : cbfun V W) vnone fuel' w ks, fuel <= fuel' -> client_of calls ks ->
  exists n, end_of (session cb m vnone fuel' d w ks) = Some n /\ In n l.
Proof.
  intros Hl V W cb vnone fuel' w ks Hf Hks. destruct (explore_covers m fuel depth rounds d calls l Hl cb vnone w ks Hks) as (n & E & I).
  exists n. split; [|exact I]. rewrite (session_mono cb m vnone fuel fuel' d w ks Hf); [exact E|]. intros T. rewrite T in E. discriminate.
Qed.
Lemma session_no_throw {V W} (cb : cbfun V W) m vnone fuel d w ks x s : session cb m vnone fuel d w ks <> Threw x s.
Proof.
  unfold session. assert (R : forall ks s0, run cb m vnone fuel ks s0 <> Threw x s).
  { clear ks. induction ks as [|k ks IH]; intros s0; cbn [run]; [discriminate|].
    destruct (do_call_catch cb m vnone fuel k s0) as [o s1|x1 s1|u|] eqn:E; cbn [bind]; try discriminate.
    - pose proof (IH s1) as I1. destruct (run cb m vnone fuel ks s1); cbn [bind]; try discriminate. congruence.
    - unfold do_call_catch in E. destruct (do_call cb m vnone fuel k s0); discriminate. }
  destruct (construct m fuel d w) as [[] s0|x0 s0|u|] eqn:E; cbn [bind]; try discriminate; [apply R|].
  intros Q. injection Q as -> ->. unfold construct in E. destruct (if cd_unexpected _ then _ else _); [|discriminate].
  destruct (fill_dispatch _ _ _); [|discriminate]. unfold init_current_state in E. destruct (nth_at _ _); [|discriminate].
  match type of E with bind (init_loop ?f0 ?l0 ?r0 ?s9) ?k = _ => assert (N : forall f r s1, init_loop f l0 r s1 <> Threw x s) end.
  { induction f as [|f IH]; intros r s1; cbn [init_loop]; [discriminate|]. destruct (Nat.ltb _ _); [|discriminate].
    destruct (nth_error _ r); [|discriminate]. unfold write_cur. destruct (upd_nth _ _ _); cbn [bind]; [apply IH|discriminate]. }
  match type of E with bind (init_loop ?f ?l ?r ?s1) ?k = _ => specialize (N f r s1); destruct (init_loop f l r s1) as [a s2|x2 s2|u|] end; cbn [bind] in E; try discriminate; [|congruence].
  unfold update_current_regions, current_parent, read_cur in E. destruct (parallel m); [|discriminate]. destruct (nth_error (rt_cur s2) 0) as [[c|]|]; cbn [bind] in E; try discriminate.
  destruct (nth_at _ _); discriminate.
Qed.
(** What holds of all configurations found and no undefined behaviour among them. *)
Theorem explore_always m fuel depth rounds d calls l (good : config -> Prop) : explore m fuel depth rounds d calls = Some l ->
  ~ In None l -> (forall c, In (Some c) l -> good c) ->
  forall V W (cb : cbfun V W) vnone fuel' w ks, fuel <= fuel' -> client_of calls ks ->
  exists outs s, session cb m vnone fuel' d w ks = Done outs s /\ good (config_of s).
Proof.
  intros Hl Hn Hg V W cb vnone fuel' w ks Hf Hks. destruct (covers_more _ _ _ _ _ _ _ Hl V W cb vnone fuel' w ks Hf Hks) as (n & E & I).
  destruct (session cb m vnone fuel' d w ks) as [outs s|x s|u|] eqn:Es; cbn in E; try discriminate.
  - injection E as <-. eauto.
  - now apply session_no_throw in Es.
  - injection E as <-. contradiction.
Qed.
(** The converse. *)
Theorem explore_never m fuel depth rounds d calls l (good : config -> Prop) : explore m fuel depth rounds d calls = Some l ->
  (forall V W (cb : cbfun V W) vnone w ks, client_of calls ks ->
   exists outs s, session cb m vnone fuel d w ks = Done outs s /\ good (config_of s)) ->
  ~ In None l /\ forall c, In (Some c) l -> good c.
Proof.
  intros Hl H. assert (G : forall n, In n l -> exists c, n = Some c /\ good c).
  { intros n Hn. destruct (explore_reached _ _ _ _ _ _ _ Hl n Hn) as (ks & script & Hks & E).
    destruct (H unit (list reply) scripted tt script ks) as (outs & s & Es & Gs); [intros k Hk; rewrite with_nothing; auto|].
    rewrite Es in E. cbn in E. injection E as <-. eauto. }
  split; [intros Hn; destruct (G _ Hn) as (c & E & _); discriminate|]. intros c Hc. destruct (G _ Hc) as (c' & E & Gc). now injection E as ->.
Qed.

Lemma explore_iff m fuel depth rounds d calls l (good : config -> Prop) : explore m fuel depth rounds d calls = Some l ->
  (~ In None l /\ (forall c, In (Some c) l -> good c) <->
   forall V W (cb : cbfun V W) vnone fuel' w ks, fuel <= fuel' -> client_of calls ks ->
   exists outs s, session cb m vnone fuel' d w ks = Done outs s /\ good (config_of s)).
Proof.
  intros Hl. split.
  - intros [Hn Hg]. exact (explore_always _ _ _ _ _ _ _ good Hl Hn Hg).
  - intros H. apply (explore_never _ _ _ _ _ _ _ good Hl). intros V W cb vnone w ks Hks. now apply H.
Qed.

(** All events of a machine. *)
Definition all_events (m : machine) : list (call unit) :=
  map (fun e => KProcess e tt) (filter (fun e => match e with ENone => false | _ => true end) (events m)).
(** Exploration as a test. *)
Definition always (env : cenv) (root : cls) (fuel depth rounds : nat) (calls : machine -> list (call unit)) (good : machine -> config -> bool) : bool :=
  match compile env root with
  | None => false
  | Some m => match explore m fuel depth rounds 0 (calls m) with
              | None => false
              | Some l => forallb (fun n => match n with Some c => good m c | None => false end) l
              end
  end.
Lemma always_sound env root fuel depth rounds calls good : always env root fuel depth rounds calls good = true ->
  exists m, compile env root = Some m /\
  forall V W (cb : cbfun V W) vnone fuel' w ks, fuel <= fuel' -> client_of (calls m) ks ->
  exists outs s, session cb m vnone fuel' 0 w ks = Done outs s /\ good m (config_of s) = true.
Proof.
  unfold always. destruct (compile env root) as [m|]; [|discriminate]. destruct (explore m fuel depth rounds 0 (calls m)) as [l|] eqn:E; [|discriminate].
  intros H. rewrite forallb_forall in H. exists m. split; [reflexivity|]. apply (explore_always m fuel depth rounds 0 (calls m) l (fun c => good m c = true) E).
  - intros I. now apply H in I.
  - intros c I. exact (H _ I).
Qed.
(** How many configurations, and is undefined behaviour among them? *)
Definition found (env : cenv) (root : cls) (fuel depth rounds : nat) (calls : machine -> list (call unit)) : option (nat * bool) :=
  match compile env root with
  | None => None
  | Some m => match explore m fuel depth rounds 0 (calls m) with
              | None => None
              | Some l => Some (length l, existsb (fun n => match n with Some _ => false | None => true end) l)
              end
  end.

(** A guard that refuses, one that throws, an action that throws, a guard that agrees. *)
Module Answers.
Definition env : cenv :=
 [ (50, tbl [ seg_to (st_eg (star_state 1) (event_guard (EUser 1) ok)) (state 3);
              seg_to (st_eg (state 1) (event_guard (EUser 2) (Guard 6 0))) (state 2);
              seg_to (st_eg (state 1) (event_guard (EUser 1) fail)) (state 2);
              sea_to (st_ea (state 3) (event_action (EUser 3) (Action 66 (ACall 666)))) (state 4) ]) ].
Definition cb : cbfun nat nat := fun c a v w =>
  match c with
  | CGuard 6 _ => Raise 6 v w
  | CAction 666 => Raise 7 v w
  | _ => ex_cb c a v w
  end.
Definition events_ : list ev := [EUser 2; EUser 1; EUser 3; EUser 1].
Definition seen {V W} (r : res V W (list out)) : option (list out * list (option N) * list callee) :=
  match r with Done os s => Some (os, rt_cur s, map (@k_callee V) (rt_trace s)) | _ => None end.
Definition by_code : option (list out * list (option N) * list callee) :=
  match compile env 50 with Some m => seen (session cb m 0 300 0 0 (map (fun e => KProcess e 0) events_)) | None => None end.
Definition by_script (l : list reply) : option (list out * list (option N) * list callee) :=
  match compile env 50 with Some m => seen (session scripted m tt 300 0 l (map (fun e => KProcess e tt) events_)) | None => None end.
End Answers.

(** Region 0 of [Regions] is never in the states 3, 5 and 7, and one region is active
    exactly when region 0 is in the sub machine. *)
Definition regions_good (m : machine) (c : config) : bool :=
  match shows m c 0 with
  | Some (p, q) =>
      negb (if in_dec sref_eq_dec q [SState 3; SState 5; SState 7] then true else false) &&
      Nat.eqb (cf_regions c) (if Nat.eqb p Regions.Sub then 1 else 2)
  | None => false
  end.
