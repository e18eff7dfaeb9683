(** The programs of Programs.v for all sequences of events. *)

From Coq Require Import List Arith NArith Bool Lia.
From Verif Require Import Types Static Dispatch Runtime Dsl Semantics Programs.
Import ListNotations.

Definition machine_of (env : cenv) (root : cls) : machine :=
  match compile env root with Some m => m | None => mkMachine [] 0 [] end.
Definition tables_of (m : machine) : tables :=
  match fill_dispatch m 0 (empty_tables m) with Some t => t | None => [] end.

Section Programs.
Context {V W : Type}.
Variable f : callee -> args -> V -> W -> W.
Variable vnone : V.
(** The machine in a place. *)
Definition base (m : machine) (pl : place) (w : W) (tr : list (called V)) : rt V W :=
  mkRt [Some (combined_idx m (fst pl) (snd pl))] (initial_table m) [] 0 (filter (defctor (mc_env m)) (states m))
       (tables_of m) [] w tr.

Section One.
Variables (I S : Type) (m : machine) (ev_of : I -> ev) (place_of : S -> place) (next : S -> I -> S * bool * list callee).
Hypothesis Hstep : forall fuel s i v w tr, exists w' tr',
  process_event (plain_user f) m vnone (2 + fuel) (ev_of i) v (base m (place_of s) w tr) =
  Done (snd (fst (next s i)), v) (base m (place_of (fst (fst (next s i)))) w' tr') /\
  map k_callee tr' = map k_callee tr ++ snd (next s i).
Fixpoint follow (s : S) (l : list I) : S * list bool * list callee :=
  match l with
  | [] => (s, [], [])
  | i :: l' => let '(s1, b, c) := next s i in let '(s2, bs, cs) := follow s1 l' in (s2, b :: bs, c ++ cs)
  end.
Lemma run_follows fuel : forall (l : list (I * V)) s w tr, exists w' tr',
  run (plain_user f) m vnone (2 + fuel) (map (fun iv => KProcess (ev_of (fst iv)) (snd iv)) l) (base m (place_of s) w tr) =
  Done (answers (snd (fst (follow s (map fst l))))) (base m (place_of (fst (fst (follow s (map fst l))))) w' tr') /\
  map k_callee tr' = map k_callee tr ++ snd (follow s (map fst l)).
Proof.
  induction l as [|[i v] l IH]; intros s w tr.
  - exists w, tr. cbn. now rewrite app_nil_r.
  - destruct (Hstep fuel s i v w tr) as (w1 & tr1 & E1 & K1). cbn [map follow fst snd run].
    unfold do_call_catch. cbn [do_call]. rewrite E1. cbn [bind]. destruct (next s i) as [[s1 b] c]. cbn [fst snd] in *.
    destruct (IH s1 w1 tr1) as (w2 & tr2 & E2 & K2). destruct (follow s1 (map fst l)) as [[s2 bs] cs]. cbn [fst snd] in *.
    exists w2, tr2. rewrite E2. cbn [bind]. rewrite K2, K1, app_assoc. split; reflexivity.
Qed.
End One.
End Programs.

(** The calls of a step come after the calls before it. *)
Ltac appended := match goal with |- map _ _ = map _ ?tr ++ _ => induction tr as [|? ? IH]; [reflexivity|exact (f_equal (cons _) IH)] end.

Section Turnstile.
Import Turnstile.
Definition ts_m := Eval vm_compute in machine_of env Turnstile.
Lemma ts_compiles : compile env Turnstile = Some ts_m.
Proof. vm_compute. reflexivity. Qed.
Definition ts_next (s : bool) (i : input) := (fst (next s i), true, snd (next s i)).
Lemma ts_step {V W} (f : callee -> args -> V -> W -> W) vnone fuel s i v w tr : exists w' tr',
  process_event (plain_user f) ts_m vnone (2 + fuel) (ev_of i) v (base ts_m (Turnstile, state_of s) w tr) =
  Done (snd (fst (ts_next s i)), v) (base ts_m (Turnstile, state_of (fst (fst (ts_next s i)))) w' tr') /\
  map k_callee tr' = map k_callee tr ++ snd (ts_next s i).
Proof. destruct s, i; eexists; eexists; (split; [vm_compute; reflexivity|]); appended. Qed.
Lemma ts_start {V W} fuel (w : W) : construct (V := V) ts_m (2 + fuel) 0 w = Done tt (base ts_m (Turnstile, state_of true) w []).
Proof. vm_compute. reflexivity. Qed.
Lemma ts_follow : forall l s, follow _ _ ts_next s l = (fst (spec s l), repeat true (length l), snd (spec s l)).
Proof.
  induction l as [|i l IH]; intros s; [reflexivity|]. cbn [follow spec length repeat]. unfold ts_next at 1. rewrite IH.
  destruct (next s i) as [b c]. cbn [fst snd]. now destruct (spec b l).
Qed.
Lemma turnstile {V W} (f : callee -> args -> V -> W -> W) vnone fuel w (l : list (input * V)) : 2 <= fuel -> exists m s,
  compile env Turnstile = Some m /\
  session (plain_user f) m vnone fuel 0 w (map (fun iv => KProcess (ev_of (fst iv)) (snd iv)) l) =
    Done (answers (repeat true (length l))) s /\
  at_place m s 0 = Some (Turnstile, state_of (fst (spec true (map fst l)))) /\
  map k_callee (rt_trace s) = snd (spec true (map fst l)).
Proof.
  intros Hf. destruct fuel as [|[|fuel]]; [lia|lia|]. change (S (S fuel)) with (2 + fuel). exists ts_m.
  destruct (run_follows f vnone input bool ts_m ev_of (fun s => (Turnstile, state_of s)) ts_next (ts_step f vnone) fuel l true w []) as (w' & tr' & E & K).
  rewrite ts_follow in E, K. cbn [fst snd] in E, K. rewrite map_length in E.
  exists (base ts_m (Turnstile, state_of (fst (spec true (map fst l)))) w' tr'). split; [exact ts_compiles|].
  pose proof (ts_start (V := V) fuel w) as E0. unfold session. rewrite E0. cbn [bind]. rewrite E. split; [reflexivity|]. split; [|exact K].
  destruct (fst (spec true (map fst l))); vm_compute; reflexivity.
Qed.
End Turnstile.

Section CdPlayer.
Import CdPlayer.
Definition cd_m := Eval vm_compute in machine_of env CdPlayer.
Lemma cd_compiles : compile env CdPlayer = Some cd_m.
Proof. vm_compute. reflexivity. Qed.
Definition cd_next (s : mode) (i : input) : mode * bool * list callee :=
  match next s i with Some (s', d) => (s', true, [CAction (fn d)]) | None => (s, false, []) end.
Lemma cd_step {V W} (f : callee -> args -> V -> W -> W) vnone fuel s i v w tr : exists w' tr',
  process_event (plain_user f) cd_m vnone (2 + fuel) (ev_of i) v (base cd_m (place_of s) w tr) =
  Done (snd (fst (cd_next s i)), v) (base cd_m (place_of (fst (fst (cd_next s i)))) w' tr') /\
  map k_callee tr' = map k_callee tr ++ snd (cd_next s i).
Proof. destruct s as [| | | |[]], i; eexists; eexists; (split; [vm_compute; reflexivity|]); appended. Qed.
Lemma cd_start {V W} fuel (w : W) : construct (V := V) cd_m (2 + fuel) 0 w = Done tt (base cd_m (place_of Nothing) w []).
Proof. vm_compute. reflexivity. Qed.
Lemma cd_follow : forall l s, follow _ _ cd_next s l =
  (let '(s', bs, ds) := spec s l in (s', bs, map (fun d => CAction (fn d)) ds)).
Proof.
  induction l as [|i l IH]; intros s; [reflexivity|]. cbn [follow spec]. unfold cd_next at 1.
  destruct (next s i) as [[s1 d]|]; rewrite IH; now destruct (spec _ l) as [[s2 bs] ds].
Qed.
Lemma cdplayer {V W} (f : callee -> args -> V -> W -> W) vnone fuel w (l : list (input * V)) : 2 <= fuel -> exists m s,
  compile env CdPlayer = Some m /\
  session (plain_user f) m vnone fuel 0 w (map (fun iv => KProcess (ev_of (fst iv)) (snd iv)) l) =
    Done (answers (snd (fst (spec Nothing (map fst l))))) s /\
  at_place m s 0 = Some (place_of (fst (fst (spec Nothing (map fst l))))) /\
  map k_callee (rt_trace s) = map (fun d => CAction (fn d)) (snd (spec Nothing (map fst l))).
Proof.
  intros Hf. destruct fuel as [|[|fuel]]; [lia|lia|]. change (S (S fuel)) with (2 + fuel). exists cd_m.
  destruct (run_follows f vnone input mode cd_m ev_of place_of cd_next (cd_step f vnone) fuel l Nothing w []) as (w' & tr' & E & K).
  rewrite cd_follow in E, K. destruct (spec Nothing (map fst l)) as [[s bs] ds]. cbn [fst snd] in *.
  exists (base cd_m (place_of s) w' tr'). split; [exact cd_compiles|].
  pose proof (cd_start (V := V) fuel w) as E0. unfold session. rewrite E0. cbn [bind]. rewrite E. split; [reflexivity|]. split; [|exact K].
  destruct s as [| | | |[]]; vm_compute; reflexivity.
Qed.
End CdPlayer.

(** ** What follows *)
Lemma spec_unlocked : forall l s, fst (Turnstile.spec s l) = match rev l with [] => s | Turnstile.Coin :: _ => false | _ => true end.
Proof.
  induction l as [|i l IH]; intros s; [reflexivity|]. cbn [Turnstile.spec rev].
  destruct (Turnstile.next s i) as [b c] eqn:E. specialize (IH b). destruct (Turnstile.spec b l) as [b' c']. cbn [fst] in *. rewrite IH.
  destruct (rev l) as [|j r]; cbn [app]; [|reflexivity]. destruct s, i; inversion E; reflexivity.
Qed.
Lemma spec_blinks : forall l s, length (filter (fun c => match c with CAction 2 => true | _ => false end) (snd (Turnstile.spec s l))) =
  length (filter (fun i => match i with Turnstile.Coin => true | _ => false end) l).
Proof.
  induction l as [|i l IH]; intros s; [reflexivity|]. cbn [Turnstile.spec filter].
  destruct (Turnstile.next s i) as [b c] eqn:E. specialize (IH b). destruct (Turnstile.spec b l) as [b' c']. cbn [snd] in *.
  rewrite filter_app, app_length, IH. destruct s, i; inversion E; reflexivity.
Qed.
Definition is_drawer (s : CdPlayer.mode) : bool := match s with CdPlayer.Drawer => true | _ => false end.
Definition is_open_close (i : CdPlayer.input) : bool := match i with CdPlayer.open_close => true | _ => false end.
Lemma spec_drawer : forall l s, is_drawer (fst (fst (CdPlayer.spec s l))) = xorb (is_drawer s) (Nat.odd (length (filter is_open_close l))).
Proof.
  induction l as [|i l IH]; intros s; [now destruct s|]. cbn [CdPlayer.spec filter].
  assert (G : forall s1, CdPlayer.next s i = None /\ s1 = s \/ (exists d, CdPlayer.next s i = Some (s1, d)) ->
    is_drawer s1 = xorb (is_drawer s) (is_open_close i)).
  { intros s1 [[E ->]|[d E]]; destruct s as [| | | |[]], i; inversion E; reflexivity. }
  assert (O : forall n, Nat.odd (S n) = negb (Nat.odd n)) by (intros n; rewrite Nat.odd_succ, <- Nat.negb_odd; reflexivity).
  assert (L : Nat.odd (length (if is_open_close i then i :: filter is_open_close l else filter is_open_close l)) =
    xorb (is_open_close i) (Nat.odd (length (filter is_open_close l)))).
  { destruct (is_open_close i); cbn [length]; [rewrite O|]; now destruct (Nat.odd _). }
  rewrite L, <- xorb_assoc. destruct (CdPlayer.next s i) as [[s1 d]|] eqn:E.
  - specialize (IH s1). rewrite (G s1) in IH by eauto. destruct (CdPlayer.spec s1 l) as [[s2 bs] ds]. exact IH.
  - specialize (IH s). rewrite <- (G s) by auto. destruct (CdPlayer.spec s l) as [[s2 bs] ds]. exact IH.
Qed.
Lemma drawer_place s : (CdPlayer.place_of s = (CdPlayer.CdPlayer, SState CdPlayer.Open)) <-> is_drawer s = true.
Proof. destruct s as [| | | |[]]; cbn; split; intros H; try discriminate; reflexivity. Qed.

Section Follows.
Context {V W : Type}.
Variable f : callee -> args -> V -> W -> W.
Variables (vnone : V) (fuel : nat) (w : W).
Hypothesis Hf : 2 <= fuel.
Lemma turnstile_unlocked (l : list (Turnstile.input * V)) : exists m s outs, compile Turnstile.env Turnstile.Turnstile = Some m /\
  session (plain_user f) m vnone fuel 0 w (map (fun iv => KProcess (Turnstile.ev_of (fst iv)) (snd iv)) l) = Done outs s /\
  (at_place m s 0 = Some (Turnstile.Turnstile, SState Turnstile.Unlocked) <-> exists l' v, l = l' ++ [(Turnstile.Coin, v)]) /\
  (at_place m s 0 = Some (Turnstile.Turnstile, SState Turnstile.Locked) <-> l = [] \/ exists l' v, l = l' ++ [(Turnstile.Push, v)]) /\
  length (filter (fun k => match k_callee k with CAction 2 => true | _ => false end) (rt_trace s)) =
  length (filter (fun iv => match fst iv with Turnstile.Coin => true | _ => false end) l).
Proof.
  destruct (turnstile f vnone fuel w l Hf) as (m & s & Hm & E & P & T). exists m, s, (answers (repeat true (length l))).
  split; [exact Hm|]. split; [exact E|]. rewrite P, spec_unlocked, <- map_rev.
  assert (R : forall i v, (exists r, rev l = (i, v) :: r) -> exists l' v', l = l' ++ [(i, v')]).
  { intros i v (r & H). exists (rev r), v. rewrite <- (rev_involutive l), H. reflexivity. }
  split; [|split].
  - destruct (rev l) as [|[[] v] r] eqn:El; cbn; (split; [intros H; try discriminate H|intros (l' & v' & H)]).
    + rewrite H, rev_app_distr in El. discriminate.
    + rewrite H, rev_app_distr in El. discriminate.
    + apply (R _ v). eauto.
    + reflexivity.
  - destruct (rev l) as [|[[] v] r] eqn:El; cbn; (split; [intros H; try discriminate H|intros H]).
    + left. now rewrite <- (rev_involutive l), El.
    + reflexivity.
    + right. apply (R _ v). eauto.
    + reflexivity.
    + exfalso. destruct H as [->|(l' & v' & H)]; [discriminate|]. rewrite H, rev_app_distr in El. discriminate.
  - transitivity (length (filter (fun c => match c with CAction 2 => true | _ => false end) (map k_callee (rt_trace s)))).
    { induction (rt_trace s) as [|k tr IH] in |- *; [reflexivity|]. cbn. destruct (k_callee k) as [| [|[|[|]]] | | | | |]; cbn; congruence. }
    rewrite T, spec_blinks. clear. induction l as [|[[] v] l IH]; cbn; congruence.
Qed.
Lemma cd_drawer (l : list (CdPlayer.input * V)) : exists m s outs, compile CdPlayer.env CdPlayer.CdPlayer = Some m /\
  session (plain_user f) m vnone fuel 0 w (map (fun iv => KProcess (CdPlayer.ev_of (fst iv)) (snd iv)) l) = Done outs s /\
  (at_place m s 0 = Some (CdPlayer.CdPlayer, SState CdPlayer.Open) <->
   Nat.Odd (length (filter (fun iv => match fst iv with CdPlayer.open_close => true | _ => false end) l))).
Proof.
  destruct (cdplayer f vnone fuel w l Hf) as (m & s & Hm & E & P & _). exists m, s. eexists. split; [exact Hm|]. split; [exact E|].
  rewrite P. transitivity (CdPlayer.place_of (fst (fst (CdPlayer.spec CdPlayer.Nothing (map fst l)))) = (CdPlayer.CdPlayer, SState CdPlayer.Open));
    [split; [intros H; exact (f_equal (fun o => match o with Some x => x | None => (0, SState 0) end) H)|now intros ->]|].
  rewrite drawer_place, spec_drawer, <- Nat.odd_spec. cbn [is_drawer xorb].
  assert (L : length (filter is_open_close (map fst l)) = length (filter (fun iv => match fst iv with CdPlayer.open_close => true | _ => false end) l)).
  { clear. induction l as [|[[] v] l IH]; cbn; congruence. }
  rewrite L. now destruct (Nat.odd _).
Qed.
End Follows.
Lemma cd_resume : exists m s s' outs outs' (l : list (CdPlayer.input * nat)),
  compile CdPlayer.env CdPlayer.CdPlayer = Some m /\
  session (plain_user (fun _ _ _ w => w)) m 0 2 0 tt (map (fun iv => KProcess (CdPlayer.ev_of (fst iv)) (snd iv)) l) = Done outs s /\
  session (plain_user (fun _ _ _ w => w)) m 0 2 0 tt
    (map (fun iv => KProcess (CdPlayer.ev_of (fst iv)) (snd iv)) (l ++ [(CdPlayer.pause2, 0); (CdPlayer.end_pause, 0)])) = Done outs' s' /\
  at_place m s 0 = Some (CdPlayer.Playing, SState CdPlayer.Song2) /\
  at_place m s' 0 = Some (CdPlayer.Playing, SState CdPlayer.Song1).
Proof.
  exists cd_m. do 4 eexists. exists [(CdPlayer.cd_detected, 0); (CdPlayer.play, 0); (CdPlayer.next_song, 0)].
  split; [exact cd_compiles|]. split; [vm_compute; reflexivity|]. split; [vm_compute; reflexivity|]. split; vm_compute; reflexivity.
Qed.
