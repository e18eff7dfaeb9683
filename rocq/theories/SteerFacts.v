(** The test of [Steer] is right. *)

From Coq Require Import List Arith NArith Bool Lia.
From Verif Require Import Types Static Dispatch Runtime TermFacts Data DataUse Script Explore ExploreUse Steer.
Import ListNotations.

Lemma leads_more {V W} (cb : cbfun V W) m vnone fuel client goal n h s : leads cb m vnone fuel client goal n h s ->
  forall n', n <= n' -> leads cb m vnone fuel client goal n' h s.
Proof.
  induction 1 as [n h s G|n h s o s' E L IH]; intros n' Hn; [now constructor|]. destruct n' as [|n']; [lia|].
  eapply leads_next; [exact E|]. apply IH. lia.
Qed.
Lemma leads_mono {V W} (cb : cbfun V W) m vnone fuel fuel' client goal n h s : fuel <= fuel' -> leads cb m vnone fuel client goal n h s ->
  leads cb m vnone fuel' client goal n h s.
Proof.
  intros Hf. induction 1 as [n h s G|n h s o s' E L IH]; [now constructor|]. eapply leads_next; [|exact IH].
  pose proof (do_call_catch_mono cb m vnone fuel fuel' (client (config_of s :: h)) s Hf) as H. unfold extends in H.
  rewrite H; [exact E|]. rewrite E. discriminate.
Qed.

Section Plans.
Variable m : machine.
Variables fuel depth : nat.
Variables (tabs : tables) (htabs : handler_tables).
Variable calls : list (call unit).
Variable goal : config -> bool.
Hypothesis Hs : existsb is_set_dep calls = false.
Notation won := (won goal).
Notation forces := (forces m fuel depth tabs htabs goal).
Notation extend := (extend m fuel depth tabs htabs calls goal).
Notation pass := (pass m fuel depth tabs htabs calls goal).
Notation grow := (grow m fuel depth tabs htabs calls goal).

Inductive ordered : plan -> Prop :=
  | ordered_nil : ordered []
  | ordered_cons c k p : won p c = false -> In k calls -> forces p c k = true -> ordered p -> ordered ((c, k) :: p).
Lemma extend_ordered p n : ordered p -> ordered (extend p n).
Proof.
  intros Hp. unfold Steer.extend. destruct n as [c|]; [|exact Hp]. destruct (won p c) eqn:Ew; [exact Hp|].
  destruct (find (forces p c) calls) as [k|] eqn:Ef; [|exact Hp]. apply find_some in Ef as [I F]. now constructor.
Qed.
Lemma pass_ordered l : forall p, ordered p -> ordered (pass l p).
Proof. induction l as [|n l IH]; intros p Hp; [exact Hp|]. apply IH, extend_ordered, Hp. Qed.
Lemma grow_ordered n l : forall p, ordered p -> ordered (grow n l p).
Proof.
  induction n as [|n IH]; intros p Hp; cbn [Steer.grow]; [exact Hp|]. destruct (Nat.eqb _ _); [exact Hp|]. apply IH, pass_ordered, Hp.
Qed.
Lemma advice_calls p : ordered p -> forall c k, advice p c = Some k -> In k calls /\ goal c = false.
Proof.
  induction 1 as [|c0 k0 p Hw Hk Hf Hp IH]; intros c k; cbn [advice]; [discriminate|].
  destruct (config_eq_dec c0 c) as [<-|N]; [|apply IH]. intros [= <-]. split; [exact Hk|]. unfold Steer.won in Hw. now apply orb_false_elim in Hw.
Qed.

(** Following a plan. *)
Section Follow.
Context {V W : Type}.
Variable cb : cbfun V W.
Variable vnone : V.
Variable client : list config -> call V.
Lemma follow p : ordered p -> (forall c h k, advice p c = Some k -> with_payload (fun _ => tt) (client (c :: h)) = k) ->
  forall h (s : rt V W), rt_tabs s = tabs -> rt_htabs s = htabs -> won p (config_of s) = true ->
  leads cb m vnone fuel client (fun c => goal c = true) (length p) h s.
Proof.
  induction 1 as [|c0 k0 p Hw Hk Hf Hp IH]; intros Hc h s Ht Hh Ew.
  - unfold Steer.won in Ew. cbn in Ew. rewrite orb_false_r in Ew. now constructor.
  - assert (Hc' : forall c h k, advice p c = Some k -> with_payload (fun _ => tt) (client (c :: h)) = k).
    { intros c h0 k E. apply Hc. cbn [advice]. destruct (config_eq_dec c0 c) as [<-|N]; [|exact E].
      unfold Steer.won in Hw. rewrite E in Hw. now rewrite orb_true_r in Hw. }
    destruct (won p (config_of s)) eqn:Ep.
    { apply (leads_more _ _ _ _ _ _ (length p)); [now apply IH|cbn; lia]. }
    assert (Ec : c0 = config_of s).
    { unfold Steer.won in Ew, Ep. cbn [advice] in Ew. destruct (config_eq_dec c0 (config_of s)) as [E|N]; [exact E|congruence]. }
    assert (Ek : with_payload (fun _ => tt) (client (config_of s :: h)) = k0).
    { apply Hc. cbn [advice]. now destruct (config_eq_dec c0 (config_of s)). }
    assert (Hsk : is_set_dep (client (config_of s :: h)) = false) by (rewrite <- is_set_dep_bare, Ek; apply (no_set_dep _ Hs _ Hk)).
    unfold Steer.forces in Hf. rewrite Ec in Hf.
    destruct (ends m fuel tabs htabs depth (config_of s) k0 []) as [a|] eqn:Ea; [|discriminate]. rewrite forallb_forall in Hf.
    destruct (real_call m fuel tabs htabs cb vnone _ s Ht Hh Hsk) as (L & HL). rewrite Ek in HL.
    pose proof (ends_cover m fuel tabs htabs depth (config_of s) k0 (no_set_dep _ Hs _ Hk) [] L a Ea) as Cv. cbn [app] in Cv.
    destruct (do_call_catch cb m vnone fuel (client (config_of s :: h)) s) as [o s'|x s'|u|] eqn:E.
    + destruct HL as (Ht' & Hh' & o1 & s1 & E1 & Ewd & Ecf). rewrite E1 in Cv. specialize (Cv Ewd). rewrite Ecf in Cv.
      apply Hf in Cv. cbn [length]. eapply leads_next; [exact E|]. now apply IH.
    + destruct HL.
    + rewrite HL in Cv. now apply Hf in Cv.
    + rewrite HL in Cv. destruct Cv.
Qed.
End Follow.

(** A plan that cannot grow. *)
Definition stuck (l : list (option config)) (p : plan) : Prop := forall c, In (Some c) l -> won p c = false -> forall k, In k calls -> forces p c k = false.
Lemma extend_longer p n : extend p n = p \/ length (extend p n) = S (length p).
Proof.
  unfold Steer.extend. destruct n as [c|]; [|now left]. destruct (won p c); [now left|]. destruct (find _ _); [now right|now left].
Qed.
Lemma pass_longer l : forall p, length p <= length (pass l p).
Proof.
  induction l as [|n l IH]; intros p; [apply Nat.le_refl|]. change (pass (n :: l) p) with (pass l (extend p n)).
  destruct (extend_longer p n) as [E|E]; [rewrite E; apply IH|]. specialize (IH (extend p n)). lia.
Qed.
Lemma pass_same l : forall p, length (pass l p) = length p -> forall n, In n l -> extend p n = p.
Proof.
  induction l as [|n0 l IH]; intros p H n; [intros []|]. change (pass (n0 :: l) p) with (pass l (extend p n0)) in H.
  destruct (extend_longer p n0) as [E|E]; [|pose proof (pass_longer l (extend p n0)); lia].
  rewrite E in H. intros [<-|I]; [exact E|]. now apply IH.
Qed.
Lemma same_stuck l p : length (pass l p) = length p -> stuck l p.
Proof.
  intros H c Hc Hw k Hk. pose proof (pass_same l p H _ Hc) as E. unfold Steer.extend in E. rewrite Hw in E.
  destruct (find (forces p c) calls) as [k'|] eqn:Ef; [|exact (find_none _ _ Ef _ Hk)].
  apply (f_equal (@length _)) in E. cbn in E. lia.
Qed.
Lemma extend_keys l p n : In n l -> incl (map (fun x => Some (fst x)) p) l -> incl (map (fun x => Some (fst x)) (extend p n)) l.
Proof.
  intros Hn Hp. unfold Steer.extend. destruct n as [c|]; [|exact Hp]. destruct (won p c); [exact Hp|]. destruct (find _ _); [|exact Hp].
  intros x [<-|Hx]; [exact Hn|now apply Hp].
Qed.
Lemma pass_keys l l0 : incl l0 l -> forall p, incl (map (fun x => Some (fst x)) p) l -> incl (map (fun x => Some (fst x)) (pass l0 p)) l.
Proof.
  induction l0 as [|n l0 IH]; intros Hi p Hp; [exact Hp|]. apply IH; [intros x Hx; apply Hi; now right|]. apply extend_keys; [apply Hi; now left|exact Hp].
Qed.
Lemma advice_in p c : In c (map fst p) -> advice p c <> None.
Proof.
  induction p as [|[c0 k0] p IH]; cbn; [intros []|]. destruct (config_eq_dec c0 c); [discriminate|]. intros [E|H]; [contradiction|auto].
Qed.
Lemma ordered_nodup p : ordered p -> NoDup (map (fun x => Some (fst x)) p).
Proof.
  induction 1 as [|c k p Hw Hk Hf Hp IH]; cbn [map fst]; constructor; auto. intros I. apply in_map_iff in I as ([c' k'] & [= <-] & I).
  unfold Steer.won in Hw. apply orb_false_elim in Hw as [_ Hw]. apply (advice_in p c'); [now apply (in_map fst) in I|]. now destruct (advice p c').
Qed.
Lemma grow_stuck l : forall n p, ordered p -> incl (map (fun x => Some (fst x)) p) l -> length l < n + length p -> stuck l (grow n l p).
Proof.
  induction n as [|n IH]; intros p Ho Hi Hn.
  - pose proof (NoDup_incl_length (ordered_nodup p Ho) Hi) as H. rewrite map_length in H. lia.
  - cbn [Steer.grow]. destruct (Nat.eqb (length (pass l p)) (length p)) eqn:E.
    + apply Nat.eqb_eq in E. now apply same_stuck.
    + apply Nat.eqb_neq in E. pose proof (pass_longer l p). apply IH; [now apply pass_ordered|apply pass_keys; [now intros x|exact Hi]|lia].
Qed.

(** Where user code can prevent the goal. *)
Lemma prevented l p : stuck l p -> (forall n, In n l -> exists ns, steps m fuel tabs htabs depth calls n = Some ns /\ incl ns l) ->
  forall client, (forall h, In (client h) calls) -> forall n h c, In (Some c) l -> won p c = false ->
  exists script, forall s : rt unit (list reply), config_of s = c -> rt_tabs s = tabs -> rt_htabs s = htabs -> rt_world s = script ->
    ~ leads scripted m tt fuel client (fun c => goal c = true) n h s.
Proof.
  intros Hst Hcl client Hc. induction n as [|n IH]; intros h c Hin Hw.
  { exists []. intros s <- _ _ _ L. inversion L as [n0 h0 s0 G|]; subst. unfold Steer.won in Hw. now rewrite G in Hw. }
  assert (Hg : goal c = false) by (unfold Steer.won in Hw; now apply orb_false_elim in Hw).
  set (k := client (c :: h)). assert (Hk : In k calls) by apply Hc. pose proof (no_set_dep _ Hs _ Hk) as Hsk.
  destruct (Hcl _ Hin) as (ns & En & Ins). cbn [steps] in En. destruct (steps_ends _ _ _ _ _ _ _ _ _ En Hk) as (a & Ea & Ia).
  pose proof (Hst c Hin Hw k Hk) as Hf. unfold Steer.forces in Hf. rewrite Ea in Hf.
  assert (B : exists b, In b a /\ match b with Some c' => won p c' = false | None => True end).
  { clear -Hf. induction a as [|x a IHa]; cbn [forallb] in Hf; [discriminate|]. destruct x as [c'|].
    - destruct (won p c') eqn:E; [|exists (Some c'); split; [now left|exact E]]. destruct (IHa Hf) as (b & I & H). exists b. split; [now right|exact H].
    - exists None. split; [now left|exact I]. }
  destruct B as (b & Ib & Hb). destruct (ends_real _ _ _ _ _ _ _ _ _ _ Ea Ib) as (q & Hq).
  pose proof (trim_call m fuel tabs htabs c k q Hsk) as Tr.
  destruct (attempt m fuel tabs htabs c k q) as [o1 s1|x1 s1|u1|] eqn:Eq; try contradiction.
  - destruct Hq as (-> & r & Er). destruct (Tr r Er) as (L & -> & HL).
    destruct (IH (c :: h) _ (Ins _ (Ia _ Ib)) Hb) as (script & HI). exists (L ++ script). intros s Es Ht Hh Ewd Ld.
    pose proof (script_call m fuel tabs htabs k s Ht Hh Hsk) as Sc. rewrite Es, Ewd, HL in Sc.
    destruct (Sc script eq_refl) as (o & s' & E1 & E2 & E3 & E4 & E5). rewrite config_bare in E2.
    inversion Ld as [n0 h0 s0 G|n0 h0 s0 o0 s0' E L0]; subst n0 h0 s0; [congruence|]. rewrite Es in E, L0. fold k in E. rewrite E1 in E. injection E as <- <-.
    exact (HI s' E2 E3 E4 E5 L0).
  - exists q. intros s Es Ht Hh Ewd Ld. pose proof (script_call m fuel tabs htabs k s Ht Hh Hsk) as Sc. rewrite Es, Ewd, Eq in Sc.
    inversion Ld as [n0 h0 s0 G|n0 h0 s0 o0 s0' E L0]; subst n0 h0 s0; [congruence|]. rewrite Es in E. fold k in E. congruence.
Qed.
End Plans.

(** * From the beginning *)
Section Whole.
Variable m : machine.
Variables fuel depth rounds : nat.
Variable d : dep.
Variable calls : list (call unit).
Variable goal : config -> bool.
Notation aim := (fun c => goal c = true).

Lemma steered l p : steering m fuel depth rounds d calls goal = Some (l, p) ->
  explore m fuel depth rounds d calls = Some l /\ existsb is_set_dep calls = false /\
  forall s0, construct (V:=unit) m fuel d tt = Done tt s0 ->
    (ordered m fuel depth (rt_tabs s0) (rt_htabs s0) calls goal p /\ length p <= length l /\
     stuck m fuel depth (rt_tabs s0) (rt_htabs s0) calls goal l p) /\
    In (Some (config_of s0)) l /\
    (forall n, In n l -> exists ns, steps m fuel (rt_tabs s0) (rt_htabs s0) depth calls n = Some ns /\ incl ns l).
Proof.
  unfold steering. destruct (explore m fuel depth rounds d calls) as [l0|] eqn:El; [|discriminate].
  assert (Es : existsb is_set_dep calls = false) by (unfold explore in El; now destruct (existsb is_set_dep calls)).
  intros E. assert (E0 : l0 = l) by (destruct (construct (V:=unit) m fuel d tt); congruence). subst l0. split; [reflexivity|]. split; [exact Es|].
  intros s0 Ec. rewrite Ec in E.
  assert (Ep : p = grow m fuel depth (rt_tabs s0) (rt_htabs s0) calls goal (S (length l)) l []) by congruence. clear E. split.
  - assert (O : ordered m fuel depth (rt_tabs s0) (rt_htabs s0) calls goal p) by (rewrite Ep; apply grow_ordered; constructor).
    split; [exact O|]. split.
    + pose proof (ordered_nodup _ _ _ _ _ _ _ _ O) as N. rewrite <- (map_length (fun x => Some (fst x)) p). apply NoDup_incl_length; [exact N|].
      rewrite Ep. generalize (S (length l)). assert (G : forall n q, incl (map (fun x => Some (fst x)) q) l ->
        incl (map (fun x => Some (fst x)) (grow m fuel depth (rt_tabs s0) (rt_htabs s0) calls goal n l q)) l).
      { induction n as [|n IH]; intros q Hq; cbn [grow]; [exact Hq|]. destruct (Nat.eqb _ _); [exact Hq|]. apply IH, pass_keys; [now intros x|exact Hq]. }
      intros n. apply G. intros x [].
    + rewrite Ep. apply grow_stuck; [constructor|intros x []|cbn; lia].
  - unfold explore in El. rewrite Es, Ec in El. destruct (close_closed m fuel depth _ _ calls rounds _ _ _ El) as [I Cl]; [intros n Hn; now left|].
    split; [apply I; now left|exact Cl].
Qed.

Lemma forced_lemma : forceable m fuel depth rounds d calls goal = Some true ->
  exists l adv, explore m fuel depth rounds d calls = Some l /\
  (forall c k, adv c = Some k -> In k calls /\ goal c = false) /\
  forall V W (cb : cbfun V W) vnone fuel' w client, fuel <= fuel' ->
    (forall c h k, adv c = Some k -> with_payload (fun _ => tt) (client (c :: h)) = k) ->
    leads_new cb m vnone fuel' client aim d w (length l).
Proof.
  unfold forceable. destruct (steering m fuel depth rounds d calls goal) as [[l p]|] eqn:Est; [|discriminate].
  destruct (steered l p Est) as (El & Es & St). destruct (construct (V:=unit) m fuel d tt) as [[] s0|x s0|u|] eqn:Ec; try discriminate.
  intros [= Hw]. destruct (St s0 eq_refl) as ((Ho & Hlen & _) & _). exists l, (advice p). split; [exact El|]. split; [exact (advice_calls _ _ _ _ _ _ _ _ Ho)|].
  intros V W cb vnone fuel' w client Hf Hc. unfold leads_new.
  pose proof (construct_s (V:=V) (W:=W) (X:=unit) m fuel d w tt) as C. unfold built in C. rewrite Ec in C.
  pose proof (session_mono cb m vnone fuel fuel' d w [] Hf) as Sm. unfold session in Sm. cbn [run] in Sm.
  destruct (construct m fuel d w) as [[] s|x s|u|]; try discriminate. injection C as ->.
  destruct (construct m fuel' d w) as [[] s'|x s'|u|]; cbn [bind] in Sm; try (specialize (Sm ltac:(discriminate)); discriminate).
  assert (s' = s) by (specialize (Sm ltac:(discriminate)); congruence). subst s'.
  apply (leads_mono cb m vnone fuel fuel' _ _ _ _ _ Hf). apply (leads_more _ _ _ _ _ _ (length p)); [|exact Hlen].
  rewrite config_bare in Hw. eapply follow; [exact Es|exact Ho|exact Hc|reflexivity|reflexivity|exact Hw].
Qed.

Lemma prevented_lemma : forceable m fuel depth rounds d calls goal = Some false ->
  forall client, (forall h, In (client h) calls) -> forall n, exists script, ~ leads_new scripted m tt fuel client aim d script n.
Proof.
  unfold forceable. destruct (steering m fuel depth rounds d calls goal) as [[l p]|] eqn:Est; [|discriminate].
  destruct (steered l p Est) as (El & Es & St). intros H client Hc n.
  pose proof (construct_s (V:=unit) (W:=unit) (X:=list reply) m fuel d tt) as C. unfold built in C.
  destruct (construct (V:=unit) m fuel d tt) as [[] s0|x s0|u|] eqn:Ec; try (exists []; unfold leads_new; rewrite C; tauto).
  injection H as Hw. destruct (St s0 eq_refl) as ((_ & _ & Hst) & Hin & Hcl).
  destruct (prevented m fuel depth _ _ calls goal Es l p Hst Hcl client Hc n [] _ Hin Hw) as (script & HS).
  exists script. unfold leads_new. rewrite C. apply HS; try reflexivity. apply config_bare.
Qed.

Lemma covered_tabs {V W} (cb : cbfun V W) vnone ks : existsb is_set_dep calls = false -> client_of calls ks -> forall s outs s',
  run cb m vnone fuel ks s = Done outs s' -> rt_tabs s' = rt_tabs s /\ rt_htabs s' = rt_htabs s.
Proof.
  intros Hs. induction ks as [|k ks IH]; intros Hks s outs s'; cbn [run]; [intros [= _ <-]; now split|].
  assert (Hk : is_set_dep k = false) by (rewrite <- is_set_dep_bare; apply (no_set_dep _ Hs), Hks; now left).
  destruct (real_call m fuel _ _ cb vnone k s eq_refl eq_refl Hk) as (L & HL).
  destruct (do_call_catch cb m vnone fuel k s) as [o s1|x s1|u|]; cbn [bind]; try discriminate. destruct HL as (Ht & Hh & _).
  destruct (run cb m vnone fuel ks s1) as [os s2|x s2|u|] eqn:E; cbn [bind]; try discriminate. intros [= _ <-].
  destruct (IH (fun k' Hk' => Hks k' (or_intror Hk')) s1 _ _ E) as [-> ->]. now split.
Qed.
Lemma session_tabs {V W} (cb : cbfun V W) vnone w ks outs s s0 : existsb is_set_dep calls = false -> client_of calls ks ->
  construct (V:=unit) m fuel d tt = Done tt s0 -> session cb m vnone fuel d w ks = Done outs s ->
  rt_tabs s = rt_tabs s0 /\ rt_htabs s = rt_htabs s0.
Proof.
  intros Hs Hks Ec E. pose proof (construct_s (V:=V) (W:=W) (X:=unit) m fuel d w tt) as C. unfold built in C. rewrite Ec in C. unfold session in E.
  destruct (construct m fuel d w) as [[] s1|x s1|u|]; cbn [bind] in E; try discriminate. injection C as ->.
  apply (covered_tabs cb vnone ks Hs Hks s1 outs s E).
Qed.

Lemma recovered_lemma : recoverable m fuel depth rounds d calls goal = Some true ->
  exists l adv, explore m fuel depth rounds d calls = Some l /\
  (forall c k, adv c = Some k -> In k calls /\ goal c = false) /\
  forall V W (cb : cbfun V W) vnone fuel' w ks client, fuel <= fuel' -> client_of calls ks ->
    (forall c h k, adv c = Some k -> with_payload (fun _ => tt) (client (c :: h)) = k) ->
    exists outs s, session cb m vnone fuel' d w ks = Done outs s /\ forall h, leads cb m vnone fuel' client aim (length l) h s.
Proof.
  unfold recoverable. destruct (steering m fuel depth rounds d calls goal) as [[l p]|] eqn:Est; [|discriminate].
  destruct (steered l p Est) as (El & Es & St). intros [= Hall]. rewrite forallb_forall in Hall.
  assert (Hg : forall V W (cb : cbfun V W) vnone w ks, client_of calls ks -> exists outs s, session cb m vnone fuel d w ks = Done outs s /\ won goal p (config_of s) = true).
  { intros V W cb vnone w ks Hks. apply (explore_always m fuel depth rounds d calls l (fun c => won goal p c = true) El); auto.
    - intros I. now apply Hall in I.
    - intros c I. exact (Hall _ I). }
  destruct (construct (V:=unit) m fuel d tt) as [[] s0|x s0|u|] eqn:Ec.
  2-4: exfalso; destruct (Hg unit unit (fun _ _ _ _ => Ret false tt tt) tt tt []) as (outs & s & E & _); [intros k []|]; unfold session in E; rewrite Ec in E; discriminate.
  destruct (St s0 eq_refl) as ((Ho & Hlen & _) & _). exists l, (advice p). split; [exact El|]. split; [exact (advice_calls _ _ _ _ _ _ _ _ Ho)|].
  intros V W cb vnone fuel' w ks client Hf Hks Hc. destruct (Hg V W cb vnone w ks Hks) as (outs & s & E & Hw). exists outs, s.
  split; [rewrite (session_mono cb m vnone fuel fuel' d w ks Hf); [exact E|rewrite E; discriminate]|]. intros h.
  destruct (session_tabs cb vnone w ks outs s s0 Es Hks Ec E) as [Ht Hh].
  apply (leads_mono cb m vnone fuel fuel' _ _ _ _ _ Hf). apply (leads_more _ _ _ _ _ _ (length p)); [|exact Hlen].
  eapply follow; [exact Es|exact Ho|exact Hc|exact Ht|exact Hh|exact Hw].
Qed.

Lemma lost_lemma : recoverable m fuel depth rounds d calls goal = Some false ->
  exists ks script, (forall k, In k ks -> In k calls) /\
    ((exists u, session scripted m tt fuel d script ks = Undef u) \/
     exists outs s, (forall rest, session scripted m tt fuel d (script ++ rest) ks = Done outs (bare s rest)) /\
       forall client, (forall h, In (client h) calls) -> forall n h, exists rest, ~ leads scripted m tt fuel client aim n h (bare (s : rt unit (list reply)) rest)).
Proof.
  unfold recoverable. destruct (steering m fuel depth rounds d calls goal) as [[l p]|] eqn:Est; [|discriminate].
  destruct (steered l p Est) as (El & Es & St). intros [= Hall].
  assert (B : exists b, In b l /\ match b with Some c' => won goal p c' = false | None => True end).
  { clear -Hall. induction l as [|x a IHa]; cbn [forallb] in Hall; [discriminate|]. destruct x as [c'|].
    - destruct (won goal p c') eqn:E; [|exists (Some c'); split; [now left|exact E]]. destruct (IHa Hall) as (b & I & H). exists b. split; [now right|exact H].
    - exists None. split; [now left|exact I]. }
  destruct B as (b & Ib & Hb). destruct (explore_reached m fuel depth rounds d calls l El b Ib) as (ks & script & Hks & He).
  assert (Hcl : client_of calls ks) by (intros k Hk; rewrite with_nothing; auto).
  exists ks. destruct (session scripted m tt fuel d script ks) as [outs s|x s|u|] eqn:Ese; try discriminate.
  - destruct (session_scripted scripted m tt fuel d script ks) as (L & HL). exists L. split; [exact Hks|]. right. exists outs, s. split.
    { intros rest. specialize (HL rest). rewrite Ese, (map_ext _ _ with_nothing), map_id in HL. exact HL. }
    cbn in He. injection He as <-. intros client Hc n h.
    destruct (construct (V:=unit) m fuel d tt) as [[] s0|x s0|u|] eqn:Ec.
    2-4: exfalso; pose proof (construct_s (V:=unit) (W:=unit) (X:=list reply) m fuel d tt) as C; unfold built in C; rewrite Ec in C; unfold session in Ese; rewrite C in Ese; discriminate.
    destruct (St s0 eq_refl) as ((_ & _ & Hst) & _ & Hcls). destruct (session_tabs scripted tt script ks outs s s0 Es Hcl Ec Ese) as [Ht Hh].
    destruct (prevented m fuel depth _ _ calls goal Es l p Hst Hcls client Hc n h _ Ib Hb) as (rest & HS).
    exists rest. apply HS; [|exact Ht|exact Hh|reflexivity]. apply (config_bare 0 s rest).
  - now apply session_no_throw in Ese.
  - exists script. split; [exact Hks|]. left. now exists u.
Qed.
Lemma decided_lemma l : explore m fuel depth rounds d calls = Some l ->
  (exists b, forceable m fuel depth rounds d calls goal = Some b) /\ exists b, recoverable m fuel depth rounds d calls goal = Some b.
Proof.
  intros El. unfold forceable, recoverable, steering. rewrite El. destruct (construct (V:=unit) m fuel d tt) as [[] s0|x s0|u|]; split; eexists; reflexivity.
Qed.
End Whole.
