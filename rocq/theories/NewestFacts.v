(** Proofs about Newest.v. *)

From Coq Require Import List Arith NArith Bool Lia.
From Verif Require Import Types Static Dispatch Runtime ListFacts IndexFacts Spec
  DispatchFacts FlattenFacts Semantics RefineFacts StaticFacts TermFacts Reach ReachFacts TableFacts
  QueryFacts ProcessFacts Restore RestoreFacts Newest.
Import ListNotations.

Section Newest.
Context {V W : Type}.
Variable cb : cbfun V W.
Variables (m : machine) (vnone : V).
Hypothesis Hc : comp m.
Hypothesis Hign : ignores_dependency cb.
Hypothesis Hsil : refuses_silently cb.
Notation st := (rt V W).

Definition tabs_same (s s' : st) : Prop := exists d l l', filled m (d :: l) (rt_tabs s) /\ filled m (d :: l') (rt_tabs s').
Definition sim (s s' : st) : Prop := same_but_guards s s' /\ tabs_same s s'.
Definition rsim {A} (r r' : res V W A) : Prop :=
  match r, r' with
  | Done a s, Done a' s' => a = a' /\ sim s s'
  | Threw x s, Threw x' s' => x = x' /\ sim s s'
  | Undef u, Undef u' => u = u'
  | Timeout, Timeout => True
  | _, _ => False
  end.

Lemma rsim_bind {A B} (r r' : res V W A) (f f' : A -> st -> res V W B) : rsim r r' ->
  (forall a s s', sim s s' -> rsim (f a s) (f' a s')) -> rsim (bind r f) (bind r' f').
Proof.
  destruct r as [a s|x s|u|], r' as [a' s'|x' s'|u'|]; cbn [rsim bind]; intros H F; try contradiction; auto.
  destruct H as [<- H]. auto.
Qed.
Lemma done_sim {A} (a : A) s s' : sim s s' -> rsim (Done a s) (Done a s').
Proof. intros H. split; auto. Qed.

Ltac same S := destruct S as [[Ecu Ehi Equ Ere Eli Eht Ewo Etr] Tab].
Ltac keep := split; [constructor; cbn; auto|match goal with T : tabs_same _ _ |- _ => exact T end].

Lemma read_sim s s' r : sim s s' -> rsim (read_cur s r) (read_cur s' r).
Proof. intros S. pose proof S as S0. same S. unfold read_cur. rewrite Ecu. destruct (nth_error (rt_cur s) r) as [[c|]|]; cbn; auto. Qed.
Lemma at_sim s s' r : sim s s' -> rsim (at_cur s r) (at_cur s' r).
Proof. intros S. pose proof S as S0. same S. unfold at_cur. rewrite Ecu. destruct (nth_error (rt_cur s) r) as [[c|]|]; cbn; auto. Qed.
Lemma write_sim s s' r c : sim s s' -> rsim (write_cur s r c) (write_cur s' r c).
Proof. intros S. same S. unfold write_cur. rewrite Ecu. destruct (upd_nth r _ (rt_cur s)) as [cu|]; cbn; auto. split; [reflexivity|keep]. Qed.
Lemma parent_sim s s' : sim s s' -> rsim (current_parent m s) (current_parent m s').
Proof. intros S. apply rsim_bind; [now apply read_sim|]. intros. now apply done_sim. Qed.
Lemma state_sim s s' r : sim s s' -> rsim (current_state m s r) (current_state m s' r).
Proof. intros S. apply rsim_bind; [now apply at_sim|]. intros. now apply done_sim. Qed.
Lemma regions_sim s s' : sim s s' -> rsim (update_current_regions m s) (update_current_regions m s').
Proof.
  intros S. unfold update_current_regions. destruct (parallel m); [|now apply done_sim].
  apply rsim_bind; [now apply parent_sim|]. intros p t t' St. destruct (nth_at p (initial_table m)); cbn; auto. split; [reflexivity|]. same St. keep.
Qed.
Lemma number_sim s s' : sim s s' -> current_regions m s' = current_regions m s.
Proof. intros S. same S. unfold current_regions. now rewrite Ere. Qed.
Lemma write_hist_sim s s' p r c : sim s s' -> rsim (write_hist s p r c) (write_hist s' p r c).
Proof.
  intros S. same S. unfold write_hist. rewrite Ehi. destruct (nth_at p (rt_hist s)) as [l|]; [|reflexivity].
  destruct (upd_nth r _ l); [|reflexivity]. destruct (upd_at p _ _); cbn; auto. split; [reflexivity|keep].
Qed.
Lemma read_hist_sim s s' p r : sim s s' -> rsim (read_hist s p r) (read_hist s' p r).
Proof.
  intros S. pose proof S as S0. same S. unfold read_hist. rewrite Ehi. destruct (nth_at p (rt_hist s)) as [l|]; [|reflexivity].
  destruct (nth_error l r); cbn; auto.
Qed.
Lemma update_sim r en s s' : sim s s' -> rsim (update_current_state m r en s) (update_current_state m r en s').
Proof.
  intros S. unfold update_current_state. destruct (en_int en); [now apply done_sim|].
  apply rsim_bind; [|intros; now apply regions_sim]. destruct (has_history m); [|now apply write_sim].
  apply rsim_bind; [now apply parent_sim|]. intros p t t' St. apply rsim_bind; [now apply read_sim|]. intros c u u' Su.
  apply rsim_bind; [now apply write_hist_sim|]. intros _ x x' Sx. destruct (en_hist en); [|now apply write_sim].
  apply rsim_bind; [now apply read_hist_sim|]. intros. now apply write_sim.
Qed.
Lemma alive_sim s s' o : sim s s' -> alive s' o = alive s o.
Proof. intros S. same S. unfold alive. now rewrite Eli. Qed.
Lemma user_sim s s' w k : sim s s' -> sim (with_user s w (rt_trace s ++ [k])) (with_user s' w (rt_trace s' ++ [k])).
Proof. intros S. same S. split; [constructor; cbn; auto; rewrite !filter_app; congruence|exact Tab]. Qed.
Lemma invoke_sim c a v s s' : sim s s' -> rsim (invoke cb c a v s) (invoke cb c a v s').
Proof.
  intros S. unfold invoke. pose proof S as S0. same S0. rewrite Ewo. destruct (cb c a v (rt_world s)); (split; [reflexivity|now apply user_sim]).
Qed.
Lemma set_live_sim o b s s' : sim s s' -> sim (set_live s o b) (set_live s' o b).
Proof. intros S. same S. split; [|exact Tab]. unfold set_live. rewrite Eli. constructor; cbn; auto. Qed.
Lemma body_sim : forall b t e v s s', sim s s' -> rsim (exec_body cb b t e v s) (exec_body cb b t e v s').
Proof.
  intros b t e. induction b as [f|f|f|l IH] using abody_ind2; intros v s s' S.
  - apply rsim_bind; [now apply invoke_sim|]. intros. now apply done_sim.
  - apply rsim_bind; [now apply invoke_sim|]. intros. apply done_sim. now apply set_live_sim.
  - cbn [exec_body]. rewrite (alive_sim s s' _ S). destruct (alive s (t_tgt t)); [|reflexivity].
    apply rsim_bind; [now apply invoke_sim|]. intros. now apply done_sim.
  - cbn [exec_body]. revert v s s' S. induction IH as [|b l Hb _ IHl]; intros v s s' S; [now apply done_sim|].
    apply rsim_bind; [now apply Hb|]. intros a u u' Su. now apply IHl.
Qed.
Lemma steps_sim : forall l t e v s s', sim s s' -> rsim (exec_steps cb l t e v s) (exec_steps cb l t e v s').
Proof.
  induction l as [|x l IH]; intros t e v s s' S; [now apply done_sim|]. cbn [exec_steps].
  apply rsim_bind; [|intros; now apply IH].
  destruct x; cbn [exec_step]; try (apply rsim_bind; [now apply invoke_sim|]; intros; now apply done_sim). now apply body_sim.
Qed.
Lemma action_sim t e v s s' : sim s s' -> rsim (execute_action cb t e v s) (execute_action cb t e v s').
Proof.
  intros S. unfold execute_action. destruct (t_act t) as [l|]; [|now apply done_sim].
  rewrite !(alive_sim s s' _ S). destruct (alive s (t_src t) && _); [|reflexivity]. now apply steps_sim.
Qed.
Lemma guard_sim t e v s s' : sim s s' -> rsim (execute_guard cb t e v s) (execute_guard cb t e v s').
Proof.
  intros S. unfold execute_guard. destruct (t_guard t) as [|ty val]; [now apply done_sim|].
  cbv zeta. rewrite !(alive_sim s s' _ S). destruct (alive s (t_src t) && _); [|reflexivity]. now apply invoke_sim.
Qed.

(** A candidate that refuses, whatever the dependency. *)
Definition refuser (e : ev) (v : V) (s : st) (c : cand) : Prop := forall d, exists t, en_tr (centry m d c) = Some t /\ en_defer (centry m d c) = false /\
  exists k, execute_guard cb t e v s = Done (false, v) (with_user s (rt_world s) (rt_trace s ++ [k])) /\ effect_call k = false.
Lemma guard_refuser e v s c d t v' s1 : en_tr (centry m d c) = Some t -> en_defer (centry m d c) = false ->
  execute_guard cb t e v s = Done (false, v') s1 -> refuser e v s c /\ v' = v /\ exists k, s1 = with_user s (rt_world s) (rt_trace s ++ [k]) /\ effect_call k = false.
Proof.
  destruct c as [|x o]; cbn [centry en_tr en_defer entry_of_row defer_entry]; intros E X H; [discriminate|]. injection E as <-.
  unfold execute_guard in H. cbn [t_guard t_src t_tgt t_int t_dep] in H. destruct (x_guard x) as [|ty val] eqn:Eg; [discriminate|].
  destruct (alive s o && alive s (if x_int x then o else dst_of m x)) eqn:Ea; [|discriminate]. unfold invoke in H.
  destruct (cb (CGuard ty val) _ v (rt_world s)) as [b v1 w1|n v1 w1] eqn:Ecb; [|discriminate]. injection H as Eb Ev <-. subst b v1.
  destruct (Hsil _ _ _ _ _ _ _ Ecb) as [-> ->]. split; [|split; [reflexivity|eexists; split; [reflexivity|reflexivity]]].
  intros d'. eexists. split; [reflexivity|]. split; [reflexivity|]. unfold execute_guard. cbn [t_guard t_src t_tgt t_int t_dep]. rewrite Eg, Ea. unfold invoke.
  rewrite (Hign ty val e o _ d' d), Ecb. eexists. split; reflexivity.
Qed.
Lemma refuser_with e v s c tr : refuser e v s c -> refuser e v (with_user s (rt_world s) tr) c.
Proof.
  intros R d. destruct (R d) as (t & E1 & E2 & k & H & Hk). exists t. split; [exact E1|]. split; [exact E2|].
  unfold execute_guard in *. destruct (t_guard t) as [|ty val]; [discriminate|].
  change (alive (with_user s (rt_world s) tr)) with (alive s). destruct (alive s (t_src t) && _); [|discriminate]. unfold invoke in *. cbn [rt_world with_user].
  destruct (cb (CGuard ty val) _ v (rt_world s)) as [b v1 w1|n v1 w1]; [|discriminate].
  injection H as -> -> H1 _. eexists. split; [rewrite H1; reflexivity|reflexivity].
Qed.
Definition copies (l : list dep) (cs : list cand) : list entry := flat_map (fun d => map (centry m d) cs) l.

(** The loops over the candidates of a region. *)
Section Loop.
Variable Res : Type.
Variable loop : list entry -> V -> st -> res V W (Res * V).
Variable e : ev.
Variable none : Res.
Hypothesis loop_nil : forall v s, loop [] v s = Done (none, v) s.
Variable stop : entry -> V -> st -> res V W (Res * V).
Variable go : trans -> entry -> V -> st -> res V W (Res * V).
Variable stops : entry -> bool.
Hypothesis loop_cons : forall en ens v s, loop (en :: ens) v s =
  if stops en then stop en v s else
  match en_tr en with
  | None => Undef UBNull
  | Some t => bind (execute_guard cb t e v s) (fun bv s => if fst bv then go t en (snd bv) s else loop ens (snd bv) s)
  end.
Hypothesis stops_defer : forall en, stops en = true -> en_defer en = true.
Hypothesis stop_sim : forall en v s s', sim s s' -> rsim (stop en v s) (stop en v s').
Hypothesis go_sim : forall t en v s s', sim s s' -> rsim (go t en v s) (go t en v s').
Hypothesis tr_defer : forall en, en_defer en = true -> stops en = false -> True.

Lemma loop_refused v : forall ens s, (forall en, In en ens -> exists d c, en = centry m d c /\ refuser e v s c) ->
  exists ks, loop ens v s = Done (none, v) (with_user s (rt_world s) (rt_trace s ++ ks)) /\ filter effect_call ks = [].
Proof.
  induction ens as [|en ens IH]; intros s H.
  - exists []. split; [|reflexivity]. rewrite loop_nil, app_nil_r. now destruct s.
  - destruct (H en (or_introl eq_refl)) as (d & c & -> & R). destruct (R d) as (t & E1 & E2 & k & G & Hk).
    rewrite loop_cons. destruct (stops (centry m d c)) eqn:Es; [apply stops_defer in Es; congruence|]. rewrite E1, G. cbn [bind fst snd].
    destruct (IH (with_user s (rt_world s) (rt_trace s ++ [k]))) as (ks & E & F).
    { intros en' Hen. destruct (H en' (or_intror Hen)) as (d' & c' & -> & R'). exists d', c'. split; [reflexivity|]. now apply refuser_with. }
    exists (k :: ks). rewrite E. cbn [with_user rt_world rt_trace rt_cur rt_hist rt_queue rt_regions rt_live rt_tabs rt_htabs]. rewrite <- app_assoc.
    split; [reflexivity|]. cbn [filter]. now rewrite Hk.
Qed.
Lemma refuser_sim v s s' c : sim s s' -> refuser e v s c -> refuser e v s' c.
Proof.
  intros S R d. destruct (R d) as (t & E1 & E2 & k & H & Hk). exists t. split; [exact E1|]. split; [exact E2|].
  unfold execute_guard in *. destruct (t_guard t) as [|ty val]; [discriminate|]. cbv zeta in *. rewrite !(alive_sim s s' _ S).
  destruct (alive s (t_src t) && _); [|discriminate]. unfold invoke in *. same S. rewrite Ewo.
  destruct (cb (CGuard ty val) _ v (rt_world s)) as [b v1 w1|n v1 w1]; [|discriminate].
  injection H as -> -> H1 _. eexists. split; [rewrite H1; reflexivity|reflexivity].
Qed.
Lemma loop_sim d l l' all v : forall cs s s', sim s s' ->
  (forall c, In c all -> In c cs \/ refuser e v s c) ->
  rsim (loop (map (centry m d) cs ++ copies l all) v s) (loop (map (centry m d) cs ++ copies l' all) v s').
Proof.
  induction cs as [|c cs IH]; intros s s' S H; cbn [map app].
  - assert (Q : forall l0 s0, sim s s0 -> exists ks, loop (copies l0 all) v s0 = Done (none, v) (with_user s0 (rt_world s0) (rt_trace s0 ++ ks)) /\ filter effect_call ks = []).
    { intros l0 s0 S0. apply loop_refused. intros en Hen. unfold copies in Hen. apply in_flat_map in Hen. destruct Hen as (d' & _ & Hen).
      apply in_map_iff in Hen. destruct Hen as (c & <- & Hin). exists d', c. split; [reflexivity|]. destruct (H c Hin) as [[]|R]. now apply (refuser_sim v s). }
    assert (Sr : sim s s). { same S. split; [constructor; reflexivity|]. destruct Tab as (d0 & l0 & l1 & F & _). exists d0, l0, l0. auto. }
    destruct (Q l s Sr) as (ks & -> & F). destruct (Q l' s' S) as (ks' & -> & F'). split; [reflexivity|]. same S.
    split; [|exact Tab]. constructor; cbn; auto. rewrite !filter_app, F, F', Etr. reflexivity.
  - rewrite !loop_cons. destruct (stops (centry m d c)); [now apply stop_sim|].
    destruct (en_tr (centry m d c)) as [t|] eqn:Et; [|reflexivity].
    pose proof (guard_sim t e v s s' S) as G.
    destruct (execute_guard cb t e v s) as [[b v1] s1|x s1|u|] eqn:E, (execute_guard cb t e v s') as [[b' v1'] s1'|x' s1'|u'|] eqn:E'; cbn [rsim] in G; try contradiction; cbn [bind]; auto.
    destruct G as [G S1]. injection G as <- <-. cbn [fst snd]. destruct b; [now apply go_sim|].
    assert (Ed : en_defer (centry m d c) = false) by (destruct c; [discriminate|reflexivity]).
    destruct (guard_refuser _ _ _ _ _ _ _ _ Et Ed E) as (R & -> & k & -> & Hk).
    apply IH; [exact S1|]. intros c' Hin. destruct (H c' Hin) as [[<-|X]|X]; auto; right; now apply refuser_with.
Qed.
End Loop.

Lemma get_sim e r s s' : sim s s' ->
  match get_entries e r s, get_entries e r s' with
  | Done L s1, Done L' s1' => s1 = s /\ s1' = s' /\ exists d l l' cs, L = map (centry m d) cs ++ copies l cs /\ L' = map (centry m d) cs ++ copies l' cs
  | Undef u, Undef u' => u = u'
  | _, _ => False
  end.
Proof.
  intros S. same S. destruct Tab as (d & l & l' & F & F'). unfold get_entries.
  pose proof (filled_shape m Hc _ _ F) as Sh. pose proof (filled_shape m Hc _ _ F') as Sh'.
  destruct (get_table (rt_tabs s) e) as [arr|] eqn:E.
  - assert (He : In e (events m)) by (rewrite <- (proj1 Sh); apply get_table_In; eauto).
    destruct (proj2 (get_table_In (rt_tabs s') e)) as [arr' E']; [now rewrite (proj1 Sh')|]. rewrite E'.
    unfold read_cur. rewrite Ecu. destruct (nth_error (rt_cur s) r) as [[c|]|]; cbn [bind]; auto.
    rewrite !nth_at_nth. pose proof (proj2 Sh _ _ E) as L1. pose proof (proj2 Sh' _ _ E') as L2.
    destruct (nth_error (places m) (N.to_nat c)) as [[p q]|] eqn:Ep.
    + destruct (places_at_inv m Hc _ _ _ Ep) as (Hp & Hq & ->).
      pose proof (filled_get m Hc _ _ e p q F He Hp Hq) as G. pose proof (filled_get m Hc _ _ e p q F' He Hp Hq) as G'.
      unfold tget in G, G'. rewrite E in G. rewrite E' in G'. rewrite G, G'. split; [reflexivity|]. split; [reflexivity|].
      exists d, l, l', (cands m e (p, q)). split; reflexivity.
    + apply nth_error_None in Ep. rewrite (proj2 (nth_error_None arr _)), (proj2 (nth_error_None arr' _)) by lia. reflexivity.
  - destruct (get_table (rt_tabs s') e) as [arr'|] eqn:E'; [|reflexivity].
    assert (He : In e (events m)) by (rewrite <- (proj1 Sh'); apply get_table_In; eauto).
    rewrite <- (proj1 Sh) in He. apply get_table_In in He. destruct He; congruence.
Qed.

Lemma try_sim r e v s s' : sim s s' -> rsim (try_region cb m r e v s) (try_region cb m r e v s').
Proof.
  intros S. unfold try_region. pose proof (get_sim e r s s' S) as G.
  destruct (get_entries e r s) as [L s1|x s1|u|], (get_entries e r s') as [L' s1'|x' s1'|u'|]; try contradiction; cbn [bind]; auto.
  destruct G as (-> & -> & d & l & l' & cs & -> & ->). destruct cs as [|c cs].
  - assert (N : forall l, copies l [] = []) by (induction l0; auto). rewrite !N. now apply done_sim.
  - change (rsim (bind (try_entries cb m (map (centry m d) (c :: cs) ++ copies l (c :: cs)) r e v s) (fun tv s => Done (Some (fst tv), snd tv) s))
                 (bind (try_entries cb m (map (centry m d) (c :: cs) ++ copies l' (c :: cs)) r e v s') (fun tv s => Done (Some (fst tv), snd tv) s))).
    apply rsim_bind; [|intros; now apply done_sim].
    apply (loop_sim tried (fun ens v s => try_entries cb m ens r e v s) e Refused (fun _ _ => eq_refl)
      (fun _ v s => Done (Deferred, v) (with_queue s (rt_queue s ++ [(e, v)])))
      (fun t en v s => bind (update_current_state m r en s) (fun _ s => bind (execute_action cb t e v s) (fun v' s => Done (Fired, v') s)))
      en_defer (fun _ _ _ _ => eq_refl)); auto.
    + intros _ v0 t t' St. apply done_sim. same St. split; [|exact Tab]. constructor; cbn; congruence.
    + intros tr en v0 t t' St. apply rsim_bind; [now apply update_sim|]. intros _ u u' Su. apply rsim_bind; [now apply action_sim|]. intros. now apply done_sim.
Qed.
Lemma anonymous_region_sim r v s s' : sim s s' -> rsim (anonymous_region cb m r v s) (anonymous_region cb m r v s').
Proof.
  intros S. unfold anonymous_region. pose proof (get_sim ENone r s s' S) as G.
  destruct (get_entries ENone r s) as [L s1|x s1|u|], (get_entries ENone r s') as [L' s1'|x' s1'|u'|]; try contradiction; cbn [bind]; auto.
  destruct G as (-> & -> & d & l & l' & cs & -> & ->). destruct cs as [|c cs].
  - assert (N : forall l, copies l [] = []) by (induction l0; auto). rewrite !N. now apply done_sim.
  - change (rsim (bind (try_anonymous cb m (map (centry m d) (c :: cs) ++ copies l (c :: cs)) r v s) (fun tv s => Done (Some (fst tv), snd tv) s))
                 (bind (try_anonymous cb m (map (centry m d) (c :: cs) ++ copies l' (c :: cs)) r v s') (fun tv s => Done (Some (fst tv), snd tv) s))).
    apply rsim_bind; [|intros; now apply done_sim].
    apply (loop_sim bool (fun ens v s => try_anonymous cb m ens r v s) ENone false (fun _ _ => eq_refl)
      (fun _ v s => Done (false, v) s)
      (fun t en v s => bind (update_current_state m r en s) (fun _ s => bind (execute_action cb t ENone v s) (fun v' s => Done (true, v') s)))
      (fun _ => false) (fun _ _ _ _ => eq_refl)); auto; [discriminate| |].
    + intros _ v0 t t' St. now apply done_sim.
    + intros tr en v0 t t' St. apply rsim_bind; [now apply update_sim|]. intros _ u u' Su. apply rsim_bind; [now apply action_sim|]. intros. now apply done_sim.
Qed.
Lemma loop_regions_sim : forall fuel limit r agf ati e v s s', sim s s' ->
  rsim (region_loop cb m fuel limit r agf ati e v s) (region_loop cb m fuel limit r agf ati e v s').
Proof.
  induction fuel as [|fuel IH]; intros limit r agf ati e v s s' S; [exact I|]. cbn [region_loop].
  destruct (Nat.ltb r limit); [|now apply done_sim]. apply rsim_bind; [now apply try_sim|].
  intros [[[]|] v1] t t' St; cbn [fst snd]; auto. now apply done_sim.
Qed.
Lemma pass_sim : forall fuel limit r agf v s s', sim s s' ->
  rsim (anonymous_pass cb m fuel limit r agf v s) (anonymous_pass cb m fuel limit r agf v s').
Proof.
  induction fuel as [|fuel IH]; intros limit r agf v s s' S; [exact I|]. cbn [anonymous_pass].
  destruct (Nat.ltb r limit); [|now apply done_sim]. apply rsim_bind; [now apply anonymous_region_sim|].
  intros [[b|] v1] t t' St; cbn [fst snd]; auto. now apply done_sim.
Qed.
Lemma anonymous_sim rfuel : forall fuel v s s', sim s s' -> rsim (anonymous_loop cb m rfuel fuel v s) (anonymous_loop cb m rfuel fuel v s').
Proof.
  induction fuel as [|fuel IH]; intros v s s' S; [exact I|]. cbn [anonymous_loop]. rewrite (number_sim s s' S).
  apply rsim_bind; [now apply pass_sim|]. intros [[[]|] v1] t t' St; cbn [fst snd]; auto; now apply done_sim.
Qed.
Lemma internal_sim fuel e v s s' : sim s s' ->
  rsim (process_event_internal cb m vnone fuel e v s) (process_event_internal cb m vnone fuel e v s').
Proof.
  intros S. unfold process_event_internal. rewrite (number_sim s s' S). apply rsim_bind; [now apply loop_regions_sim|].
  intros [p v1] t t' St. cbn [fst]. destruct p; try now apply done_sim. apply rsim_bind; [|intros; now apply done_sim].
  unfold process_anonymous. destruct (has_anonymous m); [now apply anonymous_sim|now apply done_sim].
Qed.
Lemma process_sim fuel e v s s' : sim s s' -> rsim (process_event cb m vnone fuel e v s) (process_event cb m vnone fuel e v s').
Proof.
  intros S. unfold process_event. destruct (in_dec ev_eq_dec e (events m)); [|reflexivity].
  apply rsim_bind; [now apply internal_sim|]. intros [p v1] t t' St. cbn [fst snd]. destruct p; try now apply done_sim.
  - apply rsim_bind; [|intros; now apply done_sim]. unfold call_handler. destruct (cd_unexpected _); [|now apply done_sim].
    apply rsim_bind; [now apply at_sim|]. intros c u u' Su. pose proof Su as Su'. same Su'. rewrite Eht.
    destruct (get_table (rt_htabs u) e) as [arr|]; [|reflexivity]. destruct (nth_at c arr) as [[[o d]|]|]; cbn; auto.
    rewrite (alive_sim u u' _ Su). destruct (alive u o); [|reflexivity]. apply rsim_bind; [now apply invoke_sim|]. intros. now apply done_sim.
  - apply rsim_bind; [|intros; now apply done_sim]. unfold process_deferred. destruct (has_deferred m); [|now apply done_sim].
    pose proof St as St'. same St'. rewrite Equ. destruct (rt_queue t) as [|[e' v'] q]; [now apply done_sim|].
    apply rsim_bind; [|intros; now apply done_sim]. apply internal_sim. keep.
Qed.
Lemma status_sim limit : forall fuel r s s', sim s s' -> rsim (status_loop m fuel limit r s) (status_loop m fuel limit r s').
Proof.
  induction fuel as [|fuel IH]; intros r s s' S; [exact I|]. cbn [status_loop]. destruct (Nat.ltb r limit); [|now apply done_sim].
  apply rsim_bind; [now apply read_sim|]. intros c t t' St. apply rsim_bind; [now apply parent_sim|]. intros p u u' Su.
  apply rsim_bind; [now apply state_sim|]. intros x y y' Sy. apply rsim_bind; [now apply IH|]. intros. now apply done_sim.
Qed.
Lemma fill_total ds t d : filled m ds t -> exists t', fill_dispatch m d t = Some t' /\ filled m (d :: ds) t'.
Proof.
  intros F. destruct (proj2 (fill_ok_iff m Hc d t (filled_shape m Hc _ _ F)) (filled_regs m Hc _ _ F)) as [t' E].
  exists t'. split; [exact E|]. eapply filled_again; eauto.
Qed.
Lemma call_sim fuel k s s' : sim s s' -> rsim (do_call_catch cb m vnone fuel k s) (do_call_catch cb m vnone fuel k s').
Proof.
  intros S. assert (D : rsim (do_call cb m vnone fuel k s) (do_call cb m vnone fuel k s')).
  { destruct k as [e v|r p q|p|r p q|d|]; cbn [do_call].
    - apply rsim_bind; [now apply process_sim|]. intros. now apply done_sim.
    - apply rsim_bind; [|intros; now apply done_sim]. unfold q_is. apply rsim_bind; [now apply parent_sim|]. intros c t t' St.
      destruct (N.eqb c _); [|now apply done_sim]. apply rsim_bind; [now apply state_sim|]. intros. now apply done_sim.
    - apply rsim_bind; [|intros; now apply done_sim]. apply rsim_bind; [now apply parent_sim|]. intros. now apply done_sim.
    - apply rsim_bind; [|intros; now apply done_sim]. unfold set_state. destruct (in_dec sref_eq_dec q _); [|reflexivity]. destruct (in_dec Nat.eq_dec p _); [|reflexivity].
      pose proof S as S'. same S'. rewrite Ecu. destruct (upd_nth _ _ (rt_cur s)); cbn; auto. split; [reflexivity|keep].
    - apply rsim_bind; [|intros; now apply done_sim]. unfold set_dependency. same S. destruct Tab as (d0 & l & l' & F & F').
      destruct (fill_total _ _ d F) as (t & -> & G). destruct (fill_total _ _ d F') as (t' & -> & G').
      split; [reflexivity|]. split; [constructor; cbn; auto|]. exists d, (d0 :: l), (d0 :: l'). cbn. auto.
    - apply rsim_bind; [|intros; now apply done_sim]. unfold status. rewrite (number_sim s s' S). now apply status_sim. }
  unfold do_call_catch. destruct (do_call cb m vnone fuel k s), (do_call cb m vnone fuel k s'); cbn [rsim] in *; try contradiction; auto.
  destruct D as [-> D]. auto.
Qed.
Lemma run_sim fuel : forall ks s s', sim s s' -> rsim (run cb m vnone fuel ks s) (run cb m vnone fuel ks s').
Proof.
  induction ks as [|k ks IH]; intros s s' S; [now apply done_sim|]. cbn [run]. apply rsim_bind; [now apply call_sim|].
  intros o t t' St. apply rsim_bind; [now apply IH|]. intros. now apply done_sim.
Qed.
Lemma rsim_run {A} (r r' : res V W A) : rsim r r' -> same_run r r'.
Proof. destruct r, r'; cbn; auto; intros [-> [H _]]; auto. Qed.
End Newest.

Lemma newest_counts : forall V W (cb : cbfun V W) env root m vnone d l l' d0 d0' s s',
  ignores_dependency cb -> refuses_silently cb ->
  running cb env root m vnone (d :: l) d0 s -> running cb env root m vnone (d :: l') d0' s' -> same_but_guards s s' ->
  forall fuel ks, same_run (run cb m vnone fuel ks s) (run cb m vnone fuel ks s').
Proof.
  intros V W cb env root m vnone d l l' d0 d0' s s' Hi Hs (Hm & Hf & R) (_ & _ & R') E fuel ks.
  compiled Hm. apply (rsim_run m). apply run_sim; auto. split; [exact E|]. exists d, l, l'.
  pose proof (few_max_compiled _ _ _ Hm Hf) as Hmax.
  split; [exact (ti_tabs _ _ _ _ (ri_tinv _ _ _ _ (reachable_rinvs cb m Hc vnone Hmax _ _ _ R)))|].
  exact (ti_tabs _ _ _ _ (ri_tinv _ _ _ _ (reachable_rinvs cb m Hc vnone Hmax _ _ _ R'))).
Qed.
Lemma same_but_refl {V W} (s : rt V W) t : same_but_guards (with_tabs s t) s.
Proof. constructor; reflexivity. Qed.
Lemma same_run_map {V W A B} (f : A -> B) (r r' : res V W A) : same_run r r' ->
  same_run (bind r (fun a s => Done (f a) s)) (bind r' (fun a s => Done (f a) s)).
Proof. destruct r, r'; cbn; auto. intros [-> H]. auto. Qed.

Lemma overwritten : forall V W (cb : cbfun V W) env root m vnone ds d0 s,
  ignores_dependency cb -> refuses_silently cb -> running cb env root m vnone ds d0 s ->
  forall l d fuel ks, same_run
    (without (length l) (run cb m vnone fuel (map (@KSetDep V) l ++ KSetDep d :: ks) s))
    (run cb m vnone fuel (KSetDep d :: ks) s).
Proof.
  intros V W cb env root m vnone ds d0 s Hi Hs (Hm & Hf & R) l d fuel ks.
  pose proof (few_max_compiled _ _ _ Hm Hf) as Hmax. compiled Hm.
  pose proof (ti_tabs _ _ _ _ (ri_tinv _ _ _ _ (reachable_rinvs cb m Hc vnone Hmax _ _ _ R))) as T.
  destruct (run_deps cb m vnone fuel Hc (filled_regs m Hc _ _ T) (rev l) ds s T) as (t & E & Ft).
  rewrite rev_involutive, rev_length in E. rewrite run_app, E. cbn [bind].
  assert (X : same_run (run cb m vnone fuel (KSetDep d :: ks) (with_tabs s t)) (run cb m vnone fuel (KSetDep d :: ks) s)).
  { destruct (fill_total m Hc _ _ d Ft) as (t1 & E1 & G1). destruct (fill_total m Hc _ _ d T) as (t2 & E2 & G2).
    cbn [run]. unfold do_call_catch, do_call, set_dependency. cbn [rt_tabs with_tabs]. rewrite E1, E2. cbn [bind].
    apply (same_run_map (cons OUnit)). apply (rsim_run m). apply run_sim; auto. split; [constructor; reflexivity|].
    do 3 eexists. split; [exact G1|exact G2]. }
  destruct (run cb m vnone fuel (KSetDep d :: ks) (with_tabs s t)) as [os u|x u|u|]; cbn [bind without]; auto.
  assert (Y : skipn (length l) (repeat OUnit (length l) ++ os) = os).
  { assert (L : length l = length (repeat OUnit (length l))) by now rewrite repeat_length. rewrite L at 1. now rewrite skipn_app, skipn_all, Nat.sub_diag. }
  rewrite Y. exact X.
Qed.
Lemma set_again : forall V W (cb : cbfun V W) env root m vnone d l d0 s,
  ignores_dependency cb -> refuses_silently cb -> running cb env root m vnone (d :: l) d0 s ->
  forall fuel ks, same_run (without 1 (run cb m vnone fuel (KSetDep d :: ks) s)) (run cb m vnone fuel ks s).
Proof.
  intros V W cb env root m vnone d l d0 s Hi Hs (Hm & Hf & R) fuel ks.
  pose proof (few_max_compiled _ _ _ Hm Hf) as Hmax. compiled Hm.
  pose proof (ti_tabs _ _ _ _ (ri_tinv _ _ _ _ (reachable_rinvs cb m Hc vnone Hmax _ _ _ R))) as T.
  destruct (fill_total m Hc _ _ d T) as (t1 & E1 & G1).
  cbn [run]. unfold do_call_catch, do_call, set_dependency. rewrite E1. cbn [bind].
  assert (X : same_run (run cb m vnone fuel ks (with_tabs s t1)) (run cb m vnone fuel ks s)).
  { apply (rsim_run m). apply run_sim; auto. split; [constructor; reflexivity|]. do 3 eexists. split; [exact G1|exact T]. }
  destruct (run cb m vnone fuel ks (with_tabs s t1)); cbn [bind without skipn]; auto.
Qed.
