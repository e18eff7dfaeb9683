(** The conditions of Exact.v are necessary: where one of them fails, a client that
    sets the regions and sends an event runs into undefined behaviour.  The user
    code of that client never throws; its factories return null pointers; its
    guards answer from a script. *)

From Coq Require Import List Arith NArith Bool Lia.
From Verif Require Import Types Static Dispatch Runtime ListFacts IndexFacts Spec
  DispatchFacts FlattenFacts Semantics RefineFacts StaticFacts TermFacts Reach ReachFacts TableFacts
  QueryFacts ProcessFacts Safe SafeFacts SafeObjects Exact ExactFacts.
Import ListNotations.

(** The scripted user code. *)
Definition scripted : cbfun unit (list bool) := fun c _ v w =>
  match c with
  | CGuard _ _ => match w with b :: w' => Ret b v w' | [] => Ret false v [] end
  | _ => Ret false v w
  end.

Section Need.
Variable m : machine.
Notation env := (mc_env m).
Notation root := (mc_root m).
Hypothesis Hm : compile env root = Some m.
Let Hc : comp m := proj1 (compile_comp _ _ _ Hm).
Hypothesis Hfew : max_initials m <= 255.
Notation st := (rt unit (list bool)).
Notation session := (session scripted m tt).
Notation run := (run scripted m tt).
Notation try_entries := (try_entries scripted m).
Notation try_region := (try_region scripted m).
Notation region_loop := (region_loop scripted m).
Hypothesis Hnu : forall fuel w ks, Forall (typed m) ks -> forall u, session fuel 0 w ks <> Undef u.

Definition undef {A} (r : res unit (list bool) A) : Prop := exists u, r = Undef u.
Lemma undef_bind {A B} (r : res unit (list bool) A) (f : A -> st -> res unit (list bool) B) : undef r -> undef (bind r f).
Proof. intros [u ->]. exists u. reflexivity. Qed.

(** ** Construction *)
Lemma need_regs : regs_ok m.
Proof.
  destruct (fill_dispatch m 0 (empty_tables m)) as [t|] eqn:E.
  - apply (fill_ok_iff m Hc 0 (empty_tables m) (empty_tables_shape m)). eauto.
  - exfalso. apply (Hnu 0 [] [] (Forall_nil _) UBIndex). unfold Runtime.session, construct.
    assert (Hh : exists h, (if cd_unexpected (lookup env root) then fill_handlers m 0 else Some []) = Some h).
    { destruct (cd_unexpected _); [apply (fill_handlers_total m Hc)|eauto]. }
    destruct Hh as [h ->]. now rewrite E.
Qed.

Lemma need_root : length (initials env root) = max_initials m.
Proof.
  pose proof (initials_le_max m root (root_parent m Hc)) as Hle.
  destruct (Nat.eq_dec (length (initials env root)) (max_initials m)) as [E|Hn]; [exact E|]. exfalso.
  remember (length (initials env root)) as k eqn:Hk.
  apply (fun H => Hnu 300 [] [KIs k root (SState root)] (Forall_cons _ H (Forall_nil _)) UBUninit); [exact I|].
  unfold Runtime.session.
  assert (D : (parallel m = true /\ initials env root = []) \/ (parallel m = true -> initials env root <> [])).
  { destruct (parallel m); [|right; discriminate]. destruct (initials env root); [left; auto|right; discriminate]. }
  destruct D as [[Ep Ei]|D].
  { unfold construct.
    assert (Hh : exists h, (if cd_unexpected (lookup env root) then fill_handlers m 0 else Some []) = Some h).
    { destruct (cd_unexpected _); [apply (fill_handlers_total m Hc)|eauto]. }
    destruct Hh as [h ->].
    destruct (proj2 (fill_ok_iff m Hc 0 (empty_tables m) (empty_tables_shape m)) need_regs) as [t ->].
    unfold init_current_state. rewrite nth_at_nth, (parent_idx_pos m Hc), Nnat.Nat2N.id.
    change (pos Nat.eq_dec root (parents m)) with (parent_pos m root).
    rewrite (initial_table_nth m Hc root (root_parent m Hc)), Ei. cbn [map].
    change (@init_loop unit (list bool) 300 []) with (fun (r : nat) (s : st) => @Done unit (list bool) unit tt s).
    cbn [bind]. unfold update_current_regions. rewrite Ep. unfold current_parent, read_cur. cbn [rt_cur].
    rewrite nth_repeat. destruct (Nat.ltb_spec 0 (max_initials m)); [reflexivity|]. pose proof (max_pos m Hc). lia. }
  destruct (construct_total m Hc (V := unit) (W := list bool) 300 0 [] need_regs) as [s E]; [lia|lia|exact D|].
  rewrite E. cbn [bind]. destruct (construct_sound m Hc 300 0 [] s ltac:(lia) E) as [(F1 & F2 & _) _].
  cbn [Runtime.run]. unfold do_call_catch, do_call.
  assert (Eu : nth_error (rt_cur s) k = Some None).
  { rewrite F2. replace (nth_error (initials env root) k) with (@None sref) by (symmetry; apply nth_error_None; lia).
    destruct (Nat.ltb_spec k (max_initials m)); [reflexivity|lia]. }
  assert (Ek : to_region k = k) by (unfold to_region; apply Nat.mod_small; lia).
  destruct k as [|k].
  - unfold q_is, current_parent, read_cur. rewrite Eu. reflexivity.
  - destruct (nth_error (initials env root) 0) as [i|] eqn:Ei; [|apply nth_error_None in Ei; lia].
    assert (A0 : at_place m s 0 = Some (root, i)).
    { unfold at_place. rewrite F2, Ei. apply (decode_code m Hc root i (root_parent m Hc)).
      apply (initials_states m Hc root i (root_parent m Hc)). eapply nth_error_In; eauto. }
    rewrite (is_unset env root m Hm s (S k) root (SState root) root i A0) by (rewrite Ek; exact Eu).
    destruct (Nat.eq_dec root root); [reflexivity|congruence].
Qed.

Lemma need_based : based m.
Proof. split; [exact need_regs|exact Hfew|exact need_root]. Qed.

(** ** The client sets the regions *)
Record arranged (f : nat -> place) (w : list bool) (s : st) : Prop := mkArranged {
  ar_placed : placed m [0] 0 s;
  ar_at : forall r, r < max_initials m -> at_place m s r = Some (f r);
  ar_live : rt_live s = filter (defctor env) (states m);
  ar_queue : rt_queue s = [];
  ar_regions : current_regions m s = max_initials m;
  ar_world : rt_world s = w }.

Lemma constructed w : exists s : st, construct m 300 0 w = Done tt s /\ placed m [0] 0 s /\
  rt_live s = filter (defctor env) (states m) /\ rt_queue s = [] /\
  current_regions m s = max_initials m /\ rt_world s = w.
Proof.
  pose proof need_based as Hb. pose proof need_root as Hr. pose proof (max_pos m Hc) as Hpos.
  destruct (construct_total m Hc (V := unit) (W := list bool) 300 0 w (bs_regs m Hb)) as [s E]; [lia|lia| |].
  { intros _ E. rewrite E in Hr. cbn in Hr. lia. }
  exists s. split; [exact E|]. pose proof (construct_based (V := unit) m Hc 300 0 w Hb) as P. rewrite E in P.
  destruct P as (P & L & _ & _ & (_ & _ & _ & Q & R & _ & _ & _ & Ew & _)). repeat (split; [assumption|]). split; [|exact Ew].
  unfold current_regions. unfold parallel in *. destruct (Nat.ltb_spec 1 (max_initials m)); [congruence|lia].
Qed.

Lemma set_all (f : nat -> place) w : (forall r, In (f r) (places m)) -> forall n s k,
  k + n = max_initials m -> placed m [0] 0 s -> (forall r, r < k -> at_place m s r = Some (f r)) ->
  rt_live s = filter (defctor env) (states m) -> rt_queue s = [] -> current_regions m s = max_initials m ->
  rt_world s = w ->
  exists s', arranged f w s' /\
    forall fuel ks, run fuel (map (fun r => KSet r (fst (f r)) (snd (f r))) (seq k n) ++ ks) s =
      bind (run fuel ks s') (fun os s => Done (repeat OUnit n ++ os) s).
Proof.
  intros Hf. induction n as [|n IH]; intros s k Hk P A L Q R Ew.
  - exists s. split; [split; auto; intros r Hr; apply A; lia|]. intros fuel ks. cbn.
    destruct (run fuel ks s); reflexivity.
  - pose proof (Hf k) as Hp. destruct (f k) as [p q] eqn:Ef. apply (in_places m) in Hp. destruct Hp as [Hp Hq].
    assert (Ek : to_region k = k) by (unfold to_region; apply Nat.mod_small; lia).
    pose proof (set_state_result m Hc k p q s) as SR.
    destruct (set_state_placed m Hc [0] 0 k p q s P Hp Hq) as [(s' & E & P' & L' & _ & A')|E].
    2:{ exfalso. rewrite E in SR. destruct SR as (_ & _ & _ & _ & H). rewrite Ek in H.
        rewrite (ti_cur _ _ _ _ (pd_tinv _ _ _ _ P)) in H. lia. }
    rewrite E in SR. destruct SR as (_ & _ & _ & Es).
    destruct (IH s' (S k)) as (s2 & A2 & R2).
    + lia.
    + exact P'.
    + intros r Hr. rewrite A', Ek. destruct (Nat.eq_dec r k) as [->|Hn]; [now rewrite Ef|apply A; lia].
    + congruence.
    + rewrite Es. exact Q.
    + rewrite Es. exact R.
    + rewrite Es. exact Ew.
    + exists s2. split; [exact A2|]. intros fuel ks. cbn [seq map app Runtime.run].
      rewrite Ef. cbn [fst snd]. unfold do_call_catch at 1, do_call at 1. rewrite E. cbn [bind].
      rewrite R2. destruct (run fuel ks s2); reflexivity.
Qed.

Lemma arrange f w : (forall r, In (f r) (places m)) -> exists s, arranged f w s /\
  forall ks, Forall (typed m) ks -> ~ undef (run 300 ks s).
Proof.
  intros Hf. destruct (constructed w) as (s0 & E & P & L & Q & R & Ew).
  destruct (set_all f w Hf (max_initials m) s0 0 eq_refl P) as (s & A & Er); auto; [intros r Hr; lia|].
  exists s. split; [exact A|]. intros ks Hks [u Eu].
  apply (Hnu 300 w (map (fun r => KSet r (fst (f r)) (snd (f r))) (seq 0 (max_initials m)) ++ ks)) with (u := u).
  - apply Forall_app. split; [|exact Hks]. apply Forall_forall. intros k Hk. apply in_map_iff in Hk.
    destruct Hk as (r & <- & _). cbn. apply (in_places m). rewrite <- surjective_pairing. apply Hf.
  - unfold Runtime.session. rewrite E. cbn [bind]. rewrite Er, Eu. reflexivity.
Qed.

(** ** The scripted user code throws nothing and creates no object *)
Definition calm (s s' : st) : Prop := exists ks l, s' = with_live (after s (rt_world s) ks) l /\ incl l (rt_live s).
Lemma calm_refl s : calm s s.
Proof. exists [], (rt_live s). split; [|apply incl_refl]. unfold after. rewrite app_nil_r. now destruct s. Qed.
Lemma calm_trans s1 s2 s3 : calm s1 s2 -> calm s2 s3 -> calm s1 s3.
Proof.
  intros (ks & l & -> & H) (ks' & l' & -> & H'). exists (ks ++ ks'), l'. split; [|cbn in H'; eapply incl_tran; eauto].
  unfold after. cbn. now rewrite app_assoc.
Qed.
Definition calmly {A} (s : st) (r : res unit (list bool) A) : Prop :=
  match r with Done _ s' => calm s s' | Undef _ => True | _ => False end.
Lemma calmly_bind {A B} s (r : res unit (list bool) A) (f : A -> st -> res unit (list bool) B) :
  calmly s r -> (forall a s', r = Done a s' -> calmly s' (f a s')) -> calmly s (bind r f).
Proof.
  destruct r as [a s'|x s'|u|]; cbn; auto. intros H1 H2. specialize (H2 a s' eq_refl).
  destruct (f a s'); cbn in *; auto. eapply calm_trans; eauto.
Qed.
Lemma calm_invoke c a s : (forall ty val, c <> CGuard ty val) -> exists ks, 
  invoke scripted c a tt s = Done (false, tt) (after s (rt_world s) ks).
Proof.
  intros H. unfold invoke, scripted. exists [mkCall c a tt]. destruct c; try reflexivity. exfalso. eapply H; reflexivity.
Qed.
Lemma calm_after s ks : calm s (after s (rt_world s) ks).
Proof. exists ks, (rt_live s). split; [now destruct s|apply incl_refl]. Qed.

Lemma exec_body_calm t e : forall b s, calmly s (exec_body scripted b t e tt s).
Proof.
  induction b as [f|f|f|l IH] using abody_ind2; intros s; cbn [exec_body].
  - unfold keep_payload. destruct (calm_invoke (CAction f) (action_args t e) s) as [ks ->]; [discriminate|]. apply calm_after.
  - destruct (calm_invoke (CFactory f) (mkArgs e (t_src t) TNone (t_dep t)) s) as [ks ->]; [discriminate|].
    cbn [bind fst]. unfold set_live. exists ks. eexists. split; [reflexivity|]. cbn. intros q Hq. apply filter_In in Hq. apply Hq.
  - destruct (alive s (t_tgt t)); [|exact I]. unfold drop_payload.
    destruct (calm_invoke (CReuse f) (mkArgs e (t_src t) (TObj (t_tgt t)) (t_dep t)) s) as [ks ->]; [discriminate|]. apply calm_after.
  - revert s. induction l as [|b l IHl]; intros s; [apply calm_refl|]. inversion IH as [|? ? H1 H2]; subst.
    apply calmly_bind; [apply H1|]. intros [] s' _. apply IHl. exact H2.
Qed.
Lemma exec_steps_calm t e : forall l s, calmly s (exec_steps scripted l t e tt s).
Proof.
  induction l as [|a l IH]; intros s; [apply calm_refl|]. cbn [exec_steps]. apply calmly_bind.
  - destruct a as [c|b|c|c]; cbn [exec_step]; try apply exec_body_calm; unfold keep_payload;
      match goal with |- context [invoke _ ?k ?ar] => destruct (calm_invoke k ar s) as [ks ->]; [discriminate|]; apply calm_after end.
  - intros [] s' _. apply IH.
Qed.
Lemma execute_action_calm t e s : calmly s (execute_action scripted t e tt s).
Proof.
  unfold execute_action. destruct (t_act t); [|apply calm_refl]. destruct (_ && _); [|exact I]. apply exec_steps_calm.
Qed.

(** A reused object that does not exist. *)
Lemma calm_dead s s' q : calm s s' -> alive s q = false -> alive s' q = false.
Proof.
  intros (ks & l & -> & H). unfold alive. cbn [rt_live with_live]. destruct (in_dec sref_eq_dec q (rt_live s)); [discriminate|].
  intros _.
  destruct (in_dec sref_eq_dec q l) as [Hi|]; [apply H in Hi; contradiction|reflexivity].
Qed.
Lemma exec_body_reuse t e : forall b, reuses b -> forall s, alive s (t_tgt t) = false ->
  undef (exec_body scripted b t e tt s).
Proof.
  induction b as [f|f|f|l IH] using abody_ind2; intros Hr s Hd; cbn [exec_body]; try (inversion Hr; fail).
  - rewrite Hd. now exists UBNull.
  - inversion Hr as [|b l' Hb Hrb]; subst. clear Hr. revert s Hd Hb. induction l as [|b0 l IHl]; intros s Hd Hb; [destruct Hb|].
    inversion IH as [|? ? H1 H2]; subst. destruct Hb as [->|Hb]; [apply undef_bind; now apply H1|].
    pose proof (exec_body_calm t e b0 s) as C. destruct (exec_body scripted b0 t e tt s) as [[] s'|x s'|u|]; cbn in C; try contradiction.
    + cbn [bind]. apply IHl; auto. eapply calm_dead; eauto.
    + now exists u.
Qed.
Lemma exec_steps_reuse t e b : reuses b -> forall l, In (StAct b) l -> forall s, alive s (t_tgt t) = false ->
  undef (exec_steps scripted l t e tt s).
Proof.
  intros Hr. induction l as [|a l IH]; intros Hi s Hd; [destruct Hi|]. cbn [exec_steps].
  destruct Hi as [->|Hi]; [apply undef_bind; now apply exec_body_reuse|].
  pose proof (exec_steps_calm t e [a] s) as C. cbn [exec_steps] in C.
  destruct (exec_step scripted a t e tt s) as [[] s'|x s'|u|]; cbn in C; try contradiction.
  - cbn [bind]. apply IH; auto. eapply calm_dead; eauto.
  - now exists u.
Qed.

(** ** Turns *)
Notation bind1 := (map (fun c => bentry m (0, c))).
Definition answer (c : cand) (w : list bool) : list bool :=
  match c with CRow x _ => match x_guard x with NoGuard => w | _ => true :: w end | CDefer => w end.

Lemma entries_at (s : st) r e pl : tinv m [0] 0 s -> In e (events m) -> at_place m s r = Some pl ->
  get_entries e r s = Done (bind1 (cands m e pl)) s.
Proof.
  intros P He Hat. rewrite (get_entries_total m Hc [0] 0 e r s pl P He Hat).
  unfold bound. cbn [flat_map]. rewrite app_nil_r, map_map. reflexivity.
Qed.

Lemma after_after (s : st) w ks w' ks' : after (after s w ks) w' ks' = after s w' (ks ++ ks').
Proof. unfold after. cbn. now rewrite app_assoc. Qed.
Lemma after_id (s : st) : s = after s (rt_world s) [].
Proof. unfold after. rewrite app_nil_r. now destruct s. Qed.

Lemma try_skip r e : forall l1 l2 w (s : st), Forall guarded l1 -> rt_world s = repeat false (length l1) ++ w ->
  undef (try_entries (bind1 (l1 ++ l2)) r e tt s) \/
  exists ks, try_entries (bind1 (l1 ++ l2)) r e tt s = try_entries (bind1 l2) r e tt (after s w ks).
Proof.
  induction l1 as [|[|x o] l1 IH]; intros l2 w s Hg Ew.
  - right. exists []. cbn in Ew. rewrite <- Ew, <- after_id. reflexivity.
  - inversion Hg as [|? ? H1 _]. destruct H1.
  - inversion Hg as [|? ? H1 H2]; subst. cbn [guarded] in H1. cbn [app map Runtime.try_entries].
    rewrite bentry_tr. cbn [en_defer bentry centry fst snd entry_of_row]. unfold execute_guard. cbn [t_guard btrans].
    destruct (x_guard x) as [|ty val]; [congruence|].
    destruct (alive s _ && alive s _); [|left; now exists UBNull].
    unfold invoke, scripted. rewrite Ew. cbn [length repeat app bind fst snd].
    match goal with |- context [with_user s ?a (rt_trace s ++ ?k)] => change (with_user s a (rt_trace s ++ k)) with (after s a k) end.
    match goal with |- context [after s ?a ?k] => destruct (IH l2 w (after s a k) H2 eq_refl) as [U|(ks & E)]; [left; exact U|];
      right; exists (k ++ ks); rewrite <- after_after with (w := a); exact E end.
Qed.

(** A reached candidate is tried. *)
Lemma turn_tries e pl c : In e (events m) -> reached m e pl c ->
  exists w1, forall r (s : st), tinv m [0] 0 s -> at_place m s r = Some pl -> forall w, rt_world s = w1 ++ w ->
    undef (try_region r e tt s) \/
    exists ks l2, try_region r e tt s = bind (try_entries (bind1 (c :: l2)) r e tt (after s w ks))
                                              (fun tv s => Done (Some (fst tv), snd tv) s).
Proof.
  intros He (l1 & l2 & Ec & Hg). exists (repeat false (length l1)). intros r s P A w Ew.
  unfold Runtime.try_region. rewrite (entries_at s r e pl P He A). cbn [bind]. rewrite Ec.
  destruct (try_skip r e l1 (c :: l2) w s Hg Ew) as [U|(ks & E)].
  - left. destruct (bind1 (l1 ++ c :: l2)) eqn:El; [destruct l1; discriminate|]. now apply undef_bind.
  - right. exists ks, l2. destruct (bind1 (l1 ++ c :: l2)) eqn:El; [destruct l1; discriminate|]. now rewrite E.
Qed.

Lemma update_calm r en (s : st) : match update_current_state m r en s with Done _ _ | Undef _ => True | _ => False end.
Proof.
  unfold update_current_state, update_current_regions, current_parent, read_cur, write_hist, read_hist, write_cur.
  repeat first [progress cbn [bind rt_cur with_cur with_hist rt_hist] |
    match goal with
    | |- True => exact I
    | |- context [match ?x with _ => _ end] => lazymatch x with context [match _ with _ => _ end] => fail | _ => destruct x end
    end].
Qed.

(** A reached row is taken if its guard agrees. *)
Lemma turn_fires e pl x o : In e (events m) -> reached m e pl (CRow x o) ->
  exists w1, forall r (s : st), tinv m [0] 0 s -> at_place m s r = Some pl -> forall w, rt_world s = w1 ++ w ->
    undef (try_region r e tt s) \/
    exists ks s1 s2, update_current_state m r (bentry m (0, CRow x o)) (after s w ks) = Done tt s1 /\
      moves m r x (after s w ks) s1 /\ execute_action scripted (btrans m 0 x o) e tt s1 = Done tt s2 /\ calm s1 s2 /\
      try_region r e tt s = Done (Some Fired, tt) s2.
Proof.
  intros He Hre. destruct (turn_tries e pl (CRow x o) He Hre) as (w1 & H). exists (w1 ++ answer (CRow x o) []).
  intros r s T A w Ew. rewrite <- app_assoc in Ew. destruct (H r s T A _ Ew) as [U|(ks & l2 & E)]; [now left|]. clear H.
  pose proof (reached_in m e pl _ Hre) as Hin. pose proof (cands_accepted m Hc _ _ _ _ Hin) as Hacc.
  assert (G : undef (try_region r e tt s) \/ exists ks, try_region r e tt s =
     bind (bind (update_current_state m r (bentry m (0, CRow x o)) (after s w ks)) (fun _ s =>
           bind (execute_action scripted (btrans m 0 x o) e tt s) (fun v' s => Done (Fired, v') s)))
          (fun tv s => Done (Some (fst tv), snd tv) s)).
  { rewrite E. cbn [map Runtime.try_entries]. rewrite bentry_tr. cbn [en_defer bentry centry fst snd entry_of_row].
    unfold execute_guard. cbn [t_guard btrans]. unfold answer. destruct (x_guard x) as [|ty val].
    - right. exists ks. reflexivity.
    - destruct (alive _ _ && alive _ _); [|left; now exists UBNull]. right.
      unfold invoke, scripted at 1. cbn [rt_world after with_user app bind fst snd].
      exists (ks ++ [mkCall (CGuard ty val) (mkArgs e (t_src (btrans m 0 x o)) (TObj (if t_int (btrans m 0 x o) then t_src (btrans m 0 x o) else t_tgt (btrans m 0 x o))) (t_dep (btrans m 0 x o))) tt]).
      rewrite <- after_after with (w := true :: w). reflexivity. }
  clear E ks l2. destruct G as [U|[ks E]]; [now left|].
  pose proof (update_calm r (bentry m (0, CRow x o)) (after s w ks)) as UC.
  destruct (update_current_state m r (bentry m (0, CRow x o)) (after s w ks)) as [[] s1|ex s1|u|] eqn:Eu; try contradiction.
  2:{ left. rewrite E. now exists u. }
  cbn [bind] in E. pose proof (execute_action_calm (btrans m 0 x o) e s1) as C.
  destruct (execute_action scripted (btrans m 0 x o) e tt s1) as [[] s2|ex s2|u|] eqn:Ea; cbn [calmly] in C; try contradiction.
  2:{ left. rewrite E. now exists u. }
  right. exists ks, s1, s2. split; [exact Eu|]. split.
  - assert (Hfl : x_int x = false -> In x (mc_flat m)) by (intros; eapply (cands_flat m); eauto).
    refine (update_sound m Hc [0] 0 0 x o r (after s w ks) s1 _ Hacc Hfl Eu). apply (tinv_frame m [0] 0 s); auto.
  - split; [exact Ea|]. split; [exact C|]. rewrite E. reflexivity.
Qed.

Lemma reached_event e pl c : reached m e pl c -> In e (events m) /\ In pl (places m).
Proof. intros H. apply (cands_support m Hm e pl c need_regs). now apply reached_in. Qed.

(** ** Sending an event *)
Lemma process_ok s e ks : (forall ks, Forall (typed m) ks -> ~ undef (run 300 ks s)) -> In e (events m) ->
  Forall (typed m) ks ->
  ~ undef (bind (process_event scripted m tt 300 e tt s) (fun _ s => run 300 ks s)).
Proof.
  intros H He Hks [u Eu]. destruct (H (KProcess e tt :: ks)) as []; [constructor; auto|].
  cbn [Runtime.run]. unfold do_call_catch at 1, do_call at 1. exists u.
  destruct (process_event scripted m tt 300 e tt s) as [bv s1|x s1|u'|]; cbn [bind] in *; try discriminate.
  - now rewrite Eu.
  - congruence.
Qed.

Lemma loop_ok s e : (forall ks, Forall (typed m) ks -> ~ undef (run 300 ks s)) -> In e (events m) ->
  ~ undef (region_loop 300 (current_regions m s) 0 true true e tt s).
Proof.
  intros H He [u Eu]. apply (process_ok s e [] H He (Forall_nil _)). exists u. unfold process_event.
  destruct (in_dec ev_eq_dec e (events m)); [|contradiction]. unfold process_event_internal. rewrite Eu. reflexivity.
Qed.
Lemma loop_undef fuel limit r agf ati e s : 0 < fuel -> r < limit -> undef (try_region r e tt s) ->
  undef (region_loop fuel limit r agf ati e tt s).
Proof.
  intros Hf Hr Hu. destruct fuel as [|fuel]; [lia|]. cbn [Runtime.region_loop].
  destruct (Nat.ltb_spec r limit); [|lia]. now apply undef_bind.
Qed.
Lemma turn_ok s e : (forall ks, Forall (typed m) ks -> ~ undef (run 300 ks s)) -> In e (events m) ->
  current_regions m s = max_initials m -> ~ undef (try_region 0 e tt s).
Proof.
  intros H He Hr Hu. apply (loop_ok s e H He). apply loop_undef; [lia| |exact Hu]. rewrite Hr. exact (max_pos m Hc).
Qed.

(** ** Objects *)
Lemma fresh_alive f w s q : arranged f w s -> alive s q = true -> defctor env q = true.
Proof.
  intros A. unfold alive. rewrite (ar_live _ _ _ A). destruct (in_dec sref_eq_dec q _) as [H|]; [|discriminate].
  intros _. apply filter_In in H. apply H.
Qed.

Lemma need_cand e pl x o : reached m e pl (CRow x o) -> cand_ok m x o.
Proof.
  intros Hre. destruct (reached_event _ _ _ Hre) as [He Hpl].
  pose proof (cands_accepted m Hc _ _ _ _ (reached_in m _ _ _ Hre)) as Hacc.
  assert (Pos : 0 < max_initials m) by apply (max_pos m Hc).
  split; [|split].
  - intros ty val Eg. destruct (turn_tries e pl _ He Hre) as (w1 & H).
    destruct (arrange (fun _ => pl) w1 (fun _ => Hpl)) as (s & A & Hok).
    destruct (H 0 s (pd_tinv _ _ _ _ (ar_placed _ _ _ A)) (ar_at _ _ _ A 0 Pos) []) as [U|(ks & l2 & E)].
    { rewrite app_nil_r. apply A. }
    { exfalso. exact (turn_ok s e Hok He (ar_regions _ _ _ A) U). }
    pose proof (turn_ok s e Hok He (ar_regions _ _ _ A)) as N. rewrite E in N.
    cbn [map Runtime.try_entries] in N. rewrite bentry_tr in N. cbn [en_defer bentry centry fst snd entry_of_row] in N.
    unfold execute_guard in N. cbn [t_guard btrans t_int t_src t_tgt] in N. rewrite Eg in N.
    change (alive (after s [] ks)) with (alive s) in N.
    destruct (alive s o) eqn:A1; [|exfalso; apply N; now exists UBNull].
    destruct (alive s (if x_int x then o else dst_of m x)) eqn:A2; [|exfalso; apply N; now exists UBNull].
    split; eapply fresh_alive; eauto.
  - intros Ha. destruct (turn_fires e pl x o He Hre) as (w1 & H).
    destruct (arrange (fun _ => pl) w1 (fun _ => Hpl)) as (s & A & Hok).
    destruct (H 0 s (pd_tinv _ _ _ _ (ar_placed _ _ _ A)) (ar_at _ _ _ A 0 Pos) []) as [U|(ks & s1 & s2 & _ & Mv & Ea & _)].
    { rewrite app_nil_r. apply A. }
    { exfalso. exact (turn_ok s e Hok He (ar_regions _ _ _ A) U). }
    unfold execute_action in Ea. cbn [t_act btrans t_src] in Ea. unfold resolve_action in Ea. rewrite Ha in Ea.
    destruct (alive s1 o) eqn:A1; [|discriminate]. destruct (moves_rest m _ _ _ _ Mv) as (_ & El & _).
    apply (fresh_alive _ _ s o A). unfold alive in *. rewrite El in A1. exact A1.
  - intros ty b Ea Hr. destruct (turn_fires e pl x o He Hre) as (w1 & H).
    destruct (arrange (fun _ => pl) w1 (fun _ => Hpl)) as (s & A & Hok).
    destruct (H 0 s (pd_tinv _ _ _ _ (ar_placed _ _ _ A)) (ar_at _ _ _ A 0 Pos) []) as [U|(ks & s1 & s2 & _ & Mv & Ex & _)].
    { rewrite app_nil_r. apply A. }
    { exact (turn_ok s e Hok He (ar_regions _ _ _ A) U). }
    assert (Hp : needs_pointer b).
    { clear -Hr. induction Hr; econstructor; eauto. }
    pose proof (row_accepted_dst m x Hacc) as Hd. destruct (dst_of_target m x Hd) as [Ht _].
    pose proof (rf_pointer _ _ _ (proj1 (row_accepted_fine m x (cp_fl m Hc)) Hacc) ty b Ea Hp) as Hdc.
    assert (Dead : alive s1 (dst_of m x) = false).
    { destruct (alive s1 (dst_of m x)) eqn:Ed; [|reflexivity]. destruct (moves_rest m _ _ _ _ Mv) as (_ & El & _).
      unfold alive in Ed. rewrite El in Ed. pose proof (fresh_alive _ _ s (dst_of m x) A Ed) as F. rewrite Ht in F.
      unfold defctor in F. unfold default_constructible in Hdc. congruence. }
    unfold execute_action in Ex. cbn [t_act btrans t_src t_ptr t_int t_tgt] in Ex.
    destruct (resolve_action env x) as [steps|] eqn:Er.
    + destruct (_ && _); [|discriminate].
      assert (Hi : In (StAct b) steps).
      { unfold resolve_action in Er. destruct (has_action env x); [|discriminate]. inversion Er. apply in_or_app. right.
        apply in_or_app. left. unfold resolve_no_action. rewrite Ea. now left. }
      destruct (exec_steps_reuse (btrans m 0 x o) e b Hr steps Hi s1 Dead) as [u Eu]. rewrite Eu in Ex. discriminate.
    + unfold resolve_action, has_action in Er. rewrite Ea in Er. cbn in Er. discriminate.
Qed.

(** ** Targets *)
Lemma bad_entries (s : st) e r c : tinv m [0] 0 s -> nth_error (rt_cur s) r = Some (Some c) ->
  nth_error (places m) (N.to_nat c) = None -> undef (get_entries e r s).
Proof.
  intros T Ec Hn. unfold get_entries, read_cur. rewrite Ec.
  destruct (get_table (rt_tabs s) e) as [arr|] eqn:E; [|now exists UBIllformed]. cbn [bind].
  pose proof (proj2 (filled_shape m Hc _ _ (ti_tabs _ _ _ _ T)) e arr E) as L.
  rewrite nth_at_nth. replace (nth_error arr (N.to_nat c)) with (@None (list entry)); [now exists UBIndex|].
  symmetry. apply nth_error_None. rewrite L. now apply nth_error_None.
Qed.

Lemma calm_frame s s' : calm s s' -> rt_cur s' = rt_cur s /\ rt_hist s' = rt_hist s /\ rt_queue s' = rt_queue s /\
  rt_regions s' = rt_regions s /\ rt_tabs s' = rt_tabs s /\ rt_htabs s' = rt_htabs s /\ rt_world s' = rt_world s /\
  incl (rt_live s') (rt_live s).
Proof. intros (ks & l & -> & H). cbn. repeat (split; [reflexivity|]). exact H. Qed.
Lemma calm_tinv s s' : calm s s' -> tinv m [0] 0 s -> tinv m [0] 0 s'.
Proof. intros (ks & l & -> & H). now apply tinv_frame. Qed.
Lemma moves_tinv r x (s s' : st) : moves m r x s s' -> tinv m [0] 0 s -> tinv m [0] 0 s'.
Proof. intros H. apply frame_tinv. eapply moves_frame; eauto. Qed.
Lemma after_tinv (s : st) w ks : tinv m [0] 0 s -> tinv m [0] 0 (after s w ks).
Proof. now apply tinv_frame. Qed.

Lemma one_more : exists n, 300 = S n /\ 255 < n.
Proof. exists 299. split; [reflexivity|lia]. Qed.

Lemma loop_step fuel limit r agf ati e s t s2 : r < limit -> limit <= max_initials m ->
  try_region r e tt s = Done (t, tt) s2 -> t <> Some Deferred ->
  region_loop (S fuel) limit r agf ati e tt s =
  region_loop fuel limit (S r) (match t with Some Fired => false | _ => agf end)
              (match t with None => ati | _ => false end) e tt s2.
Proof.
  intros Hr Hl E Ht. cbn [Runtime.region_loop]. destruct (Nat.ltb_spec r limit); [|lia]. rewrite E. cbn [bind fst snd].
  rewrite (next_region_S r limit) by lia. destruct t as [[| |]|]; try reflexivity. congruence.
Qed.
Lemma loop_end fuel limit r agf ati e s : limit <= r ->
  region_loop (S fuel) limit r agf ati e tt s = Done (if ati then PInvalid else if agf then PGuardsFailed else PProcessed, tt) s.
Proof. intros Hr. cbn [Runtime.region_loop]. destruct (Nat.ltb_spec r limit); [lia|reflexivity]. Qed.

(** The part of process_event behind the loop over the regions, if no region is
    affected by the anonymous rows and nothing is deferred. *)
Lemma process_tail e s s2 : In e (events m) ->
  region_loop 300 (current_regions m s) 0 true true e tt s = Done (PProcessed, tt) s2 ->
  process_anonymous scripted m tt 300 s2 = Done tt s2 -> rt_queue s2 = [] ->
  process_event scripted m tt 300 e tt s = Done (true, tt) s2.
Proof.
  intros He E Ea Eq. unfold process_event. destruct (in_dec ev_eq_dec e (events m)); [|contradiction].
  unfold process_event_internal. rewrite E. cbn [bind fst snd]. rewrite Ea. cbn [bind fst snd].
  unfold process_deferred. rewrite Eq. destruct (has_deferred m); reflexivity.
Qed.

Lemma need_dst e pl x o : reached m e pl (CRow x o) -> x_int x = false -> In (resolve_dst_parent env x) (parents m).
Proof.
  intros Hre Ei. destruct (in_dec Nat.eq_dec (resolve_dst_parent env x) (parents m)) as [H|Hno]; [exact H|]. exfalso.
  destruct (reached_event _ _ _ Hre) as [He Hpl].
  pose proof (cands_accepted m Hc _ _ _ _ (reached_in m _ _ _ Hre)) as Hacc.
  pose proof (row_accepted_dst m x Hacc) as Hd. destruct (dst_of_target m x Hd) as [_ Htp].
  assert (Pos : 0 < max_initials m) by apply (max_pos m Hc).
  destruct (turn_fires e pl x o He Hre) as (w1 & H).
  destruct (arrange (fun _ => pl) w1 (fun _ => Hpl)) as (s & A & Hok).
  pose proof (pd_tinv _ _ _ _ (ar_placed _ _ _ A)) as T.
  destruct (H 0 s T (ar_at _ _ _ A 0 Pos) []) as [U|(ks & s1 & s2 & Eup & Mv & Ea & Ca & Et)].
  { rewrite app_nil_r. apply A. }
  { exact (turn_ok s e Hok He (ar_regions _ _ _ A) U). }
  clear H. pose proof (after_tinv s [] ks T) as T'. set (s' := after s [] ks) in *.
  assert (Hcode : nth_error (places m) (N.to_nat (code m (resolve_dst_parent env x, dst_of m x))) = None).
  { unfold code. rewrite Nnat.Nat2N.id. apply nth_error_None. rewrite pos_absent; [reflexivity|].
    rewrite (in_places m). tauto. }
  assert (G : parallel m = false /\ nth_error (rt_cur s1) 0 = Some (Some (code m (resolve_dst_parent env x, dst_of m x)))).
  { assert (R : forall s0 : st, tinv m [0] 0 s0 -> settled m (relocate m 0 (code m (resolve_dst_parent env x, dst_of m x)) s0) ->
       parallel m = false /\ nth_error (rt_cur (relocate m 0 (code m (resolve_dst_parent env x, dst_of m x)) s0)) 0 =
         Some (Some (code m (resolve_dst_parent env x, dst_of m x)))).
    { intros s0 T0 S0. split.
      - destruct (parallel m) eqn:Ep; [|reflexivity]. exfalso. apply (S0 Ep). apply at_place_relocate_out; [|exact Hcode].
        rewrite (ti_cur _ _ _ _ T0). exact Pos.
      - destruct (relocate_rest m 0 (code m (resolve_dst_parent env x, dst_of m x)) s0) as (_ & _ & _ & _ & -> & _).
        apply nth_set_same. rewrite (ti_cur _ _ _ _ T0). exact Pos. }
    assert (Tr : tinv m [0] 0 (remember m 0 s')) by (apply (frame_tinv m [0] 0 s'); [apply remember_frame|exact T']).
    inversion Mv as [sa Hi|sa pl' _ _ Hp S|sa pl' _ _ _ Hp S|sa w p c _ _ Hx Hh S]; subst; try congruence.
    - rewrite Htp in Hp. inversion Hp; subst. now apply R.
    - rewrite Htp in Hp. inversion Hp; subst. now apply R.
    - exfalso. unfold history_of in Hh. unfold resolve_dst_parent in Hno. rewrite Hx in Hno.
      replace (nth_error (rt_hist (remember m 0 s')) (parent_pos m p)) with (@None (list N)) in Hh; [discriminate|].
      symmetry. apply nth_error_None. rewrite (tinv_hist_length m _ _ _ Tr). unfold parent_pos, n_parents.
      now rewrite pos_absent. }
  destruct G as [Ep Ecur]. destruct (calm_frame _ _ Ca) as (Fc & _ & Fq & _).
  assert (T2 : tinv m [0] 0 s2) by (eapply calm_tinv; [exact Ca|]; eapply moves_tinv; eauto).
  assert (Bad : forall e', undef (get_entries e' 0 s2)).
  { intros e'. eapply bad_entries; [exact T2| |exact Hcode]. rewrite Fc. exact Ecur. }
  assert (Q2 : rt_queue s2 = []).
  { rewrite Fq. destruct (moves_rest m _ _ _ _ Mv) as (-> & _). exact (ar_queue _ _ _ A). }
  assert (E1 : max_initials m = 1).
  { unfold parallel in Ep. apply Nat.ltb_ge in Ep. lia. }
  destruct one_more as (n & En & Hn).
  assert (El : region_loop 300 (current_regions m s) 0 true true e tt s = Done (PProcessed, tt) s2).
  { rewrite (ar_regions _ _ _ A), E1, En.
    rewrite (loop_step n 1 0 true true e s (Some Fired) s2); [|lia|lia|exact Et|discriminate].
    destruct n as [|n]; [lia|]. rewrite loop_end by lia. reflexivity. }
  assert (N : undef (try_region 0 e tt s2)) by (unfold Runtime.try_region; now apply undef_bind).
  assert (Z : undef (process_anonymous scripted m tt 300 s2) \/ process_anonymous scripted m tt 300 s2 = Done tt s2).
  { unfold process_anonymous. destruct (has_anonymous m); [left|right; reflexivity].
    rewrite En. cbn [anonymous_loop]. apply undef_bind. cbn [anonymous_pass].
    unfold current_regions. rewrite Ep. cbn [Nat.ltb Nat.leb]. apply undef_bind. unfold anonymous_region. apply undef_bind. apply Bad. }
  destruct Z as [Z|Z].
  - apply (process_ok s e [] Hok He (Forall_nil _)). unfold process_event.
    destruct (in_dec ev_eq_dec e (events m)); [|contradiction]. unfold process_event_internal. rewrite El. cbn [bind fst snd].
    do 3 apply undef_bind. exact Z.
  - apply (process_ok s e [KProcess e tt] Hok He); [constructor; [exact He|constructor]|].
    rewrite (process_tail e s s2 He El Z Q2). cbn [bind Runtime.run]. apply undef_bind.
    unfold do_call_catch, do_call.
    assert (U : undef (process_event scripted m tt 300 e tt s2)).
    { unfold process_event. destruct (in_dec ev_eq_dec e (events m)); [|contradiction]. apply undef_bind.
      unfold process_event_internal. apply undef_bind. apply loop_undef; [lia| |exact N].
      unfold current_regions. rewrite Ep. lia. }
    destruct U as [u ->]. now exists u.
Qed.

(** ** Region 0 comes to rest *)
Lemma moves_parent x (s s1 : st) : placed m [0] 0 s -> moves m 0 x s s1 -> x_int x = false ->
  row_accepted m x = true -> In (resolve_dst_parent env x) (parents m) ->
  exists q, at_place m s1 0 = Some (resolve_dst_parent env x, q).
Proof.
  intros P Mv Ei Hacc Hp. pose proof (row_accepted_dst m x Hacc) as Hd. destruct (dst_of_target m x Hd) as [_ Htp].
  destruct (row_accepted_states m x Hacc) as [Hds _].
  assert (Pos : 0 < max_initials m) by apply (max_pos m Hc).
  pose proof (remember_placed m Hc [0] 0 0 s P) as P1.
  assert (L : forall s0 : st, placed m [0] 0 s0 -> 0 < length (rt_cur s0)).
  { intros s0 P0. rewrite (ti_cur _ _ _ _ (pd_tinv _ _ _ _ P0)). exact Pos. }
  inversion Mv as [sa Hi|sa pl' _ _ Hpl S|sa pl' _ _ _ Hpl S|sa w p c _ _ Hx Hh S]; subst; try congruence.
  - rewrite Htp in Hpl. inversion Hpl; subst. exists (dst_of m x). apply at_place_relocate; [now apply L|].
    now apply (decode_code m Hc).
  - rewrite Htp in Hpl. inversion Hpl; subst. exists (dst_of m x). apply at_place_relocate; [now apply L|].
    now apply (decode_code m Hc).
  - assert (E : resolve_dst_parent env x = p) by (unfold resolve_dst_parent; now rewrite Hx). rewrite E in *.
    destruct (pd_hist _ _ _ _ P1 p 0 c Hp Hh) as ([p1 q1] & Epl & H0). specialize (H0 eq_refl). cbn in H0. subst p1.
    exists q1. apply at_place_relocate; [now apply L|exact Epl].
Qed.

(** What a turn of region [r] leaves. *)
Record left_by (r : nat) (w : list bool) (s s2 : st) : Prop := mkLeft {
  lb_tinv : tinv m [0] 0 s2;
  lb_others : forall j, j <> r -> at_place m s2 j = at_place m s j;
  lb_world : rt_world s2 = w;
  lb_queue : rt_queue s2 = rt_queue s;
  lb_live : incl (rt_live s2) (rt_live s) }.

Lemma fired_leaves r x w ks (s s1 s2 : st) : tinv m [0] 0 s -> moves m r x (after s w ks) s1 -> calm s1 s2 ->
  left_by r w s s2.
Proof.
  intros T Mv Ca. destruct (calm_frame _ _ Ca) as (Fc & _ & Fq & _ & _ & _ & Fw & Fl).
  destruct (moves_rest m _ _ _ _ Mv) as (Mq & Ml & Mw & _ & Mc). split.
  - eapply calm_tinv; [exact Ca|]. eapply moves_tinv; [exact Mv|]. now apply after_tinv.
  - intros j Hj. unfold at_place. rewrite Fc, (Mc j Hj). reflexivity.
  - rewrite Fw, Mw. reflexivity.
  - rewrite Fq, Mq. reflexivity.
  - rewrite Ml in Fl. exact Fl.
Qed.

Lemma rest_turn e p0 : In e (events m) -> rests m e p0 -> exists g w0, In g (places m) /\
  forall s : st, placed m [0] 0 s -> at_place m s 0 = Some g -> forall w, rt_world s = w0 ++ w ->
  undef (try_region 0 e tt s) \/ exists t s2, try_region 0 e tt s = Done (t, tt) s2 /\ t <> Some Deferred /\
    (exists q, at_place m s2 0 = Some (p0, q)) /\ left_by 0 w s s2.
Proof.
  intros He [q Hq Hg|q x o Hre Hi|pl x o Hre Hi Hp].
  - exists (p0, q), (repeat false (length (cands m e (p0, q)))). split; [exact Hq|]. intros s P A w Ew.
    pose proof (pd_tinv _ _ _ _ P) as T. unfold Runtime.try_region. rewrite (entries_at s 0 e (p0, q) T He A). cbn [bind].
    destruct (try_skip 0 e (cands m e (p0, q)) [] w s Hg Ew) as [U|(ks & E)]; rewrite app_nil_r in *.
    + left. destruct (bind1 (cands m e (p0, q))) eqn:El; [destruct U as [u U]; discriminate|]. now apply undef_bind.
    + right. cbn [map Runtime.try_entries] in E.
      assert (Lf : left_by 0 w s (after s w ks)).
      { split; try reflexivity; [now apply after_tinv|apply incl_refl]. }
      destruct (cands m e (p0, q)) as [|c cs] eqn:Ec.
      * cbn in Ew. exists None, s. split; [reflexivity|]. split; [discriminate|]. split; [eauto|].
        rewrite (after_id s), Ew. split; try reflexivity; [now apply after_tinv|apply incl_refl].
      * change (bind1 (c :: cs)) with (bentry m (0, c) :: bind1 cs) in *. rewrite E. cbn [bind fst snd].
        exists (Some Refused), (after s w ks). split; [reflexivity|]. split; [discriminate|]. split; [eauto|exact Lf].
  - destruct (reached_event _ _ _ Hre) as [_ Hpl]. destruct (turn_fires e _ x o He Hre) as (w1 & H).
    exists (p0, q), w1. split; [exact Hpl|]. intros s P A w Ew. pose proof (pd_tinv _ _ _ _ P) as T.
    destruct (H 0 s T A w Ew) as [U|(ks & s1 & s2 & _ & Mv & _ & Ca & Et)]; [now left|]. right.
    exists (Some Fired), s2. split; [exact Et|]. split; [discriminate|].
    split; [|eapply fired_leaves; eauto]. destruct (calm_frame _ _ Ca) as (Fc & _).
    assert (E : s1 = after s w ks) by (inversion Mv; congruence). exists q. unfold at_place. rewrite Fc, E. exact A.
  - destruct (reached_event _ _ _ Hre) as [_ Hpl]. destruct (turn_fires e _ x o He Hre) as (w1 & H).
    exists pl, w1. split; [exact Hpl|]. intros s P A w Ew. pose proof (pd_tinv _ _ _ _ P) as T.
    destruct (H 0 s T A w Ew) as [U|(ks & s1 & s2 & _ & Mv & _ & Ca & Et)]; [now left|]. right.
    exists (Some Fired), s2. split; [exact Et|]. split; [discriminate|].
    split; [|eapply fired_leaves; eauto]. destruct (calm_frame _ _ Ca) as (Fc & _).
    destruct (moves_parent x (after s w ks) s1 (placed_after m [0] 0 s w ks P) Mv Hi) as [q Eq].
    + exact (cands_accepted m Hc _ _ _ _ (reached_in m _ _ _ Hre)).
    + eapply need_dst; eauto.
    + exists q. rewrite <- Hp. unfold at_place. rewrite Fc. exact Eq.
Qed.

(** ** History *)
Lemma update_writes d x o r (s s1 : st) p q : tinv m [0] 0 s -> has_history m = true -> x_int x = false ->
  at_place m s 0 = Some (p, q) -> update_current_state m r (bentry m (d, CRow x o)) s = Done tt s1 ->
  r < length (initials env p).
Proof.
  intros T Hh Ei A. unfold update_current_state. cbn [bentry centry fst snd entry_of_row en_int].
  rewrite Ei, Hh, (current_parent_at env root m Hm s p q A). cbn [bind].
  destruct (read_cur s r) as [c s2|? ?|?|] eqn:Er; try (intros H; discriminate H).
  assert (s2 = s). { unfold read_cur in Er. destruct (nth_error (rt_cur s) r) as [[?|]|]; inversion Er; auto. } subst s2. cbn [bind].
  unfold write_hist. rewrite nth_at_nth, (parent_idx_pos m Hc), Nnat.Nat2N.id.
  assert (Hp : In p (parents m)).
  { unfold at_place in A. destruct (nth_error (rt_cur s) 0) as [[c0|]|]; try discriminate. apply (places_at_inv m Hc) in A. apply A. }
  pose proof (ti_hist _ _ _ _ T) as E. apply (f_equal (fun l => nth_error l (parent_pos m p))) in E. rewrite !nth_error_map in E.
  rewrite (initial_table_nth m Hc p Hp) in E. cbn in E. unfold parent_pos in E.
  destruct (nth_error (rt_hist s) (pos Nat.eq_dec p (parents m))) as [l|]; [|discriminate]. cbn in E. inversion E as [E'].
  rewrite map_length in E'. rewrite <- E'.
  destruct (upd_nth r (fun _ : N => c) l) as [l'|] eqn:Eu; [|intros H; discriminate H]. intros _.
  destruct (Nat.lt_ge_cases r (length l)) as [Hl|Hl]; [exact Hl|]. exfalso. clear -Eu Hl.
  revert l l' Eu Hl. induction r as [|r IH]; intros [|a l] l' Eu Hl; cbn in *; try discriminate; try lia.
  destruct (upd_nth r (fun _ : N => c) l) eqn:E; [|discriminate]. eapply IH; eauto. lia.
Qed.

(** A turn of a region other than 0 that takes an external row. *)
Lemma fire_turn e pl x o : In e (events m) -> reached m e pl (CRow x o) -> x_int x = false ->
  exists w1, forall k (s : st) p0 q0, k <> 0 -> tinv m [0] 0 s -> at_place m s 0 = Some (p0, q0) ->
  at_place m s k = Some pl -> forall w, rt_world s = w1 ++ w ->
  undef (try_region k e tt s) \/ exists s2, try_region k e tt s = Done (Some Fired, tt) s2 /\ left_by k w s s2 /\
    (parallel m = true -> rt_regions s2 = length (initials env p0)) /\ (has_history m = true -> k < length (initials env p0)).
Proof.
  intros He Hre Ei. destruct (turn_fires e pl x o He Hre) as (w1 & H). exists w1.
  intros k s p0 q0 Hk T A0 Ak w Ew.
  destruct (H k s T Ak w Ew) as [U|(ks & s1 & s2 & Eup & Mv & _ & Ca & Et)]; [now left|]. right.
  exists s2. split; [exact Et|]. pose proof (fired_leaves _ _ _ _ _ _ _ T Mv Ca) as Lf. split; [exact Lf|].
  destruct (calm_frame _ _ Ca) as (Fc & _ & _ & Fr & _). split.
  - intros Ep. rewrite Fr. assert (A1 : at_place m s1 0 = Some (p0, q0)).
    { rewrite <- A0, <- (lb_others _ _ _ _ Lf 0) by congruence. unfold at_place. now rewrite Fc. }
    inversion Mv; subst; try congruence; now apply (relocate_regions m _ _ _ _ q0 Ep).
  - intros Hh. eapply update_writes; [| | | |exact Eup]; eauto. now apply after_tinv.
Qed.

(** All regions from [k] on take that row. *)
Lemma fire_all e pl x o p0 : In e (events m) -> reached m e pl (CRow x o) -> x_int x = false ->
  exists w1, forall n k limit fuel agf ati (s : st) q0, k + n = limit -> k <> 0 -> limit <= max_initials m -> n < fuel ->
  tinv m [0] 0 s -> at_place m s 0 = Some (p0, q0) ->
  (forall j, k <= j < limit -> at_place m s j = Some pl) -> rt_world s = concat (repeat w1 n) ->
  undef (region_loop fuel limit k agf ati e tt s) \/
  exists b s2, region_loop fuel limit k agf ati e tt s = Done (b, tt) s2 /\ tinv m [0] 0 s2 /\
    at_place m s2 0 = Some (p0, q0) /\ rt_queue s2 = rt_queue s /\ incl (rt_live s2) (rt_live s) /\
    (0 < n \/ agf = false /\ ati = false -> b = PProcessed) /\
    (parallel m = true -> 0 < n \/ rt_regions s = length (initials env p0) -> rt_regions s2 = length (initials env p0)) /\
    (has_history m = true -> 0 < n -> limit <= length (initials env p0)).
Proof.
  intros He Hre Ei. destruct (fire_turn e pl x o He Hre Ei) as (w1 & H). exists w1.
  induction n as [|n IH]; intros k limit fuel agf ati s q0 Hk Hk0 Hl Hf T A0 Ak Ew; (destruct fuel as [|fuel]; [lia|]).
  - right. rewrite loop_end by lia. eexists. exists s. split; [reflexivity|]. split; [exact T|]. split; [exact A0|].
    split; [reflexivity|]. split; [apply incl_refl|]. split; [|split].
    + intros [|[-> ->]]; [lia|reflexivity].
    + intros _ [|E]; [lia|exact E].
    + intros _ Hn. lia.
  - cbn [repeat concat] in Ew.
    destruct (H k s p0 q0 Hk0 T A0 (Ak k ltac:(lia)) _ Ew) as [U|(s1 & Et & Lf & Rg & Hh)].
    { left. apply loop_undef; [lia|lia|exact U]. }
    rewrite (loop_step fuel limit k agf ati e s (Some Fired) s1); [|lia|lia|exact Et|discriminate].
    destruct (IH (S k) limit fuel false false s1 q0) as [U|(b & s2 & E & T2 & A2 & Q2 & L2 & B & R2 & H2)]; try lia.
    + apply Lf.
    + rewrite (lb_others _ _ _ _ Lf) by congruence. exact A0.
    + intros j Hj. rewrite (lb_others _ _ _ _ Lf) by lia. apply Ak. lia.
    + apply Lf.
    + now left.
    + right. exists b, s2. split; [exact E|]. split; [exact T2|]. split; [exact A2|].
      split; [rewrite Q2; apply Lf|]. split; [eapply incl_tran; [exact L2|apply Lf]|]. split; [|split].
      * intros _. apply B. right. auto.
      * intros Ep _. apply R2; [exact Ep|]. right. now apply Rg.
      * intros Eh _. destruct n as [|n]; [|apply H2; [exact Eh|lia]]. specialize (Hh Eh). lia.
Qed.

(** Region 0 comes to rest in [p0], then regions 1 to [limit]-1 take the row. *)
Lemma need_hist : has_history m = true -> forall e pl x o, reached m e pl (CRow x o) -> x_int x = false ->
  initials env (fst pl) <> [] /\ forall r p0, 0 < r < max_initials m -> rests m e p0 -> r < length (initials env p0).
Proof.
  intros Hh e pl x o Hre Ei. destruct (reached_event _ _ _ Hre) as [He Hpl].
  assert (Pos : 0 < max_initials m) by apply (max_pos m Hc). split.
  - destruct (turn_fires e pl x o He Hre) as (w1 & H).
    destruct (arrange (fun _ => pl) w1 (fun _ => Hpl)) as (s & A & Hok).
    pose proof (pd_tinv _ _ _ _ (ar_placed _ _ _ A)) as T.
    destruct (H 0 s T (ar_at _ _ _ A 0 Pos) []) as [U|(ks & s1 & s2 & Eup & _)].
    { rewrite app_nil_r. apply A. }
    { exfalso. exact (turn_ok s e Hok He (ar_regions _ _ _ A) U). }
    destruct pl as [p q]. cbn [fst].
    assert (L : 0 < length (initials env p)).
    { eapply update_writes; [| | | |exact Eup]; eauto; [now apply after_tinv|]. exact (ar_at _ _ _ A 0 Pos). }
    destruct (initials env p); [cbn in L; lia|discriminate].
  - intros r p0 Hr Hrest. destruct (rest_turn e p0 He Hrest) as (g & w0 & Hg & H0).
    destruct (fire_all e pl x o p0 He Hre Ei) as (w1 & H1).
    destruct (arrange (fun k => match k with O => g | _ => pl end) (w0 ++ concat (repeat w1 (max_initials m - 1)))) as (s & A & Hok).
    { intros [|k]; assumption. }
    destruct (H0 s (ar_placed _ _ _ A) (ar_at _ _ _ A 0 Pos) _ (ar_world _ _ _ A)) as [U|(t & s1 & Et & Ht & [q Aq] & Lf)].
    { exfalso. exact (turn_ok s e Hok He (ar_regions _ _ _ A) U). }
    destruct one_more as (n & En & Hn). pose proof (loop_ok s e Hok He) as N. rewrite (ar_regions _ _ _ A), En in N.
    rewrite (loop_step n (max_initials m) 0 true true e s t s1 Pos (le_n _) Et Ht) in N.
    match type of N with context [region_loop n _ 1 ?a ?b] =>
      destruct (H1 (max_initials m - 1) 1 (max_initials m) n a b s1 q) as [U|(b' & s2 & _ & _ & _ & _ & _ & _ & _ & H2)]; try lia end.
    + apply Lf.
    + exact Aq.
    + intros j Hj. rewrite (lb_others _ _ _ _ Lf) by lia. rewrite (ar_at _ _ _ A) by lia. destruct j; [lia|reflexivity].
    + apply Lf.
    + contradiction.
    + specialize (H2 Hh ltac:(lia)). lia.
Qed.

(** ** The handler *)
Lemma handler_object e (s : st) p q : cd_unexpected (lookup env root) = true -> tinv m [0] 0 s -> In e (events m) ->
  at_place m s 0 = Some (p, q) -> ~ undef (call_handler scripted m e tt s) -> alive s q = true.
Proof.
  intros Eu T He A N. unfold call_handler in N. rewrite Eu in N. unfold at_place in A. unfold at_cur in N.
  destruct (nth_error (rt_cur s) 0) as [[c|]|]; try discriminate. cbn [bind] in N.
  destruct (places_at_inv m Hc _ _ _ A) as (Hp & Hq & Ec).
  pose proof (fill_handlers_get m Hc 0 (rt_htabs s) e p q (ti_htabs _ _ _ _ T Eu) He Hp Hq) as G.
  destruct (get_table (rt_htabs s) e) as [arr|]; [|contradiction]. destruct G as [G _].
  rewrite Ec, nth_at_nth, G in N. destruct (alive s q); [reflexivity|]. exfalso. apply N. now exists UBNull.
Qed.

Lemma nothing_found e pl : In e (events m) -> cands m e pl = [] -> forall n k limit fuel (s : st), k + n = limit ->
  limit <= max_initials m -> n < fuel -> tinv m [0] 0 s -> (forall j, k <= j < limit -> at_place m s j = Some pl) ->
  region_loop fuel limit k true true e tt s = Done (PInvalid, tt) s.
Proof.
  intros He Ec. induction n as [|n IH]; intros k limit fuel s Hk Hl Hf T A; (destruct fuel as [|fuel]; [lia|]).
  - rewrite loop_end by lia. reflexivity.
  - rewrite (loop_step fuel limit k true true e s None s); [|lia|lia| |discriminate].
    + apply IH; auto; try lia. intros j Hj. apply A. lia.
    + unfold Runtime.try_region. rewrite (entries_at s k e pl T He (A k ltac:(lia))), Ec. reflexivity.
Qed.

Lemma need_handler : cd_unexpected (lookup env root) = true -> forall e pl, In e (events m) -> In pl (places m) ->
  cands m e pl = [] \/ sleepy m -> defctor env (snd pl) = true.
Proof.
  intros Eu e [p q] He Hpl D. cbn [snd]. assert (Pos : 0 < max_initials m) by apply (max_pos m Hc). destruct D as [Ec|D].
  - destruct (arrange (fun _ => (p, q)) [] (fun _ => Hpl)) as (s & A & Hok).
    pose proof (pd_tinv _ _ _ _ (ar_placed _ _ _ A)) as T.
    apply (fresh_alive _ _ s q A). apply (handler_object e s p q Eu T He (ar_at _ _ _ A 0 Pos)).
    intros U. apply (process_ok s e [] Hok He (Forall_nil _)). apply undef_bind. unfold process_event.
    destruct (in_dec ev_eq_dec e (events m)); [|contradiction]. unfold process_event_internal.
    rewrite (nothing_found e (p, q) He Ec (max_initials m) 0 _ 300 s); [| | |lia|exact T|].
    + cbn [bind fst snd]. now apply undef_bind.
    + rewrite (ar_regions _ _ _ A). lia.
    + rewrite (ar_regions _ _ _ A). lia.
    + intros j [_ Hj]. rewrite (ar_regions _ _ _ A) in Hj. now apply (ar_at _ _ _ A).
  - destruct D as (Ep & e1 & pl1 & x & o & p0 & Hre & Ei & Hrest & Hz). destruct (reached_event _ _ _ Hre) as [He1 Hpl1].
    destruct (rest_turn e1 p0 He1 Hrest) as (g & w0 & Hg & H0). destruct (fire_all e1 pl1 x o p0 He1 Hre Ei) as (w1 & H1).
    assert (Two : 1 < max_initials m) by (unfold parallel in Ep; now apply Nat.ltb_lt in Ep).
    destruct (arrange (fun k => match k with O => g | _ => pl1 end) (w0 ++ concat (repeat w1 (max_initials m - 1)))) as (s & A & Hok).
    { intros [|k]; assumption. }
    destruct (H0 s (ar_placed _ _ _ A) (ar_at _ _ _ A 0 Pos) _ (ar_world _ _ _ A)) as [U|(t & s1 & Et & Ht & [q1 Aq] & Lf)].
    { exfalso. exact (turn_ok s e1 Hok He1 (ar_regions _ _ _ A) U). }
    destruct one_more as (n & En & Hn). pose proof (loop_ok s e1 Hok He1) as N. rewrite (ar_regions _ _ _ A), En in N.
    rewrite (loop_step n (max_initials m) 0 true true e1 s t s1 Pos (le_n _) Et Ht) in N.
    match type of N with context [region_loop n _ 1 ?a ?b] =>
      destruct (H1 (max_initials m - 1) 1 (max_initials m) n a b s1 q1) as [U|(b' & s2 & El & T2 & _ & Q2 & L2 & B2 & R2 & _)]; try lia end.
    { apply Lf. }
    { exact Aq. }
    { intros j Hj. rewrite (lb_others _ _ _ _ Lf) by lia. rewrite (ar_at _ _ _ A) by lia. destruct j; [lia|reflexivity]. }
    { apply Lf. }
    { contradiction. }
    rewrite (B2 ltac:(left; lia)) in El. specialize (R2 Ep ltac:(left; lia)). rewrite Hz in R2. cbn in R2.
    assert (Ez : current_regions m s2 = 0) by (unfold current_regions; now rewrite Ep).
    assert (Zp : process_event scripted m tt 300 e1 tt s = Done (true, tt) s2).
    { apply process_tail; [exact He1| | |].
      - rewrite (ar_regions _ _ _ A), En, (loop_step n (max_initials m) 0 true true e1 s t s1 Pos (le_n _) Et Ht). exact El.
      - unfold process_anonymous. destruct (has_anonymous m); [|reflexivity]. rewrite En. cbn [anonymous_loop anonymous_pass].
        rewrite Ez. reflexivity.
      - rewrite Q2, (lb_queue _ _ _ _ Lf). exact (ar_queue _ _ _ A). }
    apply (in_places m) in Hpl. destruct Hpl as [Hp Hq].
    pose proof (set_state_result m Hc 0 p q s2) as SR.
    destruct (set_state m 0 p q s2) as [[] s3|ex s3|u|] eqn:Es; try tauto.
    2:{ exfalso. destruct SR as (_ & _ & _ & _ & H). rewrite (ti_cur _ _ _ _ T2) in H. cbn in H. lia. }
    destruct SR as (_ & _ & _ & E3). change (to_region 0) with 0 in E3.
    assert (T3 : tinv m [0] 0 s3).
    { rewrite E3. apply (tinv_frame m [0] 0 s2); auto. cbn [rt_cur with_cur]. apply set_nth_length. }
    assert (A3 : at_place m s3 0 = Some (p, q)).
    { rewrite E3. unfold at_place. cbn [rt_cur with_cur]. rewrite nth_set_same by (rewrite (ti_cur _ _ _ _ T2); exact Pos).
      now apply (decode_code m Hc). }
    assert (L3 : alive s3 q = true).
    { apply (handler_object e s3 p q Eu T3 He A3). intros U.
      apply (process_ok s e1 [KSet 0 p q; KProcess e tt] Hok He1); [repeat constructor; auto|].
      rewrite Zp. cbn [bind Runtime.run]. unfold do_call_catch at 1, do_call at 1. rewrite Es. cbn [bind].
      apply undef_bind. apply undef_bind. unfold do_call_catch, do_call.
      assert (U' : undef (process_event scripted m tt 300 e tt s3)).
      { unfold process_event. destruct (in_dec ev_eq_dec e (events m)); [|contradiction]. unfold process_event_internal.
        replace (current_regions m s3) with 0 by (rewrite E3; symmetry; exact Ez).
        rewrite En, loop_end by lia. cbn [bind fst snd]. now apply undef_bind. }
      destruct U' as [u ->]. now exists u. }
    apply (fresh_alive _ _ s q A). unfold alive in L3 |- *.
    destruct (in_dec sref_eq_dec q (rt_live s3)) as [Hi|]; [|discriminate].
    destruct (in_dec sref_eq_dec q (rt_live s)) as [|Hno]; [reflexivity|]. exfalso. apply Hno.
    apply (lb_live _ _ _ _ Lf). apply L2. rewrite E3 in Hi. exact Hi.
Qed.

Theorem need_all : xpm m.
Proof.
  split; [exact need_based|exact need_dst|exact need_hist|exact need_cand|exact need_handler].
Qed.
End Need.
