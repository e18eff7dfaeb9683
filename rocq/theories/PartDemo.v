(** Programs for PropsPart.v. *)

From Coq Require Import List Arith NArith Bool.
From Verif Require Import Types Static Dispatch Runtime Dsl Examples ListFacts IndexFacts Spec DispatchFacts FlattenFacts Semantics RefineFacts StaticFacts
  Reach ReachFacts Reorder Dead Part PartRun PartFacts PartCheck PartClosed ReorderDemo DeadDemo.
Import ListNotations.
Local Notation "s + e '-->' t" := (se_to (st_event s (EUser e)) t) (at level 50, e at level 49).

Lemma run_reaches V W (cb : cbfun V W) m vnone fuel d0 : forall ks ds s os s', reachable cb m vnone ds d0 s -> run cb m vnone fuel ks s = Done os s' ->
  forallb (fun k => match k with KSetDep _ => false | _ => true end) ks = true -> reachable cb m vnone ds d0 s'.
Proof.
  induction ks as [|k ks IH]; intros ds s os s' R H D; cbn [run] in H; [now injection H as <- <-|].
  destruct (do_call_catch cb m vnone fuel k s) as [o s1|x s1|u|] eqn:E; cbn [bind] in H; try discriminate.
  destruct (run cb m vnone fuel ks s1) as [os1 s2|x s2|u|] eqn:E2; cbn [bind] in H; try discriminate. injection H as <- <-.
  cbn [forallb] in D. apply andb_true_iff in D. destruct D as [D1 D2]. apply (IH _ s1 os1); auto.
  pose proof (reach_call cb m vnone fuel ds d0 s k o s1 R E) as X. destruct k; try discriminate; exact X.
Qed.
Definition few_ok (m : machine) : bool := forallb (fun p => Nat.leb (length (initials (mc_env m) p)) 255) (parents m).
Lemma few_sound env root m : compile env root = Some m -> few_ok m = true -> few_regions env root.
Proof.
  intros Hm H p Hp. destruct (compile_comp _ _ _ Hm) as (Hc & He & Hr). unfold few_ok in H. rewrite forallb_forall in H.
  rewrite <- He, <- Hr in Hp. apply (parent_iff m Hc) in Hp. specialize (H p Hp). apply Nat.leb_le in H. now rewrite initials_spec, He in H.
Qed.

(** One scene: the whole is used by [ks0], then whole and part by [ks]. *)
Definition view (pre : list (called nat)) (r : res nat nat (list out)) : option (list out * list (called nat)) + ub :=
  match r with
  | Done os s => inl (Some (os, pre ++ counted true (rt_trace s)))
  | Undef u => inr u
  | _ => inl None
  end.
Definition scene (cb : cbfun nat nat) (evs : list ev) (env : cenv) (root c : cls) (ks0 ks : list (call nat)) :=
  match compile env root, compile env c with
  | Some m, Some m' =>
      match session cb m 0 300 0 0 ks0 with
      | Done _ s =>
          match construct m' 300 0 (rt_world s) with
          | Done tt s' =>
              if few_ok m && few_ok m' && inP c (parents m) && forallb (fun k => match k with KSetDep _ => false | _ => true end) ks0 &&
                 entered_ok m m' (length (rt_cur s')) s && forallb (own_ok evs m m' (length (rt_cur s'))) ks
              then Some (view [] (run cb m 0 300 ks s), view (counted true (rt_trace s)) (run cb m' 0 300 ks s'))
              else None
          | _ => None
          end
      | _ => None
      end
  | _, _ => None
  end.
(** The premises of [PropsPart.C72_entered], but for the part being self-contained. *)
Definition entered (evs : list ev) (cb : cbfun nat nat) (env : cenv) (root c : cls) (m m' : machine) (ks : list (call nat)) (s s' : rt nat nat) : Prop :=
  running cb env root m 0 [0] 0 s /\ few_regions env c /\ compile env c = Some m' /\ construct m' 300 0 (rt_world s) = Done tt s' /\
  just_entered env root c m (length (rt_cur s')) s /\ Forall (own_call (fun e => In e evs) env root c (length (rt_cur s'))) ks.
Lemma scene_facts cb evs env root c ks0 ks a b : scene cb evs env root c ks0 ks = Some (a, b) -> exists m m' s s',
  entered evs cb env root c m m' ks s s' /\ view [] (run cb m 0 300 ks s) = a /\ view (counted true (rt_trace s)) (run cb m' 0 300 ks s') = b.
Proof.
  intros H. unfold scene in H. destruct (compile env root) as [m|] eqn:Hm; [|discriminate]. destruct (compile env c) as [m'|] eqn:Hm'; [|discriminate].
  destruct (session cb m 0 300 0 0 ks0) as [os s| | |] eqn:Es; try discriminate. destruct (construct m' 300 0 (rt_world s)) as [[] s'| | |] eqn:En; try discriminate.
  destruct (_ && _) eqn:Ok; [|discriminate]. injection H as <- <-. rewrite !andb_true_iff in Ok. destruct Ok as (((((A1 & A2) & A3) & A4) & A5) & A6).
  unfold inP in A3. destruct (in_dec Nat.eq_dec c (parents m)) as [Hp|]; [|discriminate].
  assert (U : used env root c).
  { destruct (compile_comp _ _ _ Hm) as (Hc & He & Hr). apply (parent_iff m Hc) in Hp. rewrite He, Hr in Hp. apply Hp. }
  exists m, m', s, s'. split; [|split; reflexivity]. split.
  { split; [exact Hm|]. split; [eapply few_sound; eauto|]. unfold session in Es.
    destruct (construct m 300 0 0) as [[] s0| | |] eqn:E0; try discriminate. cbn [bind] in Es. eapply run_reaches; eauto. eapply reach_new; eauto. }
  split; [eapply few_sound; eauto|]. split; [exact Hm'|]. split; [exact En|]. split; [eapply entered_sound; eauto|].
  apply Forall_forall; intros k Hk; rewrite forallb_forall in A6; eapply own_sound; eauto.
Qed.
Lemma scene_intro looking cb evs env root c ks0 ks a b : (looking = true -> guards_look cb) ->
  scene cb evs env root c ks0 ks = Some (a, b) -> a <> b -> parts_company looking (fun e => In e evs) env root c.
Proof.
  intros L H N. apply scene_facts in H. destruct H as (m & m' & s & s' & (A1 & A2 & A3 & A4 & A5 & A6) & Ea & Eb).
  exists nat, nat, cb, 0, m, m', 300, 300, 0, ks, s, s'. split; [exact L|]. repeat (split; [assumption|]).
  intros S. apply N. rewrite <- Ea, <- Eb. inversion S as [o t t' I X1 X2|u X1 X2|X1 X2]; cbn [view app]; auto. now rewrite (is_calls _ _ _ _ _ _ _ _ _ _ I).
Qed.

(** * A part with a composite of its own, guards, deferral, completion, two regions *)
Definition sub_env : cenv :=
 [ (8, mkCdef None None true true false (Some [EUser 6]) true);
   (12, mkCdef (Some [ star_state 20 + 3 --> state 21; guarded_row (state 21) 3 Examples.ok (state 20); star_state 22 + 5 --> state 23 ])
        (Some [mkIrow (EUser 5) NoGuard (calls 1)]) true true false None true);
   (11, mkCdef (Some [ guarded_row (star_state 7) 3 Examples.fail (state 7); guarded_row (state 7) 3 Examples.ok (state 8);
                       state 8 + 4 --> state 12; state 12 + 6 --> state 9; st_to (state 9) (state 7);
                       star_state 30 + 3 --> state 31; state 31 + 3 --> state 30; state 7 + 6 --> history 12 ])
        None true true true None true);
   (50, mkCdef (Some [ star_state 1 + 2 --> state 11; state 11 + 9 --> state 1; state 1 + 8 --> state 11; star_state 40 + 7 --> state 41;
                       state 41 + 7 --> state 40 ])
        None false false true None true) ].
Definition sub_events : list ev := [EUser 3; EUser 4; EUser 5; EUser 6].
Definition sub_calls : list (call nat) :=
  [pe 3; pe 6; pe 4; pe 5; pe 3; pe 3; pe 6; pe 3; KIs 1 11 (state 30); pe 6; KParentIs 12; pe 5; KSet 0 11 (state 8); pe 4; pe 5; pe 3].

(** One door, nothing from outside. *)
Definition door_env : cenv :=
 [ (8, mkCdef None None true true false (Some [EUser 6]) true);
   (12, mkCdef (Some [ star_state 20 + 3 --> state 21; guarded_row (state 21) 3 Examples.ok (state 20) ]) None true true false None true);
   (11, mkCdef (Some [ guarded_row (star_state 7) 3 Examples.ok (state 8); state 8 + 4 --> state 12; state 12 + 6 --> state 9; st_to (state 9) (state 7) ])
        None true true false None true);
   (50, mkCdef (Some [ star_state 1 + 2 --> state 11; state 11 + 9 --> state 1 ]) None false false false None true) ].
Definition door_events : list ev := [EUser 3; EUser 4; EUser 6].
Definition door_calls : list (call nat) := [pe 3; pe 6; pe 4; pe 3; pe 4; pe 3; pe 6].

(** * Conditions *)
(** Guards that refuse at first. *)
Definition moody : cbfun nat nat := fun c a v w =>
  match c with CGuard _ _ => Ret (Nat.eqb w 1) v (S w) | _ => Ret true v w end.
Definition twice : cenv :=
 [ (11, tbl [ guarded_row (star_state 7) 3 Examples.ok (state 8) ]);
   (50, tbl [ star_state 1 + 2 --> state 11; state 1 + 5 --> state 11 ]) ].
(** A row at the composite. *)
Definition above : cenv :=
 [ (11, tbl [ star_state 7 + 3 --> state 8 ]);
   (50, tbl [ star_state 1 + 2 --> state 11; state 11 + 3 --> state 1 ]) ].
(** A row at an exit pseudo state of the part. *)
Definition leaving : cenv :=
 [ (11, tbl [ star_state 7 + 3 --> state 8; state 8 + 4 --> exit 11 9; state 8 + 3 --> state 9 ]);
   (50, tbl [ star_state 1 + 2 --> state 11; exit 11 9 + 4 --> state 1 ]) ].
(** A second entrance. *)
Definition back_door : cenv :=
 [ (12, tbl [ star_state 20 + 3 --> state 21 ]);
   (11, tbl [ star_state 7 + 4 --> state 12; state 12 + 3 --> state 7 ]);
   (50, tbl [ star_state 1 + 2 --> state 11; state 1 + 5 --> state 12 ]) ].
(** Internal rows of a composite that no row names. *)
Definition unnamed_composite : cenv :=
 [ (11, mkCdef (Some [ star_state 7 + 3 --> state 8; state 8 + 4 --> state 7 ]) (Some [mkIrow (EUser 4) NoGuard (calls 1)]) false false false None true);
   (50, tbl [ star_state 1 + 2 --> entry 11 7 ]) ].
(** Internal completion. *)
Definition inner_completion : cenv :=
 [ (11, mkCdef (Some [ star_state 7 + 3 --> state 8 ]) (Some [mkIrow ENone Examples.ok (calls 1)]) false false false None true);
   (50, tbl [ star_state 1 + 2 --> state 11; st_to (state 30) (state 1) ]) ].
Definition once : cbfun nat nat := fun c a v w =>
  match c with CGuard _ _ => Ret (Nat.even w) v w | CAction _ => Ret true v (S w) | _ => Ret true v w end.
(** History outside. *)
Definition outer_history : cenv :=
 [ (12, tbl [ star_state 40 + 4 --> state 41 ]);
   (11, tbl [ star_state 7 + 3 --> state 12; star_state 20 + 3 --> state 21 ]);
   (50, tbl [ star_state 1 + 2 --> state 11; star_state 30 + 5 --> state 31; state 1 + 6 --> history 11 ]) ].
(** A handler outside. *)
Definition outer_handler : cenv :=
 [ (11, tbl [ star_state 7 + 3 --> state 8 ]);
   (50, mkCdef (Some [ star_state 1 + 2 --> state 11 ]) None false false true None true) ].

(** All but one condition. *)
Lemma check_intro env (f : machine -> machine -> bool) (Q : Prop) :
  (forall m m', compile env 50 = Some m -> compile env 11 = Some m' -> f m m' = true -> Q) ->
  match compile env 50, compile env 11 with Some m, Some m' => f m m' | _, _ => false end = true -> Q.
Proof. intros H. destruct (compile env 50) as [m|], (compile env 11) as [m'|]; try discriminate. now apply H. Qed.
Lemma twice_contained : self_contained true (fun e => In e [EUser 3]) twice 50 11.
Proof. apply part_sound. vm_compute. reflexivity. Qed.
Lemma twice_parts : parts_company false (fun e => In e [EUser 3]) twice 50 11.
Proof. eapply (scene_intro _ moody _ _ _ _ [pe 2] [pe 3]); [discriminate|vm_compute; reflexivity|discriminate]. Qed.
Lemma ex_look : guards_look ex_cb.
Proof. intros ty val a v w. eexists. reflexivity. Qed.
Lemma once_look : guards_look once.
Proof. intros ty val a v w. eexists. reflexivity. Qed.

Definition E3 : ev -> Prop := fun e => In e [EUser 3].
Definition E34 : ev -> Prop := fun e => In e [EUser 3; EUser 4].
Ltac is_used := eapply (check_intro _ used_ok); [intros m m' Hm Hm'; apply (used_sound _ _ _ m m' Hm Hm')|vm_compute; reflexivity].
Ltac is_within := eapply (check_intro _ within_ok); [intros m m' Hm Hm'; apply (within_sound _ _ _ m m' Hm Hm')|vm_compute; reflexivity].
Ltac is_entrance := eapply (check_intro _ entrance_ok); [intros m m' Hm Hm'; apply (entrance_sound _ _ _ m m' Hm Hm')|vm_compute; reflexivity].
Ltac is_rows := eapply (check_intro _ (rows_at_ok _)); [intros m m' Hm Hm'; apply (rows_at_sound _ _ _ _ m m' Hm Hm')|vm_compute; reflexivity].
Ltac is_pseudo := eapply (check_intro _ (pseudo_ok _)); [intros m m' Hm Hm'; apply (pseudo_sound _ _ _ _ m m' Hm Hm')|vm_compute; reflexivity].
Ltac is_quiet := eapply (check_intro _ (quiet_ok _)); [intros m m' Hm Hm'; apply (quiet_sound _ _ _ _ m m' Hm Hm')|vm_compute; reflexivity].
Ltac is_choices := eapply (check_intro _ (choices_ok _ _)); [intros m m' Hm Hm'; apply (choices_sound _ _ _ _ m m' Hm Hm')|vm_compute; reflexivity].
Ltac is_events := eapply (check_intro _ (events_ok _)); [intros m m' Hm Hm'; apply (events_sound _ _ _ _ m m' Hm Hm')|vm_compute; reflexivity].
Ltac is_completion := eapply (check_intro _ completion_ok); [intros m m' Hm Hm'; apply (completion_sound _ _ _ m m' Hm Hm')|vm_compute; reflexivity].
Ltac is_regions := eapply (check_intro _ regions_ok); [intros m m' Hm Hm'; apply (regions_sound _ _ _ m m' Hm Hm')|vm_compute; reflexivity].
Ltac is_stays := eapply (check_intro _ (fun _ => stays_ok)); [intros m m' Hm Hm'; apply (stays_sound _ _ m' Hm')|vm_compute; reflexivity].
Ltac is_handler := eapply (check_intro _ handler_ok); [intros m m' Hm Hm'; apply (handler_sound _ _ _ m m' Hm Hm')|vm_compute; reflexivity].
Ltac fits := constructor; [is_events|is_completion|is_regions|is_stays|is_handler].

Lemma above_fits : used above 50 11 /\ ~ used above 11 50 /\ one_entrance above 50 11 /\ no_rows_at_pseudo E3 above 50 11 /\
  no_internal_rows E3 above 50 11 /\ fitting E3 above 50 11.
Proof. split; [is_used|]. split; [is_within|]. split; [is_entrance|]. split; [is_pseudo|]. split; [is_quiet|fits]. Qed.
Lemma above_parts : parts_company true E3 above 50 11.
Proof. eapply (scene_intro _ ex_cb _ _ _ _ [pe 2] [pe 3; KParentIs 11]); [intros _; exact ex_look|vm_compute; reflexivity|discriminate]. Qed.
Lemma leaving_fits : used leaving 50 11 /\ ~ used leaving 11 50 /\ one_entrance leaving 50 11 /\ no_rows_at E34 leaving 50 11 /\
  no_internal_rows E34 leaving 50 11 /\ fitting E34 leaving 50 11.
Proof. split; [is_used|]. split; [is_within|]. split; [is_entrance|]. split; [is_rows|]. split; [is_quiet|fits]. Qed.
Lemma leaving_parts : parts_company true E34 leaving 50 11.
Proof. eapply (scene_intro _ ex_cb _ _ _ _ [pe 2] [pe 3; pe 3; pe 4]); [intros _; exact ex_look|vm_compute; reflexivity|discriminate]. Qed.
Lemma back_door_fits : used back_door 50 11 /\ ~ used back_door 11 50 /\ no_rows_at E34 back_door 50 11 /\ no_rows_at_pseudo E34 back_door 50 11 /\
  no_internal_rows E34 back_door 50 11 /\ fitting E34 back_door 50 11.
Proof. split; [is_used|]. split; [is_within|]. split; [is_rows|]. split; [is_pseudo|]. split; [is_quiet|fits]. Qed.
Lemma back_door_parts : parts_company true E34 back_door 50 11.
Proof. eapply (scene_intro _ ex_cb _ _ _ _ [pe 2] [pe 4; pe 3; KParentIs 12]); [intros _; exact ex_look|vm_compute; reflexivity|discriminate]. Qed.
Lemma unnamed_composite_fits : used unnamed_composite 50 11 /\ ~ used unnamed_composite 11 50 /\ one_entrance unnamed_composite 50 11 /\
  no_rows_at E34 unnamed_composite 50 11 /\ no_rows_at_pseudo E34 unnamed_composite 50 11 /\ fitting E34 unnamed_composite 50 11.
Proof. split; [is_used|]. split; [is_within|]. split; [is_entrance|]. split; [is_rows|]. split; [is_pseudo|fits]. Qed.
Lemma unnamed_composite_parts : parts_company true E34 unnamed_composite 50 11.
Proof. eapply (scene_intro _ ex_cb _ _ _ _ [pe 2] [pe 4]); [intros _; exact ex_look|vm_compute; reflexivity|discriminate]. Qed.
Lemma inner_completion_fits : used inner_completion 50 11 /\ own_events E3 inner_completion 50 11 /\ own_choices false E3 inner_completion 50 11 /\
  own_regions inner_completion 50 11 /\ stays_inside inner_completion 11 /\ own_handler inner_completion 50 11.
Proof. split; [is_used|]. split; [is_events|]. split; [is_choices|]. split; [is_regions|]. split; [is_stays|is_handler]. Qed.
Lemma inner_completion_parts : parts_company true E3 inner_completion 50 11.
Proof. eapply (scene_intro _ once _ _ _ _ [KSet 0 11 (state 7)] [pe 3]); [intros _; exact once_look|vm_compute; reflexivity|discriminate]. Qed.
Lemma outer_history_fits : used outer_history 50 11 /\ own_events E3 outer_history 50 11 /\ own_choices false E3 outer_history 50 11 /\
  own_completion outer_history 50 11 /\ stays_inside outer_history 11 /\ own_handler outer_history 50 11.
Proof. split; [is_used|]. split; [is_events|]. split; [is_choices|]. split; [is_completion|]. split; [is_stays|is_handler]. Qed.
Lemma outer_history_parts : parts_company true E3 outer_history 50 11.
Proof. eapply (scene_intro _ ex_cb _ _ _ _ [pe 2; KSet 1 11 (state 20)] [pe 3]); [intros _; exact ex_look|vm_compute; reflexivity|discriminate]. Qed.
Lemma outer_handler_fits : used outer_handler 50 11 /\ own_events E3 outer_handler 50 11 /\ own_choices false E3 outer_handler 50 11 /\
  own_completion outer_handler 50 11 /\ own_regions outer_handler 50 11 /\ stays_inside outer_handler 11.
Proof. split; [is_used|]. split; [is_events|]. split; [is_choices|]. split; [is_completion|]. split; [is_regions|is_stays]. Qed.
Lemma outer_handler_parts : parts_company true E3 outer_handler 50 11.
Proof. eapply (scene_intro _ ex_cb _ _ _ _ [pe 2] [pe 3; pe 3]); [intros _; exact ex_look|vm_compute; reflexivity|discriminate]. Qed.
Lemma door_one : doors door_env 11 50 (table door_env 50) 1.
Proof.
  eapply do_here; [constructor|discriminate|]. apply do_leaf; [|constructor]. intros k L. inversion L; subst. intros X. now apply X.
Qed.
