(** Programs that differ in notation only behave the same. *)

From Coq Require Import List Arith NArith Bool Lia.
From Verif Require Import Dsl Types Static Dispatch Runtime ListFacts IndexFacts Spec DispatchFacts FlattenFacts
  Semantics RefineFacts StaticFacts Reach ReachFacts Respell Spelling SpellRun DslSpec.
Import ListNotations.

Lemma as_state_denotes s t : as_state s = as_state t <-> denotes s = denotes t.
Proof. destruct s, t; cbn; split; intros H; inversion H; reflexivity. Qed.
Lemma denotes_as s : denotes (as_state s) = denotes s.
Proof. now destruct s. Qed.
Lemma as_spelling : spelling as_state.
Proof. intros s. now destruct s. Qed.

Lemma differ_normal env env' : differ_in_notation env env' -> respell as_state env = respell as_state env'.
Proof.
  induction 1 as [|[c d] [c' d'] l l' [H1 H2] _ IH]; [reflexivity|]. unfold respell in *. cbn [map fst snd] in *. rewrite IH, H1. f_equal. f_equal.
  destruct H2. unfold respell_def. f_equal; try congruence.
  destruct (cd_table d) as [t|], (cd_table d') as [t'|]; try tauto. cbn [option_map]. f_equal.
  clear - sc_table. induction sc_table as [|r r' t t' [] _ IH]; [reflexivity|]. cbn [map]. f_equal; [|exact IH].
  unfold respell_row. f_equal; try congruence; now apply as_state_denotes.
Qed.
Section One.
Variable env : cenv.
Variable root : cls.
Variable m : machine.
Hypothesis Hm : compile env root = Some m.
Hypothesis H1 : one_spelling env.
Lemma one_env : mc_env m = env.
Proof. now apply compile_comp in Hm. Qed.
Lemma one_ini : forall c s t, In s (child_states (mc_env m) c) -> In t (child_states (mc_env m) c) ->
  is_initial s = true -> as_state s = as_state t -> s = t.
Proof.
  intros c s t Hs Ht Hi E. rewrite one_env in *. apply (H1 c); [now apply (child_states_iff (mkMachine env root []))|now apply (child_states_iff (mkMachine env root []))|..].
  - now apply as_state_denotes.
  - left. exact Hi.
Qed.
Lemma one_int : forall c s t, has_internal (mc_env m) (SState c) = true ->
  In s (child_states (mc_env m) c) -> In t (child_states (mc_env m) c) -> as_state s = as_state t -> s = t.
Proof.
  intros c s t Hi Hs Ht E. rewrite one_env in *. apply (H1 c); [now apply (child_states_iff (mkMachine env root []))|now apply (child_states_iff (mkMachine env root []))|..].
  - now apply as_state_denotes.
  - right. unfold has_internal in Hi. cbn in Hi. destruct (cd_internal (lookup env c)); [discriminate|]. discriminate.
Qed.
Lemma one_normal : compile (respell as_state env) root = Some (fm as_state m).
Proof.
  apply compile_spelling; auto using as_spelling.
  - pose proof one_ini as H. now rewrite one_env in H.
  - pose proof one_int as H. now rewrite one_env in H.
Qed.
Lemma one_comp : comp m.
Proof. now apply compile_comp in Hm. Qed.
Lemma one_comp' : comp (fm as_state m).
Proof. pose proof one_normal as H. now apply compile_comp in H. Qed.
End One.

Lemma respell_args_same a : same_args a (respell_args as_state a).
Proof. destruct a as [e s t d]. constructor; cbn; auto using denotes_as. destruct t; cbn; auto using denotes_as. Qed.
Lemma targ_sym t t' : same_targ t t' -> same_targ t' t.
Proof. destruct t, t'; cbn; auto. Qed.
Lemma targ_trans t1 t2 t3 : same_targ t1 t2 -> same_targ t2 t3 -> same_targ t1 t3.
Proof. destruct t1, t2, t3; cbn; try tauto; congruence. Qed.
Lemma args_sym a a' : same_args a a' -> same_args a' a.
Proof. intros []. constructor; auto using targ_sym. Qed.
Lemma args_trans a1 a2 a3 : same_args a1 a2 -> same_args a2 a3 -> same_args a1 a3.
Proof. intros [] []. constructor; try congruence. eapply targ_trans; eauto. Qed.
Lemma blind_same {V W} (cb : cbfun V W) : blind cb -> same_user as_state cb cb.
Proof. intros H c a v w. apply H. apply respell_args_same. Qed.
Lemma called_same {V} (l l' : list (called V)) : map (respell_called as_state) l = map (respell_called as_state) l' -> Forall2 same_called l l'.
Proof.
  revert l'. induction l as [|k l IH]; intros [|k' l'] E; try discriminate; [constructor|].
  pose proof (f_equal (@hd_error _) E) as E1. pose proof (f_equal (@tl _) E) as E2. cbn [map hd_error tl] in E1, E2. clear E.
  assert (E : respell_called as_state k = respell_called as_state k') by congruence.
  constructor; [|now apply IH]. constructor; [exact (eq_sym (f_equal k_callee E))| |exact (eq_sym (f_equal k_payload E))].
  apply args_trans with (respell_args as_state (k_args k)); [apply respell_args_same|].
  change (respell_args as_state (k_args k)) with (k_args (respell_called as_state k)). rewrite E.
  apply args_sym. apply respell_args_same.
Qed.

(** Two machines with one normal form. *)
Section Two.
Variables env1 env2 : cenv.
Variable root : cls.
Variables m1 m2 : machine.
Hypothesis Hd : differ_in_notation env1 env2.
Hypothesis O1 : one_spelling env1.
Hypothesis O2 : one_spelling env2.
Hypothesis M1 : compile env1 root = Some m1.
Hypothesis M2 : compile env2 root = Some m2.
Lemma two_normal : fm as_state m1 = fm as_state m2.
Proof.
  pose proof (one_normal env1 root m1 M1 O1) as E1. pose proof (one_normal env2 root m2 M2 O2) as E2.
  rewrite (differ_normal _ _ Hd) in E1. congruence.
Qed.
Notation n := (fm as_state m2).
Notation c1 := (one_comp env1 root m1 M1).
Notation c2 := (one_comp env2 root m2 M2).
Notation cn := (one_comp' env2 root m2 M2 O2).
Lemma combined_in k p q : comp k -> In p (parents k) -> In q (states k) -> combined_idx k p q <> (N.of_nat (n_parents k) * n_states k)%N.
Proof.
  intros Hk Hp Hq E. rewrite (combined_idx_pos k Hk), <- (places_length k) in E. apply Nat2N.inj in E.
  assert (H : In (p, q) (places k)) by (apply in_places; auto). apply (pos_lt place_eq_dec) in H. lia.
Qed.
Lemma line_same l1 l2 l : stsim as_state m1 l1 l -> stsim as_state m2 l2 l -> same_line m1 m2 l1 l2.
Proof.
  destruct l1 as [[[r1 a1] p1] s1], l2 as [[[r2 a2] p2] s2], l as [[[r a] p] s]. unfold stsim. cbn [fst snd].
  intros (E1 & E2 & x1 & y1 & C1 & -> & -> & -> & Ey1) (E3 & E4 & x2 & y2 & C2 & -> & -> & -> & Ey2).
  unfold same_line. split; [congruence|]. split; [congruence|].
  destruct C1 as [q1 o1 Hq1 Ho1 _|].
  - rewrite two_normal in C2. left. inversion C2 as [q2 o2 Hq2 Ho2 _ E5 E6|E5 E6].
    + rewrite (calc_state_combined m1 c1) by assumption. rewrite (calc_state_combined m2 c2) by assumption.
      assert (P1 : In (q1, as_state o1) (places n)).
      { apply in_places. rewrite <- two_normal. split; [now rewrite parents_f|apply states_f_in; auto using as_spelling]. }
      rewrite !(combined_idx_pos n cn) in E6. apply Nat2N.inj in E6. symmetry in E6. apply pos_inj in E6; [|exact P1].
      injection E6 as <- E6. exists q1, o1, o2.
      pose proof (in_places_iff m1 c1 (q1, o1)) as I1. pose proof (in_places_iff m2 c2 (q1, o2)) as I2. rewrite in_places in I1, I2.
      repeat split; auto; try apply I1; try apply I2; auto. symmetry. now apply as_state_denotes.
    + exfalso. eapply (combined_in n q1 (as_state o1) cn); [..|symmetry; exact E6].
      * rewrite <- two_normal. now rewrite parents_f.
      * rewrite <- two_normal. apply states_f_in; auto using as_spelling.
  - right. rewrite two_normal in C2. inversion C2 as [q2 o2 Hq2 Ho2 _ E5 E6|E5 E6].
    + exfalso. eapply (combined_in n q2 (as_state o2) cn); [..|exact E6].
      * now rewrite parents_f.
      * apply states_f_in; auto using as_spelling.
    + repeat split; auto; unfold calc_state_idx; apply N.mod_mul; [pose proof (n_states_pos m1)|pose proof (n_states_pos m2)]; lia.
Qed.
Lemma lines_same l1 l2 l : Forall2 (stsim as_state m1) l1 l -> Forall2 (stsim as_state m2) l2 l -> Forall2 (same_line m1 m2) l1 l2.
Proof.
  intros H. revert l2. induction H as [|a b l1 l Hab _ IH]; intros l2 H2; inversion H2; subst; constructor; auto.
  eapply line_same; eauto.
Qed.
Lemma output_same o1 o2 o : same_out as_state m1 o1 o -> same_out as_state m2 o2 o -> same_output m1 m2 o1 o2.
Proof.
  destruct o1, o2, o; cbn; intros A B; try congruence. eapply lines_same; eauto.
Qed.
Lemma outputs_same l1 l2 l : Forall2 (same_out as_state m1) l1 l -> Forall2 (same_out as_state m2) l2 l -> Forall2 (same_output m1 m2) l1 l2.
Proof.
  intros H. revert l2. induction H as [|a b l1 l Hab _ IH]; intros l2 H2; inversion H2; subst; constructor; auto.
  eapply output_same; eauto.
Qed.
Lemma session_same {V W} (cb : cbfun V W) vnone fuel d w ks : blind cb -> plain_client ks ->
  same_run m1 m2 (session cb m1 vnone fuel d w ks) (session cb m2 vnone fuel d w ks).
Proof.
  intros Hb Hk.
  pose proof (session_s as_state as_spelling m1 c1 (one_comp' env1 root m1 M1 O1) (one_ini env1 root m1 M1 O1) (one_int env1 root m1 M1 O1)
    cb cb (blind_same cb Hb) vnone fuel d w ks Hk) as R1.
  pose proof (session_s as_state as_spelling m2 c2 cn (one_ini env2 root m2 M2 O2) (one_int env2 root m2 M2 O2)
    cb cb (blind_same cb Hb) vnone fuel d w ks Hk) as R2.
  rewrite two_normal in R1. destruct R1 as [os o s s' A S|x s s' S|u|]; inversion R2; subst; constructor; try (eapply outputs_same; eauto; fail).
  all: match goal with X : sim _ m2 _ _ |- _ => destruct X; destruct S; try congruence end.
  all: apply called_same; congruence.
Qed.
Lemma cands_same e pl1 pl2 : proper m1 pl1 -> proper m2 pl2 -> same_place pl1 pl2 ->
  Forall2 same_cand (cands m1 e pl1) (cands m2 e pl2).
Proof.
  intros P1 P2 [E1 E2].
  pose proof (cands_f as_state as_spelling m1 (one_int env1 root m1 M1 O1) e pl1 P1) as C1.
  pose proof (cands_f as_state as_spelling m2 (one_int env2 root m2 M2 O2) e pl2 P2) as C2.
  rewrite two_normal in C1. assert (E : fpl as_state pl1 = fpl as_state pl2).
  { unfold fpl. f_equal; [congruence|]. now apply as_state_denotes. }
  rewrite E, C2 in C1. revert C1. generalize (cands m2 e pl2). induction (cands m1 e pl1) as [|k l IH]; intros [|k' l'] H; try discriminate; [constructor|].
  pose proof (f_equal (@hd_error _) H) as A. pose proof (f_equal (@tl _) H) as B. cbn [map hd_error tl] in A, B.
  constructor; [|now apply IH]. clear - A. destruct k as [|x o], k' as [|x' o']; cbn in *; try discriminate; [exact I|].
  injection A as A1 A2 A3 A4 A5 A6 A7 A8. split; [constructor|]; auto; now apply as_state_denotes.
Qed.
Lemma standing_proper env m pl : mc_env m = env -> standing env pl -> proper m pl.
Proof.
  intros <- [H|[H1 H2]]; [now left|right]. split; [exact H1|]. now apply child_typeids_iff.
Qed.
Lemma candidates_same e pl1 pl2 l1 l2 : standing env1 pl1 -> standing env2 pl2 -> same_place pl1 pl2 ->
  candidate_list env1 root e pl1 l1 -> candidate_list env2 root e pl2 l2 -> Forall2 same_cand l1 l2.
Proof.
  intros S1 S2 P L1 L2.
  destruct (compile_comp _ _ _ M1) as (K1 & V1 & R1). destruct (compile_comp _ _ _ M2) as (K2 & V2 & R2).
  assert (l1 = cands m1 e pl1) as -> by (apply (candidate_list_cands m1 K1); rewrite V1, R1; exact L1).
  assert (l2 = cands m2 e pl2) as -> by (apply (candidate_list_cands m2 K2); rewrite V2, R2; exact L2).
  apply cands_same; auto; eapply standing_proper; eauto.
Qed.
End Two.

(** * One row *)
Lemma target_same env x x' : same_xrow x x' -> same_opt same_place (target_place env x) (target_place env x').
Proof.
  intros []. unfold target_place. destruct (x_tgt x), (x_tgt x'); cbn in sx_target; inversion sx_target; subst; rewrite ?sx_parent; cbn; try (split; reflexivity).
  - destruct (is_composite env c); [|split; reflexivity]. destruct (first_initial env c); cbn; [split; reflexivity|exact I].
  - destruct (first_initial env p); cbn; [split; reflexivity|exact I].
Qed.
Lemma source_same x x' : same_xrow x x' -> same_place (source_place x) (source_place x').
Proof.
  intros []. unfold source_place. destruct (x_src x), (x_src x'); cbn in sx_source; inversion sx_source; subst; rewrite ?sx_parent; split; reflexivity.
Qed.
Lemma state_same env x x' : same_xrow x x' -> denotes (target_state env x') = denotes (target_state env x).
Proof.
  intros H. pose proof (target_same env x x' H) as T. unfold target_state. destruct H.
  destruct (target_place env x) as [[p s]|], (target_place env x') as [[p' s']|]; cbn in T; try tauto.
  destruct T as [_ T]. exact T.
Qed.
Lemma denotes_defctor env s s' : denotes s' = denotes s -> default_constructible env s' = default_constructible env s.
Proof. destruct s, s'; cbn; congruence. Qed.
Lemma action_target_same env x x' o o' : same_xrow x x' -> denotes o' = denotes o ->
  same_targ (action_target env x o) (action_target env x' o').
Proof.
  intros H Ho. pose proof (state_same env x x' H) as T. unfold action_target. rewrite (denotes_defctor _ _ _ T), (sx_internal _ _ H).
  destruct (default_constructible env (target_state env x)); [|exact T]. destruct (x_int x); assumption.
Qed.
Lemma body_same at_ at' t t' : same_targ at_ at' -> denotes t' = denotes t -> forall b,
  Forall2 same_prim (body_calls at_ t b) (body_calls at' t' b).
Proof.
  intros A T. induction b using abody_ind2; cbn [body_calls]; try (constructor; [constructor; cbn; auto|constructor]; fail).
  match goal with H : Forall _ _ |- _ => induction H; cbn; [constructor|apply Forall2_app; assumption] end.
Qed.
Lemma plain_same at_ at' l : same_targ at_ at' ->
  Forall2 same_prim (map (fun c => mkPrim c at_ true None) l) (map (fun c => mkPrim c at' true None) l).
Proof. intros A. induction l as [|c l IH]; cbn; constructor; auto. constructor; cbn; auto. Qed.
Lemma effects_same env x x' o o' : same_xrow x x' -> denotes o' = denotes o ->
  Forall2 same_prim (effects env x o) (effects env x' o').
Proof.
  intros H Ho. pose proof (action_target_same env x x' o o' H Ho) as A. pose proof (state_same env x x' H) as T.
  unfold effects. cbv zeta.
  replace (exit_call env x') with (exit_call env x).
  2:{ unfold exit_call. destruct H. rewrite sx_internal. destruct (x_int x); [reflexivity|].
      destruct (x_src x), (x_src x'); cbn in sx_source; inversion sx_source; reflexivity. }
  replace (entry_call env x') with (entry_call env x).
  2:{ unfold entry_call. destruct H. rewrite sx_internal. destruct (x_int x); [reflexivity|].
      destruct (x_tgt x), (x_tgt x'); cbn in sx_target; inversion sx_target; reflexivity. }
  replace (initial_entry_call env x') with (initial_entry_call env x).
  2:{ unfold initial_entry_call. destruct H. destruct (x_tgt x), (x_tgt x'); cbn in sx_target; inversion sx_target; reflexivity. }
  rewrite (sx_action _ _ H). repeat apply Forall2_app; try (now apply plain_same).
  destruct (x_act x); [constructor|now apply body_same].
Qed.
Lemma history_same x x' : same_xrow x x' -> is_history (x_tgt x') = is_history (x_tgt x).
Proof. intros []. destruct (x_tgt x), (x_tgt x'); cbn in sx_target; inversion sx_target; reflexivity. Qed.

(** * Exchanging wrappers one to one *)
Lemma exchange_session f : spelling f -> one_to_one f -> forall env root m, compile env root = Some m ->
  exists m', compile (respell f env) root = Some m' /\
  forall V W (cb cb' : cbfun V W), same_user f cb cb' -> forall vnone fuel d w ks,
  match session cb m vnone fuel d w ks with
  | Done os s => exists s', session cb' m' vnone fuel d w (map (respell_call f) ks) = Done os s' /\
      rt_world s' = rt_world s /\ rt_trace s' = map (respell_called f) (rt_trace s) /\ rt_cur s' = rt_cur s /\
      rt_hist s' = rt_hist s /\ rt_queue s' = rt_queue s
  | Threw x s => exists s', session cb' m' vnone fuel d w (map (respell_call f) ks) = Threw x s' /\
      rt_world s' = rt_world s /\ rt_trace s' = map (respell_called f) (rt_trace s) /\ rt_cur s' = rt_cur s /\
      rt_hist s' = rt_hist s /\ rt_queue s' = rt_queue s
  | Undef u => session cb' m' vnone fuel d w (map (respell_call f) ks) = Undef u
  | Timeout => session cb' m' vnone fuel d w (map (respell_call f) ks) = Timeout
  end.
Proof.
  intros Hf Hi env root m Hm. exists (fm f m). split; [rewrite (compile_f f Hf Hi env root), Hm; reflexivity|].
  intros V W cb cb' Hcb vnone fuel d w ks. rewrite (session_f f Hf Hi cb cb' Hcb).
  destruct (session cb m vnone fuel d w ks); cbn [fres]; unfold same; try reflexivity; eexists; (split; [reflexivity|]); cbn; auto.
Qed.

(** * The notations for states *)
Lemma references_mean : forall env q s e g a t p c,
  let into x := target_place env (row_in q (tuple_transition s e g a x)) in
  let out_of x := source_place (row_in q (tuple_transition x e g a t)) in
  into (direct p c) = Some (p, SState c) /\ into (Dsl.entry p c) = Some (p, SState c) /\
  (exists x, into (exit p c) = Some (q, x) /\ denotes x = RExit p c) /\
  into (history p) = option_map (pair p) (first_initial env p) /\ is_history (history p) = true /\
  into (state c) = (if is_composite env c then option_map (pair c) (first_initial env c) else Some (q, SState c)) /\
  into (initial c) = Some (q, SState c) /\
  out_of (state c) = (q, SState c) /\ out_of (star_state c) = (q, SState c) /\ out_of (initial c) = (q, SState c) /\
  out_of (exit p c) = (p, SState c) /\ out_of (direct p c) = (p, SState c) /\
  (In (tuple_transition (star_state c) e g a t) (table env q) -> In (SState c) (initial_states env q)) /\
  (In (tuple_transition (initial c) e g a t) (table env q) -> In (SState c) (initial_states env q)).
Proof.
  intros env q s e g a t p c into out_of.
  assert (I : forall x, marked x = true -> unmarked x = SState c -> In (tuple_transition x e g a t) (table env q) -> In (SState c) (initial_states env q)).
  { intros x M U H. unfold initial_states. rewrite <- U. apply in_map. rewrite <- unique_dedup. apply unique_In. apply filter_In. split; [|exact M].
    unfold mentioned. apply in_flat_map. eexists. split; [exact H|]. now left. }
  split; [reflexivity|]. split; [reflexivity|]. split; [eexists; split; reflexivity|]. repeat (split; [reflexivity|]).
  split; apply I; reflexivity.
Qed.

(** Which spelling of source and target each notation leaves in the row. *)
Lemma spelling_kept : exists conv : sref -> sref,
  ((forall x, denotes (conv x) = denotes x) /\ (forall x y, denotes x = denotes y <-> conv x = conv y) /\
   (forall c, conv (state c) = state c) /\
   (forall p c x, In x [initial c; direct p c; Dsl.entry p c; exit p c; history p] -> conv x <> x)) /\
  forall s e g a t,
  (forall r, In r [ sega_to (st_ega s (eg_action (event_guard e g) a)) t; seg_to (st_eg s (event_guard e g)) t;
                    sea_to (st_ea s (event_action e a)) t; se_to (st_event s e) t; sga_to (sg_action (st_guard s g) a) t;
                    sg_to (st_guard s g) t; sa_to (st_action s a) t; st_to s t ] -> r_src r = conv s /\ r_tgt r = t) /\
  (forall r, In r [ from_sega t (st_ega s (eg_action (event_guard e g) a)); from_seg t (st_eg s (event_guard e g));
                    from_sea t (st_ea s (event_action e a)); from_se t (st_event s e) ] -> r_src r = conv s /\ r_tgt r = conv t) /\
  r_src (from_st t s) = s /\ r_tgt (from_st t s) = conv t /\
  r_src (tuple_transition s e g a t) = s /\ r_tgt (tuple_transition s e g a t) = t.
Proof.
  exists as_state. split; [split; [|split; [|split]]|].
  - now intros [].
  - intros [] []; cbn; split; intros E; inversion E; subst; reflexivity.
  - reflexivity.
  - intros p c x H E. repeat (destruct H as [<-|H]; [discriminate E|]). destruct H.
  - intros s e g a t. repeat split; try (repeat (destruct H as [<-|H]; [reflexivity|]); destruct H).
Qed.
