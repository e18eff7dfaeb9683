(** C31, C43: notation. *)

From Coq Require Import List Arith NArith Bool.
From Verif Require Import Dsl Types Static Dispatch Runtime Examples Spec DispatchFacts Semantics Demo
  Respell DslSpec DslFacts DslDemo.
Import ListNotations.

(** C31. All notations of a row with an event build the row of the tuple notation,
    for every source, event, guard, action, target. *)
Theorem C31_rows : forall s e g a t,
  (forall r, In r [ sega_to (st_ega s (eg_action (event_guard e g) a)) t;
                    from_sega t (st_ega s (eg_action (event_guard e g) a)) ] ->
     same_transition (tuple_transition s e g a t) r) /\
  (forall r, In r [ seg_to (st_eg s (event_guard e g)) t; from_seg t (st_eg s (event_guard e g)) ] ->
     same_transition (tuple_transition s e g NoAction t) r) /\
  (forall r, In r [ sea_to (st_ea s (event_action e a)) t; from_sea t (st_ea s (event_action e a)) ] ->
     same_transition (tuple_transition s e NoGuard a t) r) /\
  (forall r, In r [ se_to (st_event s e) t; from_se t (st_event s e) ] ->
     same_transition (tuple_transition s e NoGuard NoAction t) r).
Proof. exact rows_same. Qed.
Print Assumptions C31_rows.
(** Rows without an event. *)
Theorem C31_anonymous_rows : forall s g a t,
  same_transition (tuple_transition s ENone g a t) (sga_to (sg_action (st_guard s g) a) t) /\
  same_transition (tuple_transition s ENone g NoAction t) (sg_to (st_guard s g) t) /\
  same_transition (tuple_transition s ENone NoGuard a t) (sa_to (st_action s a) t) /\
  same_transition (tuple_transition s ENone NoGuard NoAction t) (st_to s t) /\
  same_transition (tuple_transition s ENone NoGuard NoAction t) (from_st t s).
Proof. exact anonymous_rows_same. Qed.
Print Assumptions C31_anonymous_rows.
(** Internal rows, and rows between plain states, are equal. *)
Theorem C31_equal_rows : forall e g a,
  plus_ega (eg_action (event_guard e g) a) = tuple_internal_transition e g a /\
  plus_eg (event_guard e g) = tuple_internal_transition e g NoAction /\
  plus_ea (event_action e a) = tuple_internal_transition e NoGuard a /\
  plus_event e = tuple_internal_transition e NoGuard NoAction /\
  forall p q,
    sega_to (st_ega (state p) (eg_action (event_guard e g) a)) (state q) = tuple_transition (state p) e g a (state q) /\
    from_sega (state q) (st_ega (state p) (eg_action (event_guard e g) a)) = tuple_transition (state p) e g a (state q).
Proof. exact equal_rows. Qed.
Print Assumptions C31_equal_rows.

(** Where rows written with the notations for states lead and start: direct<P, S>,
    entry<P, S>, exit<P, S>, history<P>, state<S>, *state<S>, initial<S>. *)
Theorem C31_references : forall env q s e g a t p c,
  let into x := target_place env (row_in q (tuple_transition s e g a x)) in
  let out_of x := source_place (row_in q (tuple_transition x e g a t)) in
  into (direct p c) = Some (p, SState c) /\ into (Dsl.entry p c) = Some (p, SState c) /\
  (exists x, into (exit p c) = Some (q, x) /\ denotes x = RExit p c) /\
  into (history p) = option_map (pair p) (first_initial env p) /\ is_history (history p) = true /\
  into (state c) = (if is_composite env c then option_map (pair c) (first_initial env c) else Some (q, SState c)) /\
  into (initial c) = Some (q, SState c) /\
  out_of (state c) = (q, SState c) /\ out_of (star_state c) = (q, SState c) /\ out_of (initial c) = (q, SState c) /\
  out_of (exit p c) = (p, SState c) /\ out_of (direct p c) = (p, SState c) /\
  (In (tuple_transition (star_state c) e g a t) (table env q) -> In (SState c) (initial_states env q)) /\
  (In (tuple_transition (initial c) e g a t) (table env q) -> In (SState c) (initial_states env q)).
Proof. exact references_mean. Qed.
Print Assumptions C31_references.

(** Which spelling of its source and target each notation leaves in a row: one spelling per
    reference for the source, and with the prefix notation for the target too; the target
    of the postfix notation stays as it was written. For plain states there is one
    spelling only. *)
Theorem C31_spelling : exists conv : sref -> sref,
  ((forall x, denotes (conv x) = denotes x) /\ (forall x y, denotes x = denotes y <-> conv x = conv y) /\
   (forall c, conv (state c) = state c) /\
   (forall p c x, In x [initial c; direct p c; Dsl.entry p c; exit p c; history p] -> conv x <> x)) /\
  forall s e g a t,
  (forall r, In r [ sega_to (st_ega s (eg_action (event_guard e g) a)) t; seg_to (st_eg s (event_guard e g)) t;
                    sea_to (st_ea s (event_action e a)) t; se_to (st_event s e) t; sga_to (sg_action (st_guard s g) a) t;
                    sg_to (st_guard s g) t; sa_to (st_action s a) t; st_to s t ] -> r_src r = conv s /\ r_tgt r = t) /\
  (forall r, In r [ from_sega t (st_ega s (eg_action (event_guard e g) a)); from_seg t (st_eg s (event_guard e g));
                    from_sea t (st_ea s (event_action e a)); from_se t (st_event s e) ] -> r_src r = conv s /\ r_tgt r = conv t) /\
  r_src (from_st t s) = s /\ r_tgt (from_st t s) = conv t /\
  r_src (tuple_transition s e g a t) = s /\ r_tgt (tuple_transition s e g a t) = t.
Proof. exact spelling_kept. Qed.
Print Assumptions C31_spelling.

(** Machines that differ in notation only behave in the same way: for all user code
    that does not ask for wrapper types and all clients that name plain states.
    The full statement has no [one_spelling]; it is false, see below. *)
Theorem C31_behaviour_partial : forall env env' root m m', differ_in_notation env env' ->
  one_spelling env -> one_spelling env' -> compile env root = Some m -> compile env' root = Some m' ->
  forall V W (cb : cbfun V W) vnone fuel d w ks, blind cb -> plain_client ks ->
  same_run m m' (session cb m vnone fuel d w ks) (session cb m' vnone fuel d w ks).
Proof. exact notations_same. Qed.
Print Assumptions C31_behaviour_partial.
Example C31_applies_prefix : differ_in_notation Notations.postfix Notations.prefix /\
  one_spelling Notations.postfix /\ one_spelling Notations.prefix /\ blind ex_cb /\ plain_client Notations.calls /\
  Notations.postfix <> Notations.prefix.
Proof.
  exact (conj Notations.differ1 (conj Notations.one1 (conj Notations.one2 (conj ex_cb_blind (conj Notations.plain_calls
    Notations_differ))))).
Qed.
Example C31_applies_mixed : differ_in_notation Notations.postfix Notations.mixed /\ one_spelling Notations.mixed.
Proof. exact (conj Notations.differ2 Notations.one3). Qed.
Example C31_runs : map (fun env => option_map snd (trace_of env 50 Notations.calls))
    [Notations.postfix; Notations.prefix; Notations.mixed] =
  let t := Some [CEntry 11; CEntry 2; CExit 11; CAction 0; CExit 2; CGuard 1 0; CExit 11] in [t; t; t].
Proof. vm_compute. reflexivity. Qed.

(** An initial state that is marked in a target too: postfix and prefix notation of
    one row give two regions and one region. *)
Theorem C31_initial_target_refuted : exists s e t r,
  let env := [ (50, tbl [ r; se_to (st_event s e) t ]) ] in
  let env' := [ (50, tbl [ r; from_se t (st_event s e) ]) ] in
  exists m m', compile env 50 = Some m /\ compile env' 50 = Some m' /\ length (initials (mc_env m) 50) = 2 /\ length (initials (mc_env m') 50) = 1 /\
  ~ same_run m m' (session ex_cb m 0 300 0 0 [pe 1]) (session ex_cb m' 0 300 0 0 [pe 1]).
Proof. exact initial_target_matters. Qed.
Print Assumptions C31_initial_target_refuted.
(** A class with internal rows whose table writes one exit in two ways: its internal
    rows are tried once more. *)
Theorem C31_internal_twice_refuted : exists s e t rest ints main,
  let cd r := mkCdef (Some (rest ++ [r])) (Some ints) false false false None true in
  let env := [ (11, cd (se_to (st_event s e) t)); (50, main) ] in
  let env' := [ (11, cd (from_se t (st_event s e))); (50, main) ] in
  exists m m', compile env 50 = Some m /\ compile env' 50 = Some m' /\
  ~ same_run m m' (session ex_cb m 0 300 0 0 [pe 1; pe 1; pe 5]) (session ex_cb m' 0 300 0 0 [pe 1; pe 1; pe 5]).
Proof. exact internal_twice_matters. Qed.
Print Assumptions C31_internal_twice_refuted.

(** C43. The wrapper of a row's source and target decides nothing: target place,
    target state, source place, action target, effects. *)
Theorem C43_target : forall env x x', same_xrow x x' ->
  same_opt same_place (target_place env x) (target_place env x') /\
  denotes (target_state env x') = denotes (target_state env x) /\
  is_history (x_tgt x') = is_history (x_tgt x).
Proof. exact (fun env x x' H => conj (target_same env x x' H) (conj (state_same env x x' H) (history_same x x' H))). Qed.
Print Assumptions C43_target.
Theorem C43_source : forall x x', same_xrow x x' -> same_place (source_place x) (source_place x').
Proof. exact source_same. Qed.
Print Assumptions C43_source.
Theorem C43_effects : forall env x x' o o', same_xrow x x' -> denotes o' = denotes o ->
  Forall2 same_prim (effects env x o) (effects env x' o').
Proof. exact effects_same. Qed.
Print Assumptions C43_effects.
Example C43_applies_row : forall p w w', In (w, w')
    [ (SEntry WOwn 11 3, SEntry WState 11 3); (SExit WOwn 11 3, SExit WState 11 3);
      (SDirect WOwn 11 3, SDirect WState 11 3); (SHistory WOwn 11, SHistory WState 11) ] ->
  w <> w' /\ same_xrow (mkXrow p (SState 1) (EUser 1) NoGuard NoAction w false)
                       (mkXrow p (SState 1) (EUser 1) NoGuard NoAction w' false).
Proof.
  intros p w w' H. cbn [In] in H.
  repeat (destruct H as [H|H]; [injection H as <- <-; split; [discriminate|constructor; reflexivity]|]). destruct H.
Qed.
(** The same candidates in the same order, in all places where a region can stand. *)
Theorem C43_candidates_partial : forall env env' root m m', differ_in_notation env env' ->
  one_spelling env -> one_spelling env' -> compile env root = Some m -> compile env' root = Some m' ->
  forall e pl pl' l l', standing env pl -> standing env' pl' -> same_place pl pl' ->
  candidate_list env root e pl l -> candidate_list env' root e pl' l' -> Forall2 same_cand l l'.
Proof. exact notation_candidates. Qed.
Print Assumptions C43_candidates_partial.
Example C43_applies_candidates : exists m l l',
  compile Notations.postfix 50 = Some m /\
  candidate_list Notations.postfix 50 (EUser 2) (50, SState 1) l /\
  candidate_list Notations.prefix 50 (EUser 2) (50, SState 1) l' /\
  length l = 1 /\ length l' = 1 /\ l <> l'.
Proof. exact notation_candidates_demo. Qed.
(** Without the condition the number of candidates differs. *)
Theorem C43_candidates_refuted : exists env env' e pl l l', differ_in_notation env env' /\
  standing env pl /\ standing env' pl /\ candidate_list env 50 e pl l /\ candidate_list env' 50 e pl l' /\
  length l = 2 /\ length l' = 3.
Proof. exact candidates_matter. Qed.
Print Assumptions C43_candidates_refuted.
(** Exchanging the wrappers one to one, throughout a program and its client, changes
    nothing: no condition, outcomes and states are equal. *)
Theorem C43_exchange : forall f, spelling f -> one_to_one f -> forall env root m, compile env root = Some m ->
  exists m', compile (respell f env) root = Some m' /\
  forall V W (cb cb' : cbfun V W), same_user f cb cb' -> forall vnone fuel d w ks,
  match session cb m vnone fuel d w ks with
  | Done os s => exists s', session cb' m' vnone fuel d w (map (respell_call f) ks) = Done os s' /\
      rt_world s' = rt_world s /\ rt_trace s' = map (respell_called f) (rt_trace s) /\ rt_cur s' = rt_cur s /\
      rt_hist s' = rt_hist s /\ rt_queue s' = rt_queue s
  | Threw x s => exists s', session cb' m' vnone fuel d w (map (respell_call f) ks) = Threw x s' /\
      rt_world s' = rt_world s /\ rt_trace s' = map (respell_called f) (rt_trace s) /\ rt_cur s' = rt_cur s /\
      rt_hist s' = rt_hist s /\ rt_queue s' = rt_queue s
  | Undef u => session cb' m' vnone fuel d w (map (respell_call f) ks) = Undef u
  | Timeout => session cb' m' vnone fuel d w (map (respell_call f) ks) = Timeout
  end.
Proof. exact exchange_session. Qed.
Print Assumptions C43_exchange.
Example C43_applies_exchange : spelling swap_wrap /\ one_to_one swap_wrap /\
  respell swap_wrap Notations.postfix <> Notations.postfix /\ same_user swap_wrap ex_cb ex_cb.
Proof. exact (conj swap_spelling (conj swap_one_to_one (conj swap_differs swap_user))). Qed.
