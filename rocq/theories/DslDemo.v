(** Programs written in different notations, and checks for the conditions of the
    theorems about notation. *)

From Coq Require Import List Arith NArith Bool.
From Verif Require Import Dsl Types Static Dispatch Runtime Examples Spec DispatchFacts Semantics Demo RefineFacts Respell DslSpec DslFacts.
Import ListNotations.

Definition ref_eq_dec : forall a b : reference, {a = b} + {a <> b}.
Proof. decide equality; apply Nat.eq_dec. Defined.
Definition one_spelling_b (env : cenv) : bool :=
  forallb (fun cd =>
    let c := fst cd in
    forallb (fun s => forallb (fun t =>
      if ref_eq_dec (denotes s) (denotes t)
      then if marked s || match cd_internal (lookup env c) with Some _ => true | None => false end
           then if sref_eq_dec s t then true else false
           else true
      else true) (mentioned env c)) (mentioned env c)) env.
Lemma lookup_in env c : lookup env c = plain \/ In c (map fst env).
Proof.
  induction env as [|[c' d] l IH]; [now left|]. cbn. destruct (Nat.eq_dec c c') as [->|]; [auto|]. destruct IH; auto.
Qed.
Lemma one_spelling_intro env : one_spelling_b env = true -> one_spelling env.
Proof.
  intros H c s t Hs Ht E Hc. unfold one_spelling_b in H. rewrite forallb_forall in H.
  assert (Hm : forall u, written_in env c u -> In u (mentioned env c)).
  { intros u (r & Hr & [->| ->]); unfold mentioned; apply in_flat_map; exists r; cbn; auto. }
  assert (Hin : In c (map fst env)).
  { destruct (lookup_in env c) as [L|L]; [|exact L]. destruct Hs as (r & Hr & _). unfold table in Hr. now rewrite L in Hr. }
  apply in_map_iff in Hin. destruct Hin as ([c' d] & E1 & Hin). cbn in E1. subst c'. specialize (H _ Hin). cbn [fst] in H.
  rewrite forallb_forall in H. specialize (H s (Hm s Hs)). rewrite forallb_forall in H. specialize (H t (Hm t Ht)).
  destruct (ref_eq_dec (denotes s) (denotes t)); [|congruence].
  destruct (marked s || _) eqn:Em.
  - destruct (sref_eq_dec s t); [assumption|discriminate].
  - exfalso. destruct Hc as [Hc|Hc]; [now rewrite Hc in Em|]. destruct (cd_internal (lookup env c)); [|congruence].
    now rewrite orb_true_r in Em.
Qed.
Lemma ex_cb_blind : blind ex_cb.
Proof. intros c a a' v w _. reflexivity. Qed.

(** One machine, three notations: every pseudo state occurs as a target. *)
Module Notations.
Definition Sub := 11. Definition Main := 50.
Definition e1 := EUser 1. Definition e2 := EUser 2. Definition e3 := EUser 3.
Definition e4 := EUser 4. Definition e5 := EUser 5.
Definition sub (out1 out2 : row) : cdef := mkCdef (Some [ se_to (st_event (star_state 1) e1) (state 2); out1; out2 ]) None true true false None true.
Definition program (out1 out2 r1 r2 r3 r4 r5 : row) : cenv :=
  [ (Sub, sub out1 out2); (2, mkCdef None None true true false None true); (Main, tbl [r1; r2; r3; r4; r5]) ].
Definition postfix : cenv :=
  program (se_to (st_event (state 2) e2) (exit Sub 2)) (se_to (st_event (state 3) e2) (exit Sub 2))
    (se_to (st_event (star_state 1) e1) (state Sub))
    (sega_to (st_ega (state 1) (eg_action (event_guard e2 ok) act)) (Dsl.entry Sub 3))
    (seg_to (st_eg (state 1) (event_guard e3 ok)) (direct Sub 2))
    (sea_to (st_ea (state Sub) (event_action e4 act)) (history Sub))
    (se_to (st_event (exit Sub 2) e5) (state 1)).
Definition prefix : cenv :=
  program (from_se (exit Sub 2) (st_event (state 2) e2)) (from_se (exit Sub 2) (st_event (state 3) e2))
    (from_se (state Sub) (st_event (star_state 1) e1))
    (from_sega (Dsl.entry Sub 3) (st_ega (state 1) (eg_action (event_guard e2 ok) act)))
    (from_seg (direct Sub 2) (st_eg (state 1) (event_guard e3 ok)))
    (from_sea (history Sub) (st_ea (state Sub) (event_action e4 act)))
    (from_se (state 1) (st_event (exit Sub 2) e5)).
(** Tuples and prefixes mixed: in the table of Sub the exit is written in two ways. *)
Definition mixed : cenv :=
  program (tuple_transition (state 2) e2 NoGuard NoAction (exit Sub 2)) (from_se (exit Sub 2) (st_event (state 3) e2))
    (tuple_transition (star_state 1) e1 NoGuard NoAction (state Sub))
    (from_sega (Dsl.entry Sub 3) (st_ega (state 1) (eg_action (event_guard e2 ok) act)))
    (tuple_transition (state 1) e3 ok NoAction (direct Sub 2))
    (from_sea (history Sub) (st_ea (state Sub) (event_action e4 act)))
    (tuple_transition (exit Sub 2) e5 NoGuard NoAction (state 1)).
Definition calls : list (call nat) :=
  [pe 1; is_ Sub 1; pe 1; pe 4; is_ Sub 2; pe 2; KStatus; pe 5; is_ Main 1; pe 2; is_ Sub 3; KSet 0 Main (SState 1); pe 3; is_ Sub 2; pe 5; is_ Main 1].
Lemma differ1 : differ_in_notation postfix prefix.
Proof. repeat constructor. Qed.
Lemma differ2 : differ_in_notation postfix mixed.
Proof. repeat constructor. Qed.
Lemma one1 : one_spelling postfix. Proof. apply one_spelling_intro. vm_compute. reflexivity. Qed.
Lemma one2 : one_spelling prefix. Proof. apply one_spelling_intro. vm_compute. reflexivity. Qed.
Lemma one3 : one_spelling mixed. Proof. apply one_spelling_intro. vm_compute. reflexivity. Qed.
Lemma plain_calls : plain_client calls.
Proof. intros k H. unfold calls in H. cbn [In] in H. repeat (destruct H as [<-|H]; [cbn; eauto|]). destruct H. Qed.
End Notations.

(** Spellings that matter. *)
Module Twice.
(** An initial state as a target: written like the source, or not. *)
Definition marked_postfix : cenv :=
  [ (50, tbl [ sea_to (st_ea (star_state 1) (event_action (EUser 1) act)) (state 2);
               se_to (st_event (state 2) (EUser 2)) (initial 1) ]) ].
Definition marked_prefix : cenv :=
  [ (50, tbl [ sea_to (st_ea (star_state 1) (event_action (EUser 1) act)) (state 2);
               from_se (initial 1) (st_event (state 2) (EUser 2)) ]) ].
(** The exit of a class with internal rows. *)
Definition sub (r : row) : cdef :=
  mkCdef (Some [ se_to (st_event (star_state 1) (EUser 1)) (state 2);
                 se_to (st_event (state 2) (EUser 2)) (exit 11 2); r ])
         (Some [ plus_eg (event_guard (EUser 5) fail) ]) false false false None true.
Definition main : cdef :=
  tbl [ se_to (st_event (star_state 1) (EUser 1)) (state 11); se_to (st_event (exit 11 2) (EUser 3)) (state 1) ].
Definition internal_postfix : cenv := [ (11, sub (se_to (st_event (state 1) (EUser 4)) (exit 11 2))); (50, main) ].
Definition internal_prefix : cenv := [ (11, sub (from_se (exit 11 2) (st_event (state 1) (EUser 4)))); (50, main) ].
End Twice.

Definition trace_of (env : cenv) (root : cls) (ks : list (call nat)) : option (list out * nat * list callee) :=
  match compile env root with
  | Some m => match session ex_cb m 0 300 0 0 ks with
              | Done os s => Some (os, rt_world s, map k_callee (rt_trace s))
              | _ => None
              end
  | None => None
  end.
Lemma same_run_trace env env' root m m' ks : compile env root = Some m -> compile env' root = Some m' ->
  same_run m m' (session ex_cb m 0 300 0 0 ks) (session ex_cb m' 0 300 0 0 ks) ->
  option_map snd (trace_of env root ks) = option_map snd (trace_of env' root ks).
Proof.
  intros E E'. unfold trace_of. rewrite E, E'.
  assert (G : forall l l' : list (called nat), Forall2 same_called l l' -> map k_callee l = map k_callee l').
  { induction 1 as [|k k' l l' [] _ IH]; cbn; congruence. }
  intros []; cbn; auto. f_equal. auto.
Qed.
Lemma not_same env env' root ks : compile env root <> None -> compile env' root <> None ->
  option_map snd (trace_of env root ks) <> option_map snd (trace_of env' root ks) ->
  exists m m', compile env root = Some m /\ compile env' root = Some m' /\
  ~ same_run m m' (session ex_cb m 0 300 0 0 ks) (session ex_cb m' 0 300 0 0 ks).
Proof.
  intros H H' Hn. destruct (compile env root) as [m|] eqn:E; [|congruence]. destruct (compile env' root) as [m'|] eqn:E'; [|congruence].
  exists m, m'. split; [reflexivity|]. split; [reflexivity|]. intros S. apply Hn. eapply same_run_trace; eauto.
Qed.

(** * The theorems about rows *)
Lemma rows_same s e g a t :
  (forall r, In r [ sega_to (st_ega s (eg_action (event_guard e g) a)) t;
                    from_sega t (st_ega s (eg_action (event_guard e g) a)) ] ->
     same_transition (tuple_transition s e g a t) r) /\
  (forall r, In r [ seg_to (st_eg s (event_guard e g)) t; from_seg t (st_eg s (event_guard e g)) ] ->
     same_transition (tuple_transition s e g NoAction t) r) /\
  (forall r, In r [ sea_to (st_ea s (event_action e a)) t; from_sea t (st_ea s (event_action e a)) ] ->
     same_transition (tuple_transition s e NoGuard a t) r) /\
  (forall r, In r [ se_to (st_event s e) t; from_se t (st_event s e) ] ->
     same_transition (tuple_transition s e NoGuard NoAction t) r).
Proof.
  repeat split; cbn [In] in H; repeat destruct H as [<-|H]; try destruct H; cbn; try reflexivity; apply denotes_as.
Qed.
Lemma anonymous_rows_same s g a t :
  same_transition (tuple_transition s ENone g a t) (sga_to (sg_action (st_guard s g) a) t) /\
  same_transition (tuple_transition s ENone g NoAction t) (sg_to (st_guard s g) t) /\
  same_transition (tuple_transition s ENone NoGuard a t) (sa_to (st_action s a) t) /\
  same_transition (tuple_transition s ENone NoGuard NoAction t) (st_to s t) /\
  same_transition (tuple_transition s ENone NoGuard NoAction t) (from_st t s).
Proof. repeat split; cbn; try reflexivity; apply denotes_as. Qed.
Lemma equal_rows e g a :
  plus_ega (eg_action (event_guard e g) a) = tuple_internal_transition e g a /\
  plus_eg (event_guard e g) = tuple_internal_transition e g NoAction /\
  plus_ea (event_action e a) = tuple_internal_transition e NoGuard a /\
  plus_event e = tuple_internal_transition e NoGuard NoAction /\
  forall p q,
    sega_to (st_ega (state p) (eg_action (event_guard e g) a)) (state q) = tuple_transition (state p) e g a (state q) /\
    from_sega (state q) (st_ega (state p) (eg_action (event_guard e g) a)) = tuple_transition (state p) e g a (state q).
Proof. repeat split. Qed.
Lemma notations_same env env' root m m' : differ_in_notation env env' ->
  one_spelling env -> one_spelling env' -> compile env root = Some m -> compile env' root = Some m' ->
  forall V W (cb : cbfun V W) vnone fuel d w ks, blind cb -> plain_client ks ->
  same_run m m' (session cb m vnone fuel d w ks) (session cb m' vnone fuel d w ks).
Proof. intros Hd O O' M M' V W cb vnone fuel d w ks. now apply (session_same env env' root m m'). Qed.
Lemma notation_candidates env env' root m m' : differ_in_notation env env' ->
  one_spelling env -> one_spelling env' -> compile env root = Some m -> compile env' root = Some m' ->
  forall e pl pl' l l', standing env pl -> standing env' pl' -> same_place pl pl' ->
  candidate_list env root e pl l -> candidate_list env' root e pl' l' -> Forall2 same_cand l l'.
Proof. intros Hd O O' M M' e pl pl' l l'. now apply (candidates_same env env' root m m'). Qed.

(** * Witnesses *)
Lemma compile_some env root : (if compile env root then true else false) = true -> exists m, compile env root = Some m.
Proof. destruct (compile env root) as [m|]; [eauto|discriminate]. Qed.
Lemma cands_intro env root e pl l :
  match compile env root with Some m => cands m e pl = l | None => False end -> candidate_list env root e pl l.
Proof. destruct (compile env root) as [m|] eqn:E; [|easy]. now apply demo_candidates. Qed.
Lemma initial_target_matters : exists s e t r,
  let env := [ (50, tbl [ r; se_to (st_event s e) t ]) ] in
  let env' := [ (50, tbl [ r; from_se t (st_event s e) ]) ] in
  exists m m', compile env 50 = Some m /\ compile env' 50 = Some m' /\ length (initials (mc_env m) 50) = 2 /\ length (initials (mc_env m') 50) = 1 /\
  ~ same_run m m' (session ex_cb m 0 300 0 0 [pe 1]) (session ex_cb m' 0 300 0 0 [pe 1]).
Proof.
  exists (state 2), (EUser 2), (initial 1), (sea_to (st_ea (star_state 1) (event_action (EUser 1) act)) (state 2)).
  cbv zeta. change (exists m m', compile Twice.marked_postfix 50 = Some m /\ compile Twice.marked_prefix 50 = Some m' /\ length (initials (mc_env m) 50) = 2 /\ length (initials (mc_env m') 50) = 1 /\
  ~ same_run m m' (session ex_cb m 0 300 0 0 [pe 1]) (session ex_cb m' 0 300 0 0 [pe 1])).
  destruct (not_same Twice.marked_postfix Twice.marked_prefix 50 [pe 1]) as (m & m' & E & E' & H);
    [vm_compute; discriminate|vm_compute; discriminate|vm_compute; discriminate|].
  exists m, m'. repeat (split; [assumption|]).
  split; [|split; [|assumption]].
  - assert (A : match compile Twice.marked_postfix 50 with Some m => length (initials (mc_env m) 50) = 2 | None => False end) by (vm_compute; reflexivity).
    now rewrite E in A.
  - assert (A : match compile Twice.marked_prefix 50 with Some m => length (initials (mc_env m) 50) = 1 | None => False end) by (vm_compute; reflexivity).
    now rewrite E' in A.
Qed.
Lemma internal_twice_matters : exists s e t rest ints main,
  let cd r := mkCdef (Some (rest ++ [r])) (Some ints) false false false None true in
  let env := [ (11, cd (se_to (st_event s e) t)); (50, main) ] in
  let env' := [ (11, cd (from_se t (st_event s e))); (50, main) ] in
  exists m m', compile env 50 = Some m /\ compile env' 50 = Some m' /\
  ~ same_run m m' (session ex_cb m 0 300 0 0 [pe 1; pe 1; pe 5]) (session ex_cb m' 0 300 0 0 [pe 1; pe 1; pe 5]).
Proof.
  exists (state 1), (EUser 4), (exit 11 2), [ se_to (st_event (star_state 1) (EUser 1)) (state 2); se_to (st_event (state 2) (EUser 2)) (exit 11 2) ],
    [ plus_eg (event_guard (EUser 5) fail) ], Twice.main.
  apply (not_same Twice.internal_postfix Twice.internal_prefix 50 [pe 1; pe 1; pe 5]); vm_compute; discriminate.
Qed.
Lemma candidates_matter : exists env env' e pl l l', differ_in_notation env env' /\
  standing env pl /\ standing env' pl /\ candidate_list env 50 e pl l /\ candidate_list env' 50 e pl l' /\
  length l = 2 /\ length l' = 3.
Proof.
  exists Twice.internal_postfix, Twice.internal_prefix, (EUser 5), (11, SState 2).
  eexists _, _. split; [repeat constructor|]. split; [left; now exists 2|]. split; [left; now exists 2|].
  split; [apply cands_intro; vm_compute; reflexivity|]. split; [apply cands_intro; vm_compute; reflexivity|]. now split.
Qed.
Lemma notation_candidates_demo : exists m l l',
  compile Notations.postfix 50 = Some m /\
  candidate_list Notations.postfix 50 (EUser 2) (50, SState 1) l /\
  candidate_list Notations.prefix 50 (EUser 2) (50, SState 1) l' /\
  length l = 1 /\ length l' = 1 /\ l <> l'.
Proof.
  destruct (compile_some Notations.postfix 50) as [m E]; [vm_compute; reflexivity|].
  exists m. eexists _, _. split; [exact E|].
  split; [apply cands_intro; vm_compute; reflexivity|]. split; [apply cands_intro; vm_compute; reflexivity|].
  split; [reflexivity|]. split; [reflexivity|discriminate].
Qed.
Definition swap_w (w : wrap) : wrap := match w with WState => WOwn | WOwn => WState end.
Definition swap_wrap (s : sref) : sref :=
  match s with
  | SState c => SState c
  | SInitial w c => SInitial (swap_w w) c
  | SDirect w p c => SDirect (swap_w w) p c
  | SEntry w p c => SEntry (swap_w w) p c
  | SExit w p c => SExit (swap_w w) p c
  | SHistory w p => SHistory (swap_w w) p
  end.
Lemma swap_spelling : spelling swap_wrap. Proof. intros []; reflexivity. Qed.
Lemma swap_twice s : swap_wrap (swap_wrap s) = s.
Proof. destruct s as [|w|w|w|w|w]; try destruct w; reflexivity. Qed.
Lemma swap_one_to_one : one_to_one swap_wrap.
Proof. intros s t E. rewrite <- (swap_twice s), E. apply swap_twice. Qed.
Lemma swap_user : same_user swap_wrap ex_cb ex_cb.
Proof. intros c a v w. reflexivity. Qed.
Lemma other_rows (env env' : cenv) : map r_tgt (table env 50) <> map r_tgt (table env' 50) -> env <> env'.
Proof. intros H E. apply H. now rewrite E. Qed.
Lemma Notations_differ : Notations.postfix <> Notations.prefix.
Proof. apply other_rows. vm_compute. discriminate. Qed.
Lemma swap_differs : respell swap_wrap Notations.postfix <> Notations.postfix.
Proof. apply other_rows. vm_compute. discriminate. Qed.
