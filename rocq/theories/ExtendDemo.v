(** Programs for PropsExtend.v. *)

From Coq Require Import List Arith NArith Bool.
From Verif Require Import Types Static Dispatch Runtime Dsl Examples Spec Amalgam AmalgamDemo Extend.
Import ListNotations.

Definition guarded s e g t := seg_to (st_eg s (event_guard (EUser e) g)) t.
(** Two regions, a composite with two regions, history, deferral, a handler for unexpected
    events; with more rows for event 9. *)
Definition less_env : cenv :=
 [ (8, mkCdef None None true true false (Some [EUser 6]) true);
   (11, mkCdef (Some [ row (star_state 7) 3 (state 8); row (state 8) 4 (state 9); row (star_state 20) 3 (state 21) ])
        None true true false None true);
   (50, mkCdef (Some [ row (star_state 1) 2 (state 11); row (state 11) 5 (state 1); row (star_state 30) 3 (state 31);
                       row (state 1) 6 (history 11) ])
        None false false true None true) ].
Definition more_env : cenv :=
 [ (8, mkCdef None None true true false (Some [EUser 6]) true);
   (11, mkCdef (Some [ row (star_state 7) 3 (state 8); row (state 8) 4 (state 9);
                       guarded (state 8) 9 Examples.ok (state 7); row (star_state 20) 3 (state 21) ])
        None true true false None true);
   (50, mkCdef (Some [ row (star_state 1) 2 (state 11); guarded (state 1) 9 fail (state 1); row (state 11) 5 (state 1);
                       row (state 11) 9 (state 1); row (star_state 30) 3 (state 31); row (state 1) 6 (history 11);
                       row (state 30) 9 (state 31) ])
        None false false true None true) ].
Ltac plain_target := split; [intros k L; inversion L; subst; intros C; apply C; reflexivity|intros; discriminate].
Ltac kept := apply ins_old.
Ltac added i j := apply ins_new; [split; [reflexivity|]; split; [exists i; split; [cbn; auto 12|]|split; [exists j; split; [cbn; auto 12|]|plain_target]]|].
Lemma more_extends : extends (EUser 9) less_env more_env.
Proof.
  unfold extends, extends_by, less_env at 2, more_env.
  constructor; [split; reflexivity|]. constructor; [split; [reflexivity|split; [reflexivity|]]|].
  - cbn [cd_table snd fst]. kept. kept.
    added (row (state 8) 4 (state 9)) (row (star_state 7) 3 (state 8)).
    + now left.
    + right. split; [reflexivity|now left].
    + kept. constructor.
  - constructor; [split; [reflexivity|split; [reflexivity|]]|constructor]. cbn [cd_table snd fst]. kept.
    added (row (star_state 1) 2 (state 11)) (row (star_state 1) 2 (state 11)).
    + right. split; [reflexivity|]. eexists; exists 1. split; [reflexivity|]. split; [reflexivity|]. intros C; apply C; reflexivity.
    + right. split; [reflexivity|now left].
    + kept. added (row (state 11) 5 (state 1)) (row (state 11) 5 (state 1)); [now left|now left|].
      kept. kept.
      added (row (star_state 30) 3 (state 31)) (row (star_state 30) 3 (state 31)).
      * right. split; [reflexivity|]. eexists; exists 30. split; [reflexivity|]. split; [reflexivity|]. intros C; apply C; reflexivity.
      * now left.
      * constructor.
Qed.

(** Telling them apart. *)
Definition pair_of (env env' : cenv) (root : cls) (ks : list (call nat)) :=
  match compile env root, compile env' root with
  | Some m, Some m' =>
      match session ex_cb m 0 300 0 0 ks, session ex_cb m' 0 300 0 0 ks with
      | Done o s, Done o' s' => Some ((o, seen s), (o', seen s'))
      | _, _ => None
      end
  | _, _ => None
  end.
Lemma noticed_intro e env env' root ks a b : (forall k, In k ks -> does_not_send e k) ->
  pair_of env env' root ks = Some (a, b) -> a <> b -> noticed e env env' root.
Proof.
  intros Hks H Hne. unfold pair_of in H. destruct (compile env root) as [m|] eqn:Hm; [|discriminate].
  destruct (compile env' root) as [m'|] eqn:Hm'; [|discriminate].
  exists nat, nat, ex_cb, 0, m, m', 300, 0, 0, ks. split; [exact Hm|]. split; [exact Hm'|]. split; [exact Hks|].
  intros R. revert H. destruct R as [o o' s s' E S|x s s' _|u|]; try discriminate. intros H. inversion H; subst. apply Hne.
  destruct S. unfold seen. congruence.
Qed.
Ltac others := intros k Hk; repeat (destruct Hk as [<-|Hk]; [first [exact I|discriminate]|]); destruct Hk.

(** A state that defers events and was nowhere a source: its events are deferred only in
    the program with the additional row. *)
Definition sink_env : cenv :=
 [ (2, mkCdef None None false false false (Some [EUser 2]) true);
   (50, tbl [ row (star_state 1) 1 (state 2); row (state 1) 2 (state 3); row (state 3) 1 (state 1) ]) ].
Definition sink_env' : cenv :=
 [ (2, mkCdef None None false false false (Some [EUser 2]) true);
   (50, tbl [ row (star_state 1) 1 (state 2); row (state 1) 2 (state 3); row (state 3) 1 (state 1); row (state 2) 9 (state 3) ]) ].
Lemma sink_added : extends_by (fun c b r => r_ev r = EUser 9 /\ ends_known sink_env c b r /\ leads_nowhere sink_env r) sink_env sink_env'.
Proof.
  constructor; [split; reflexivity|]. constructor; [split; [reflexivity|split; [reflexivity|]]|constructor]. cbn [cd_table snd fst tbl].
  kept. kept. kept. apply ins_new; [|constructor]. split; [reflexivity|]. split; [|plain_target].
  exists (row (state 1) 2 (state 3)). split; [cbn; auto|now left].
Qed.
Lemma sink_noticed : noticed (EUser 9) sink_env sink_env' 50.
Proof. eapply (noticed_intro _ _ _ _ [pe 1; pe 2]); [others|vm_compute; reflexivity|discriminate]. Qed.

(** A second row into a composite: its rows are in the tables twice, a refusing guard is
    asked twice. *)
Definition twice_env : cenv :=
 [ (11, tbl [ guarded (star_state 7) 3 fail (state 8) ]); (50, tbl [ row (star_state 1) 2 (state 11) ]) ].
Definition twice_env' : cenv :=
 [ (11, tbl [ guarded (star_state 7) 3 fail (state 8) ]); (50, tbl [ row (star_state 1) 2 (state 11); row (star_state 1) 9 (state 11) ]) ].
Lemma twice_added : extends_by (fun c b r => r_ev r = EUser 9 /\ starts_known twice_env c b r /\ ends_known twice_env c b r) twice_env twice_env'.
Proof.
  constructor; [split; [reflexivity|split; [reflexivity|cbn [cd_table snd fst tbl]; kept; constructor]]|].
  constructor; [split; [reflexivity|split; [reflexivity|]]|constructor]. cbn [cd_table snd fst tbl].
  kept. apply ins_new; [|constructor]. split; [reflexivity|].
  split; exists (row (star_state 1) 2 (state 11)); (split; [now left|now left]).
Qed.
Lemma twice_noticed : noticed (EUser 9) twice_env twice_env' 50.
Proof. eapply (noticed_intro _ _ _ _ [pe 2; pe 3]); [others|vm_compute; reflexivity|discriminate]. Qed.

(** The initial state written without its mark in a class with internal rows: the internal
    rows are in the tables twice for it. *)
Definition mark_env : cenv :=
 [ (11, mkCdef (Some [ row (star_state 7) 3 (state 8) ]) (Some [mkIrow (EUser 4) fail NoAction]) false false false None true);
   (50, tbl [ row (star_state 1) 2 (state 11) ]) ].
Definition mark_env' : cenv :=
 [ (11, mkCdef (Some [ row (star_state 7) 3 (state 8); row (star_state 7) 9 (state 7) ]) (Some [mkIrow (EUser 4) fail NoAction]) false false false None true);
   (50, tbl [ row (star_state 1) 2 (state 11) ]) ].
Lemma mark_added : extends_by (fun c b r => r_ev r = EUser 9 /\ starts_known mark_env c b r /\ leads_nowhere mark_env r /\
  exists r1, In r1 b /\ r_tgt r = unmarked (r_src r1)) mark_env mark_env'.
Proof.
  constructor; [split; [reflexivity|split; [reflexivity|]]|].
  - cbn [cd_table snd fst]. kept. apply ins_new; [|constructor]. split; [reflexivity|].
    split; [exists (row (star_state 7) 3 (state 8)); split; [now left|now left]|]. split; [plain_target|].
    exists (row (star_state 7) 3 (state 8)). split; [now left|reflexivity].
  - constructor; [split; [reflexivity|split; [reflexivity|cbn [cd_table snd fst tbl]; kept; constructor]]|constructor].
Qed.
Lemma mark_noticed : noticed (EUser 9) mark_env mark_env' 50.
Proof. eapply (noticed_intro _ _ _ _ [pe 2; pe 4]); [others|vm_compute; reflexivity|discriminate]. Qed.

(** A state that was not named before: the numbers that status prints change. *)
Definition fresh_env : cenv := [ (50, tbl [ row (star_state 1) 2 (state 2); row (state 2) 3 (state 3) ]) ].
Definition fresh_env' : cenv := [ (50, tbl [ row (star_state 1) 2 (state 2); row (star_state 1) 9 (state 4); row (state 2) 3 (state 3) ]) ].
Lemma fresh_added : extends_by (fun c b r => r_ev r = EUser 9 /\ starts_known fresh_env c b r /\ leads_nowhere fresh_env r) fresh_env fresh_env'.
Proof.
  constructor; [split; [reflexivity|split; [reflexivity|]]|constructor]. cbn [cd_table snd fst tbl].
  kept. apply ins_new; [|kept; constructor]. split; [reflexivity|]. split; [|plain_target].
  exists (row (star_state 1) 2 (state 2)). split; [now left|now left].
Qed.
Lemma fresh_noticed : noticed (EUser 9) fresh_env fresh_env' 50.
Proof. eapply (noticed_intro _ _ _ _ [pe 2; pe 3; KStatus]); [others|vm_compute; reflexivity|discriminate]. Qed.
