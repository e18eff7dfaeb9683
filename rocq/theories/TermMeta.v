(** Statements about termination in the form used by PropsTerm.v. *)

From Coq Require Import List Arith NArith Bool Lia.
From Verif Require Import Types Static Dispatch Runtime Dsl Examples ListFacts IndexFacts Spec
  DispatchFacts FlattenFacts Semantics RefineFacts StaticFacts TermFacts Reach ReachFacts TableFacts
  QueryFacts ProcessFacts RegionFacts LoopFacts QueueFacts StepFacts Journey HistFacts TermRank TrapFacts TermProg
  Safe SafeFacts SafeObjects SafeDemo Demo.
Import ListNotations.

Lemma rank_bounds_calls env root m : compile env root = Some m -> few_regions env root ->
  forall rank, ranked env root rank ->
  exists bound, forall V W (cb : cbfun V W) vnone fuel ds d0 s k, bound <= fuel ->
    reachable cb m vnone ds d0 s -> do_call_catch cb m vnone fuel k s <> Timeout.
Proof.
  intros Hm Hf rank Hr. exists (enough m rank). intros V W cb vnone fuel ds d0 s k H R.
  eapply (ranked_call cb env root m vnone Hm Hf rank Hr); eauto.
Qed.
Lemma rank_bounds_sessions env root m : compile env root = Some m -> few_regions env root ->
  forall rank, ranked env root rank ->
  exists bound, forall V W (cb : cbfun V W) vnone fuel d w ks, bound <= fuel ->
    session cb m vnone fuel d w ks <> Timeout.
Proof.
  intros Hm Hf rank Hr. exists (enough m rank). intros V W cb vnone fuel d w ks H.
  now apply (ranked_session cb env root m vnone Hm Hf rank Hr).
Qed.
Lemma rank_total env root m : compile env root = Some m ->
  forall rank, ranked env root rank -> well_formed env root ->
  exists bound, forall V W (cb : cbfun V W) vnone fuel d w ks, bound <= fuel ->
    Forall (well_typed env root) ks -> exists os s, session cb m vnone fuel d w ks = Done os s.
Proof.
  intros Hm rank Hr Hw. pose proof (wp_few _ _ (wf_placed _ _ Hw)) as Hf.
  exists (enough m rank). intros V W cb vnone fuel d w ks H Ht.
  now apply (ranked_total cb env root m vnone Hm Hf rank Hr).
Qed.

Section Budget.
Context {V W : Type}.
Variable cb : cbfun V W.
Variables (m : machine) (vnone : V).
Lemma call_budget k s fuel fuel' :
  do_call cb m vnone fuel k s <> Timeout -> do_call cb m vnone fuel' k s <> Timeout ->
  do_call cb m vnone fuel k s = do_call cb m vnone fuel' k s.
Proof. apply (same_result (fun f => do_call cb m vnone f k s)). intros. now apply do_call_mono. Qed.
Lemma session_budget d w ks fuel fuel' :
  session cb m vnone fuel d w ks <> Timeout -> session cb m vnone fuel' d w ks <> Timeout ->
  session cb m vnone fuel d w ks = session cb m vnone fuel' d w ks.
Proof. apply (same_result (fun f => session cb m vnone f d w ks)). intros. now apply session_mono. Qed.
Lemma session_more d w ks fuel fuel' : fuel <= fuel' -> session cb m vnone fuel d w ks <> Timeout ->
  session cb m vnone fuel' d w ks = session cb m vnone fuel d w ks.
Proof. intros H. now apply session_mono. Qed.
End Budget.

Lemma rules_decide {V W} (cb : cbfun V W) env root m vnone ds d0 s : running cb env root m vnone ds d0 s ->
  forall fuel e v vds rp s', process cb m ds vnone d0 e v s vds rp s' ->
  match process_event cb m vnone fuel e v s with
  | Done (b, v') s1 => rp = Returned b v' /\ s1 = s'
  | Threw ex s1 => exists n, ex = XUser n /\ rp = Exception n /\ s1 = s'
  | Undef _ | Timeout => True
  end.
Proof.
  intros (Hm & Hf & R) fuel e v vds rp s' P. pose proof (few_max_compiled _ _ _ Hm Hf) as HM.
  destruct (compile_comp _ _ _ Hm) as (Hc & He & Hr).
  pose proof (reachable_rinvs cb m Hc vnone HM ds d0 s R) as I.
  pose proof (process_event_result m Hc cb ds vnone d0 HM fuel e v s I) as Q.
  destruct (process_event cb m vnone fuel e v s) as [[b v'] s1|ex s1|u|]; auto.
  - destruct Q as (vds' & Q). destruct (process_det _ _ _ _ _ _ _ _ _ _ _ P _ _ _ Q) as (_ & <- & <-). auto.
  - destruct Q as (n & vds' & -> & Q). destruct (process_det _ _ _ _ _ _ _ _ _ _ _ P _ _ _ Q) as (_ & <- & <-). eauto.
Qed.

(** A machine with one region that runs into a trap. *)
Lemma never_ex : never_throws ex_cb.
Proof. intros c a v w. destruct c; cbn; eauto. Qed.
Lemma demo_forever env root n l e v : well_formed env root ->
  match compile env root with
  | None => False
  | Some m =>
      match construct m 300 0 0 with
      | Done _ s =>
          Nat.leb (max_initials m) 255 = true /\ trap_check m n l = true /\ memb ev_eq_dec e (events m) = true /\
          has_anonymous m = true /\ active m s = 1 /\
          match try_region ex_cb m 0 e v s with
          | Done (Some Fired, _) s' =>
              Nat.ltb 0 n = true /\ active m s' = n /\
              forallb (fun r => match at_place m s' r with
                                | Some pl => if in_dec place_eq_dec pl l then true else false
                                | None => false
                                end) (seq 0 n) = true
          | _ => False
          end
      | _ => False
      end
  end -> exists m s, running ex_cb env root m 0 [0] 0 s /\
         forall fuel, process_event ex_cb m 0 fuel e v s = Timeout.
Proof.
  intros Hw. destruct (compile env root) as [m|] eqn:Hm; [|intros []].
  destruct (construct m 300 0 0) as [[] s|ex s|u|] eqn:Es; try (intros []; fail).
  intros (Hl & Ht & Hev & Ha & H1 & H). apply Nat.leb_le in Hl.
  destruct (try_region ex_cb m 0 e v s) as [[[[]|] v'] s'|ex s'|u|] eqn:E; try destruct H as [].
  assert (R : running ex_cb env root m 0 [0] 0 s).
  { split; [exact Hm|]. split; [eapply max_few; eauto|]. eapply reach_new; eauto. }
  exists m, s. split; [exact R|].
  apply (trap_runs_forever ex_cb env root m 0 [0] 0 s R n (fun pl => In pl l)) with (i := 0) (v1 := v) (s1 := s) (v2 := v') (s2 := s') (v3 := v') (s3 := s').
  - eapply trap_check_sound; eauto.
  - now apply (anonymous_iff env root m Hm).
  - constructor.
  - lia.
  - exact E.
  - rewrite H1. constructor.
  - destruct H0 as [Hn Hin]. split; [now apply Nat.ltb_lt|]. split; [exact Hn|]. intros r Hr.
    rewrite forallb_forall in Hin. specialize (Hin r). destruct (at_place m s' r) as [pl|].
    + exists pl. split; [reflexivity|]. destruct (in_dec place_eq_dec pl l); [assumption|].
      discriminate Hin. apply in_seq. lia.
    + discriminate Hin. apply in_seq. lia.
  - exact Hw.
  - exact never_ex.
  - apply (events_iff _ _ _ Hm). now apply memb_iff in Hev.
Qed.
