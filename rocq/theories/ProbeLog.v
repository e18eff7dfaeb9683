(** Logging everything is adding lookers. *)

From Coq Require Import List Arith NArith Bool Lia.
From Verif Require Import Types Static Dispatch Runtime IndexFacts Spec Semantics Interp Probe ProbeFacts ProbeRun ProbeProgram
  InterpFacts StaticFacts.
Import ListNotations.

Lemma filter_all {A} (p : A -> bool) l : (forall a, In a l -> p a = true) -> filter p l = l.
Proof.
  induction l as [|a l IH]; intros E; cbn [filter]; [reflexivity|]. rewrite (E a (or_introl eq_refl)). f_equal. apply IH.
  intros b Hb. apply E. now right.
Qed.

Section Log.
Variable f : nat.
Variable env : cenv.
Variable root : cls.
Hypothesis N : calls_not f env.
Notation watch := (log_watch f env root).

Lemma log_calls a : (forall c, In c (calls_of a) -> watch c = false) -> watched_action watch log_type a (log_action f a).
Proof.
  intros E. destruct a as [|t b]; cbn [log_action]; split; cbn [calls_of action_type log_type]; auto.
  - cbn. now rewrite Nat.eqb_refl.
  - cbn [callees flat_map]. unfold unwatched. rewrite !filter_app. cbn [filter log_watch]. rewrite Nat.eqb_refl. cbn [negb app].
    rewrite app_nil_r. apply filter_all. intros c Hc. now rewrite (E c Hc).
Qed.
Lemma body_kinds : forall b c, In c (callees b) -> match c with CAction _ | CFactory _ | CReuse _ => True | _ => False end.
Proof.
  fix IH 1. intros [g|g|g|l] c; cbn [callees]; try (intros [<-|[]]; exact I).
  induction l as [|b l IHl]; cbn [flat_map]; [intros []|]. intros Hc. apply in_app_or in Hc. destruct Hc as [Hc|Hc]; [exact (IH b c Hc)|exact (IHl Hc)].
Qed.
Lemma own_calls a : ~ In (CAction f) (calls_of a) -> forall c, In c (calls_of a) -> watch c = false.
Proof.
  intros E c Hc. assert (K : match c with CAction _ | CFactory _ | CReuse _ => True | _ => False end).
  { destruct a as [|t b]; [destruct Hc|]. exact (body_kinds b c Hc). }
  destruct c as [| g | | | | |]; try contradiction; try reflexivity. cbn. apply Nat.eqb_neq. intros ->. contradiction.
Qed.
Lemma lookup_logged c e : lookup (logged f e) c = lookup e c /\ lookup e c = plain \/ lookup (logged f e) c = log_class f (lookup e c).
Proof.
  induction e as [|[k d] e IH]; [left; split; reflexivity|]. cbn [logged map lookup fst snd]. destruct (Nat.eq_dec c k); auto.
Qed.
Lemma logged_watched : watched watch log_type env (logged f env) root.
Proof.
  constructor.
  - intros c. destruct (lookup_logged c env) as [[E1 E2]|E].
    + rewrite E1, E2. constructor; cbn; auto; discriminate.
    + rewrite E. destruct (N c) as [N1 N2]. unfold table, internals in N1, N2. constructor; cbn [log_class cd_table cd_internal cd_entry cd_exit cd_defer cd_defctor]; auto.
      * destruct (cd_table (lookup env c)) as [l|]; [|exact I]. cbn. clear N2. induction l as [|r l IH]; cbn; constructor.
        -- repeat split. ++ apply (proj1 (log_calls (r_act r) (own_calls _ (N1 r (or_introl eq_refl))))).
           ++ apply (proj2 (log_calls (r_act r) (own_calls _ (N1 r (or_introl eq_refl))))).
        -- apply IH. intros r' Hr. apply N1. now right.
      * destruct (cd_internal (lookup env c)) as [l|]; [|exact I]. cbn. clear N1. induction l as [|r l IH]; cbn; constructor.
        -- repeat split. ++ apply (proj1 (log_calls (i_act r) (own_calls _ (N2 r (or_introl eq_refl))))).
           ++ apply (proj2 (log_calls (i_act r) (own_calls _ (N2 r (or_introl eq_refl))))).
        -- apply IH. intros r' Hr. apply N2. now right.
      * unfold watched_member. cbn. destruct (cd_entry (lookup env c)); auto.
      * unfold watched_member. cbn. destruct (cd_exit (lookup env c)); auto.
  - unfold watched_member. cbn. destruct (lookup_logged root env) as [[E1 E2]|E].
    + rewrite E1, E2. cbn. discriminate.
    + rewrite E. destruct (cd_unexpected (lookup env root)); cbn; auto.
  - intros [a|] [b|]; cbn; congruence.
  - intros t. discriminate.
  - intros c. destruct c; cbn; auto; discriminate.
Qed.
End Log.

Lemma recording_looks {V W} watch (cb : cbfun V W) : looks_only watch fst cb (recording watch cb).
Proof.
  constructor; intros c a v w E; unfold recording; rewrite E.
  - do 2 eexists. split; reflexivity.
  - destruct (cb c a v (fst w)); cbn; auto.
Qed.

Theorem logging : forall V W (cb : cbfun V W) f env root m m' vnone fuel d w l ks,
  calls_not f env -> compile env root = Some m -> compile (logged f env) root = Some m' ->
  few_regions env root -> 255 < fuel ->
  match session (recording (log_watch f env root) cb) m' vnone fuel d (w, l) ks with
  | Done outs s' => exists s, session cb m vnone fuel d w ks = Done outs s /\ same_but_watched (log_watch f env root) fst s s'
  | Threw x s' => exists s, session cb m vnone fuel d w ks = Threw x s /\ same_but_watched (log_watch f env root) fst s s'
  | Undef UBNull => True
  | Undef u => session cb m vnone fuel d w ks = Undef u
  | Timeout => session cb m vnone fuel d w ks = Timeout
  end.
Proof.
  intros V W cb f env root m m' vnone fuel d w l ks N Hm Hm' F Fu.
  exact (session_both _ _ _ _ _ (logged_watched f env root N) m m' Hm Hm' fst cb _ (recording_looks _ cb) vnone fuel d (w, l) ks F Fu).
Qed.
