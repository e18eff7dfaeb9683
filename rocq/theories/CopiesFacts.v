(** Facts about copies. *)

From Coq Require Import List Arith NArith Bool Lia Permutation.
From Verif Require Import Types Static Dispatch Runtime Dsl Examples ListFacts IndexFacts Spec DispatchFacts Semantics Reach
  FlattenFacts RefineFacts StaticFacts TableFacts ProcessFacts OutcomeFacts Balance Copies.
Import ListNotations.

Section Copies.
Variable env : cenv.

Lemma leads_into_det t c c' : leads_into t c -> leads_into t c' -> c = c'.
Proof. intros H H'. destruct H; inversion H'; reflexivity. Qed.

Definition shift (lp : list nat * cls) : list nat * cls :=
  match lp with (i :: l, p) => (S i :: l, p) | x => x end.
Definition under (lp : list nat * cls) : list nat * cls := (0 :: fst lp, snd lp).
Definition tables_of (P : list (list nat * cls)) : list xrow := flat_map (fun lp => written env (snd lp)) P.

Lemma tables_shift Q : tables_of (map shift Q) = tables_of Q.
Proof. unfold tables_of. rewrite flat_map_concat_map, map_map, <- flat_map_concat_map. apply flat_map_ext. intros [[|i l] p]; reflexivity. Qed.
Lemma tables_app Q R : tables_of (Q ++ R) = tables_of Q ++ tables_of R.
Proof. apply flat_map_app. Qed.
Lemma tables_under Q : tables_of (map under Q) = tables_of Q.
Proof. unfold tables_of. rewrite flat_map_concat_map, map_map, <- flat_map_concat_map. apply flat_map_ext. intros [l p]; reflexivity. Qed.

(** The paths that begin with one of the rows [rs]. *)
Definition begins (rs : list row) (lp : list nat * cls) : Prop :=
  match fst lp with
  | [] => False
  | i :: l => exists r c', nth_error rs i = Some r /\ leads_into (r_tgt r) c' /\ composite env c' /\ path env c' l (snd lp)
  end.
Lemma begins_shift r rs lp : begins rs lp -> begins (r :: rs) (shift lp).
Proof. destruct lp as [[|i l] p]; cbn; auto. Qed.

Lemma visits_paths c rs l : visits env c rs l -> exists Q, NoDup Q /\ (forall lp, In lp Q <-> begins rs lp) /\
  Permutation l (map (row_in c) rs ++ tables_of Q).
Proof.
  intros H. induction H as [c|c r rs l Hl H IH|c r rs c' sub l Hl Hc Hs IHs H IH].
  - exists []. split; [constructor|]. split; [|apply perm_nil]. intros [[|[|i] l] p]; cbn; (split; [intros []|]); auto;
      intros (r & c' & E & _); discriminate.
  - destruct IH as (Q & N & B & P). exists (map shift Q). split; [|split].
    + apply FinFun.Injective_map_NoDup; [|exact N]. intros [[|i a] p] [[|j b] q] E; cbn in E; congruence.
    + intros [l0 p]. split.
      * intros G. apply in_map_iff in G. destruct G as (lp & E & G). apply B in G. apply (begins_shift r) in G. now rewrite E in G.
      * destruct l0 as [|[|i] l0]; cbn [begins fst snd].
        -- intros [].
        -- intros (r0 & c0 & E & L & Cc & _). injection E as <-. contradiction (Hl c0 L).
        -- intros G. apply in_map_iff. exists (i :: l0, p). split; [reflexivity|]. apply B. exact G.
    + cbn [map app]. apply perm_skip. now rewrite tables_shift.
  - destruct IH as (Q & N & B & P). destruct IHs as (Qs & Ns & Bs & Ps).
    exists (map under (([], c') :: Qs) ++ map shift Q). split; [|split].
    + apply NoDup_app_intro.
      * apply FinFun.Injective_map_NoDup; [intros [a p] [b q] E; unfold under in E; cbn in E; congruence|].
        constructor; [|exact Ns]. intros G. apply Bs in G. exact G.
      * apply FinFun.Injective_map_NoDup; [|exact N]. intros [[|i a] p] [[|j b] q] E; cbn in E; congruence.
      * intros x G G'. apply in_map_iff in G. destruct G as (y & <- & _). apply in_map_iff in G'. destruct G' as ([[|i a] q] & E & G).
        -- apply B in G. exact G.
        -- discriminate.
    + intros [l0 p]. rewrite in_app_iff, !in_map_iff. split.
      * intros [([a q] & E & G)|([a q] & E & G)].
        -- unfold under in E. cbn [fst snd] in E. injection E as <- <-. cbn [begins fst snd]. exists r, c'. split; [reflexivity|]. split; [exact Hl|].
           split; [exact Hc|]. destruct G as [G|G]; [injection G as <- <-; reflexivity|]. apply Bs in G. destruct a as [|i a]; [destruct G|exact G].
        -- apply B in G. apply (begins_shift r) in G. now rewrite E in G.
      * destruct l0 as [|[|i] l0]; cbn [begins fst snd].
        -- intros [].
        -- intros (r0 & c0 & E & L & Cc & Pa). injection E as <-. rewrite (leads_into_det _ _ _ L Hl) in *. left. exists (l0, p). split; [reflexivity|].
           destruct l0 as [|i l0]; [left; cbn in Pa; now subst|]. right. apply Bs. exact Pa.
        -- intros G. right. exists (i :: l0, p). split; [reflexivity|]. apply B. exact G.
    + change (map (row_in c) (r :: rs)) with (row_in c r :: map (row_in c) rs). cbn [app]. apply perm_skip.
      rewrite tables_app, tables_shift, tables_under.
      change (tables_of (([], c') :: Qs)) with (map (row_in c') (table env c') ++ tables_of Qs).
      rewrite Ps, P. rewrite !app_assoc. apply Permutation_app_tail. rewrite <- !app_assoc.
      rewrite app_assoc. apply Permutation_app_comm.
Qed.
Lemma visits_all root l : visits env root (table env root) l -> exists P, NoDup P /\ (forall a p, In (a, p) P <-> path env root a p) /\
  Permutation l (tables_of P).
Proof.
  intros H. destruct (visits_paths _ _ _ H) as (Q & N & B & P). exists (([], root) :: Q). split; [|split].
  - constructor; [|exact N]. intros G. apply B in G. exact G.
  - intros a p. split.
    + intros [G|G]; [injection G as <- <-; reflexivity|]. apply B in G. destruct a as [|i a]; [destruct G|exact G].
    + destruct a as [|i a]; [intros G; left; cbn in G; now subst|]. intros G. right. apply B. exact G.
  - exact P.
Qed.
Lemma visits_flat root l P : visits env root (table env root) l -> NoDup P -> (forall a p, In (a, p) P <-> path env root a p) ->
  Permutation l (tables_of P).
Proof.
  intros H N B. destruct (visits_all root l H) as (P' & N' & B' & E). rewrite E. apply Permutation_flat_map.
  apply NoDup_Permutation; [exact N'|exact N|]. intros [a p]. now rewrite B, B'.
Qed.
Lemma path_used root : forall l c p, used env root c -> path env c l p -> used env root p.
Proof.
  induction l as [|i l IH]; intros c p U H; cbn in H; [now subst|]. destruct H as (r & c' & E & L & C & H).
  apply (IH c'); [|exact H]. eapply used_sub; eauto. eapply nth_error_In; eauto.
Qed.
End Copies.

Lemma guard_is_iff ty val g : guard_is ty val g = true <-> g = Guard ty val.
Proof.
  destruct g as [|ty' val']; cbn; [split; discriminate|]. rewrite andb_true_iff, !Nat.eqb_eq. split; [intros [-> ->]; reflexivity|].
  intros E. injection E as -> ->. auto.
Qed.

Definition cand_asks (ty val : nat) (c : cand) : bool :=
  match c with CDefer => false | CRow x _ => guard_is ty val (x_guard x) end.

Lemma filter_none {A} (f : A -> bool) l : (forall x, In x l -> f x = false) -> filter f l = [].
Proof. induction l as [|a l IH]; intros H; cbn; [reflexivity|]. rewrite (H a (or_introl eq_refl)). apply IH. intros x Hx. apply H. now right. Qed.
Lemma filter_rev_length {A} (f : A -> bool) l : length (filter f (rev l)) = length (filter f l).
Proof. induction l as [|a l IH]; cbn; [reflexivity|]. rewrite filter_app, app_length, IH. cbn. destruct (f a); cbn; lia. Qed.
Lemma filter_perm {A} (f : A -> bool) l l' : Permutation l l' -> length (filter f l) = length (filter f l').
Proof. induction 1; cbn; auto; [destruct (f x); cbn; auto|destruct (f x), (f y); cbn; auto|congruence]. Qed.

Section Count.
Variables (env : cenv) (root : cls) (m : machine) (ty val : nat) (p a : cls) (e : ev).
Hypothesis Hm : compile env root = Some m.
Hypothesis G : guards_only env root ty val p a e.
Variable ls : list (list nat).
Hypothesis Hls : NoDup ls.
Hypothesis Hpath : forall l, In l ls <-> path env root l p.

Lemma flat_guards flat : visits env root (table env root) flat ->
  length (filter (fun x => guard_is ty val (x_guard x)) flat) = length ls * rows_with env ty val p.
Proof.
  intros Hv. destruct (visits_all env root flat Hv) as (P & N & B & E). rewrite (filter_perm _ _ _ E). clear E.
  assert (F : length (filter (fun x => guard_is ty val (x_guard x)) (tables_of env P))
              = length (filter (fun lp => Nat.eqb (snd lp) p) P) * rows_with env ty val p).
  { assert (U : forall lp, In lp P -> used env root (snd lp)).
    { intros [l q] H. apply B in H. eapply path_used; [constructor|exact H]. }
    clear B N. induction P as [|[l q] P IH]; [reflexivity|].
    change (tables_of env ((l, q) :: P)) with (written env q ++ tables_of env P).
    rewrite filter_app, app_length, IH by (intros x H; apply U; now right). cbn [filter snd].
    assert (W : length (filter (fun x => guard_is ty val (x_guard x)) (written env q)) = if Nat.eqb q p then rows_with env ty val p else 0).
    { destruct (Nat.eqb_spec q p) as [->|D].
      - unfold written, rows_with. clear. induction (table env p) as [|r rs IH]; cbn; [reflexivity|]. destruct (guard_is ty val (r_guard r)); cbn; now rewrite IH.
      - rewrite filter_none; [reflexivity|]. intros x H. apply in_map_iff in H. destruct H as (r & <- & H).
        destruct (guard_is ty val _) eqn:Q; [|reflexivity]. apply guard_is_iff in Q. exfalso. apply D.
        destruct (go_rows _ _ _ _ _ _ _ G (row_in q r)) as [E _]; [|exact Q|exact E].
        exists q, r. split; [apply (U (l, q)); now left|auto]. }
    rewrite W. destruct (Nat.eqb q p); cbn [length]; lia. }
  rewrite F. f_equal. rewrite <- (map_length fst). apply Permutation_length. apply NoDup_Permutation; [|exact Hls|].
  - clear - N. induction P as [|[l q] P IH]; [constructor|]. inversion N; subst. cbn [filter snd]. destruct (Nat.eqb_spec q p) as [->|D]; [|auto].
    cbn. constructor; [|auto]. intros H. apply in_map_iff in H. destruct H as ([l' q'] & E & H). apply filter_In in H. destruct H as [H E']. apply Nat.eqb_eq in E'.
    cbn in E, E'. subst. contradiction.
  - intros l. rewrite Hpath, in_map_iff. split.
    + intros ([l' q] & E & H). apply filter_In in H. destruct H as [H E']. apply Nat.eqb_eq in E'. cbn in E, E'. subst. now apply B.
    + intros H. exists (l, p). split; [reflexivity|]. apply filter_In. split; [now apply B|apply Nat.eqb_refl].
Qed.

Lemma cands_guards pl cs : candidate_list env root e pl cs ->
  length (filter (cand_asks ty val) cs) = if place_eq_dec (p, SState a) pl then length ls * rows_with env ty val p else 0.
Proof.
  intros (flat & ints & Hv & Hk & ->). unfold priority. rewrite !filter_app, !app_length, !filter_rev_length.
  rewrite (filter_none _ (defers_at _ _ _ _)).
  2:{ intros c H. unfold defers_at in H. apply in_flat_map in H. destruct H as (x & _ & H). destruct (place_eq_dec _ _); [|destruct H].
      apply in_flat_map in H. destruct H as (e' & _ & H). destruct (ev_eq_dec _ _); [|destruct H]. destruct H as [<-|[]]. reflexivity. }
  rewrite (filter_none _ (rows_at _ _ _ _ ints)).
  2:{ intros c H. unfold rows_at in H. apply in_flat_map in H. destruct H as (x & Hx & H). destruct (ev_eq_dec _ _); [|destruct H].
      apply in_flat_map in H. destruct H as (po & _ & H). destruct (place_eq_dec _ _); [|destruct H]. destruct H as [<-|[]]. cbn.
      destruct (guard_is ty val _) eqn:Q; [|reflexivity]. apply guard_is_iff in Q. exfalso. revert Q. apply (go_internal _ _ _ _ _ _ _ G).
      apply (keeps_sub _ _ _ _ Hk) in Hx. compiled Hm. rewrite (visits_det _ _ _ _ (flat_visits m Hc) _ Hv) in Hx.
      rewrite <- internal_rows_eq in Hx. apply (internal_all_iff m Hc). exact Hx. }
  cbn [length]. rewrite Nat.add_0_r. cbn [Nat.add].
  transitivity (if place_eq_dec (p, SState a) pl then length (filter (fun x => guard_is ty val (x_guard x)) flat) else 0).
  2:{ rewrite (flat_guards flat Hv). reflexivity. }
  assert (D : forall x, In x flat -> declared env root x).
  { intros x Hx. destruct (visits_all env root flat Hv) as (P & N & B & E). apply (Permutation_in _ E) in Hx.
    apply in_flat_map in Hx. destruct Hx as ([l q] & Hl & Hx). apply in_map_iff in Hx. destruct Hx as (r & <- & Hr).
    exists q, r. split; [|auto]. eapply path_used; [constructor|]. apply B. exact Hl. }
  clear Hv Hk. induction flat as [|x flat IH]; [now destruct (place_eq_dec _ _)|].
  assert (D' : forall y, In y flat -> declared env root y) by (intros y Hy; apply D; now right).
  specialize (IH D'). specialize (D x (or_introl eq_refl)).
  change (rows_at (is_composite env) (children env) e pl (x :: flat))
    with ((if ev_eq_dec (x_ev x) e then flat_map (fun po => if place_eq_dec (fst po) pl then [CRow x (snd po)] else [])
                 (offers (is_composite env) (children env) x) else []) ++ rows_at (is_composite env) (children env) e pl flat).
  rewrite filter_app, app_length, IH. cbn [filter]. destruct (guard_is ty val (x_guard x)) eqn:Q.
  - pose proof Q as Q'. apply guard_is_iff in Q'. destruct (go_rows _ _ _ _ _ _ _ G x D Q') as (Ep & Es & Ee).
    destruct (ev_eq_dec (x_ev x) e) as [_|]; [|contradiction].
    assert (O : offers (is_composite env) (children env) x = [((p, SState a), SState a)]).
    { unfold offers. assert (S : source_place x = (p, SState a)).
      { unfold source_place, unmarked in *. destruct (x_src x); try discriminate; rewrite Ep; congruence. }
      rewrite S. cbn [snd]. f_equal. destruct (x_int x); [reflexivity|]. destruct (x_src x); try reflexivity. cbn in Es. injection Es as ->.
      destruct (is_composite env a) eqn:Ic; [|reflexivity]. exfalso. apply (go_leaf _ _ _ _ _ _ _ G). unfold is_composite in Ic; intros Z; rewrite Z in Ic; discriminate. }
    rewrite O. cbn [flat_map fst snd app]. destruct (place_eq_dec (p, SState a) pl); cbn [filter app cand_asks length]; [|reflexivity].
    rewrite Q. reflexivity.
  - rewrite (filter_none _ (if ev_eq_dec _ _ then _ else _)); [now destruct (place_eq_dec _ _)|].
    intros c H. destruct (ev_eq_dec _ _); [|destruct H]. apply in_flat_map in H. destruct H as (po & _ & H).
    destruct (place_eq_dec (fst po) pl); [|destruct H]. destruct H as [<-|[]]. exact Q.
Qed.

Lemma asks_times ds cs : length (filter (fun k => if who_dec k (CGuard ty val) then true else false)
    (map fst (flat_map (asks m e) (bind_all ds cs)))) = length ds * length (filter (cand_asks ty val) cs).
Proof.
  induction ds as [|d ds IH]; [reflexivity|]. change (bind_all (d :: ds) cs) with (map (pair d) cs ++ bind_all ds cs).
  rewrite flat_map_app, map_app, filter_app, app_length. cbn [length Nat.mul].
  f_equal; [|exact IH]. clear. induction cs as [|c cs IH]; [reflexivity|]. cbn [map flat_map]. rewrite map_app, filter_app, app_length, IH. cbn [filter].
  destruct c as [|x o]; [reflexivity|]. cbn. destruct (x_guard x) as [|ty' val']; [reflexivity|]. cbn [map fst filter guard_is].
  destruct (who_dec _ _) as [E|E].
  - injection E as -> ->. now rewrite !Nat.eqb_refl.
  - destruct (Nat.eqb_spec ty ty') as [->|]; [|reflexivity]. destruct (Nat.eqb_spec val val') as [->|]; [contradiction E; reflexivity|reflexivity].
Qed.
End Count.

Lemma times_filter {V} k (ks : list (called V)) :
  times k ks = length (filter (fun k' => if who_dec k' k then true else false) (map fst (map signature ks))).
Proof.
  unfold times. rewrite map_map. induction ks as [|c ks IH]; [reflexivity|]. cbn [map count_occ filter].
  change (fst (signature c)) with (k_callee c). destruct (who_dec (k_callee c) k); cbn [length]; now rewrite IH.
Qed.

Section Asked.
Context {V W : Type}.
Variables (cb : cbfun V W) (env : cenv) (root : cls) (m : machine) (vnone : V) (ds : list dep) (d0 : dep) (s : rt V W).
Hypothesis Hs : running cb env root m vnone ds d0 s.

Lemma refused_asks ty val p a e ls fuel v (lists : nat -> list cand) :
  guards_only env root ty val p a e -> NoDup ls -> (forall l, In l ls <-> path env root l p) ->
  event_of env root e -> active m s < fuel ->
  (forall r, r < active m s -> exists pl, at_place m s r = Some pl /\ candidate_list env root e pl (lists r)) ->
  (exists r, r < active m s /\ lists r <> []) ->
  (forall r c, r < active m s -> In c (lists r) -> refuses cb m ds s e c) ->
  exists v' w' ks, process_event cb m vnone fuel e v s = Done (false, v') (after s w' ks) /\
    times (CGuard ty val) ks = regions_in m s (p, SState a) * (length ds * (length ls * rows_with env ty val p)).
Proof.
  intros G Hls Hpath He Hf Hpl Hne Hr. assert (Hm : compile env root = Some m) by apply Hs.
  destruct (process_refused cb env root m vnone ds d0 s Hs fuel e v lists He Hf Hpl Hne Hr) as (v' & w' & ks & E & S).
  exists v', w', ks. split; [exact E|]. rewrite times_filter, S. clear E S Hr Hne. unfold regions_in.
  assert (Hpl' : forall r, In r (seq 0 (active m s)) -> exists pl, at_place m s r = Some pl /\ candidate_list env root e pl (lists r)).
  { intros r H. apply in_seq in H. apply Hpl. lia. }
  clear Hpl. induction (seq 0 (active m s)) as [|r rs IH]; [reflexivity|].
  cbn [flat_map]. rewrite map_app, filter_app, app_length, IH by (intros r' H; apply Hpl'; now right).
  rewrite (asks_times m ty val). destruct (Hpl' r (or_introl eq_refl)) as (pl & Ep & C).
  rewrite (cands_guards env root m ty val p a e Hm G ls Hls Hpath pl _ C). cbn [filter]. rewrite Ep.
  destruct (place_eq_dec (p, SState a) pl), (place_eq_dec pl (p, SState a)); try congruence; cbn [length]; lia.
Qed.
End Asked.
