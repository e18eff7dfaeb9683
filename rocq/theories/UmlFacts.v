(** Proofs about Uml.v. *)

From Coq Require Import List Arith NArith Bool Lia.
From Verif Require Import Types Static Dispatch Runtime ListFacts IndexFacts Spec
  DispatchFacts FlattenFacts Semantics RefineFacts StaticFacts TermFacts Reach ReachFacts TableFacts
  QueryFacts ProcessFacts RegionFacts CallFacts StepFacts TrapFacts HistFacts Graph GraphExact Balance BalanceFacts Law LawFacts Uml.
Import ListNotations.

Lemma split_one {A} (a : A) up s below : [a] = up ++ s :: below -> up = [] /\ s = a /\ below = [].
Proof. destruct up as [|u up]; cbn; intros E; inversion E; auto. destruct up; discriminate. Qed.
Lemma split_two {A} (a b : A) up s below : [a; b] = up ++ s :: below ->
  (up = [] /\ s = a /\ below = [b]) \/ (up = [a] /\ s = b /\ below = []).
Proof.
  destruct up as [|u up]; cbn; intros E; inversion E; subst; [left; auto|]. apply split_one in H1. destruct H1 as (-> & -> & ->). now right.
Qed.

Section Program.
Variables (env : cenv) (root : cls).
Hypothesis U : uml_like env root.
Hypothesis Fresh : forall p, used env root p -> ~ child env p (SState root).

Lemma used_top c : used env root c -> c <> root -> composite env c /\ child env root (SState c).
Proof.
  intros H Hn. destruct H as [|p r c Hp Hr Hl Hc]; [congruence|]. split; [exact Hc|].
  destruct (ul_rows _ _ U p r Hp Hr) as [_ (t & Ht)]. rewrite Ht in Hl. inversion Hl; subst.
  assert (Ch : child env p (SState c)) by (exists r; split; [exact Hr|right; now symmetry]).
  now rewrite <- (proj1 (ul_depth _ _ U p c Hp Ch Hc)).
Qed.

(** Where the machine can be. *)
Definition good (pl : place) : Prop := exists s, snd pl = SState s /\ ~ composite env s /\ used env root (fst pl) /\ child env (fst pl) (SState s).

Lemma initial_good p i : used env root p -> initial_states env p = [SState i] -> good (p, SState i).
Proof.
  intros Hp E. assert (Hf : first_initial env p = Some (SState i)) by (unfold first_initial; now rewrite E).
  destruct (first_initial_written env p i Hf) as (w & r & Hr & Hw). exists i. cbn [fst snd]. split; [reflexivity|].
  destruct Hw as [Hw|Hw].
  - split; [apply (ul_marked _ _ U p r w i Hp Hr Hw)|]. split; [exact Hp|]. exists r. split; [exact Hr|]. left. now rewrite Hw.
  - destruct (ul_rows _ _ U p r Hp Hr) as [_ (t & Ht)]. congruence.
Qed.

(** What a declared row does. *)
Lemma declared_row x : declared env root x -> exists r s t, used env root (x_parent x) /\ In r (table env (x_parent x)) /\
  x = row_in (x_parent x) r /\ unmarked (r_src r) = SState s /\ r_tgt r = SState t.
Proof.
  intros (p & r & Hp & Hr & ->). destruct (ul_rows _ _ U p r Hp Hr) as [(s & Hs) (t & Ht)]. exists r, s, t. cbn. auto.
Qed.
Lemma src_place x s : unmarked (x_src x) = SState s -> source_place x = (x_parent x, SState s).
Proof. unfold source_place. destruct (x_src x); cbn; intros E; inversion E; reflexivity. Qed.

Lemma target_good p r t : used env root p -> In r (table env p) -> r_tgt r = SState t ->
  exists pl l, target_place env (row_in p r) = Some pl /\ good pl /\ default_path env t l /\
    entries env (t :: l) = entry_call env (row_in p r) ++ initial_entry_call env (row_in p r) /\
    (composite env t -> p = root /\ exists i, l = [i] /\ pl = (t, SState i)) /\ (~ composite env t -> l = [] /\ pl = (p, SState t)).
Proof.
  intros Hp Hr Ht. unfold target_place, entry_call, initial_entry_call. cbn [x_tgt x_int x_parent row_in]. rewrite Ht.
  assert (Ch : child env p (SState t)) by (exists r; split; [exact Hr|right; now symmetry]).
  destruct (is_composite env t) eqn:Ec.
  - apply is_composite_iff in Ec. assert (Ut : used env root t) by (eapply used_sub; eauto; rewrite Ht; constructor).
    destruct (ul_initial _ _ U t Ut) as (i & Ei). pose proof (initial_good t i Ut Ei) as G.
    assert (Hf : first_initial env t = Some (SState i)) by (unfold first_initial; now rewrite Ei). rewrite Hf. cbn [option_map].
    exists (t, SState i), [i]. split; [reflexivity|]. split; [exact G|].
    destruct G as (s & E & Hl & _). cbn in E. inversion E; subst s.
    split; [eapply dp_down; eauto; now constructor|]. split; [unfold entries; cbn; now rewrite app_nil_r|].
    split; [intros _; split; [exact (proj1 (ul_depth _ _ U p t Hp Ch Ec))|eauto]|contradiction].
  - assert (Hn : ~ composite env t) by (intros H; apply is_composite_iff in H; congruence).
    exists (p, SState t), []. split; [reflexivity|]. split; [exists t; auto|]. split; [now constructor|].
    split; [unfold entries; cbn; now rewrite app_nil_r|]. split; [contradiction|auto].
Qed.

Lemma exit_unmarked p r s : used env root p -> In r (table env p) -> unmarked (r_src r) = SState s ->
  exit_call env (row_in p r) = if has_exit env s then [CExit s] else [].
Proof.
  intros Hp Hr Hs. unfold exit_call. cbn [x_int x_src row_in]. destruct (r_src r) as [d|w d| | | |] eqn:E; cbn in Hs; inversion Hs; subst; [reflexivity|].
  destruct (ul_marked _ _ U p r w s Hp Hr E) as [_ ->]. reflexivity.
Qed.

Lemma no_root_leaf s p : used env root p -> child env p (SState s) -> s <> root.
Proof. intros Hp Hc ->. exact (Fresh p Hp Hc). Qed.
Lemma config_of pl : good pl -> exists k, config_at root pl k.
Proof.
  intros (s & E & _). destruct pl as [p q]. cbn in E. subst q. destruct (Nat.eq_dec p root) as [->|]; eexists; [apply ca_top|now apply ca_inner].
Qed.

Definition landing (x : xrow) (pl pl' : place) : Prop := if x_int x then pl' = pl else target_place env x = Some pl'.

Lemma config_target p r t pl l (up : config) : used env root p -> In r (table env p) -> r_tgt r = SState t ->
  (composite env t -> p = root /\ exists i, l = [i] /\ pl = (t, SState i)) -> (~ composite env t -> l = [] /\ pl = (p, SState t)) ->
  (p = root -> up = []) -> (p <> root -> up = [p]) -> config_at root pl (up ++ t :: l).
Proof.
  intros Hp Hr Ht C1 C2 U1 U2. assert (Ch : child env p (SState t)) by (exists r; split; [exact Hr|right; now symmetry]).
  destruct (is_composite env t) eqn:Ec.
  - apply is_composite_iff in Ec. destruct (C1 Ec) as (-> & i & -> & ->). rewrite U1 by reflexivity. cbn. apply ca_inner.
    exact (no_root_leaf t root Hp Ch).
  - assert (Hn : ~ composite env t) by (intros H; apply is_composite_iff in H; congruence). destruct (C2 Hn) as [-> ->].
    destruct (Nat.eq_dec p root) as [->|N]; [rewrite U1 by reflexivity; apply ca_top|rewrite U2 by exact N; now apply ca_inner].
Qed.

(** An internal candidate comes from the state or from the composite around it. *)
Lemma internal_at e p s y o : good (p, SState s) -> candidate env root e (p, SState s) (CRow y o) -> x_int y = true ->
  exists c i, In i (internals env c) /\ i_ev i = e /\ x_guard y = i_guard i /\ x_act y = i_act i /\ unmarked (x_tgt y) = SState s /\
  (c = s \/ c = p /\ p <> root /\ composite env p /\ child env root (SState p)) /\ x_parent y = p.
Proof.
  intros (s0 & E0 & Nl & Up & Ch) H Hi. cbn [fst snd] in *. inversion E0; subst s0. clear E0.
  remember (p, SState s) as pl eqn:Epl. remember (CRow y o) as cd eqn:Ecd.
  destruct H as [x D Ev|x c q D Ev Hs Hcc Hch|x D Ev|]; inversion Ecd; subst; try (destruct D as (p1 & r1 & _ & _ & ->); discriminate).
  destruct D as [p1 c i q Oc Cc Ii Wr|p1 c i Oc Nc Ii].
  - assert (Uc : used env root c /\ c <> root /\ child env root (SState c)).
    { inversion Oc as [E1 E2|p2 s2 Hp2 Hc2]; subst; [rewrite (ul_root _ _ U) in Ii; destruct Ii|].
      destruct (ul_depth _ _ U p1 c Hp2 Hc2 Cc) as [-> Uc]. split; [exact Uc|]. split; [exact (no_root_leaf c root Hp2 Hc2)|exact Hc2]. }
    destruct Uc as (Uc & Nc & Chc). destruct Wr as (r & Hr & Hq). destruct (ul_rows _ _ U c r Uc Hr) as [(s1 & Hs1) (t1 & Ht1)].
    assert (Q : c = p /\ unmarked q = SState s).
    { revert Epl. unfold source_place. cbn [x_src x_parent]. destruct Hq as [-> | ->]; [destruct (r_src r); cbn in Hs1; inversion Hs1; subst|rewrite Ht1];
      intros E; inversion E; subst; auto. }
    destruct Q as [-> Q]. exists p, i. cbn [x_ev x_guard x_act x_tgt x_parent]. repeat (split; auto).
  - unfold source_place in Epl. cbn in Epl. inversion Epl; subst. exists s, i. cbn. repeat (split; auto).
Qed.

(** An external candidate starts in the state or in the composite around it. *)
Lemma external_at e p s x o : good (p, SState s) -> candidate env root e (p, SState s) (CRow x o) -> x_int x = false ->
  exists r, In r (table env (x_parent x)) /\ x = row_in (x_parent x) r /\ r_ev r = e /\ used env root (x_parent x) /\
  (x_parent x = p /\ unmarked (r_src r) = SState s \/ x_parent x = root /\ r_src r = SState p /\ composite env p /\ p <> root).
Proof.
  intros (s0 & E0 & Nl & Up & Ch) H Hi. cbn [fst snd] in *. inversion E0; subst s0. clear E0.
  remember (p, SState s) as pl eqn:Epl. remember (CRow x o) as cd eqn:Ecd.
  destruct H as [x0 D Ev|x0 c q D Ev Hs Hcc Hch|x0 D Ev|]; inversion Ecd; subst.
  - destruct (declared_row x D) as (r & s1 & t1 & Hp & Hr & Ex & Hs1 & Ht1). exists r. split; [exact Hr|]. split; [exact Ex|].
    split; [now rewrite Ex|]. split; [exact Hp|]. left. rewrite Ex in Epl. cbn [x_parent row_in] in Epl.
    rewrite (src_place (row_in (x_parent x) r) s1) in Epl by exact Hs1. inversion Epl; subst. cbn in *. auto.
  - inversion Epl; subst. destruct (declared_row x D) as (r & s1 & t1 & Hp & Hr & Ex & Hs1 & Ht1). exists r. split; [exact Hr|]. split; [exact Ex|].
    split; [now rewrite Ex|]. split; [exact Hp|]. right. rewrite Ex in Hs. cbn in Hs. rewrite Hs in Hs1. cbn in Hs1.
    assert (Chp : child env (x_parent x) (SState p)) by (exists r; split; [exact Hr|left; now rewrite Hs]).
    destruct (ul_depth _ _ U (x_parent x) p Hp Chp Hcc) as [E _]. split; [exact E|]. split; [exact Hs|]. split; [exact Hcc|]. exact (no_root_leaf p _ Hp Chp).
  - exfalso. destruct D; discriminate.
Qed.

Lemma exits_one s : exits env [s] = if has_exit env s then [CExit s] else [].
Proof. unfold exits. cbn. apply app_nil_r. Qed.

Lemma config_inv p s k : config_at root (p, SState s) k -> p = root /\ k = [s] \/ p <> root /\ k = [p; s].
Proof. intros K. inversion K; subst; auto. Qed.

Theorem cand_transition e pl x o k : good pl -> config_at root pl k -> candidate env root e pl (CRow x o) ->
  exists n k' pl', transition env root e k n (x_guard x) (row_calls env x) k' /\ landing x pl pl' /\ good pl' /\ config_at root pl' k'.
Proof.
  intros G K Ca. destruct pl as [p q]. pose proof G as (s & Eq & Nl & Up & Ch). cbn [fst snd] in *. subst q.
  destruct (x_int x) eqn:Hi.
  - destruct (internal_at e p s x o G Ca Hi) as (c & i & Ii & Ev & Eg & Ea & Et & Wc & _).
    assert (Ec : row_calls env x = acts (i_act i)).
    { unfold row_calls, exit_call, entry_call, action_calls, initial_entry_call. rewrite Hi, Ea. cbn [app].
      destruct (x_tgt x) as [t|w t| | | |]; cbn in Et; inversion Et; subst; [|now rewrite app_nil_r].
      destruct (is_composite env s) eqn:Ec; [apply is_composite_iff in Ec; contradiction|]. now rewrite app_nil_r. }
    assert (Land : landing x (p, SState s) (p, SState s)) by (unfold landing; now rewrite Hi).
    rewrite Ec, Eg. destruct (config_inv p s k K) as [[-> ->]|[Nc ->]].
    + destruct Wc as [->|(_ & N & _)]; [|now destruct N]. exists 0, [s], (root, SState s).
      split; [apply (ut_internal env root e [s] [] s [] i); auto|]. auto.
    + exists (if Nat.eq_dec c s then 1 else 0), [p; s], (p, SState s).
      split; [|auto]. destruct (Nat.eq_dec c s) as [->|N].
      * apply (ut_internal env root e [p; s] [p] s [] i); auto.
      * destruct Wc as [->|(-> & _ & Cc & Cr)]; [now destruct N|]. apply (ut_internal env root e [p; s] [] p [s] i); auto.
        intros E. exfalso. apply (ul_named_internal _ _ U i p Ii). now rewrite Ev.
  - destruct (external_at e p s x o G Ca Hi) as (r & Hr & Ex & Ev & Hp & Wc).
    destruct (ul_rows _ _ U _ r Hp Hr) as [_ (t & Ht)]. destruct (target_good _ r t Hp Hr Ht) as (pl' & l & Tp & Gl & Dp & En & C1 & C2).
    rewrite <- Ex in Tp, En.
    assert (Eg : x_guard x = r_guard r) by now rewrite Ex. assert (Ea : action_calls x = acts (r_act r)) by now rewrite Ex.
    assert (Land : landing x (p, SState s) pl') by (unfold landing; now rewrite Hi).
    unfold row_calls. rewrite Eg, Ea, <- En. destruct Wc as [[Ep Hs]|(Ep & Hs & Cp & Np)].
    + assert (Exc : exit_call env x = exits env [s]) by (rewrite Ex, exits_one; now apply exit_unmarked). rewrite Exc.
      destruct (config_inv p s k K) as [[Er ->]|[Nc ->]].
      * assert (Er' : x_parent x = root) by congruence. exists 0, (t :: l), pl'. split; [|split; [exact Land|split; [exact Gl|]]].
        -- apply (ut_external env root e [s] [] s [] r t l); auto. cbn [last]. now rewrite <- Er'.
        -- apply (config_target (x_parent x) r t pl' l []); auto. intros N. now destruct N.
      * exists 1, (p :: t :: l), pl'. split; [|split; [exact Land|split; [exact Gl|]]].
        -- apply (ut_external env root e [p; s] [p] s [] r t l); auto. cbn [last]. now rewrite <- Ep.
        -- apply (config_target (x_parent x) r t pl' l [p]); auto; [congruence|]. intros _. now rewrite Ep.
    + assert (Hr' : In r (table env root)) by now rewrite <- Ep.
      assert (Exc : exit_call env x = exits env [p; s]).
      { unfold exits. cbn. rewrite app_nil_r. rewrite (ul_exits _ _ U r p s Hr' Hs Cp Ch). cbn. rewrite Ex.
        unfold exit_call. cbn. now rewrite Hs. }
      rewrite Exc. destruct (config_inv p s k K) as [[Er ->]|[Nc ->]]; [contradiction|].
      exists 0, (t :: l), pl'. split; [|split; [exact Land|split; [exact Gl|]]].
      * apply (ut_external env root e [p; s] [] p [s] r t l); auto; [now rewrite Hs|].
        intros E. exfalso. apply (ul_named_rows _ _ U r p Hr'); [now rewrite Hs|exact Cp|congruence].
      * apply (config_target (x_parent x) r t pl' l []); auto. intros N. contradiction.
Qed.

(** ** The other way round *)
Theorem transition_cand e pl k n g calls k' : good pl -> config_at root pl k -> transition env root e k n g calls k' ->
  exists x o, candidate env root e pl (CRow x o) /\ x_guard x = g /\ (x_int x = true -> exists i c, In i (internals env c) /\ x_act x = i_act i /\ i_guard i = g /\ i_ev i = e /\
    (c = fst pl /\ fst pl <> root \/ snd pl = SState c)).
Proof.
  intros G K T. destruct pl as [p q]. pose proof G as (s & Eq & Nl & Up & Ch). cbn [fst snd] in *. subst q.
  assert (Top : p <> root -> composite env p /\ child env root (SState p)) by (intros N; now apply used_top).
  destruct T as [up s1 below r t l Ek Hr Hs Ev Hb Ht Dp|up s1 below i Ek Ii Ev Hb].
  - assert (Own : In r (table env p) -> s1 = s -> exists x o, candidate env root e (p, SState s) (CRow x o) /\ x_guard x = r_guard r /\ x_int x = false).
    { intros Hin ->. exists (row_in p r), (SState s). split; [|split; reflexivity].
      assert (D : declared env root (row_in p r)) by (exists p, r; auto).
      pose proof (cand_source env root e (row_in p r) D Ev) as C. rewrite (src_place _ s) in C by exact Hs. exact C. }
    assert (Done : (exists x o, candidate env root e (p, SState s) (CRow x o) /\ x_guard x = r_guard r /\ x_int x = false)).
    { destruct (config_inv p s k K) as [[-> ->]|[Nc ->]].
      - apply split_one in Ek. destruct Ek as (-> & -> & ->). now apply Own.
      - apply split_two in Ek. destruct Ek as [(-> & -> & ->)|(-> & -> & ->)]; [|now apply Own].
        destruct (Top Nc) as [Cp Cr]. cbn [last] in Hr. exists (row_in root r), (SState p). split; [|split; reflexivity].
        apply cand_enclosing; auto; [exists root, r; split; [constructor|auto]|].
        cbn. destruct (r_src r) as [d|w d| | | |] eqn:Es; cbn in Hs; inversion Hs; subst; [reflexivity|].
        destruct (ul_marked _ _ U root r w p (used_root _ _) Hr Es) as [N _]. contradiction. }
    destruct Done as (x & o & C1 & C2 & C3). exists x, o. split; [exact C1|]. split; [exact C2|]. congruence.
  - assert (Own : s1 = s -> exists x o, candidate env root e (p, SState s) (CRow x o) /\ x_guard x = i_guard i /\ x_act x = i_act i).
    { intros ->. exists (mkXrow p (SState s) (i_ev i) (i_guard i) (i_act i) (SState s) true), (SState s). split; [|split; reflexivity].
      refine (cand_internal env root e (mkXrow p (SState s) (i_ev i) (i_guard i) (i_act i) (SState s) true) _ Ev).
      apply (di_leaf env root p s i); auto. now constructor. }
    destruct (config_inv p s k K) as [[-> ->]|[Nc ->]].
    + apply split_one in Ek. destruct Ek as (-> & -> & ->). destruct (Own eq_refl) as (x & o & C1 & C2 & C3). exists x, o. split; [exact C1|]. split; [exact C2|].
      intros _. exists i, s. repeat (split; auto).
    + apply split_two in Ek. destruct Ek as [(-> & -> & ->)|(-> & -> & ->)].
      * destruct (Top Nc) as [Cp Cr]. destruct Ch as (r & Hr & Hsr).
        assert (W : exists q, written_in env p q /\ unmarked q = SState s).
        { destruct Hsr as [E|E]; [exists (r_src r)|exists (r_tgt r)]; (split; [exists r; auto|rewrite <- E; reflexivity]). }
        destruct W as (q & Wq & Uq). pose (x := mkXrow p q (i_ev i) (i_guard i) (i_act i) q true).
        exists x, (snd (source_place x)). split; [|split; [reflexivity|intros _; exists i, p; repeat (split; auto)]].
        change (p, SState s) with (x_parent x, SState s). rewrite <- (src_place x s) by exact Uq. apply cand_internal; [|exact Ev]. apply (di_composite env root root p i q); auto. constructor; auto. constructor.
      * destruct (Own eq_refl) as (x & o & C1 & C2 & C3). exists x, o. split; [exact C1|]. split; [exact C2|].
        intros _. exists i, s. repeat (split; auto).
Qed.

(** All transitions about one event start on one level. *)
Theorem one_level e pl k n g calls k' n2 g2 calls2 k2 : good pl -> config_at root pl k ->
  transition env root e k n g calls k' -> transition env root e k n2 g2 calls2 k2 -> n2 = n.
Proof.
  intros G K. destruct pl as [p q]. pose proof G as (s & Eq & Nl & Up & Ch). cbn [fst snd] in *. subst q.
  assert (Top : p <> root -> composite env p /\ child env root (SState p)) by (intros N; now apply used_top).
  destruct (config_inv p s k K) as [[-> ->]|[Nc ->]].
  - intros T T2. assert (Z : forall n g calls k', transition env root e [s] n g calls k' -> n = 0).
    { intros n0 g0 c0 k0 T0. destruct T0 as [up s1 below r t l Ek|up s1 below i Ek]; apply split_one in Ek; destruct Ek as (-> & _); reflexivity. }
    now rewrite (Z _ _ _ _ T), (Z _ _ _ _ T2).
  - destruct (Top Nc) as [Cp Cr]. clear K.
    assert (Z : forall n g calls k', transition env root e [p; s] n g calls k' ->
      n = 0 /\ ((exists r, In r (table env root) /\ unmarked (r_src r) = SState p /\ r_ev r = e) \/ (exists i, In i (internals env p) /\ i_ev i = e)) \/
      n = 1 /\ ((exists r, In r (table env p) /\ r_ev r = e) \/ (exists i, In i (internals env s) /\ i_ev i = e))).
    { intros n0 g0 c0 k0 T0. destruct T0 as [up s1 below r t l Ek Hr Hs Ev|up s1 below i Ek Ii Ev]; apply split_two in Ek;
        destruct Ek as [(-> & -> & ->)|(-> & -> & ->)]; cbn [last length] in *; [left|right|left|right]; (split; [reflexivity|]);
        [left; exists r|left; exists r|right; exists i|right; exists i]; auto. }
    assert (X : ((exists r, In r (table env root) /\ unmarked (r_src r) = SState p /\ r_ev r = e) \/ (exists i, In i (internals env p) /\ i_ev i = e)) ->
      ((exists r, In r (table env p) /\ r_ev r = e) \/ (exists i, In i (internals env s) /\ i_ev i = e)) -> False).
    { intros [(r & Hr & Hs & Ev)|(i & Ii & Ev)] [(r' & Hr' & Ev')|(i' & Ii' & Ev')].
      - destruct (ul_levels_rows _ _ U r p Hr Hs Cp) as [L _]. apply (L r' Hr'). congruence.
      - destruct (ul_levels_rows _ _ U r p Hr Hs Cp) as [_ L]. apply (L s i' Ch Ii'). congruence.
      - destruct (ul_levels_internal _ _ U i p Cr Cp Ii) as [L _]. apply (L r' Hr'). congruence.
      - destruct (ul_levels_internal _ _ U i p Cr Cp Ii) as [_ L]. apply (L s i' Ch Ii'). congruence. }
    intros T T2. apply Z in T, T2. destruct T as [[-> A]|[-> A]], T2 as [[-> B]|[-> B]]; try reflexivity; exfalso; eauto.
Qed.
End Program.

(** * Steps *)
Section Steps.
Context {V W : Type}.
Variable cb : cbfun V W.
Variable says : nat -> nat -> V -> W -> bool.
Hypothesis Pure : pure cb says.
Hypothesis Quiet : throws_nothing cb.

Definition idle (t : list (called V)) : Prop := deeds t = [].
Lemma deeds_app (a b : list (called V)) : deeds (a ++ b) = deeds a ++ deeds b.
Proof. apply filter_app. Qed.
Lemma scan_pure m e bs v w ks vd v' w' : scan cb m e bs v w ks vd v' w' -> v' = v /\ w' = w /\ idle ks /\
  match vd with
  | VNone => forall d x o, In (d, CRow x o) bs -> holds says v w (x_guard x) = false
  | VPick d x o => In (d, CRow x o) bs /\ holds says v w (x_guard x) = true
  | VDefer => exists d, In (d, CDefer) bs
  | VRaise _ => False
  end.
Proof.
  intros H. induction H as [v w|d bs v w|d x o bs v w Eg|d x o bs v w ty val v' w' Eg Ec|d x o bs v w ty val v1 w1 ks vd v' w' Eg Ec H IH|d x o bs v w ty val n v' w' Eg Ec].
  - repeat split. intros d x o [].
  - repeat split. exists d. now left.
  - repeat split; [now left|]. now rewrite Eg.
  - rewrite Pure in Ec. inversion Ec as [[E1 E2 E3]]. subst. split; [reflexivity|]. split; [reflexivity|]. split; [reflexivity|]. split; [now left|]. rewrite Eg. cbn. congruence.
  - rewrite Pure in Ec. inversion Ec as [[E1 E2 E3]]; subst. destruct IH as (-> & -> & Id & IH). split; [reflexivity|]. split; [reflexivity|]. split; [exact Id|].
    destruct vd; try exact IH.
    + intros d1 x1 o1 [E|Hin]; [inversion E; subst; rewrite Eg; cbn; congruence|eauto].
    + destruct IH as [I1 I2]. split; [now right|exact I2].
    + destruct IH as [d1 I1]. exists d1. now right.
  - rewrite Pure in Ec. discriminate.
Qed.

Lemma body_keeps a t b p : In p (body_calls a t b) -> p_keep p = keeps (p_callee p).
Proof.
  revert p. induction b as [f|f|f|l IH] using abody_ind2; intros p; cbn [body_calls]; try (intros [<-|[]]; reflexivity).
  intros H. apply in_flat_map in H. destruct H as (b & Hb & Hk). rewrite Forall_forall in IH. exact (IH b Hb p Hk).
Qed.
Lemma effects_keeps env x o p : In p (effects env x o) -> p_keep p = keeps (p_callee p).
Proof.
  unfold effects. rewrite !in_app_iff. intros [H|[H|[H|H]]]; try (apply in_map_iff in H; destruct H as (k & <- & Hk); cbn).
  - apply exit_plain in Hk. destruct Hk as [c ->]. reflexivity.
  - destruct (x_act x); [destruct H|eapply body_keeps; exact H].
  - destruct (entry_plain env x k (in_or_app _ _ _ (or_introl Hk))) as [c ->]. reflexivity.
  - destruct (entry_plain env x k (in_or_app _ _ _ (or_intror Hk))) as [c ->]. reflexivity.
Qed.
Lemma perform_plays e d o ps v live w ks on v' live' w' : perform cb e d o ps v live w ks on v' live' w' ->
  (forall p, In p ps -> p_keep p = keeps (p_callee p)) -> on = None /\ plays cb ks v w v' w'.
Proof.
  intros H. induction H as [v live w|p ps v live w b v1 w1 ks n v' live' w' Ec H IH|p ps v live w n v1 w1 Ec]; intros K.
  - split; [reflexivity|constructor].
  - destruct IH as [-> IH]; [intros q Hq; apply K; now right|]. split; [reflexivity|].
    apply (pl_call cb (mkCall (p_callee p) (mkArgs e o (p_targ p) d) v) ks w b v1 w1); [exact Ec|]. cbn [k_callee k_payload].
    rewrite <- (K p) by now left. exact IH.
  - exfalso. eapply Quiet; eauto.
Qed.
Lemma row_deeds env x k : In k (row_calls env x) -> is_deed k = true.
Proof.
  unfold row_calls. rewrite !in_app_iff. intros [H|[H|H]].
  - apply exit_plain in H. destruct H as [c ->]. reflexivity.
  - apply action_plain in H. destruct k; try reflexivity; destruct H.
  - apply in_app_iff, entry_plain in H. destruct H as [c ->]. reflexivity.
Qed.
Lemma all_deeds (t : list (called V)) l : map k_callee t = l -> (forall k, In k l -> is_deed k = true) -> deeds t = t.
Proof.
  intros E H. unfold deeds. assert (F : forall k, In k t -> is_deed (k_callee k) = true) by (intros k Hk; apply H; rewrite <- E; now apply in_map).
  clear E H. induction t as [|k t IH]; [reflexivity|]. cbn. rewrite (F k) by now left. f_equal. apply IH. intros q Hq. apply F. now right.
Qed.

Variables (env : cenv) (root : cls) (m : machine) (vnone : V).
Hypothesis Hm : compile env root = Some m.
Hypothesis U : uml_like env root.
Notation st := (rt V W).

Lemma Fresh p : used env root p -> ~ child env p (SState root).
Proof. apply (co_fresh_root _ _ (proj1 (compile_compiles env root) (Logic.ex_intro _ m Hm))). Qed.
Lemma one_region : max_initials m = 1.
Proof.
  assert (S : single env root) by (intros p [Up _]; destruct (ul_initial _ _ U p Up) as (i & ->); cbn; lia).
  exact (single_max env root m Hm S).
Qed.
Lemma no_history : has_history m = false.
Proof.
  destruct (has_history m) eqn:E; [|reflexivity]. apply (history_iff _ _ m Hm) in E. destruct E as (y & w0 & p & Hy & Hz).
  destruct (declared_row env root U y Hy) as (r & s & t & _ & _ & Ey & _ & Ht). rewrite Ey in Hz. cbn in Hz. congruence.
Qed.
Lemma no_deferral e pl : ~ candidate env root e pl CDefer.
Proof.
  intros H. inversion H as [| | |x c D Hs Hd]; subst. destruct (declared_row env root U x D) as (r & s & t & Up & Hr & Ey & Hs' & Ht).
  assert (Ch : child env (x_parent x) (SState c)) by (exists r; split; [exact Hr|left; rewrite Ey in Hs; cbn in Hs; now symmetry]).
  rewrite (ul_defer _ _ U _ _ Up Ch) in Hd. destruct Hd.
Qed.

(** ** One region *)
Lemma bound_cand ds e pl d c : In (d, c) (bound m ds e pl) -> In c (cands m e pl).
Proof.
  unfold bound. intros H. apply in_flat_map in H. destruct H as (d1 & _ & H). apply in_map_iff in H. destruct H as (q & Eq & H). inversion Eq; subst. exact H.
Qed.
Lemma cand_bound ds e pl c : ds <> [] -> In c (cands m e pl) -> exists d, In (d, c) (bound m ds e pl).
Proof.
  intros Hd H. destruct ds as [|d ds]; [now destruct Hd|]. exists d. unfold bound. apply in_flat_map. exists d. split; [now left|]. now apply in_map.
Qed.
Lemma stuck_of ds e pl k (G : guard -> bool) : ds <> [] -> good env root pl -> config_at root pl k ->
  (forall d x o, In (d, CRow x o) (bound m ds e pl) -> G (x_guard x) = false) -> stuck env root G e k.
Proof.
  intros Hd Gd K H n g calls k' T. destruct (compile_comp _ _ _ Hm) as (Hc & Ee & Er).
  destruct (transition_cand env root U Fresh e pl k n g calls k' Gd K T) as (x & o & Ca & Eg & Hi).
  assert (Cs : forall c, In c (cands m e pl) -> candidate env root e pl c) by (intros c Hin; rewrite <- Ee, <- Er; now apply (cands_sound m Hc)).
  assert (Cc := Ca). rewrite <- Ee, <- Er in Cc. apply (cands_complete m Hc) in Cc.
  destruct (x_int x) eqn:Ex.
  - destruct Cc as (y & Hy & Ky & Iy). destruct (Hi eq_refl) as (i & c & Ii & Ea & Eg' & Ev & Wc). clear Hi.
    pose proof Gd as Gd'. destruct pl as [p q]. destruct Gd' as (s & Eq & Nl & Up & Ch). cbn [fst snd] in *. subst q.
    destruct (internal_at env root U Fresh e p s y o Gd (Cs _ Hy) Iy) as (c' & i' & Ii' & Ev' & Eyg & Eya & _ & Wc' & _).
    assert (Same : i = i').
    { unfold xrow_key in Ky. injection Ky as K1 K2 K3 K4 K5 K6. rewrite Eyg, Eg, <- Eg' in K4. rewrite Eya, Ea in K5.
      assert (Cls : c' = c -> i = i') by (intros ->; apply (ul_types _ _ U c); congruence || assumption).
      destruct Wc as [[-> Np]|E]; [|inversion E; subst c]; destruct Wc' as [->|(-> & Np' & Cp & Cr)]; try (apply Cls; reflexivity); exfalso.
      - destruct (used_top env root U p Up Np) as [Cp Cr]. destruct (ul_levels_internal _ _ U i p Cr Cp Ii) as [_ L]. apply (L s i' Ch Ii'). congruence.
      - destruct (ul_levels_internal _ _ U i' p Cr Cp Ii') as [_ L]. apply (L s i Ch Ii). congruence. }
    subst i'. destruct (cand_bound ds e (p, SState s) _ Hd Hy) as [d Hb]. rewrite <- Eg', <- Eyg. eapply H; eauto.
  - destruct (cand_bound ds e pl _ Hd Cc) as [d Hb]. rewrite <- Eg. eapply H; eauto.
Qed.

Definition inv (s : st) (pl : place) (k : config) : Prop :=
  at_place m s 0 = Some pl /\ good env root pl /\ config_at root pl k /\ rt_queue s = [].

Lemma good_place pl : good env root pl -> is_place env root pl.
Proof.
  intros (s & E & _ & Up & Ch). destruct pl as [p q]. cbn in *. subst q. split; cbn.
  - split; [exact Up|]. destruct Ch as (r & Hr & _). intros E. rewrite E in Hr. destruct Hr.
  - right. exists p. auto.
Qed.

Lemma moves_here x (s s1 : st) : moves m 0 x s s1 -> x_int x = true /\ s1 = s \/ x_int x = false /\ exists pl, target_place (mc_env m) x = Some pl /\ s1 = relocate m 0 (code m pl) s.
Proof.
  pose proof no_history as Nh. intros Mv. destruct Mv as [s Hi|s pl Hi Hn Ht _|s pl Hi Hn|s w p c Hi Hn]; [auto|right; eauto|congruence|congruence].
Qed.

Lemma step_uml ds e v s vd v' s' pl k : ds <> [] -> inv s pl k -> region_step cb m ds 0 e v s vd v' s' ->
  (quiet vd /\ v' = v /\ rt_world s' = rt_world s /\ inv s' pl k /\ stuck env root (holds says v (rt_world s)) e k /\
     exists gs, rt_trace s' = rt_trace s ++ gs /\ idle gs) \/
  (exists x t pl' k', vd = RFired x /\ rt_trace s' = rt_trace s ++ t /\ does env root cb says e v k (rt_world s) (deeds t) v' k' (rt_world s') /\ inv s' pl' k').
Proof.
  intros Hd (Hat & Gd & K & Hq) H. destruct (compile_comp _ _ _ Hm) as (Hc & Ee & Er).
  assert (Cs : forall d c, In (d, c) (bound m ds e pl) -> candidate env root e pl c) by (intros d c Hin; rewrite <- Ee, <- Er; apply (cands_sound m Hc); now apply bound_cand in Hin).
  assert (Fired : forall ks d x o v1 w1 on v2 s2, scan cb m e (bound m ds e pl) v (rt_world s) ks (VPick d x o) v1 w1 -> executes cb m 0 e d x o v1 (after s w1 ks) on v2 s2 ->
    on = None /\ exists t pl' k', rt_trace s2 = rt_trace s ++ t /\ does env root cb says e v k (rt_world s) (deeds t) v2 k' (rt_world s2) /\ inv s2 pl' k').
  { intros ks d x o v1 w1 on v2 s2 Hs Hx. apply scan_pure in Hs. destruct Hs as (-> & -> & Id & Hin & Hg). pose proof (Cs _ _ Hin) as Ca.
    destruct (cand_transition env root U Fresh e pl x o k Gd K Ca) as (n & k' & pl' & T & Land & Gd' & K').
    inversion Hx as [v3 s0 s1 ks2 n0 v4 live' w' Mv Pf]; subst v3 s0 v2 s2 n0.
    destruct (perform_plays _ _ _ _ _ _ _ _ _ _ _ _ Pf (effects_keeps _ x o)) as [-> Pl]. split; [reflexivity|].
    pose proof (perform_calls cb _ _ _ _ _ _ _ _ _ _ _ _ Pf) as [P1 P2]. rewrite P2, firstn_all2 in P1 by (rewrite map_length; lia). rewrite effects_signature in P1. unfold row_signature in P1. apply callees_of in P1.
    assert (S1 : rt_world s1 = rt_world s /\ rt_trace s1 = rt_trace s ++ ks /\ rt_queue s1 = rt_queue s /\ at_place m s1 0 = Some pl').
    { unfold landing in Land. destruct (moves_here _ _ _ Mv) as [[Hi ->]|(Hi & pl2 & Ht & ->)]; rewrite Hi in Land.
      - subst pl'. cbn. auto.
      - rewrite Ee, Land in Ht. inversion Ht; subst pl2. destruct (relocate_rest m 0 (code m pl') (after s (rt_world s) ks)) as (R1 & _ & R3 & R4 & _).
        split; [exact R3|]. split; [exact R4|]. split; [exact R1|]. apply at_place_relocate.
        + cbn. unfold at_place in Hat. destruct (rt_cur s); [discriminate|cbn; lia].
        + apply good_place in Gd'. rewrite <- Ee, <- Er in Gd'. apply (place_iff m Hc) in Gd'. destruct Gd' as [G1 G2]. destruct pl'. now apply (decode_code m Hc). }
    destruct S1 as (Sw & St & Sq & Sp). rewrite Ee in P1.
    exists (ks ++ ks2), pl', k'. cbn [rt_trace rt_world with_live after with_user]. split; [rewrite St; now rewrite app_assoc|].
    assert (Dd : deeds (ks ++ ks2) = ks2) by (rewrite deeds_app, Id; apply (all_deeds ks2 _ P1), row_deeds). rewrite Dd. split.
    - split; [|rewrite Sw in Pl; exact Pl]. rewrite P1. exists n, (x_guard x). split; [exact T|]. split; [exact Hg|].
      intros n2 g2 c2 k2 T2 _. rewrite (one_level env root U Fresh e pl k _ _ _ _ _ _ _ _ Gd K T T2). lia.
    - split; [exact Sp|]. split; [exact Gd'|]. split; [exact K'|]. cbn. congruence. }
  destruct H as [v s pl0|v s pl0 ks v' w' Hat0 Hb Hs|v s pl0 ks d x o v1 w1 v' s' Hat0 Hs Hx|v s pl0 ks v' w' Hat0 Hs|v s pl0 ks n v' w' Hat0 Hs|v s pl0 ks d x o v1 w1 n v' s' Hat0 Hs Hx];
    assert (pl0 = pl) by congruence; subst pl0.
  - left. split; [now left|]. split; [reflexivity|]. split; [reflexivity|]. split; [split; auto|]. split; [|exists []; rewrite app_nil_r; split; reflexivity].
    apply (stuck_of ds e pl k _ Hd Gd K). intros d x o Hin. rewrite H0 in Hin. destruct Hin.
  - apply scan_pure in Hs. destruct Hs as (-> & -> & Id & Hn). left. split; [now right|]. split; [reflexivity|]. split; [reflexivity|]. split; [split; auto|].
    split; [|exists ks; split; [reflexivity|exact Id]]. exact (stuck_of ds e pl k _ Hd Gd K Hn).
  - right. destruct (Fired _ _ _ _ _ _ _ _ _ Hs Hx) as (_ & t & pl' & k' & E1 & E2 & E3). exists x, t, pl', k'. auto.
  - exfalso. apply scan_pure in Hs. destruct Hs as (_ & _ & _ & d & Hin). exact (no_deferral _ _ (Cs _ _ Hin)).
  - exfalso. now apply scan_pure in Hs.
  - exfalso. destruct (Fired _ _ _ _ _ _ _ _ _ Hs Hx) as (E & _). discriminate.
Qed.

(** ** The whole event *)
Lemma run_one ds e v s vds v' s' : regions_run cb m ds e 1 0 v s vds v' s' -> exists vd, vds = [vd] /\ region_step cb m ds 0 e v s vd v' s'.
Proof.
  intros H. inversion H; subst; [lia|eauto|]. match goal with X : regions_run _ _ _ _ 1 1 _ _ _ _ _ |- _ => inversion X; subst; try lia end. eauto.
Qed.
Lemma pass_one ds v s vds en v' s' : anon_pass cb m ds 1 0 v s vds en v' s' -> exists vd, vds = [vd] /\ region_step cb m ds 0 ENone v s vd v' s' /\
  match en with PeComplete => True | PeEmptyRegion => vd = RNothing | PeThrew n => threw vd = Some n end.
Proof.
  intros H. inversion H; subst; [lia|eauto|eauto|]. match goal with X : anon_pass _ _ _ 1 1 _ _ _ _ _ _ |- _ => inversion X; subst; try lia end. eauto.
Qed.
Lemma active_here (s : st) : active m s = 1.
Proof. unfold active, parallel. now rewrite one_region. Qed.

Lemma anonymous_uml ds v s vdss on s' : ds <> [] -> anonymous cb m ds v s vdss on s' -> forall pl k, inv s pl k ->
  on = None /\ exists t pl' k', rt_trace s' = rt_trace s ++ t /\ completes env root cb says v k (rt_world s) (deeds t) k' (rt_world s') /\ inv s' pl' k'.
Proof.
  intros Hd H. induction H as [v s vds v' s' P|v s vds n v' s' P|v s vds v' s' P F|v s vds v1 s1 rest n s' P F H IH]; intros pl k I;
    rewrite active_here in P; apply pass_one in P; destruct P as (vd & -> & Hs & Hen); destruct (step_uml _ _ _ _ _ _ _ _ _ Hd I Hs) as [(Q & -> & Ew & I' & St & gs & Eg & Id)|(x & t & pl' & k' & -> & Et & D & I')];
    try discriminate.
  - split; [reflexivity|]. exists gs, pl, k. split; [exact Eg|]. rewrite Id, Ew. split; [now constructor|exact I'].
  - destruct Q as [-> | ->]; discriminate.
  - split; [reflexivity|]. exists gs, pl, k. split; [exact Eg|]. rewrite Id, Ew. split; [now constructor|exact I'].
  - destruct Q as [-> | ->]; discriminate.
  - destruct (IH _ _ I') as (-> & t2 & pl2 & k2 & E2 & C2 & I2). split; [reflexivity|]. exists (t ++ t2), pl2, k2. split; [rewrite E2, Et; now rewrite app_assoc|].
    split; [|exact I2]. rewrite deeds_app. eapply co_more; eauto.
Qed.

Lemma process_uml ds d0 e v s vds rp s' pl k : ds <> [] -> inv s pl k -> process cb m ds vnone d0 e v s vds rp s' ->
  (exists v' t pl' k', rp = Returned true v' /\ rt_trace s' = rt_trace s ++ t /\ reacts env root cb says vnone e v k (rt_world s) (deeds t) v' k' (rt_world s') /\ inv s' pl' k') \/
  (exists v' t, rp = Returned false v' /\ rt_trace s' = rt_trace s ++ t /\ deeds t = [] /\ stuck env root (holds says v (rt_world s)) e k /\ inv s' pl k).
Proof.
  intros Hd I P. destruct (compile_comp _ _ _ Hm) as (Hc & Ee & Er).
  assert (O : forall vds avds oe v1 s1, offer cb m ds vnone e v s vds avds oe v1 s1 ->
    (oe = OfHandled /\ exists t pl' k', rt_trace s1 = rt_trace s ++ t /\ reacts env root cb says vnone e v k (rt_world s) (deeds t) v1 k' (rt_world s1) /\ inv s1 pl' k') \/
    ((oe = OfUnhandled \/ oe = OfRefused) /\ exists gs, rt_trace s1 = rt_trace s ++ gs /\ idle gs /\ stuck env root (holds says v (rt_world s)) e k /\ inv s1 pl k)).
  { intros vds0 avds oe v1 s1 H.
    assert (One : forall l v2 s2, regions_run cb m ds e (active m s) 0 v s l v2 s2 -> exists vd, l = [vd] /\
      ((quiet vd /\ v2 = v /\ rt_world s2 = rt_world s /\ inv s2 pl k /\ stuck env root (holds says v (rt_world s)) e k /\ exists gs, rt_trace s2 = rt_trace s ++ gs /\ idle gs) \/
       (exists x t pl' k', vd = RFired x /\ rt_trace s2 = rt_trace s ++ t /\ does env root cb says e v k (rt_world s) (deeds t) v2 k' (rt_world s2) /\ inv s2 pl' k'))).
    { intros l v2 s2 R. rewrite active_here in R. apply run_one in R. destruct R as (vd & -> & R). exists vd. split; [reflexivity|]. eapply step_uml; eauto. }
    assert (Qt : forall vd, quiet vd -> fired vd = false) by (intros vd [-> | ->]; reflexivity).
    destruct H as [v s vds0 v' s3 R Hu|v s vds0 v' s3 R Hs Hu Hf|v s vds0 v' s3 R Hf|v s vds0 vd n v' s3 R Ht|v s vds0 v' s2 avds s3 R Hs Hf Ha|v s vds0 v' s2 avds n s3 R Hs Hf Ha An];
      apply One in R; destruct R as (vd1 & El & [(Q & Ev & Ew & I' & St & gs & Eg & Id)|(x & t & pl' & k' & -> & Et & D & I')]).
    - right. split; [now left|]. exists gs. auto.
    - subst. discriminate.
    - right. split; [now right|]. exists gs. auto.
    - subst. discriminate.
    - exfalso. subst. destruct Q as [-> | ->]; discriminate.
    - subst. discriminate.
    - exfalso. destruct vds0 as [|a [|]]; inversion El; subst. destruct Q as [-> | ->]; discriminate.
    - exfalso. destruct vds0 as [|a [|]]; inversion El; subst. discriminate.
    - exfalso. subst. cbn in Hf. rewrite orb_false_r in Hf. rewrite (Qt _ Q) in Hf. discriminate.
    - left. split; [reflexivity|]. destruct (has_anonymous m) eqn:Ea.
      + destruct (anonymous_uml _ _ _ _ _ _ Hd Ha _ _ I') as (_ & t2 & pl2 & k2 & E2 & C2 & I2). exists (t ++ t2), pl2, k2. split; [rewrite E2, Et; now rewrite app_assoc|].
        split; [|exact I2]. rewrite deeds_app. exists (deeds t), k', (rt_world s2), (deeds t2). auto.
      + destruct Ha as [_ ->]. exists t, pl', k'. split; [exact Et|]. split; [|exact I']. exists (deeds t), k', (rt_world s2), []. split; [exact D|]. split; [|now rewrite app_nil_r].
        constructor. destruct I' as (_ & Gd' & K' & _).
        apply (stuck_of ds ENone pl' k' _ Hd Gd' K'). intros d x0 o Hin. exfalso. apply bound_cand in Hin. apply (cands_sound m Hc) in Hin. rewrite Ee, Er in Hin.
        assert (N : ~ exists y, declared env root y /\ x_ev y = ENone) by (intros N; apply (anonymous_iff env root m Hm) in N; congruence).
        destruct pl' as [p q]. pose proof Gd' as (s0 & Eq & _). cbn in Eq. subst q. destruct (x_int x0) eqn:Ei.
        * destruct (internal_at env root U Fresh ENone p s0 x0 o Gd' Hin Ei) as (c & i & Ii & Ev & _). exact (ul_named_internal _ _ U i c Ii Ev).
        * destruct (external_at env root U Fresh ENone p s0 x0 o Gd' Hin Ei) as (r & Hr & Ex & Ev & Up & _). apply N. exists x0. split; [exists (x_parent x0), r; auto|now rewrite Ex].
    - exfalso. subst. cbn in Hf. rewrite orb_false_r in Hf. rewrite (Qt _ Q) in Hf. discriminate.
    - exfalso. destruct (anonymous_uml _ _ _ _ _ _ Hd An _ _ I') as (E & _). discriminate. }
  destruct P as [v s vds v1 s1 n v' s' Of Ux|v s vds oe v' s' Of Oe|v s vds avds n v' s' Of|v s vds avds v' s1 n s' Of Rc].
  - apply O in Of. destruct Of as [[E _]|(_ & gs & Eg & Id & St & I')]; [discriminate|]. right.
    destruct Ux as [v1 s1 _|v1 s1 pl1 b v' w' _ _ Ec|v1 s1 pl1 n v' w' _ _ Ec].
    + exists v1, gs. auto.
    + exists v', (gs ++ [mkCall CHandler (mkArgs e (snd pl1) TNone d0) v1]). split; [reflexivity|]. split; [cbn; rewrite Eg; now rewrite app_assoc|].
      split; [rewrite deeds_app, Id; reflexivity|]. auto.
    + exfalso. eapply Quiet; eauto.
  - apply O in Of. destruct Of as [[E _]|(_ & gs & Eg & Id & St & I')]; [destruct Oe; congruence|]. right. exists v', gs. auto.
  - apply O in Of. destruct Of as [[E _]|([E|E] & _)]; discriminate.
  - apply O in Of. destruct Of as [[_ (t & pl' & k' & Et & Re & I')]|([E|E] & _)]; try discriminate. left.
    assert (E : n = None /\ s' = s1).
    { destruct (has_deferred m); [|exact Rc]. destruct I' as (_ & _ & _ & Hq). destruct Rc; [auto|congruence]. }
    destruct E as [-> ->]. exists v', t, pl', k'. auto.
Qed.
End Steps.

(** * Sessions *)
Section Sessions.
Context {V W : Type}.
Variable cb : cbfun V W.
Variable says : nat -> nat -> V -> W -> bool.
Hypothesis Pure : pure cb says.
Hypothesis Quiet : throws_nothing cb.
Variables (env : cenv) (root : cls) (m : machine) (vnone : V).
Hypothesis Hm : compile env root = Some m.
Hypothesis U : uml_like env root.
Notation st := (rt V W).

Lemma few_here : few_regions env root.
Proof. intros p [Up _]. destruct (ul_initial _ _ U p Up) as (i & ->). cbn. lia. Qed.
Lemma fresh_inv d w (s : st) : fresh m d w s -> exists i, initial_states env root = [SState i] /\ inv env root m s (root, SState i) [i].
Proof.
  intros F. destruct (compile_comp _ _ _ Hm) as (Hc & Ee & Er). destruct (ul_initial _ _ U root (used_root _ _)) as (i & Ei). exists i. split; [exact Ei|].
  pose proof (initial_good env root U root i (used_root _ _) Ei) as G. split; [|split; [exact G|split; [constructor|]]].
  - destruct F as (_ & Hcur & _). unfold at_place. rewrite Hcur, initials_spec, Ee, Er, Ei. cbn [nth_error].
    apply good_place in G. rewrite <- Ee, <- Er in G. apply (place_iff m Hc) in G. destruct G as [G1 G2]. rewrite Er in G1. now apply (decode_code m Hc).
  - apply F.
Qed.
Lemma call_uml ds d0 s fuel k o s' pl c : reachable cb m vnone ds d0 s -> inv env root m s pl c -> (forall r p q, k <> KSet r p q) ->
  do_call_catch cb m vnone fuel k s = Done o s' ->
  (exists pl' c', inv env root m s' pl' c') /\
  (forall e v, k = KProcess e v -> exists t, rt_trace s' = rt_trace s ++ t /\
     ((o = OBool true /\ exists v' c' pl', inv env root m s' pl' c' /\ reacts env root cb says vnone e v c (rt_world s) (deeds t) v' c' (rt_world s')) \/
      (o = OBool false /\ inv env root m s' pl c /\ deeds t = [] /\ stuck env root (holds says v (rt_world s)) e c))).
Proof.
  destruct (compile_comp _ _ _ Hm) as (Hc & Ee & Er). intros R I Hk H. pose proof (few_max_compiled _ _ _ Hm few_here) as Hmax.
  pose proof (reachable_call cb m Hc vnone Hmax ds d0 s fuel k o s' R H) as E. pose proof (reachable_deps cb m vnone ds d0 s R) as Hd.
  destruct k as [e v|r p q|p|r p q|d|]; cbn [call_effect] in E.
  - destruct E as (vds & rp & P & ->). destruct (process_uml cb says Pure Quiet env root m vnone Hm U ds d0 e v s vds rp s' pl c Hd I P) as [(v' & t & pl' & k' & -> & Et & Re & I')|(v' & t & -> & Et & Dd & St & I')].
    + split; [eauto|]. intros e0 v0 E0. inversion E0; subst. exists t. split; [exact Et|]. left. split; [reflexivity|]. exists v', k', pl'. auto.
    + split; [eauto|]. intros e0 v0 E0. inversion E0; subst. exists t. split; [exact Et|]. right. auto.
  - subst. split; [eauto|]. discriminate.
  - subst. split; [eauto|]. discriminate.
  - exfalso. exact (Hk _ _ _ eq_refl).
  - destruct E as (_ & t & _ & ->). split; [|discriminate]. exists pl, c. exact I.
  - subst. split; [eauto|]. discriminate.
Qed.
Lemma run_inv fuel : forall ks ds d0 s os s' pl c, (forall r p q, ~ In (KSet r p q) ks) -> reachable cb m vnone ds d0 s ->
  run cb m vnone fuel ks s = Done os s' -> inv env root m s pl c -> exists pl' c', inv env root m s' pl' c'.
Proof.
  induction ks as [|k ks IH]; intros ds d0 s os s' pl c Hk R H HI; cbn [run] in H.
  - inversion H; subst. eauto.
  - apply bind_Done in H. destruct H as (o & s1 & H1 & H). apply bind_Done in H. destruct H as (os' & s2 & H2 & H). inversion H; subst.
    destruct (call_uml ds d0 s fuel k o s1 pl c R HI) as [(pl' & c' & I') _]; [intros r p q ->; eapply Hk; now left|exact H1|].
    eapply (IH (deps_after k ds) d0 s1); eauto; [intros r p q Hq; eapply Hk; right; eauto|eapply reach_call; eauto].
Qed.

Lemma start_uml fuel d w os s : session cb m vnone fuel d w [] = Done os s ->
  exists i, initial_states env root = [SState i] /\ in_config m root s [i] /\ rt_trace s = [] /\ forall G, stuck env root G ENone [i].
Proof.
  intros H. unfold session in H. apply bind_Done in H. destruct H as ([] & s0 & H0 & H). inversion H; subst.
  destruct (compile_comp _ _ _ Hm) as (Hc & _ & _). pose proof (few_max_compiled _ _ _ Hm few_here) as Hmax.
  destruct (construct_sound m Hc _ _ _ _ (root_initials_le m Hc Hmax) H0) as [Fr _]. destruct (fresh_inv _ _ _ Fr) as (i & Ei & I).
  exists i. split; [exact Ei|]. split; [exists (root, SState i); split; apply I|]. split; [apply Fr|].
  intros G n g calls k' T. exfalso. inversion T as [up s1 below r t l Ek Hr Hs Ev|up s1 below j Ek Ij Ev]; apply split_one in Ek; destruct Ek as (-> & -> & ->).
  - exact (ul_start _ _ U r i Ei Hr Hs Ev).
  - exact (ul_named_internal _ _ U j i Ij Ev).
Qed.
Theorem event_uml fuel d w ks os s fuel' e v o s' : (forall r p q, ~ In (KSet r p q) ks) ->
  session cb m vnone fuel d w ks = Done os s -> do_call_catch cb m vnone fuel' (KProcess e v) s = Done o s' ->
  exists k k' t, in_config m root s k /\ in_config m root s' k' /\ rt_trace s' = rt_trace s ++ t /\
    ((o = OBool true /\ exists v', reacts env root cb says vnone e v k (rt_world s) (deeds t) v' k' (rt_world s')) \/
     (o = OBool false /\ k' = k /\ deeds t = [] /\ stuck env root (holds says v (rt_world s)) e k)).
Proof.
  intros Hk Hs H. unfold session in Hs. apply bind_Done in Hs. destruct Hs as ([] & s0 & H0 & Hr).
  destruct (compile_comp _ _ _ Hm) as (Hc & _ & _). pose proof (few_max_compiled _ _ _ Hm few_here) as Hmax.
  destruct (construct_sound m Hc _ _ _ _ (root_initials_le m Hc Hmax) H0) as [Fr _]. destruct (fresh_inv _ _ _ Fr) as (i & _ & I0).
  assert (R0 : reachable cb m vnone [d] d s0) by (econstructor; eauto).
  destruct (run_inv fuel ks [d] d s0 os s _ _ Hk R0 Hr I0) as (pl & c & I). pose proof (run_reachable cb m vnone fuel ks [d] d s0 os s R0 Hr) as R.
  destruct (call_uml _ d s fuel' (KProcess e v) o s' pl c R I) as [_ X]; [discriminate|exact H|].
  destruct (X e v eq_refl) as (t & Et & [(-> & v' & c' & pl' & I' & Re)|(-> & I' & Dd & St)]).
  - exists c, c', t. split; [exists pl; split; apply I|]. split; [exists pl'; split; apply I'|]. split; [exact Et|]. left. split; [reflexivity|]. now exists v'.
  - exists c, c, t. split; [exists pl; split; apply I|]. split; [exists pl; split; apply I'|]. split; [exact Et|]. right. auto.
Qed.
End Sessions.

(** * The check *)
Section Check.
Variables (env : cenv) (root : cls).
Lemma composite_known c : composite env c -> In c (map fst env).
Proof.
  unfold composite. induction env as [|[c0 d0] l IH]; cbn [lookup map fst]; [intros H; now destruct H|].
  destruct (Nat.eq_dec c c0) as [->|]; [now left|]. intros H. right. auto.
Qed.
Lemma internal_known c i : In i (internals env c) -> In c (map fst env).
Proof.
  unfold internals. induction env as [|[c0 d0] l IH]; cbn [lookup map fst]; [intros []|].
  destruct (Nat.eq_dec c c0) as [->|]; [now left|]. intros H. right. auto.
Qed.
Lemma used_known p : used env root p -> In p (comps env root).
Proof.
  intros H. inversion H as [|p0 r c Hp Hr Hl Hc]; subst; [now left|]. right. apply filter_In. split; [now apply composite_known|now apply is_composite_iff].
Qed.
Lemma kids_iff p s : child env p s <-> In s (kids env p).
Proof.
  unfold child, kids. rewrite in_flat_map. split; intros (r & Hr & H); exists r; (split; [exact Hr|]); cbn in *; intuition (subst; auto).
Qed.
Lemma all_kids_in p f : all_kids env p f = true -> forall s, child env p (SState s) -> f s = true.
Proof. unfold all_kids. rewrite forallb_forall. intros H s Hs. apply kids_iff in Hs. exact (H _ Hs). Qed.
Lemma ev_neq a b : negb (ev_eqb a b) = true -> a <> b.
Proof. unfold ev_eqb. destruct (ev_eq_dec a b); [discriminate|auto]. Qed.
Lemma comp_or c b : negb (is_composite env c) || b = true -> composite env c -> b = true.
Proof. intros H Hc. apply is_composite_iff in Hc. now rewrite Hc in H. Qed.
Lemma silent_iff c e : silent_inside env c e = true ->
  (forall r', In r' (table env c) -> r_ev r' <> e) /\ (forall s i, child env c (SState s) -> In i (internals env s) -> i_ev i <> e).
Proof.
  unfold silent_inside. intros H. apply andb_true_iff in H. destruct H as [H1 H2]. split.
  - intros r Hr. rewrite forallb_forall in H1. now apply ev_neq, H1.
  - intros s i Hs Hi. pose proof (all_kids_in _ _ H2 s Hs) as H. cbn in H. rewrite forallb_forall in H. now apply ev_neq, H.
Qed.
Lemma apart_iff l : apart_types l = true -> forall i i', In i l -> In i' l -> i_ev i = i_ev i' -> guard_ty (i_guard i) = guard_ty (i_guard i') ->
  action_ty (i_act i) = action_ty (i_act i') -> i = i'.
Proof.
  induction l as [|j l IH]; cbn [apart_types]; [intros _ i i' []|]. intros H. apply andb_true_iff in H. destruct H as [H1 H2]. rewrite forallb_forall in H1.
  assert (N : forall i, In i l -> i_ev j = i_ev i -> guard_ty (i_guard j) = guard_ty (i_guard i) -> action_ty (i_act j) = action_ty (i_act i) -> False).
  { intros i Hi A B C. specialize (H1 i Hi). unfold ev_eqb in H1. rewrite A, B, C in H1. destruct (ev_eq_dec _ _), (onat_eq_dec (guard_ty _) _), (onat_eq_dec (action_ty _) _); cbn in H1; congruence. }
  intros i i' [<-|Hi] [<-|Hi'] A B C; auto; exfalso; eauto.
Qed.
Theorem uml_ok_sound : uml_ok env root = true -> uml_like env root.
Proof.
  unfold uml_ok. rewrite !andb_true_iff. intros [[[[[[[[[[A1 A2] A3] A4] A5] A6] A7] A8] A9] A10] A11].
  rewrite forallb_forall in A1, A2, A3, A4, A5, A6, A8, A11. constructor.
  - intros p r Hp Hr. specialize (A1 p (used_known p Hp)). rewrite forallb_forall in A1. specialize (A1 r Hr). apply andb_true_iff in A1. destruct A1 as [B1 B2].
    unfold leaf_state in *. split; [destruct (unmarked (r_src r)); try discriminate; eauto|destruct (r_tgt r); try discriminate; eauto].
  - intros p s Hp Hs Hc. pose proof (all_kids_in _ _ (A2 p (used_known p Hp)) s Hs) as B. apply comp_or in B; [|exact Hc]. apply andb_true_iff in B. destruct B as [B1 B2].
    apply Nat.eqb_eq in B1. split; [exact B1|]. apply existsb_exists in B2. destruct B2 as (r & Hr & B2). unfold leaf_state in B2.
    destruct (r_tgt r) as [t| | | | |] eqn:Et; try discriminate. apply Nat.eqb_eq in B2. subst t. eapply used_sub; [constructor|exact Hr|rewrite Et; constructor|exact Hc].
  - intros p Hp. specialize (A3 p (used_known p Hp)). destruct (initial_states env p) as [|[] [|]]; try discriminate. eauto.
  - intros p r w s Hp Hr E. specialize (A4 p (used_known p Hp)). rewrite forallb_forall in A4. specialize (A4 r Hr). rewrite E in A4. apply andb_true_iff in A4. destruct A4 as [B1 B2].
    apply negb_true_iff in B1, B2. split; [|exact B2]. intros Hc. apply is_composite_iff in Hc. congruence.
  - intros r c s Hr E Hc Hs. specialize (A5 r Hr). rewrite E in A5. apply comp_or in A5; [|exact Hc]. pose proof (all_kids_in _ _ A5 s Hs) as B. now apply negb_true_iff in B.
  - intros r c Hr E Hc. specialize (A6 r Hr). rewrite E in A6. apply comp_or in A6; [|exact Hc]. apply andb_true_iff in A6. apply silent_iff, A6.
  - intros i c Hs Hc Hi. pose proof (all_kids_in _ _ A7 c Hs) as B. cbn beta in B. apply comp_or in B; [|exact Hc]. rewrite forallb_forall in B. apply silent_iff. auto.
  - intros r c Hr E Hc. specialize (A6 r Hr). rewrite E in A6. apply comp_or in A6; [|exact Hc]. apply andb_true_iff in A6. apply ev_neq, A6.
  - intros i c Hi. specialize (A8 c (internal_known c i Hi)). apply andb_true_iff in A8. destruct A8 as [B1 _]. rewrite forallb_forall in B1. now apply ev_neq, B1.
  - intros r s E Hr Hs. rewrite E in A9. rewrite forallb_forall in A9. specialize (A9 r Hr). rewrite Hs in A9. destruct (sref_eq_dec (SState s) (SState s)) as [_|N]; [|now destruct N]. now apply ev_neq.
  - destruct (internals env root); [reflexivity|discriminate].
  - intros c i i' Hi. specialize (A8 c (internal_known c i Hi)). apply andb_true_iff in A8. destruct A8 as [_ B2]. revert Hi. now apply apart_iff.
  - intros p s Hp Hs. pose proof (all_kids_in _ _ (A11 p (used_known p Hp)) s Hs) as B. cbn beta in B. destruct (defers env s); [reflexivity|discriminate].
Qed.
End Check.
