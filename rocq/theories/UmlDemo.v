(** Programs for C90. *)

From Coq Require Import List Arith NArith Bool Lia.
From Verif Require Import Types Static Dispatch Runtime Dsl Examples Programs IndexFacts Spec DispatchFacts Semantics Reach ReachFacts Demo
  Balance BalanceDemo Uml UmlFacts.
Import ListNotations.

(** The guards of the examples look at their type; or at their value. *)
Definition by_type (ty val : nat) (v w : nat) : bool := negb (Nat.eqb ty 0).
Lemma ex_pure : pure ex_cb by_type.
Proof. intros ty val a v w. reflexivity. Qed.
Lemma ex_calm : throws_nothing ex_cb.
Proof. intros [] a v w n v' w'; discriminate. Qed.
Definition by_value (ty val : nat) (v w : nat) : bool := negb (Nat.eqb val 0).
Definition val_cb : cbfun nat nat := fun c a v w =>
  match c with CGuard _ val => Ret (negb (Nat.eqb val 0)) v w | _ => Ret true v (S w) end.
Lemma val_pure : pure val_cb by_value.
Proof. intros ty val a v w. reflexivity. Qed.
Lemma val_calm : throws_nothing val_cb.
Proof. intros [] a v w n v' w'; discriminate. Qed.

(** After [ks] the active states are [up ++ [b]], and what [e] does then is not what UML says. *)
Definition deviates (cb : cbfun nat nat) says (env : cenv) (root : cls) (ks : list (call nat)) (e : ev) (up : config) (b : cls) : Prop :=
  exists m outs s o s' t, compile env root = Some m /\ session cb m 0 300 0 0 ks = Done outs s /\ at_place m s 0 = Some (last up root, SState b) /\
    do_call_catch cb m 0 300 (KProcess e 0) s = Done o s' /\ rt_trace s' = rt_trace s ++ t /\
    ~ (o = OBool true /\ exists v' k', reacts env root cb says 0 e 0 (up ++ [b]) (rt_world s) (deeds t) v' k' (rt_world s')) /\
    ~ (o = OBool false /\ deeds t = [] /\ stuck env root (holds says 0 (rt_world s)) e (up ++ [b])).

Module Odd.
Definition does s n a t := sea_to (st_ea s (event_action (EUser n) (Action a (ACall a)))) t.
Definition marked : cenv := [ (1, leaf_calls); (50, tbl [ go (star_state 1) 1 (state 2); go (state 2) 2 (state 1) ]) ].
Definition around : cenv := [ (4, leaf_calls); (11, tbl [ go (star_state 4) 5 (state 5) ]);
  (50, tbl [ go (star_state 1) 1 (state 11); go (state 11) 2 (state 1) ]) ].
Definition outer_first : cenv := [ (11, tbl [ does (star_state 4) 2 7 (state 5) ]);
  (50, tbl [ go (star_state 1) 1 (state 11); does (state 11) 2 8 (state 1) ]) ].
Definition nested : cenv := [ (12, tbl [ go (star_state 6) 5 (state 7) ]); (11, tbl [ go (star_state 4) 3 (state 12) ]);
  (50, tbl [ go (star_state 1) 1 (state 11); go (state 11) 2 (state 1) ]) ].
Definition unfinished : cenv := [ (2, leaf_calls); (11, tbl [ go (star_state 4) 5 (state 5) ]);
  (50, tbl [ go (star_state 1) 1 (state 11); st_to (state 11) (state 2) ]) ].
Definition at_start : cenv := [ (50, tbl [ st_to (star_state 1) (state 2) ]) ].
Definition merged : cenv := [ (2, mkCdef None (Some [ mkIrow (EUser 5) (Guard 1 0) (Action 7 (ACall 7)); mkIrow (EUser 5) (Guard 1 1) (Action 7 (ACall 7)) ]) false false false None true);
  (50, tbl [ go (star_state 1) 1 (state 2); go (state 2) 2 (state 1) ]) ].
End Odd.

(** ** Telling that something is no UML step *)
Lemma taken_odd cb says env root ks e up b m outs s s' t cs : compile env root = Some m -> session cb m 0 300 0 0 ks = Done outs s ->
  at_place m s 0 = Some (last up root, SState b) -> do_call_catch cb m 0 300 (KProcess e 0) s = Done (OBool true) s' -> rt_trace s' = rt_trace s ++ t ->
  map k_callee (deeds t) = cs ->
  (forall w t0 v' k' w', reacts env root cb says 0 e 0 (up ++ [b]) w t0 v' k' w' -> map k_callee t0 <> cs) -> deviates cb says env root ks e up b.
Proof.
  intros Hm Hs Ha Hc Et Ec N. exists m, outs, s, (OBool true), s', t. do 5 (split; [assumption|]). split; [|intros [E _]; discriminate].
  intros (_ & v' & k' & R). exact (N _ _ _ _ _ R Ec).
Qed.
Lemma refused_odd cb says env root ks e up b m outs s s' t : compile env root = Some m -> session cb m 0 300 0 0 ks = Done outs s ->
  at_place m s 0 = Some (last up root, SState b) -> do_call_catch cb m 0 300 (KProcess e 0) s = Done (OBool false) s' -> rt_trace s' = rt_trace s ++ t ->
  (forall w, ~ stuck env root (holds says 0 w) e (up ++ [b])) -> deviates cb says env root ks e up b.
Proof.
  intros Hm Hs Ha Hc Et N. exists m, outs, s, (OBool false), s', t. do 5 (split; [assumption|]). split; [intros [E _]; discriminate|].
  intros (_ & _ & St). exact (N _ St).
Qed.

(** All transitions of a configuration with one or two states. *)
Lemma transitions_top env root e b n g calls k' : transition env root e [b] n g calls k' ->
  (exists r t l, In r (table env root) /\ unmarked (r_src r) = SState b /\ r_ev r = e /\ r_tgt r = SState t /\ default_path env t l /\ n = 0 /\ g = r_guard r /\
     calls = exits env [b] ++ acts (r_act r) ++ entries env (t :: l) /\ k' = t :: l) \/
  (exists i, In i (internals env b) /\ i_ev i = e /\ n = 0 /\ g = i_guard i /\ calls = acts (i_act i)).
Proof.
  intros T. destruct T as [up s below r t l Ek Hr Hs Ev Hb Ht Dp|up s below i Ek Ii Ev Hb]; apply split_one in Ek; destruct Ek as (-> & -> & ->).
  - left. exists r, t, l. cbn. repeat (split; [assumption || reflexivity|]). reflexivity.
  - right. exists i. auto.
Qed.
Lemma transitions_two env root e c b n g calls k' : transition env root e [c; b] n g calls k' ->
  (exists r t l, In r (table env root) /\ unmarked (r_src r) = SState c /\ r_ev r = e /\ e <> ENone /\ r_tgt r = SState t /\ default_path env t l /\ n = 0 /\ g = r_guard r /\
     calls = exits env [c; b] ++ acts (r_act r) ++ entries env (t :: l) /\ k' = t :: l) \/
  (exists i, In i (internals env c) /\ i_ev i = e /\ n = 0 /\ g = i_guard i /\ calls = acts (i_act i)) \/
  (exists r t l, In r (table env c) /\ unmarked (r_src r) = SState b /\ r_ev r = e /\ r_tgt r = SState t /\ default_path env t l /\ n = 1 /\ g = r_guard r /\
     calls = exits env [b] ++ acts (r_act r) ++ entries env (t :: l) /\ k' = c :: t :: l) \/
  (exists i, In i (internals env b) /\ i_ev i = e /\ n = 1 /\ g = i_guard i /\ calls = acts (i_act i)).
Proof.
  intros T. destruct T as [up s below r t l Ek Hr Hs Ev Hb Ht Dp|up s below i Ek Ii Ev Hb]; apply split_two in Ek; destruct Ek as [(-> & -> & ->)|(-> & -> & ->)].
  - left. exists r, t, l. cbn. do 3 (split; [assumption|]). split; [intros E; specialize (Hb E); discriminate|]. repeat (split; [assumption || reflexivity|]). reflexivity.
  - do 2 right. left. exists r, t, l. cbn. repeat (split; [assumption || reflexivity|]). reflexivity.
  - right. left. exists i. auto.
  - do 3 right. exists i. auto.
Qed.
Lemma reacts_first env root (cb : cbfun nat nat) says e k w t0 v' k' w' : reacts env root cb says 0 e 0 k w t0 v' k' w' ->
  exists n g calls k1 w1 t1 rest, transition env root e k n g calls k1 /\ holds says 0 w g = true /\ map k_callee t0 = calls ++ map k_callee rest /\
    completes env root cb says 0 k1 w1 rest k' w' /\ map (@k_callee nat) t1 = calls /\
    forall n' g' calls' k'', transition env root e k n' g' calls' k'' -> holds says 0 w g' = true -> n' <= n.
Proof.
  intros (t1 & k1 & w1 & t2 & ((n & g & T & Hg & In_) & _) & C & ->). exists n, g, (map k_callee t1), k1, w1, t1, t2. rewrite map_app. auto 8.
Qed.
Ltac observed := first [vm_compute; reflexivity].
Lemma marked_odd : deviates ex_cb by_type Odd.marked 50 [] (EUser 1) [] 1.
Proof.
  eapply taken_odd; [observed|observed|observed|observed|observed|observed|]. intros w t0 v' k' w' R E.
  apply reacts_first in R. destruct R as (n & g & calls & k1 & w1 & t1 & rest & T & _ & Et & _). rewrite E in Et. apply transitions_top in T.
  destruct T as [(r & t & l & Hr & Hs & Ev & Ht & Dp & _ & _ & -> & _)|(i & Ii & _)]; [|destruct Ii]. vm_compute in Et. discriminate.
Qed.
Lemma around_odd : deviates ex_cb by_type Odd.around 50 [pe 1] (EUser 2) [11] 4.
Proof.
  eapply taken_odd; [observed|observed|observed|observed|observed|observed|]. intros w t0 v' k' w' R E.
  apply reacts_first in R. destruct R as (n & g & calls & k1 & w1 & t1 & rest & T & _ & Et & _). rewrite E in Et. apply transitions_two in T.
  destruct T as [(r & t & l & Hr & Hs & Ev & _ & Ht & Dp & _ & _ & -> & _)|[(i & Ii & _)|[(r & t & l & Hr & Hs & Ev & Ht & Dp & _ & _ & -> & _)|(i & Ii & _)]]]; try destruct Ii; vm_compute in Et; discriminate.
Qed.
Lemma inner_enabled : exists calls k', transition Odd.outer_first 50 (EUser 2) [11; 4] 1 NoGuard calls k'.
Proof.
  eexists. eexists. apply (ut_external Odd.outer_first 50 (EUser 2) [11; 4] [11] 4 [] (Odd.does (star_state 4) 2 7 (state 5)) 5 []); try reflexivity; [now left|].
  constructor. unfold composite. vm_compute. auto.
Qed.
Lemma outer_first_odd : deviates ex_cb by_type Odd.outer_first 50 [pe 1] (EUser 2) [11] 4.
Proof.
  eapply taken_odd; [observed|observed|observed|observed|observed|observed|]. intros w t0 v' k' w' R E.
  apply reacts_first in R. destruct R as (n & g & calls & k1 & w1 & t1 & rest & T & _ & Et & _ & _ & Inn). rewrite E in Et.
  destruct inner_enabled as (c2 & k2 & T2). specialize (Inn _ _ _ _ T2 eq_refl). apply transitions_two in T.
  destruct T as [(r & t & l & Hr & Hs & Ev & _ & Ht & Dp & -> & _)|[(i & Ii & _)|[(r & t & l & Hr & Hs & Ev & Ht & Dp & _ & _ & -> & _)|(i & Ii & _)]]]; try destruct Ii; [lia|].
  cbn in Hr. destruct Hr as [<-|[]]. vm_compute in Et. discriminate.
Qed.
Lemma nested_odd : deviates ex_cb by_type Odd.nested 50 [pe 1; pe 3] (EUser 2) [11; 12] 6.
Proof.
  eapply refused_odd; [observed|observed|observed|observed|observed|]. intros w St.
  assert (T : exists calls k', transition Odd.nested 50 (EUser 2) [11; 12; 6] 0 NoGuard calls k').
  { eexists. eexists. apply (ut_external Odd.nested 50 (EUser 2) [11; 12; 6] [] 11 [12; 6] (go (state 11) 2 (state 1)) 1 []); try reflexivity; [now right; left|discriminate|].
    constructor. unfold composite. vm_compute. auto. }
  destruct T as (calls & k' & T). specialize (St _ _ _ _ T). discriminate.
Qed.
Lemma unfinished_odd : deviates ex_cb by_type Odd.unfinished 50 [] (EUser 1) [] 1.
Proof.
  eapply taken_odd; [observed|observed|observed|observed|observed|observed|]. intros w t0 v' k' w' R E.
  apply reacts_first in R. destruct R as (n & g & calls & k1 & w1 & t1 & rest & T & _ & Et & C & _). rewrite E in Et. apply transitions_top in T.
  destruct T as [(r & t & l & Hr & Hs & Ev & Ht & Dp & _ & _ & -> & ->)|(i & Ii & _)]; [|destruct Ii].
  cbn in Hr. destruct Hr as [<-|[<-|[]]]; [|discriminate]. inversion Ht; subst t. clear Hs Ev Ht.
  inversion Dp as [s Hn|s i l0 Hc Hi Dp0]; subst; [exfalso; apply Hn; unfold composite; vm_compute; discriminate|].
  vm_compute in Hi. inversion Hi; subst i. inversion Dp0 as [s Hn|s i l1 Hc0 Hi0 Dp1]; subst; [|exfalso; apply Hc0; reflexivity].
  inversion C as [|v k w0 t2 v1 k2 w2 t3 k3 w3 D]; subst; [vm_compute in Et; discriminate|].
  destruct D as [(n2 & g2 & T2 & _) _]. apply transitions_two in T2.
  destruct T2 as [(r & t & l & _ & _ & _ & Ne & _)|[(i & Ii & _)|[(r & t & l & Hr & _ & Ev2 & _)|(i & Ii & _)]]]; try destruct Ii; [now destruct Ne|].
  cbn in Hr. destruct Hr as [<-|[]]. discriminate.
Qed.
Lemma merged_odd : deviates val_cb by_value Odd.merged 50 [pe 1] (EUser 5) [] 2.
Proof.
  eapply refused_odd; [observed|observed|observed|observed|observed|]. intros w St.
  assert (T : transition Odd.merged 50 (EUser 5) [2] 0 (Guard 1 1) [CAction 7] [2]).
  { apply (ut_internal Odd.merged 50 (EUser 5) [2] [] 2 [] (mkIrow (EUser 5) (Guard 1 1) (Action 7 (ACall 7)))); try reflexivity; try discriminate. right. now left. }
  specialize (St _ _ _ _ T). discriminate.
Qed.
Lemma at_start_odd : exists m s, compile Odd.at_start 50 = Some m /\ session ex_cb m 0 300 0 0 [] = Done [] s /\ in_config m 50 s [1] /\ rt_trace s = [] /\
  ~ stuck Odd.at_start 50 (fun _ => true) ENone [1].
Proof.
  eexists. eexists. split; [observed|]. split; [observed|]. split; [exists (50, SState 1); split; [observed|constructor]|]. split; [reflexivity|].
  intros St. assert (T : exists calls k', transition Odd.at_start 50 ENone [1] 0 NoGuard calls k').
  { eexists. eexists. apply (ut_external Odd.at_start 50 ENone [1] [] 1 [] (st_to (star_state 1) (state 2)) 2 []); try reflexivity; [now left|].
    constructor. unfold composite. vm_compute. auto. }
  destruct T as (calls & k' & T). specialize (St _ _ _ _ T). discriminate.
Qed.

(** ** Programs that are UML state machines *)
Module Busy.
Definition env : cenv :=
 [ (2, leaf_calls); (5, mkCdef None None true false false None true); (4, mkCdef None (Some [ mkIrow (EUser 5) NoGuard (Action 5 (ACall 5)); mkIrow (EUser 7) fail (Action 7 (ACall 7)) ]) true false false None true);
   (11, mkCdef (Some [ Odd.does (star_state 4) 2 2 (state 5); sa_to (st_action (state 5) (Action 4 (ACall 4))) (state 4) ])
      (Some [ mkIrow (EUser 6) NoGuard (Action 6 (ACall 6)) ]) true true false None true);
   (50, tbl [ Odd.does (star_state 1) 1 1 (state 11); Odd.does (state 11) 3 3 (state 2); Odd.does (state 2) 4 9 (state 1) ]) ].
End Busy.
Lemma player_uml V W (f : callee -> args -> V -> W -> W) says m vnone :
  (forall ty val a v w, f (CGuard ty val) a v w = w) -> (forall ty val v w, says ty val v w = true) ->
  compile CdPlayer.env CdPlayer.CdPlayer = Some m ->
  forall fuel d w ks os s fuel' e v o s', (forall r p q, ~ In (KSet r p q) ks) ->
  session (plain_user f) m vnone fuel d w ks = Done os s -> do_call_catch (plain_user f) m vnone fuel' (KProcess e v) s = Done o s' ->
  exists k k' t, in_config m CdPlayer.CdPlayer s k /\ in_config m CdPlayer.CdPlayer s' k' /\ rt_trace s' = rt_trace s ++ t /\
    ((o = OBool true /\ exists v', reacts CdPlayer.env CdPlayer.CdPlayer (plain_user f) says vnone e v k (rt_world s) (deeds t) v' k' (rt_world s')) \/
     (o = OBool false /\ k' = k /\ deeds t = [] /\ stuck CdPlayer.env CdPlayer.CdPlayer (holds says v (rt_world s)) e k)).
Proof.
  intros Hf Hs Hm. apply event_uml; [|intros k a v w n v' w'; discriminate|exact Hm|apply uml_ok_sound; vm_compute; reflexivity].
  intros ty val a v w. unfold plain_user. now rewrite Hf, Hs.
Qed.
