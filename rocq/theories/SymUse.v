(** Uses of the tree of questions with data. *)

From Coq Require Import List Arith NArith Bool Lia.
From Verif Require Import Types Static Dispatch Runtime Dsl Examples IndexFacts DispatchFacts TermFacts TableFacts Data DataUse Script Explore ExploreUse ExploreTotal ExploreEnds
  Tree Equiv EquivTotal EquivUse SymTree SymEquiv SymEquivRun SymEquivTotal.
Import ListNotations.

(** The answers user code gives to a list of calls, with what it leaves in the event. *)
Fixpoint replies {V W} (cb : cbfun V W) (w : W) (l : list (called V)) : list (reply * V) :=
  match l with
  | [] => []
  | x :: l' =>
      match cb (k_callee x) (k_args x) (k_payload x) w with
      | Ret b v w' => (Say b, v) :: replies cb w' l'
      | Raise n v w' => (Fail n, v) :: replies cb w' l'
      end
  end.
(** The data by number: those the call begins with, then those user code left behind. *)
Definition known {V} (n : nat) (vals : nat -> V) (left : list V) (i : nat) : V := if Nat.ltb i n then vals i else nth (i - n) left (vals 0).
Lemma known_step {V} n (vals : nat -> V) v left i : 0 < n -> known (S n) (ext vals n v) left i = known n vals (v :: left) i.
Proof.
  intros Hn. unfold known. rewrite (ext_zero n vals v Hn). destruct (Nat.ltb_spec i (S n)) as [L|L], (Nat.ltb_spec i n) as [L'|L']; try lia; unfold ext.
  - destruct (Nat.eqb_spec i n); [lia|reflexivity].
  - replace i with n by lia. now rewrite Nat.eqb_refl, Nat.sub_diag.
  - replace (i - n) with (S (i - S n)) by lia. reflexivity.
Qed.
Lemma known_first {V} n (vals : nat -> V) left i : i < n -> known n vals left i = vals i.
Proof. intros H. unfold known. destruct (Nat.ltb_spec i n); [reflexivity|lia]. Qed.
Lemma known_queue {V W} n (vals : nat -> V) left x (w : W) tr : numbered n x -> map snd (rt_queue (fill vals x w tr)) = map (known n vals left) (numbers x).
Proof.
  intros H. rewrite queue_fill. apply map_ext_in. intros i Hi. symmetry. apply known_first. unfold numbers in Hi. apply in_map_iff in Hi as (q & <- & Hq). now apply H.
Qed.
Lemma tree_flow (t : tree (plain out)) : forall n p, 0 < n -> fits n t -> exists nums o c waiting, forall V W (cb : cbfun V W) vals w tr,
  match settled (interp cb n vals t w tr) with
  | Done o' s => exists T, rt_trace s = tr ++ T /\ (map fst (replies cb w T) = p ->
      map k_payload T = map (known n vals (map snd (replies cb w T))) nums /\ o' = o /\ config_of s = c /\
      map snd (rt_queue s) = map (known n vals (map snd (replies cb w T))) waiting)
  | _ => True
  end.
Proof.
  induction t as [a|g a i x yes IHy no IHn]; intros n p Hn F.
  - destruct (value a) as [[o x]|] eqn:E.
    + exists [], o, (config_of x), (numbers x). intros. rewrite settled_leaf, E. exists []. split; [cbn; now rewrite app_nil_r|]. intros _. split; [reflexivity|]. split; [reflexivity|].
      split; [apply config_fill|]. apply known_queue. destruct a; cbn in E; try discriminate; injection E as <- <-; cbn in F; tauto.
    + exists [], OUnit, (mkConfig [] [] [] 0 []), []. intros. rewrite settled_leaf, E. destruct a; exact I.
  - destruct F as (Fi & Fx & Fy & Fn). destruct p as [|[b|k] p].
    + exists [], OUnit, (config_of x), []. intros. cbn [interp]. destruct (cb g a (vals i) w) as [b v w'|k v w'] eqn:E.
      * match goal with |- match settled ?r with _ => _ end => destruct (settled r) as [o' s| | |] eqn:Er; auto end.
        assert (X : exists T, rt_trace s = tr ++ mkCall g a (vals i) :: T).
        { destruct b; [destruct (IHy (S n) [] (Nat.lt_0_succ n) Fy) as (? & ? & ? & ? & H)|destruct (IHn (S n) [] (Nat.lt_0_succ n) Fn) as (? & ? & ? & ? & H)];
            specialize (H _ _ cb (ext vals n v) w' (tr ++ [mkCall g a (vals i)])); rewrite Er in H; destruct H as (T & HT & _); exists T; rewrite HT, <- app_assoc; reflexivity. }
        destruct X as (T & HT). exists (mkCall g a (vals i) :: T). split; [exact HT|]. cbn [replies k_callee k_args k_payload]. rewrite E. discriminate.
      * exists [mkCall g a (vals i)]. split; [reflexivity|]. cbn [replies k_callee k_args k_payload]. rewrite E. discriminate.
    + assert (IH : forall p, exists nums o c waiting, forall V W (cb : cbfun V W) vals w tr,
        match settled (interp cb (S n) vals (if b then yes else no) w tr) with
        | Done o' s => exists T, rt_trace s = tr ++ T /\ (map fst (replies cb w T) = p ->
            map k_payload T = map (known (S n) vals (map snd (replies cb w T))) nums /\ o' = o /\ config_of s = c /\
            map snd (rt_queue s) = map (known (S n) vals (map snd (replies cb w T))) waiting)
        | _ => True
        end) by (intros p0; destruct b; [apply IHy|apply IHn]; auto; lia).
      assert (IH' : forall (b' : bool) p, exists nums o c waiting, forall V W (cb : cbfun V W) vals w tr,
        match settled (interp cb (S n) vals (if b' then yes else no) w tr) with
        | Done o' s => exists T, rt_trace s = tr ++ T /\ (map fst (replies cb w T) = p ->
            map k_payload T = map (known (S n) vals (map snd (replies cb w T))) nums /\ o' = o /\ config_of s = c /\
            map snd (rt_queue s) = map (known (S n) vals (map snd (replies cb w T))) waiting)
        | _ => True
        end) by (intros b' p0; destruct b'; [apply IHy|apply IHn]; auto; lia).
      destruct (IH p) as (nums & o & c & waiting & H). exists (i :: nums), o, c, waiting. intros. cbn [interp]. destruct (cb g a (vals i) w) as [b' v w'|k v w'] eqn:E.
      * destruct (bool_dec b b') as [<-|Hb].
        -- specialize (H _ _ cb (ext vals n v) w' (tr ++ [mkCall g a (vals i)])).
           match type of H with match ?r with _ => _ end => match goal with |- match ?r' with _ => _ end => change r' with r; destruct r as [o' s| | |]; auto end end.
           destruct H as (T & HT & H). exists (mkCall g a (vals i) :: T). split; [rewrite HT, <- app_assoc; reflexivity|]. cbn [replies k_callee k_args k_payload]. rewrite E. cbn [map fst snd]. intros [= Hp].
           destruct (H Hp) as (A & B & C & D). split; [|split; [exact B|split; [exact C|]]].
           ++ cbn [map]. rewrite (known_first n vals _ i Fi). cbn [k_payload]. f_equal. rewrite A. apply map_ext. intros j. now apply known_step.
           ++ rewrite D. apply map_ext. intros j. now apply known_step.
        -- destruct (IH' b' []) as (? & ? & ? & ? & H'). specialize (H' _ _ cb (ext vals n v) w' (tr ++ [mkCall g a (vals i)])).
           match type of H' with match ?r with _ => _ end => match goal with |- match ?r' with _ => _ end => change r' with r; destruct r as [o' s| | |]; auto end end. destruct H' as (T & HT & _).
           exists (mkCall g a (vals i) :: T). split; [rewrite HT, <- app_assoc; reflexivity|]. cbn [replies k_callee k_args k_payload]. rewrite E. cbn [map fst snd]. intros [= Hp]. congruence.
      * exists [mkCall g a (vals i)]. split; [reflexivity|]. cbn [replies k_callee k_args k_payload]. rewrite E. discriminate.
    + exists [i], (OExn (XUser k)), (config_of x), (numbers x). intros. cbn [interp]. destruct (cb g a (vals i) w) as [b v w'|k' v w'] eqn:E.
      * match goal with |- match settled ?r with _ => _ end => destruct (settled r) as [o' s| | |] eqn:Er; auto end.
        assert (X : exists T, rt_trace s = tr ++ mkCall g a (vals i) :: T).
        { destruct b; [destruct (IHy (S n) [] (Nat.lt_0_succ n) Fy) as (? & ? & ? & ? & H)|destruct (IHn (S n) [] (Nat.lt_0_succ n) Fn) as (? & ? & ? & ? & H)];
            specialize (H _ _ cb (ext vals n v) w' (tr ++ [mkCall g a (vals i)])); rewrite Er in H; destruct H as (T & HT & _); exists T; rewrite HT, <- app_assoc; reflexivity. }
        destruct X as (T & HT). exists (mkCall g a (vals i) :: T). split; [exact HT|]. cbn [replies k_callee k_args k_payload]. rewrite E. discriminate.
      * exists [mkCall g a (vals i)]. split; [reflexivity|]. cbn [replies k_callee k_args k_payload]. rewrite E. cbn [map fst snd]. intros [= -> Hp].
        split; [cbn [map k_payload]; now rewrite (known_first n vals _ i Fi)|]. split; [reflexivity|]. split; [apply config_fill|]. now apply known_queue.
Qed.
(** Which data user code sees and which data wait afterwards is decided by the answers alone. *)
Lemma call_flow m fuel (k : call nat) n x p : 0 < n -> (forall q, In q (rt_queue x) -> snd q < n) -> call_fits n k ->
  exists nums o c waiting, forall V W (cb : cbfun V W) vals w,
  match do_call_catch cb m (vals 0) fuel (with_payload vals k) (fill vals x w []) with
  | Done o' s => map fst (replies cb w (rt_trace s)) = p ->
      map k_payload (rt_trace s) = map (known n vals (map snd (replies cb w (rt_trace s)))) nums /\ o' = o /\ config_of s = c /\
      map snd (rt_queue s) = map (known n vals (map snd (replies cb w (rt_trace s)))) waiting
  | _ => True
  end.
Proof.
  intros Hn Hx Hk. destruct (call_a m fuel k n x Hn Hk Hn Hx) as (t & F & Ht). destruct (tree_flow t n p Hn F) as (nums & o & c & waiting & H).
  exists nums, o, c, waiting. intros. rewrite catch_settled, Ht. specialize (H _ _ cb vals w []).
  match type of H with match ?r with _ => _ end => match goal with |- match ?r' with _ => _ end => change r' with r; destruct r as [o' s| | |]; auto end end. destruct H as (T & HT & H). cbn [app] in HT. rewrite HT. exact H.
Qed.

(** * The comparison *)
Lemma unseeing_exactly {V W} (cb : cbfun V W) : unseeing exactly cb.
Proof. intros x y v w H. now apply exactly_eq in H as ->. Qed.
Lemma exactly_alike {V} (a b : list (called V)) : alike_calls exactly a b -> a = b.
Proof.
  induction 1 as [|x y a b [H1 H2] H IH]; [reflexivity|]. rewrite IH. f_equal. apply exactly_eq in H1. destruct x, y. unfold bare_call in H1. cbn in *. injection H1 as -> ->. now rewrite H2.
Qed.
Lemma unseeing_valued alike : unseeing alike valued. Proof. intros x y v w H. reflexivity. Qed.
Lemma like_not_unlike {V W} alike (r1 r2 : res V W (list out)) : like_run alike r1 r2 -> ~ unlike_run alike r1 r2.
Proof. destruct r1, r2; cbn; try tauto. Qed.
Lemma compare_data_more alike m1 m2 fuel depth rounds d calls : compare_with_data alike m1 m2 fuel depth rounds d calls = Some true ->
  forall V W (cb : cbfun V W) vnone fuel' w ks, fuel <= fuel' -> unseeing alike cb -> (forall k, In k ks -> In (fst k) calls) ->
  like_run alike (session cb m1 vnone fuel' d w (for_first ks)) (session cb m2 vnone fuel' d w (for_second ks)).
Proof.
  intros H V W cb vnone fuel' w ks Hf Hb Hks. pose proof (compare_data_sound _ _ _ _ _ _ _ _ H V W cb vnone w ks Hb Hks) as S.
  rewrite (session_mono cb m1 vnone fuel fuel' d w _ Hf), (session_mono cb m2 vnone fuel fuel' d w _ Hf); [exact S| |]; intros T; rewrite T in S;
    [destruct (session cb m1 vnone fuel d w (for_first ks)); destruct S|destruct S].
Qed.
Lemma compare_data_exact m1 m2 fuel depth rounds d calls : compare_with_data exactly m1 m2 fuel depth rounds d calls = Some true ->
  forall V W (cb : cbfun V W) vnone fuel' w (ks : list (call unit * call unit * V)), fuel <= fuel' -> (forall k, In k ks -> In (fst k) calls) ->
  match session cb m1 vnone fuel' d w (map (fun k => with_data (fst (fst k)) (snd k)) ks), session cb m2 vnone fuel' d w (map (fun k => with_data (snd (fst k)) (snd k)) ks) with
  | Done outs1 s1, Done outs2 s2 => outs1 = outs2 /\ rt_world s1 = rt_world s2 /\ rt_trace s1 = rt_trace s2
  | Undef _, Undef _ => True
  | _, _ => False
  end.
Proof.
  intros H V W cb vnone fuel' w ks Hf Hks. pose proof (compare_data_more _ _ _ _ _ _ _ _ H V W cb vnone fuel' w ks Hf (unseeing_exactly cb) Hks) as S. unfold like_run, for_first, for_second in S.
  match goal with |- match ?a with _ => _ end => destruct a end; match goal with |- match ?b with _ => _ end => destruct b | _ => idtac end; auto.
  destruct S as (A & B & C). now apply exactly_alike in C.
Qed.
(** The verdict is right in both directions. *)
Lemma compare_data_iff alike m1 m2 fuel depth rounds d calls b : compare_with_data alike m1 m2 fuel depth rounds d calls = Some b ->
  (b = true <-> forall V W (cb : cbfun V W) vnone w ks, unseeing alike cb -> (forall k, In k ks -> In (fst k) calls) ->
     like_run alike (session cb m1 vnone fuel d w (for_first ks)) (session cb m2 vnone fuel d w (for_second ks))).
Proof.
  intros H. split; [intros ->; exact (compare_data_sound _ _ _ _ _ _ _ _ H)|]. intros S. destruct b; [reflexivity|]. exfalso.
  destruct (compare_data_complete _ _ _ _ _ _ _ _ H) as (script & ks & Hks & D). revert D. apply like_not_unlike. apply S; [apply unseeing_valued|exact Hks].
Qed.
Lemma compare_data_decides alike m1 m2 env1 root1 env2 root2 fuel d calls :
  compile env1 root1 = Some m1 -> compile env2 root2 = Some m2 ->
  (forall d', ~ In (KSetDep d') (map fst calls)) -> (forall d', ~ In (KSetDep d') (map snd calls)) ->
  (exists depth rounds l, explore m1 fuel depth rounds d (map fst calls) = Some l) -> (exists depth rounds l, explore m2 fuel depth rounds d (map snd calls) = Some l) ->
  exists depth rounds b, compare_with_data alike m1 m2 fuel depth rounds d calls = Some b.
Proof.
  intros H1 H2 D1 D2 X1 X2. destruct (compile_comp _ _ _ H1) as (C1 & _). destruct (compile_comp _ _ _ H2) as (C2 & _).
  apply explore_ends in X1 as [b1 B1]; [|now apply no_dep_calls|exact C1]. apply explore_ends in X2 as [b2 B2]; [|now apply no_dep_calls|exact C2].
  apply (compare_data_ends alike m1 m2 fuel d calls b1 b2 C1 C2); auto using pair_no_deps.
Qed.
Definition compare_data_programs (alike : likeness) (env1 : cenv) (root1 : cls) (env2 : cenv) (root2 : cls) (fuel depth rounds : nat) (calls : list (call unit * call unit)) : option bool :=
  match compile env1 root1, compile env2 root2 with
  | Some m1, Some m2 => compare_with_data alike m1 m2 fuel depth rounds 0 calls
  | _, _ => None
  end.

(** The same function, with any event and any states. *)
Definition any_event : likeness := fun x y => if callee_eq_dec (k_callee x) (k_callee y) then true else false.
(** The action at the transition, or at an anonymous transition behind it: the first sees
    the event of the client, the second does not. *)
Module Behind.
Definition act7 : action := Action 7 (ACall 7).
Definition direct_ : cenv := [ (50, tbl [ sea_to (st_ea (star_state 1) (event_action (EUser 1) act7)) (state 2) ]) ].
Definition behind : cenv := [ (50, tbl [ se_to (st_event (star_state 1) (EUser 1)) (state 3); sa_to (st_action (state 3) act7) (state 2) ]) ].
Definition calls : list (call unit * call unit) := let ev1 := KProcess (EUser 1) tt in let in2 := KIs 0 50 (SState 2) in [ (ev1, ev1); (in2, in2) ].
End Behind.
