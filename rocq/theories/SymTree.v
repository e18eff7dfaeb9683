(** A call as a tree of questions to user code, with the data of the events. *)

From Coq Require Import List Arith NArith Bool Lia.
From Verif Require Import Types Static Dispatch Runtime Data DataUse.
Import ListNotations.

(** Data by number: number 0 is the data of the anonymous event, then come the data the
    call begins with, then what user code leaves behind in the event, question by question.
    A machine whose payloads are numbers is filled with real data. *)
Definition fill {V W} (vals : nat -> V) (x : rt nat unit) (w : W) (tr : list (called V)) : rt V W :=
  mkRt (rt_cur x) (rt_hist x) (map (fun q => (fst q, vals (snd q))) (rt_queue x)) (rt_regions x) (rt_live x) (rt_tabs x) (rt_htabs x) w tr.
(** The next number gets a value. *)
Definition ext {V} (vals : nat -> V) (n : nat) (v : V) : nat -> V := fun i => if Nat.eqb i n then v else vals i.
Definition agree {V} (n : nat) (f g : nat -> V) : Prop := forall i, i < n -> f i = g i.
Lemma agree_refl {V} n (f : nat -> V) : agree n f f. Proof. intros i _. reflexivity. Qed.
Lemma agree_ext {V} n n' (f g : nat -> V) v : n <= n' -> agree n f g -> agree n f (ext g n' v).
Proof. intros L A i Hi. unfold ext. destruct (Nat.eqb_spec i n'); [lia|auto]. Qed.

(** Results that carry data: none, a pair with data, data alone. *)
Record shape := mkShape {
  sh : Type -> Type;
  sh_map : forall V, (nat -> V) -> sh nat -> sh V;
  sh_in : nat -> sh nat -> Prop }.
Definition plain (A : Type) : shape := mkShape (fun _ => A) (fun _ _ a => a) (fun _ _ => True).
Definition paired (A : Type) : shape := mkShape (fun V => A * V)%type (fun _ f a => (fst a, f (snd a))) (fun n a => snd a < n).
Definition lone : shape := mkShape (fun V => V) (fun _ f i => f i) (fun n i => i < n).

(** The end of a call: a result, an exception of the library, undefined behaviour, no fuel left. *)
Inductive leaf (S : shape) :=
| LDone (a : sh S nat) (x : rt nat unit)
| LRange (x : rt nat unit)
| LUndef (u : ub)
| LTimeout.
(** A question: which user code with which arguments and which data, the machine at that
    moment, what follows each answer. *)
Inductive tree (S : shape) :=
| Leaf (l : leaf S)
| Ask (c : callee) (a : args) (i : nat) (x : rt nat unit) (yes no : tree S).
Arguments LDone {S}. Arguments LRange {S}. Arguments LUndef {S}. Arguments LTimeout {S}.
Arguments Leaf {S}. Arguments Ask {S}.

(** Asking user code; [n] numbers are in use. If it throws, the exception leaves the call. *)
Fixpoint interp {V W S} (cb : cbfun V W) (n : nat) (vals : nat -> V) (t : tree S) (w : W) (tr : list (called V)) : res V W (sh S V) :=
  match t with
  | Leaf (LDone a x) => Done (sh_map S V vals a) (fill vals x w tr)
  | Leaf (LRange x) => Threw XOutOfRange (fill vals x w tr)
  | Leaf (LUndef u) => Undef u
  | Leaf LTimeout => Timeout
  | Ask c a i x yes no =>
      match cb c a (vals i) w with
      | Ret b v w' => interp cb (Datatypes.S n) (ext vals n v) (if b then yes else no) w' (tr ++ [mkCall c a (vals i)])
      | Raise k _ w' => Threw (XUser k) (fill vals x w' (tr ++ [mkCall c a (vals i)]))
      end
  end.
(** Only numbers in use. *)
Definition numbered (n : nat) (x : rt nat unit) : Prop := forall q, In q (rt_queue x) -> snd q < n.
Fixpoint fits {S} (n : nat) (t : tree S) : Prop :=
  match t with
  | Leaf (LDone a x) => sh_in S n a /\ numbered n x
  | Leaf (LRange x) => numbered n x
  | Leaf _ => True
  | Ask c a i x yes no => i < n /\ numbered n x /\ fits (Datatypes.S n) yes /\ fits (Datatypes.S n) no
  end.

(** [f] from [x] is a tree, the same for all user code and all data. *)
Definition code (S : shape) := forall V W, cbfun V W -> (nat -> V) -> rt V W -> res V W (sh S V).
Definition asks {S} (n : nat) (x : rt nat unit) (f : code S) : Prop := 0 < n -> numbered n x ->
  exists t, fits n t /\ forall V W (cb : cbfun V W) vals w tr, f V W cb vals (fill vals x w tr) = interp cb n vals t w tr.

Lemma ask_leaf {S} (a : sh S nat) n x x' (f : code S) : sh_in S n a -> (numbered n x -> numbered n x') ->
  (forall V W cb vals w tr, f V W cb vals (fill vals x w tr) = Done (sh_map S V vals a) (fill vals x' w tr)) -> asks n x f.
Proof. intros Ha Hx H _ Hn. exists (Leaf (LDone a x')). split; [cbn; auto|]. intros. cbn. now rewrite H. Qed.
Lemma ask_undef {S} u n x : asks (S:=S) n x (fun V W cb vals s => Undef u).
Proof. intros _ _. exists (Leaf (LUndef u)). split; [exact I|reflexivity]. Qed.
Lemma ask_time {S} n x : asks (S:=S) n x (fun V W cb vals s => Timeout).
Proof. intros _ _. exists (Leaf LTimeout). split; [exact I|reflexivity]. Qed.
Lemma ask_range {S} n x : asks (S:=S) n x (fun V W cb vals s => Threw XOutOfRange s).
Proof. intros _ Hn. exists (Leaf (LRange x)). split; [exact Hn|reflexivity]. Qed.
Lemma ask_plain {A} (a : A) n x : asks (S:=plain A) n x (fun V W cb vals s => Done a s).
Proof. now apply (ask_leaf (S:=plain A) a n x x). Qed.
Lemma ask_pair {A} (a : A) i n x : i < n -> asks (S:=paired A) n x (fun V W cb vals s => Done (a, vals i) s).
Proof. intros H. now apply (ask_leaf (S:=paired A) (a, i) n x x). Qed.
Lemma ask_lone i n x : i < n -> asks (S:=lone) n x (fun V W cb vals s => Done (vals i) s).
Proof. intros H. now apply (ask_leaf (S:=lone) i n x x). Qed.
#[local] Hint Resolve ask_undef ask_time ask_range ask_plain ask_pair ask_lone : core.
Lemma ask_ext {S} n x (f g : code S) : (forall V W cb vals w tr, f V W cb vals (fill vals x w tr) = g V W cb vals (fill vals x w tr)) -> asks n x g -> asks n x f.
Proof. intros E H P Q. destruct (H P Q) as (t & F & Ht). exists t. split; [exact F|]. intros. now rewrite E. Qed.
Lemma ask_bind {S S'} n x (f : code S) (kr : forall V W, cbfun V W -> (nat -> V) -> sh S V -> rt V W -> res V W (sh S' V)) (k : sh S nat -> code S') :
  asks n x f ->
  (forall V W cb vals vals' a s, 0 < n -> agree n vals vals' -> kr V W cb vals (sh_map S V vals' a) s = k a V W cb vals' s) ->
  (forall n' a x', n <= n' -> sh_in S n' a -> asks n' x' (k a)) ->
  asks n x (fun V W cb vals s => bind (f V W cb vals s) (kr V W cb vals)).
Proof.
  intros Hf HL Hk P Q. destruct (Hf P Q) as (t & F & Ht).
  assert (G : forall n', n <= n' -> fits n' t -> exists t', fits n' t' /\ forall V W (cb : cbfun V W) vals0 vals w tr, agree n vals0 vals ->
    bind (interp cb n' vals t w tr) (kr V W cb vals0) = interp cb n' vals t' w tr).
  { clear Ht F Hf f. induction t as [l|c a i y yes IHy no IHn]; intros n' Hn Ft.
    - destruct l as [a y|y|u|].
      + destruct Ft as [Fa Fy]. destruct (Hk n' a y Hn Fa ltac:(lia) Fy) as (t' & F' & H'). exists t'. split; [exact F'|]. intros. cbn [interp bind]. rewrite HL by auto. apply H'.
      + exists (Leaf (LRange y)). split; [exact Ft|reflexivity].
      + exists (Leaf (LUndef u)). split; [exact I|reflexivity].
      + exists (Leaf LTimeout). split; [exact I|reflexivity].
    - destruct Ft as (Fi & Fx & Fy & Fn). destruct (IHy (Datatypes.S n') ltac:(lia) Fy) as (ty & Gy & Hy). destruct (IHn (Datatypes.S n') ltac:(lia) Fn) as (tn & Gn & Hn').
      exists (Ask c a i y ty tn). split; [cbn; auto|]. intros V W cb vals0 vals w tr A. cbn [interp].
      destruct (cb c a (vals i) w) as [[|] v w'|e v w']; [apply Hy|apply Hn'|reflexivity]; now apply agree_ext. }
  destruct (G n (le_n n) F) as (t' & F' & H'). exists t'. split; [exact F'|]. intros. rewrite Ht. apply H', agree_refl.
Qed.
Ltac link := intros; cbn in *; repeat match goal with A : agree ?n _ _ |- context [?vals ?i] => is_var i; rewrite (A i) by lia end; try reflexivity.

Ltac leaf S := first [apply (ask_undef (S:=S)) | apply (ask_time (S:=S)) | apply (ask_range (S:=S)) | apply ask_plain | apply ask_pair; lia | apply ask_lone; lia].

Section Asks.
Variable m : machine.

Lemma invoke_a c a i n x : i < n -> asks (S:=paired bool) n x (fun V W cb vals s => invoke cb c a (vals i) s).
Proof.
  intros Hi P Q. exists (Ask c a i x (Leaf (LDone (S:=paired bool) (true, n) x)) (Leaf (LDone (S:=paired bool) (false, n) x))).
  assert (Q' : numbered (S n) x) by (intros q Hq; specialize (Q q Hq); lia). split; [cbn; repeat split; auto|].
  assert (E : forall V (vals : nat -> V) v, map (fun q => (fst q, ext vals n v (snd q))) (rt_queue x) = map (fun q => (fst q, vals (snd q))) (rt_queue x)).
  { intros. apply map_ext_in. intros q Hq. unfold ext. specialize (Q q Hq). destruct (Nat.eqb_spec (snd q) n); [lia|reflexivity]. }
  intros V W cb vals w tr. unfold invoke. cbn [interp fill rt_world rt_trace]. destruct (cb c a (vals i) w) as [b v w'|k v w']; [|reflexivity].
  destruct b; cbn [interp]; unfold fill; cbn; rewrite E; unfold ext; rewrite Nat.eqb_refl; reflexivity.
Qed.
Lemma keep_a n x (f : code (paired bool)) : asks n x f -> asks (S:=lone) n x (fun V W cb vals s => keep_payload (f V W cb vals s)).
Proof.
  intros H. unfold keep_payload. apply (ask_bind (S:=paired bool) (S':=lone) n x f (fun V W cb vals bv s => Done (snd bv) s) (fun bi V W cb vals s => Done (vals (snd bi)) s)); auto.
Qed.
Lemma drop_a i n x (f : code (paired bool)) : i < n -> asks n x f -> asks (S:=lone) n x (fun V W cb vals s => drop_payload (vals i) (f V W cb vals s)).
Proof.
  intros Hi H. unfold drop_payload. apply (ask_bind (S:=paired bool) (S':=lone) n x f (fun V W cb vals bv s => Done (vals i) s) (fun bi V W cb vals s => Done (vals i) s)); auto.
  - link.
  - intros. apply ask_lone. lia.
Qed.
Lemma alive_a {S} o (f g : code S) n x : asks n x f -> asks n x g -> asks n x (fun V W cb vals s => if alive s o then f V W cb vals s else g V W cb vals s).
Proof.
  intros F G. destruct (alive x o) eqn:E.
  - refine (ask_ext n x _ f _ F). intros V W cb vals w tr. change (alive (fill vals x w tr) o) with (alive x o). now rewrite E.
  - refine (ask_ext n x _ g _ G). intros V W cb vals w tr. change (alive (fill vals x w tr) o) with (alive x o). now rewrite E.
Qed.
Lemma guard_a t e i n x : i < n -> asks (S:=paired bool) n x (fun V W cb vals s => execute_guard cb t e (vals i) s).
Proof.
  intros Hi. unfold execute_guard. destruct (t_guard t); try solve [leaf (paired bool)].
  destruct (alive x (t_src t) && alive x (if t_int t then t_src t else t_tgt t)) eqn:E.
  - refine (ask_ext n x _ _ _ (invoke_a _ _ i n x Hi)). intros V W cb vals w tr. match goal with |- (if ?b then _ else _) = _ => change b with (alive x (t_src t) && alive x (if t_int t then t_src t else t_tgt t)) end. rewrite E. reflexivity.
  - refine (ask_ext n x _ _ _ (ask_undef UBNull n x)). intros V W cb vals w tr. match goal with |- (if ?b then _ else _) = _ => change b with (alive x (t_src t) && alive x (if t_int t then t_src t else t_tgt t)) end. now rewrite E.
Qed.
Lemma body_a b : forall t e i n x, i < n -> asks (S:=lone) n x (fun V W cb vals s => exec_body cb b t e (vals i) s).
Proof.
  induction b as [f|f|f|l F] using abody_all; intros t e i n x Hi; cbn [exec_body].
  - now apply keep_a, invoke_a.
  - apply (ask_bind (S:=paired bool) (S':=lone) n x (fun V W cb vals s => invoke cb (CFactory f) (mkArgs e (t_src t) TNone (t_dep t)) (vals i) s)
      (fun V W cb vals bv s => Done (vals i) (set_live s (t_tgt t) (fst bv))) (fun bj V W cb vals s => Done (vals i) (set_live s (t_tgt t) (fst bj)))); [now apply invoke_a|link|].
    intros n' bj y L _. apply (ask_leaf (S:=lone) i n' y (set_live y (t_tgt t) (fst bj))); [cbn; lia|auto|reflexivity].
  - refine (alive_a (S:=lone) (t_tgt t) (fun V W cb vals s => drop_payload (vals i) (invoke cb (CReuse f) (mkArgs e (t_src t) (TObj (t_tgt t)) (t_dep t)) (vals i) s)) (fun V W cb vals s => Undef UBNull) n x _ _); auto.
    apply (drop_a i n x (fun V W cb vals s => invoke cb (CReuse f) (mkArgs e (t_src t) (TObj (t_tgt t)) (t_dep t)) (vals i) s) Hi). now apply invoke_a.
  - revert i n x Hi. induction F as [|b l Hb F IH]; intros i n x Hi; [now apply ask_lone|].
    apply (ask_bind (S:=lone) (S':=lone) n x (fun V W cb vals s => exec_body cb b t e (vals i) s)
      (fun V W cb vals v s => (fix go (l : list abody) (v : V) (s : rt V W) : res V W V :=
        match l with [] => Done v s | b :: l' => bind (exec_body cb b t e v s) (fun v' s' => go l' v' s') end) l v s)
      (fun j V W cb vals s => (fix go (l : list abody) (v : V) (s : rt V W) : res V W V :=
        match l with [] => Done v s | b :: l' => bind (exec_body cb b t e v s) (fun v' s' => go l' v' s') end) l (vals j) s)); auto.
Qed.
Lemma steps_a t e l : forall i n x, i < n -> asks (S:=lone) n x (fun V W cb vals s => exec_steps cb l t e (vals i) s).
Proof.
  induction l as [|y l IH]; intros i n x Hi; cbn [exec_steps]; try solve [leaf (lone)].
  apply (ask_bind (S:=lone) (S':=lone) n x (fun V W cb vals s => exec_step cb y t e (vals i) s) (fun V W cb vals v s => exec_steps cb l t e v s)
    (fun j V W cb vals s => exec_steps cb l t e (vals j) s)); auto. destruct y; cbn [exec_step]; auto using keep_a, invoke_a, body_a.
Qed.
Lemma action_a t e i n x : i < n -> asks (S:=lone) n x (fun V W cb vals s => execute_action cb t e (vals i) s).
Proof.
  intros Hi. unfold execute_action. destruct (t_act t) as [l|]; try solve [leaf (lone)].
  destruct (alive x (t_src t) && (t_ptr t || t_int t || alive x (t_tgt t))) eqn:E.
  - refine (ask_ext n x _ _ _ (steps_a t e l i n x Hi)). intros V W cb vals w tr. match goal with |- (if ?b then _ else _) = _ => change b with (alive x (t_src t) && (t_ptr t || t_int t || alive x (t_tgt t))) end. now rewrite E.
  - refine (ask_ext n x _ _ _ (ask_undef UBNull n x)). intros V W cb vals w tr. match goal with |- (if ?b then _ else _) = _ => change b with (alive x (t_src t) && (t_ptr t || t_int t || alive x (t_tgt t))) end. now rewrite E.
Qed.
(** Without user code. *)
Lemma ask_still {A} n x (f : forall V W, rt V W -> res V W A) (r : res nat unit A) :
  match r with Done a x' => rt_queue x' = rt_queue x | Threw e x' => e = XOutOfRange /\ rt_queue x' = rt_queue x | _ => True end ->
  (forall V W (vals : nat -> V) (w : W) tr, f V W (fill vals x w tr) =
    match r with Done a x' => Done a (fill vals x' w tr) | Threw e x' => Threw e (fill vals x' w tr) | Undef u => Undef u | Timeout => Timeout end) ->
  asks (S:=plain A) n x (fun V W cb vals s => f V W s).
Proof.
  intros H E P Q. destruct r as [a x'|e x'|u|].
  - exists (Leaf (LDone (a : sh (plain A) nat) x')). split; [|intros; apply E]. split; [exact I|]. unfold numbered. now rewrite H.
  - destruct H as [-> H]. exists (Leaf (LRange x')). split; [|intros; apply E]. cbn. unfold numbered. now rewrite H.
  - exists (Leaf (LUndef u)). split; [exact I|intros; apply E].
  - exists (Leaf LTimeout). split; [exact I|intros; apply E].
Qed.
Lemma read_a n x r : asks (S:=plain N) n x (fun V W cb vals s => read_cur s r).
Proof. apply (ask_still n x (fun V W s => read_cur s r) (read_cur x r)); unfold read_cur; cbn; [|intros]; now destruct (nth_error (rt_cur x) r) as [[c|]|]. Qed.
Lemma at_a n x r : asks (S:=plain N) n x (fun V W cb vals s => at_cur s r).
Proof. apply (ask_still n x (fun V W s => at_cur s r) (at_cur x r)); unfold at_cur; cbn; [|intros]; now destruct (nth_error (rt_cur x) r) as [[c|]|]. Qed.
Lemma write_a n x r c : asks (S:=plain unit) n x (fun V W cb vals s => write_cur s r c).
Proof. apply (ask_still n x (fun V W s => write_cur s r c) (write_cur x r c)); unfold write_cur; cbn; [|intros]; now destruct (upd_nth r (fun _ => Some c) (rt_cur x)). Qed.
Lemma write_hist_a n x p r c : asks (S:=plain unit) n x (fun V W cb vals s => write_hist s p r c).
Proof.
  apply (ask_still n x (fun V W s => write_hist s p r c) (write_hist x p r c)); unfold write_hist; cbn; [|intros];
    (destruct (nth_at p (rt_hist x)) as [l|]; [|exact I || reflexivity]; destruct (upd_nth r (fun _ => c) l) as [l'|]; [|exact I || reflexivity]; destruct (upd_at p (fun _ => l') (rt_hist x)); exact I || reflexivity).
Qed.
Lemma read_hist_a n x p r : asks (S:=plain N) n x (fun V W cb vals s => read_hist s p r).
Proof.
  apply (ask_still n x (fun V W s => read_hist s p r) (read_hist x p r)); unfold read_hist; cbn; [|intros];
    (destruct (nth_at p (rt_hist x)) as [l|]; [|exact I || reflexivity]; destruct (nth_error l r); exact I || reflexivity).
Qed.
(** [bind] whose second part needs nothing but the result. *)
Lemma ask_then {A S'} n x (f : code (plain A)) (k : A -> code S') : asks n x f ->
  (forall V W cb vals vals' a s, 0 < n -> agree n vals vals' -> k a V W cb vals s = k a V W cb vals' s) ->
  (forall n' a x', n <= n' -> asks n' x' (k a)) ->
  asks n x (fun V W cb vals s => bind (f V W cb vals s) (fun a s => k a V W cb vals s)).
Proof. intros Hf HL Hk. apply (ask_bind (S:=plain A) (S':=S') n x f (fun V W cb vals a s => k a V W cb vals s) k Hf); auto. Qed.
Lemma parent_a n x : asks (S:=plain N) n x (fun V W cb vals s => current_parent m s).
Proof. unfold current_parent. apply (ask_then (S':=plain N) n x (fun V W cb vals s => read_cur s 0) (fun c V W cb vals s => Done (calc_parent_idx (n_states m) c) s)); auto using read_a. Qed.
Lemma state_a n x r : asks (S:=plain N) n x (fun V W cb vals s => current_state m s r).
Proof. unfold current_state. apply (ask_then (S':=plain N) n x (fun V W cb vals s => at_cur s r) (fun c V W cb vals s => Done (calc_state_idx (n_states m) c) s)); auto using at_a. Qed.
Lemma update_regions_a n x : asks (S:=plain unit) n x (fun V W cb vals s => update_current_regions m s).
Proof.
  unfold update_current_regions. destruct (parallel m); try solve [leaf (plain unit)].
  apply (ask_then (S':=plain unit) n x (fun V W cb vals s => current_parent m s) (fun p V W cb vals s => match nth_at p (initial_table m) with None => Undef UBIndex | Some l => Done tt (with_regions s (length l)) end)); auto using parent_a.
  intros n' p y _. destruct (nth_at p (initial_table m)) as [l|]; try solve [leaf (plain unit)]. now apply (ask_leaf (S:=plain unit) tt n' y (with_regions y (length l))).
Qed.
Lemma update_state_a r en n x : asks (S:=plain unit) n x (fun V W cb vals s => update_current_state m r en s).
Proof.
  unfold update_current_state. destruct (en_int en); try solve [leaf (plain unit)].
  refine (ask_then (S':=plain unit) n x (fun V W cb vals s => if has_history m then _ else write_cur s r (en_to en)) (fun _ V W cb vals s => update_current_regions m s) _ ltac:(auto) (fun n' _ x' _ => update_regions_a n' x')).
  destruct (has_history m); [|apply write_a].
  refine (ask_then (S':=plain unit) n x (fun V W cb vals s => current_parent m s) (fun p V W cb vals s => bind (read_cur s r) (fun c s => bind (write_hist s p r c) (fun _ s => if en_hist en then _ else write_cur s r (en_to en)))) (parent_a n x) ltac:(auto) _).
  intros n1 p y _. refine (ask_then (S':=plain unit) n1 y (fun V W cb vals s => read_cur s r) (fun c V W cb vals s => bind (write_hist s p r c) (fun _ s => if en_hist en then _ else write_cur s r (en_to en))) (read_a n1 y r) ltac:(auto) _).
  intros n2 c z _. refine (ask_then (S':=plain unit) n2 z (fun V W cb vals s => write_hist s p r c) (fun _ V W cb vals s => if en_hist en then _ else write_cur s r (en_to en)) (write_hist_a n2 z p r c) ltac:(auto) _).
  intros n3 _ x1 _. destruct (en_hist en); [|apply write_a].
  refine (ask_then (S':=plain unit) n3 x1 (fun V W cb vals s => read_hist s _ r) (fun c V W cb vals s => write_cur s r c) (read_hist_a n3 x1 _ r) ltac:(auto) _). intros n4 c' x2 _. apply write_a.
Qed.
Lemma entries_a e r n x : asks (S:=plain (list entry)) n x (fun V W cb vals s => get_entries e r s).
Proof.
  unfold get_entries. destruct (get_table (rt_tabs x) e) as [arr|] eqn:E.
  - refine (ask_ext (S:=plain (list entry)) n x _ (fun V W cb vals s => bind (read_cur s r) (fun c s => match nth_at c arr with None => Undef UBIndex | Some l => Done l s end)) _ _); [intros; cbn [rt_tabs fill]; now rewrite E|].
    refine (ask_then (S':=plain (list entry)) n x (fun V W cb vals s => read_cur s r) (fun c V W cb vals s => match nth_at c arr with None => Undef UBIndex | Some l => Done l s end) (read_a n x r) ltac:(auto) _).
    intros n' c y _. destruct (nth_at c arr); try solve [leaf (plain (list entry))].
  - refine (ask_ext (S:=plain (list entry)) n x _ (fun V W cb vals s => Undef UBIllformed) _ (ask_undef UBIllformed n x)). intros; cbn [rt_tabs fill]; now rewrite E.
Qed.
Lemma fired_a {A} (a : A) t e i r en n x : i < n -> asks (S:=paired A) n x (fun V W cb vals s => bind (update_current_state m r en s) (fun _ s => bind (execute_action cb t e (vals i) s) (fun v' s => Done (a, v') s))).
Proof.
  intros Hi. refine (ask_then (S':=paired A) n x (fun V W cb vals s => update_current_state m r en s) (fun _ V W cb vals s => bind (execute_action cb t e (vals i) s) (fun v' s => Done (a, v') s)) (update_state_a r en n x) ltac:(link) _).
  intros n' _ y L. refine (ask_bind (S:=lone) (S':=paired A) n' y (fun V W cb vals s => execute_action cb t e (vals i) s) (fun V W cb vals v' s => Done (a, v') s) (fun j V W cb vals s => Done (a, vals j) s) (action_a t e i n' y ltac:(lia)) _ _); auto.
Qed.
Lemma try_entries_a r e ens : forall i n x, i < n -> asks (S:=paired tried) n x (fun V W cb vals s => try_entries cb m ens r e (vals i) s).
Proof.
  induction ens as [|en ens IH]; intros i n x Hi; cbn [try_entries]; try solve [leaf (paired tried)].
  destruct (en_defer en).
  { apply (ask_leaf (S:=paired tried) (Deferred, i) n x (with_queue x (rt_queue x ++ [(e, i)]))); [exact Hi| |].
    - intros Q q Hq. cbn in Hq. apply in_app_or in Hq as [Hq|[<-|[]]]; auto.
    - intros. unfold fill. cbn. now rewrite map_app. }
  destruct (en_tr en) as [t|]; try solve [leaf (paired tried)].
  refine (ask_bind (S:=paired bool) (S':=paired tried) n x (fun V W cb vals s => execute_guard cb t e (vals i) s)
    (fun V W cb vals bv s => if fst bv then bind (update_current_state m r en s) (fun _ s => bind (execute_action cb t e (snd bv) s) (fun v' s => Done (Fired, v') s)) else try_entries cb m ens r e (snd bv) s)
    (fun bj V W cb vals s => if fst bj then bind (update_current_state m r en s) (fun _ s => bind (execute_action cb t e (vals (snd bj)) s) (fun v' s => Done (Fired, v') s)) else try_entries cb m ens r e (vals (snd bj)) s)
    (guard_a t e i n x Hi) _ _); [reflexivity|].
  intros n' [b j] y L Hj. cbn in Hj |- *. destruct b; [now apply fired_a|now apply IH].
Qed.
Lemma try_region_a r e i n x : i < n -> asks (S:=paired (option tried)) n x (fun V W cb vals s => try_region cb m r e (vals i) s).
Proof.
  intros Hi. unfold try_region. refine (ask_then (S':=paired (option tried)) n x (fun V W cb vals s => get_entries e r s) (fun l V W cb vals s => match l with [] => Done (None, vals i) s | _ => bind (try_entries cb m l r e (vals i) s) (fun tv s => Done (Some (fst tv), snd tv) s) end) (entries_a e r n x) _ _).
  { intros V W cb vals vals' a s _ A. now rewrite (A i Hi). }
  intros n' l y L. destruct l as [|en l]; [apply ask_pair; lia|].
  refine (ask_bind (S:=paired tried) (S':=paired (option tried)) n' y (fun V W cb vals s => try_entries cb m (en :: l) r e (vals i) s) (fun V W cb vals tv s => Done (Some (fst tv), snd tv) s) (fun tj V W cb vals s => Done (Some (fst tj), vals (snd tj)) s) (try_entries_a r e _ i n' y ltac:(lia)) _ _); auto.
Qed.
Lemma region_loop_a fuel limit e : forall r agf ati i n x, i < n -> asks (S:=paired pres) n x (fun V W cb vals s => region_loop cb m fuel limit r agf ati e (vals i) s).
Proof.
  induction fuel as [|f IH]; intros r agf ati i n x Hi; cbn [region_loop]; try solve [leaf (paired pres)]. destruct (Nat.ltb r limit); try solve [leaf (paired pres)].
  refine (ask_bind (S:=paired (option tried)) (S':=paired pres) n x (fun V W cb vals s => try_region cb m r e (vals i) s) (fun V W cb vals tv s => match fst tv with
    | None => region_loop cb m f limit (next_region r) agf ati e (snd tv) s
    | Some Deferred => Done (PDeferred, snd tv) s
    | Some Refused => region_loop cb m f limit (next_region r) agf false e (snd tv) s
    | Some Fired => region_loop cb m f limit (next_region r) false false e (snd tv) s end)
    (fun tj V W cb vals s => match fst tj with
    | None => region_loop cb m f limit (next_region r) agf ati e (vals (snd tj)) s
    | Some Deferred => Done (PDeferred, vals (snd tj)) s
    | Some Refused => region_loop cb m f limit (next_region r) agf false e (vals (snd tj)) s
    | Some Fired => region_loop cb m f limit (next_region r) false false e (vals (snd tj)) s end) (try_region_a r e i n x Hi) _ _); [reflexivity|].
  intros n' [[[| |]|] j] y L Hj; cbn [fst snd] in *; auto.
Qed.
Lemma try_anonymous_a r ens : forall i n x, i < n -> asks (S:=paired bool) n x (fun V W cb vals s => try_anonymous cb m ens r (vals i) s).
Proof.
  induction ens as [|en ens IH]; intros i n x Hi; cbn [try_anonymous]; try solve [leaf (paired bool)]. destruct (en_tr en) as [t|]; try solve [leaf (paired bool)].
  refine (ask_bind (S:=paired bool) (S':=paired bool) n x (fun V W cb vals s => execute_guard cb t ENone (vals i) s)
    (fun V W cb vals bv s => if fst bv then bind (update_current_state m r en s) (fun _ s => bind (execute_action cb t ENone (snd bv) s) (fun v' s => Done (true, v') s)) else try_anonymous cb m ens r (snd bv) s)
    (fun bj V W cb vals s => if fst bj then bind (update_current_state m r en s) (fun _ s => bind (execute_action cb t ENone (vals (snd bj)) s) (fun v' s => Done (true, v') s)) else try_anonymous cb m ens r (vals (snd bj)) s)
    (guard_a t ENone i n x Hi) _ _); [reflexivity|].
  intros n' [b j] y L Hj. cbn in Hj |- *. destruct b; [now apply fired_a|now apply IH].
Qed.
Lemma anonymous_region_a r i n x : i < n -> asks (S:=paired (option bool)) n x (fun V W cb vals s => anonymous_region cb m r (vals i) s).
Proof.
  intros Hi. unfold anonymous_region. refine (ask_then (S':=paired (option bool)) n x (fun V W cb vals s => get_entries ENone r s) (fun l V W cb vals s => match l with [] => Done (None, vals i) s | _ => bind (try_anonymous cb m l r (vals i) s) (fun tv s => Done (Some (fst tv), snd tv) s) end) (entries_a ENone r n x) _ _).
  { intros V W cb vals vals' a s _ A. now rewrite (A i Hi). }
  intros n' l y L. destruct l as [|en l]; [apply ask_pair; lia|].
  refine (ask_bind (S:=paired bool) (S':=paired (option bool)) n' y (fun V W cb vals s => try_anonymous cb m (en :: l) r (vals i) s) (fun V W cb vals tv s => Done (Some (fst tv), snd tv) s) (fun tj V W cb vals s => Done (Some (fst tj), vals (snd tj)) s) (try_anonymous_a r _ i n' y ltac:(lia)) _ _); auto.
Qed.
Lemma anonymous_pass_a fuel limit : forall r agf i n x, i < n -> asks (S:=paired (option bool)) n x (fun V W cb vals s => anonymous_pass cb m fuel limit r agf (vals i) s).
Proof.
  induction fuel as [|f IH]; intros r agf i n x Hi; cbn [anonymous_pass]; try solve [leaf (paired (option bool))]. destruct (Nat.ltb r limit); try solve [leaf (paired (option bool))].
  refine (ask_bind (S:=paired (option bool)) (S':=paired (option bool)) n x (fun V W cb vals s => anonymous_region cb m r (vals i) s) (fun V W cb vals bv s => match fst bv with
    | None => Done (None, snd bv) s
    | Some b => anonymous_pass cb m f limit (next_region r) (if b then false else agf) (snd bv) s end)
    (fun bj V W cb vals s => match fst bj with
    | None => Done (None, vals (snd bj)) s
    | Some b => anonymous_pass cb m f limit (next_region r) (if b then false else agf) (vals (snd bj)) s end) (anonymous_region_a r i n x Hi) _ _); [reflexivity|].
  intros n' [[b|] j] y L Hj; cbn [fst snd] in *; auto.
Qed.
Lemma anonymous_loop_a rfuel fuel : forall i n x, i < n -> asks (S:=plain unit) n x (fun V W cb vals s => anonymous_loop cb m rfuel fuel (vals i) s).
Proof.
  induction fuel as [|f IH]; intros i n x Hi; cbn [anonymous_loop]; try solve [leaf (plain unit)].
  refine (ask_ext (S:=plain unit) n x _ (fun V W cb vals s => bind (anonymous_pass cb m rfuel (current_regions m x) 0 true (vals i) s) _) (fun V W cb vals w tr => eq_refl) _).
  refine (ask_bind (S:=paired (option bool)) (S':=plain unit) n x (fun V W cb vals s => anonymous_pass cb m rfuel (current_regions m x) 0 true (vals i) s) (fun V W cb vals ov s => match fst ov with
    | None => Done tt s
    | Some true => Done tt s
    | Some false => anonymous_loop cb m rfuel f (snd ov) s end)
    (fun oj V W cb vals s => match fst oj with
    | None => Done tt s
    | Some true => Done tt s
    | Some false => anonymous_loop cb m rfuel f (vals (snd oj)) s end) (anonymous_pass_a rfuel _ 0 true i n x Hi) _ _); [reflexivity|].
  intros n' [[[|]|] j] y L Hj; cbn [fst snd] in *; auto.
Qed.
Lemma anonymous_a fuel n x : 0 < n -> asks (S:=plain unit) n x (fun V W cb vals s => process_anonymous cb m (vals 0) fuel s).
Proof. intros Hn. unfold process_anonymous. destruct (has_anonymous m); try solve [leaf (plain unit)]. now apply anonymous_loop_a. Qed.
Lemma internal_a fuel e i n x : 0 < n -> i < n -> asks (S:=paired pres) n x (fun V W cb vals s => process_event_internal cb m (vals 0) fuel e (vals i) s).
Proof.
  intros Hn Hi. unfold process_event_internal.
  refine (ask_ext (S:=paired pres) n x _ (fun V W cb vals s => bind (region_loop cb m fuel (current_regions m x) 0 true true e (vals i) s) _) (fun V W cb vals w tr => eq_refl) _).
  refine (ask_bind (S:=paired pres) (S':=paired pres) n x (fun V W cb vals s => region_loop cb m fuel (current_regions m x) 0 true true e (vals i) s)
    (fun V W cb vals pv s => match fst pv with PProcessed => bind (process_anonymous cb m (vals 0) fuel s) (fun _ s => Done pv s) | _ => Done pv s end)
    (fun pj V W cb vals s => match fst pj with PProcessed => bind (process_anonymous cb m (vals 0) fuel s) (fun _ s => Done (fst pj, vals (snd pj)) s) | _ => Done (fst pj, vals (snd pj)) s end) (region_loop_a fuel _ e 0 true true i n x Hi) _ _).
  { intros V W cb vals vals' [p j] s _ A. cbn. now rewrite (A 0 Hn). }
  intros n' [p j] y L Hj. cbn in Hj |- *. destruct p; try solve [leaf (paired pres)].
  refine (ask_then (S':=paired pres) n' y (fun V W cb vals s => process_anonymous cb m (vals 0) fuel s) (fun _ V W cb vals s => Done (PProcessed, vals j) s) (anonymous_a fuel n' y ltac:(lia)) _ _).
  - intros V W cb vals vals' a s _ A. now rewrite (A j Hj).
  - intros n2 _ z L2. apply ask_pair. lia.
Qed.
Lemma deferred_a fuel n x : 0 < n -> asks (S:=plain unit) n x (fun V W cb vals s => process_deferred cb m (vals 0) fuel s).
Proof.
  intros Hn P Q. unfold process_deferred. destruct (has_deferred m); [|now apply (ask_plain tt n x)]. destruct (rt_queue x) as [|[e i] q] eqn:E.
  - destruct (ask_plain tt n x P Q) as (t & F & Ht). exists t. split; [exact F|]. intros V W cb vals w tr. rewrite <- Ht. cbn [fill rt_queue]. rewrite E. reflexivity.
  - assert (Hi : i < n) by (apply (Q (e, i)); rewrite E; now left).
    assert (Qq : numbered n (with_queue x q)) by (intros y Hy; apply Q; rewrite E; now right).
    destruct (ask_bind (S:=paired pres) (S':=plain unit) n (with_queue x q) (fun V W cb vals s => process_event_internal cb m (vals 0) fuel e (vals i) s) (fun V W cb vals _ s => Done tt s) (fun _ V W cb vals s => Done tt s)
      (internal_a fuel e i n _ Hn Hi) (fun V W cb vals vals' a s _ _ => eq_refl) (fun n' _ y _ _ => ask_plain tt n' y) P Qq) as (t & F & Ht).
    exists t. split; [exact F|]. intros V W cb vals w tr. rewrite <- Ht. cbn [fill rt_queue]. rewrite E. reflexivity.
Qed.
Lemma handler_a e i n x : i < n -> asks (S:=lone) n x (fun V W cb vals s => call_handler cb m e (vals i) s).
Proof.
  intros Hi. unfold call_handler. destruct (cd_unexpected _); try solve [leaf (lone)].
  refine (ask_then (S':=lone) n x (fun V W cb vals s => at_cur s 0) (fun c V W cb vals s => match get_table (rt_htabs s) e with
    | None => Undef UBIllformed
    | Some arr => match nth_at c arr with
        | None => Threw XOutOfRange s
        | Some None => Undef UBNull
        | Some (Some (o, d)) => if alive s o then keep_payload (invoke cb CHandler (mkArgs e o TNone d) (vals i) s) else Undef UBNull
        end
    end) (at_a n x 0) _ _).
  { intros V W cb vals vals' c s _ A. now rewrite (A i Hi). }
  intros n' c y L. destruct (get_table (rt_htabs y) e) as [arr|] eqn:E; [|refine (ask_ext (S:=lone) n' y _ _ _ (ask_undef UBIllformed n' y)); intros; cbn [fill rt_htabs]; now rewrite E].
  destruct (nth_at c arr) as [[[o d]|]|] eqn:E1;
    [|refine (ask_ext (S:=lone) n' y _ _ _ (ask_undef UBNull n' y)); intros; cbn [fill rt_htabs]; now rewrite E, E1|refine (ask_ext (S:=lone) n' y _ _ _ (ask_range n' y)); intros; cbn [fill rt_htabs]; now rewrite E, E1].
  refine (ask_ext (S:=lone) n' y _ (fun V W cb vals s => if alive s o then keep_payload (invoke cb CHandler (mkArgs e o TNone d) (vals i) s) else Undef UBNull) _ _).
  - intros. cbn [fill rt_htabs]. now rewrite E, E1.
  - refine (alive_a (S:=lone) o (fun V W cb vals s => keep_payload (invoke cb CHandler (mkArgs e o TNone d) (vals i) s)) (fun V W cb vals s => Undef UBNull) n' y _ _); auto.
    apply (keep_a n' y (fun V W cb vals s => invoke cb CHandler (mkArgs e o TNone d) (vals i) s)), invoke_a. lia.
Qed.
Lemma event_a fuel e i n x : 0 < n -> i < n -> asks (S:=paired bool) n x (fun V W cb vals s => process_event cb m (vals 0) fuel e (vals i) s).
Proof.
  intros Hn Hi. unfold process_event. destruct (in_dec ev_eq_dec e (events m)); try solve [leaf (paired bool)].
  refine (ask_bind (S:=paired pres) (S':=paired bool) n x (fun V W cb vals s => process_event_internal cb m (vals 0) fuel e (vals i) s) (fun V W cb vals pv s => match fst pv with
    | PInvalid => bind (call_handler cb m e (snd pv) s) (fun v' s => Done (false, v') s)
    | PDeferred | PGuardsFailed => Done (false, snd pv) s
    | PProcessed => bind (process_deferred cb m (vals 0) fuel s) (fun _ s => Done (true, snd pv) s) end)
    (fun pj V W cb vals s => match fst pj with
    | PInvalid => bind (call_handler cb m e (vals (snd pj)) s) (fun v' s => Done (false, v') s)
    | PDeferred | PGuardsFailed => Done (false, vals (snd pj)) s
    | PProcessed => bind (process_deferred cb m (vals 0) fuel s) (fun _ s => Done (true, vals (snd pj)) s) end) (internal_a fuel e i n x Hn Hi) _ _).
  { intros V W cb vals vals' [p j] s _ A. cbn. now rewrite (A 0 Hn). }
  intros n' [p j] y L Hj. cbn in Hj |- *. destruct p; try solve [leaf (paired bool)].
  - refine (ask_bind (S:=lone) (S':=paired bool) n' y (fun V W cb vals s => call_handler cb m e (vals j) s) (fun V W cb vals v' s => Done (false, v') s) (fun k V W cb vals s => Done (false, vals k) s) (handler_a e j n' y Hj) _ _); auto.
  - refine (ask_then (S':=paired bool) n' y (fun V W cb vals s => process_deferred cb m (vals 0) fuel s) (fun _ V W cb vals s => Done (true, vals j) s) (deferred_a fuel n' y ltac:(lia)) _ _).
    + intros V W cb vals vals' a s _ A. now rewrite (A j Hj).
    + intros n2 _ z L2. apply ask_pair. lia.
Qed.
Lemma q_is_a r p st n x : asks (S:=plain bool) n x (fun V W cb vals s => q_is m r p st s).
Proof.
  unfold q_is. refine (ask_then (S':=plain bool) n x (fun V W cb vals s => current_parent m s) (fun cp V W cb vals s => if N.eqb cp (parent_idx m p) then _ else Done false s) (parent_a n x) ltac:(auto) _).
  intros n' cp y _. destruct (N.eqb cp _); try solve [leaf (plain bool)].
  refine (ask_then (S':=plain bool) n' y (fun V W cb vals s => current_state m s (to_region r)) (fun c V W cb vals s => Done _ s) (state_a n' y _) ltac:(auto) _). intros n9 c9 z9 _; exact (ask_plain _ n9 z9).
Qed.
Lemma parent_is_a p n x : asks (S:=plain bool) n x (fun V W cb vals s => q_parent_is m p s).
Proof. unfold q_parent_is. refine (ask_then (S':=plain bool) n x (fun V W cb vals s => current_parent m s) (fun cp V W cb vals s => Done _ s) (parent_a n x) ltac:(auto) _). intros n9 c9 z9 _; exact (ask_plain _ n9 z9). Qed.
Lemma set_a r p st n x : asks (S:=plain unit) n x (fun V W cb vals s => set_state m r p st s).
Proof.
  unfold set_state. destruct (in_dec sref_eq_dec st (states m)); try solve [leaf (plain unit)]. destruct (in_dec Nat.eq_dec p (parents m)); try solve [leaf (plain unit)].
  apply (ask_still n x (fun V W s => match upd_nth (to_region r) (fun _ => Some (combined_idx m p st)) (rt_cur s) with None => Threw XOutOfRange s | Some cur => Done tt (with_cur s cur) end)
    (match upd_nth (to_region r) (fun _ => Some (combined_idx m p st)) (rt_cur x) with None => Threw XOutOfRange x | Some cur => Done tt (with_cur x cur) end));
    [|intros; cbn [fill rt_cur]]; destruct (upd_nth (to_region r) _ (rt_cur x)); auto.
Qed.
Lemma status_loop_a fuel limit : forall r n x, asks (S:=plain (list (nat * N * N * N))) n x (fun V W cb vals s => status_loop m fuel limit r s).
Proof.
  induction fuel as [|f IH]; intros r n x; cbn [status_loop]; try solve [leaf (plain (list (nat * N * N * N)))]. destruct (Nat.ltb r limit); try solve [leaf (plain (list (nat * N * N * N)))].
  refine (ask_then (S':=plain (list (nat * N * N * N))) n x (fun V W cb vals s => read_cur s r) (fun c V W cb vals s => _) (read_a n x r) ltac:(auto) _). intros n1 c y _.
  refine (ask_then (S':=plain (list (nat * N * N * N))) n1 y (fun V W cb vals s => current_parent m s) (fun p V W cb vals s => _) (parent_a n1 y) ltac:(auto) _). intros n2 p z _.
  refine (ask_then (S':=plain (list (nat * N * N * N))) n2 z (fun V W cb vals s => current_state m s r) (fun st V W cb vals s => _) (state_a n2 z r) ltac:(auto) _). intros n3 st z' _.
  refine (ask_then (S':=plain (list (nat * N * N * N))) n3 z' (fun V W cb vals s => status_loop m f limit (next_region r) s) (fun l V W cb vals s => Done _ s) (IH _ n3 z') ltac:(auto) _). intros n9 c9 z9 _; exact (ask_plain _ n9 z9).
Qed.
Lemma set_dep_a d n x : asks (S:=plain unit) n x (fun V W cb vals s => set_dependency m d s).
Proof. apply (ask_still n x (fun V W s => set_dependency m d s) (set_dependency m d x)); unfold set_dependency; cbn [fill rt_tabs]; [|intros]; now destruct (fill_dispatch m d (rt_tabs x)). Qed.

(** The data of a call, by number. *)
Definition call_fits (n : nat) (k : call nat) : Prop := match k with KProcess _ i => i < n | _ => True end.
Theorem call_a fuel (k : call nat) n x : 0 < n -> call_fits n k -> asks (S:=plain out) n x (fun V W cb vals s => do_call cb m (vals 0) fuel (with_payload vals k) s).
Proof.
  intros Hn Hk. destruct k; cbn [with_payload do_call] in *.
  - refine (ask_bind (S:=paired bool) (S':=plain out) n x (fun V W cb vals s => process_event cb m (vals 0) fuel e (vals v) s) (fun V W cb vals bv s => Done (OBool (fst bv)) s) (fun bv V W cb vals s => Done (OBool (fst bv)) s) (event_a fuel e v n x Hn Hk) _ _); auto.
  - refine (ask_then (S':=plain out) n x (fun V W cb vals s => q_is m r p st s) (fun bv V W cb vals s => Done _ s) (q_is_a r p st n x) ltac:(auto) _). intros n9 c9 z9 _; exact (ask_plain _ n9 z9).
  - refine (ask_then (S':=plain out) n x (fun V W cb vals s => q_parent_is m p s) (fun bv V W cb vals s => Done _ s) (parent_is_a p n x) ltac:(auto) _). intros n9 c9 z9 _; exact (ask_plain _ n9 z9).
  - refine (ask_then (S':=plain out) n x (fun V W cb vals s => set_state m r p st s) (fun bv V W cb vals s => Done _ s) (set_a r p st n x) ltac:(auto) _). intros n9 c9 z9 _; exact (ask_plain _ n9 z9).
  - refine (ask_then (S':=plain out) n x (fun V W cb vals s => set_dependency m d s) (fun bv V W cb vals s => Done _ s) (set_dep_a d n x) ltac:(auto) _). intros n9 c9 z9 _; exact (ask_plain _ n9 z9).
  - refine (ask_then (S':=plain out) n x (fun V W cb vals s => status m fuel s) (fun l V W cb vals s => Done _ s) _ ltac:(auto) _); [|intros n9 c9 z9 _; exact (ask_plain _ n9 z9)].
    unfold status. refine (ask_ext (S:=plain (list (nat * N * N * N))) n x _ (fun V W cb vals s => status_loop m fuel (current_regions m x) 0 s) (fun V W cb vals w tr => eq_refl) (status_loop_a fuel _ 0 n x)).
Qed.
End Asks.
