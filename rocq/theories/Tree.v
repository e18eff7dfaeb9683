(** A call as a tree of questions to user code. *)

From Coq Require Import List Arith NArith Bool Lia.
From Verif Require Import Types Static Dispatch Runtime Data.
Import ListNotations.

(** A machine without user data: no payloads, no world, no record. *)
Definition put {W} (x : rt unit unit) (w : W) (tr : list (called unit)) : rt unit W :=
  mkRt (rt_cur x) (rt_hist x) (rt_queue x) (rt_regions x) (rt_live x) (rt_tabs x) (rt_htabs x) w tr.

(** The end of a call: a result, an exception of the library, undefined behaviour, no fuel left. *)
Inductive leaf (A : Type) :=
| LDone (a : A) (x : rt unit unit)
| LRange (x : rt unit unit)
| LUndef (u : ub)
| LTimeout.
(** A question: which user code with which arguments, the machine at that moment, what follows
    each answer. *)
Inductive tree (A : Type) :=
| Leaf (l : leaf A)
| Ask (c : callee) (a : args) (x : rt unit unit) (yes no : tree A).
Arguments LDone {A}. Arguments LRange {A}. Arguments LUndef {A}. Arguments LTimeout {A}.
Arguments Leaf {A}. Arguments Ask {A}.

(** Asking user code. If it throws, the exception leaves the call. *)
Fixpoint interp {W A} (cb : cbfun unit W) (t : tree A) (w : W) (tr : list (called unit)) : res unit W A :=
  match t with
  | Leaf (LDone a x) => Done a (put x w tr)
  | Leaf (LRange x) => Threw XOutOfRange (put x w tr)
  | Leaf (LUndef u) => Undef u
  | Leaf LTimeout => Timeout
  | Ask c a x yes no =>
      match cb c a tt w with
      | Ret b _ w' => interp cb (if b then yes else no) w' (tr ++ [mkCall c a tt])
      | Raise n _ w' => Threw (XUser n) (put x w' (tr ++ [mkCall c a tt]))
      end
  end.

(** [f] from [x] is a tree, the same for all user code. *)
Definition code (A : Type) := forall W, cbfun unit W -> rt unit W -> res unit W A.
Definition asks {A} (x : rt unit unit) (f : code A) : Prop :=
  exists t, forall W (cb : cbfun unit W) w tr, f W cb (put x w tr) = interp cb t w tr.

Lemma unit_payload (v : unit) : v = tt. Proof. now destruct v. Qed.
Lemma ask_done {A} (a : A) x : asks x (fun W cb s => Done a s).
Proof. exists (Leaf (LDone a x)). reflexivity. Qed.
Lemma ask_to {A} (a : A) x x' (g : forall W, rt unit W -> rt unit W) : (forall W (w : W) tr, g W (put x w tr) = put x' w tr) -> asks x (fun W cb s => Done a (g W s)).
Proof. intros H. exists (Leaf (LDone a x')). intros. cbn. now rewrite H. Qed.
Lemma ask_undef {A} u x : asks x (fun W cb s => @Undef unit W A u).
Proof. now exists (Leaf (LUndef u)). Qed.
Lemma ask_time {A} x : asks x (fun W cb s => @Timeout unit W A).
Proof. now exists (Leaf LTimeout). Qed.
Lemma ask_range {A} x : asks (A:=A) x (fun W cb s => Threw XOutOfRange s).
Proof. now exists (Leaf (LRange x)). Qed.
#[local] Hint Resolve ask_done ask_undef ask_time ask_range : core.
Lemma ask_ext {A} x (f g : code A) : (forall W cb w tr, f W cb (put x w tr) = g W cb (put x w tr)) -> asks x g -> asks x f.
Proof. intros E [t H]. exists t. intros. now rewrite E. Qed.
Lemma ask_bind {A B} x (f : code A) (k : A -> code B) : asks x f -> (forall a x', asks x' (k a)) ->
  asks x (fun W cb s => bind (f W cb s) (fun a s => k a W cb s)).
Proof.
  intros [t Ht] Hk.
  assert (G : exists t', forall W (cb : cbfun unit W) w tr, bind (interp cb t w tr) (fun a s => k a W cb s) = interp cb t' w tr).
  { clear Ht f. induction t as [l|c a y yes IHy no IHn].
    - destruct l as [a y|y|u|].
      + destruct (Hk a y) as [t' H']. exists t'. intros. cbn. apply H'.
      + now exists (Leaf (LRange y)).
      + now exists (Leaf (LUndef u)).
      + now exists (Leaf LTimeout).
    - destruct IHy as [ty Hy], IHn as [tn Hn]. exists (Ask c a y ty tn). intros. cbn [interp].
      destruct (cb c a tt w) as [[|] v w'|n v w']; [apply Hy|apply Hn|reflexivity]. }
  destruct G as [t' G]. exists t'. intros. rewrite Ht. apply G.
Qed.

Section Asks.
Variable m : machine.
Notation st := (rt unit unit).

Lemma invoke_a c a v x : asks x (fun W cb s => invoke cb c a v s).
Proof.
  exists (Ask c a x (Leaf (LDone (true, tt) x)) (Leaf (LDone (false, tt) x))). intros W cb w tr. cbn. unfold invoke. cbn. rewrite (unit_payload v).
  destruct (cb c a tt w) as [[|] [] w'|n [] w']; reflexivity.
Qed.
Lemma keep_a x (f : code (bool * unit)) : asks x f -> asks x (fun W cb s => keep_payload (f W cb s)).
Proof. intros H. unfold keep_payload. apply (ask_bind x f (fun bv W cb s => Done (snd bv) s)); auto. Qed.
Lemma drop_a v x (f : code (bool * unit)) : asks x f -> asks x (fun W cb s => drop_payload v (f W cb s)).
Proof. intros H. unfold drop_payload. apply (ask_bind x f (fun bv W cb s => Done v s)); auto. Qed.
Lemma alive_a {A} o (f g : code A) x : asks x f -> asks x g -> asks x (fun W cb s => if alive s o then f W cb s else g W cb s).
Proof.
  intros F G. destruct (alive x o) eqn:E.
  - refine (ask_ext x _ f _ F). intros W cb w tr. change (alive (put x w tr) o) with (alive x o). now rewrite E.
  - refine (ask_ext x _ g _ G). intros W cb w tr. change (alive (put x w tr) o) with (alive x o). now rewrite E.
Qed.
Lemma guard_a t e v x : asks x (fun W cb s => execute_guard cb t e v s).
Proof.
  unfold execute_guard. destruct (t_guard t); auto. 
  destruct (alive x (t_src t) && alive x (if t_int t then t_src t else t_tgt t)) eqn:E.
  - refine (ask_ext x _ _ _ (invoke_a _ _ v x)). intros W cb w tr. match goal with |- (if ?b then _ else _) = _ => change b with (alive x (t_src t) && alive x (if t_int t then t_src t else t_tgt t)) end. rewrite E. reflexivity.
  - refine (ask_ext x _ _ _ (ask_undef UBNull x)). intros W cb w tr. match goal with |- (if ?b then _ else _) = _ => change b with (alive x (t_src t) && alive x (if t_int t then t_src t else t_tgt t)) end. now rewrite E.
Qed.
Lemma body_a b : forall t e v x, asks x (fun W cb s => exec_body cb b t e v s).
Proof.
  induction b as [f|f|f|l F] using abody_all; intros t e v x; cbn [exec_body].
  - apply keep_a, invoke_a.
  - apply (ask_bind x (fun W cb s => invoke cb (CFactory f) (mkArgs e (t_src t) TNone (t_dep t)) v s) (fun bv W cb s => Done v (set_live s (t_tgt t) (fst bv)))); [apply invoke_a|].
    intros bv y. now apply (ask_to v y (set_live y (t_tgt t) (fst bv)) (fun W s => set_live s (t_tgt t) (fst bv))).
  - apply alive_a; auto. apply drop_a, invoke_a.
  - revert v x. induction F as [|b l Hb F IH]; intros v x; auto.
    apply (ask_bind x (fun W cb s => exec_body cb b t e v s) (fun v W cb s => (fix go (l : list abody) (v : unit) (s : rt unit W) : res unit W unit :=
      match l with [] => Done v s | b :: l' => bind (exec_body cb b t e v s) (fun v' s' => go l' v' s') end) l v s)); auto.
Qed.
Lemma steps_a t e l : forall v x, asks x (fun W cb s => exec_steps cb l t e v s).
Proof.
  induction l as [|y l IH]; intros v x; cbn [exec_steps]; auto.
  apply (ask_bind x (fun W cb s => exec_step cb y t e v s) (fun v W cb s => exec_steps cb l t e v s)); [|auto]. destruct y; cbn [exec_step]; auto using keep_a, invoke_a, body_a.
Qed.
Lemma action_a t e v x : asks x (fun W cb s => execute_action cb t e v s).
Proof.
  unfold execute_action. destruct (t_act t) as [l|]; auto.
  destruct (alive x (t_src t) && (t_ptr t || t_int t || alive x (t_tgt t))) eqn:E.
  - refine (ask_ext x _ _ _ (steps_a t e l v x)). intros W cb w tr. match goal with |- (if ?b then _ else _) = _ => change b with (alive x (t_src t) && (t_ptr t || t_int t || alive x (t_tgt t))) end. now rewrite E.
  - refine (ask_ext x _ _ _ (ask_undef UBNull x)). intros W cb w tr. match goal with |- (if ?b then _ else _) = _ => change b with (alive x (t_src t) && (t_ptr t || t_int t || alive x (t_tgt t))) end. now rewrite E.
Qed.
Lemma read_a x r : asks x (fun W cb s => read_cur s r).
Proof. unfold read_cur. destruct (nth_error (rt_cur x) r) as [[c|]|] eqn:E; [exists (Leaf (LDone c x))|exists (Leaf (LUndef UBUninit))|exists (Leaf (LUndef UBIndex))]; intros; cbn; now rewrite E. Qed.
Lemma at_a x r : asks x (fun W cb s => at_cur s r).
Proof. unfold at_cur. destruct (nth_error (rt_cur x) r) as [[c|]|] eqn:E; [exists (Leaf (LDone c x))|exists (Leaf (LUndef UBUninit))|exists (Leaf (LRange x))]; intros; cbn; now rewrite E. Qed.
Lemma write_a x r c : asks x (fun W cb s => write_cur s r c).
Proof. unfold write_cur. destruct (upd_nth r (fun _ => Some c) (rt_cur x)) as [l|] eqn:E; [exists (Leaf (LDone tt (with_cur x l)))|exists (Leaf (LUndef UBIndex))]; intros; cbn; now rewrite E. Qed.
Lemma parent_a x : asks x (fun W cb s => current_parent m s).
Proof. unfold current_parent. apply (ask_bind x (fun W cb s => read_cur s 0) (fun c W cb s => Done (calc_parent_idx (n_states m) c) s)); auto using read_a. Qed.
Lemma state_a x r : asks x (fun W cb s => current_state m s r).
Proof. unfold current_state. apply (ask_bind x (fun W cb s => at_cur s r) (fun c W cb s => Done (calc_state_idx (n_states m) c) s)); auto using at_a. Qed.
Lemma update_regions_a x : asks x (fun W cb s => update_current_regions m s).
Proof.
  unfold update_current_regions. destruct (parallel m); auto.
  apply (ask_bind x (fun W cb s => current_parent m s) (fun p W cb s => match nth_at p (initial_table m) with None => Undef UBIndex | Some l => Done tt (with_regions s (length l)) end)); [apply parent_a|].
  intros p y. destruct (nth_at p (initial_table m)) as [l|]; auto. now apply (ask_to tt y (with_regions y (length l)) (fun W s => with_regions s (length l))).
Qed.
Lemma write_hist_a x p r c : asks x (fun W cb s => write_hist s p r c).
Proof.
  unfold write_hist. destruct (nth_at p (rt_hist x)) as [l|] eqn:E; [|exists (Leaf (LUndef UBIndex)); intros; cbn; now rewrite E].
  destruct (upd_nth r (fun _ => c) l) as [l'|] eqn:E1; [|exists (Leaf (LUndef UBIndex)); intros; cbn; now rewrite E, E1].
  destruct (upd_at p (fun _ => l') (rt_hist x)) as [h|] eqn:E2; [exists (Leaf (LDone tt (with_hist x h)))|exists (Leaf (LUndef UBIndex))]; intros; cbn; now rewrite E, E1, E2.
Qed.
Lemma read_hist_a x p r : asks x (fun W cb s => read_hist s p r).
Proof.
  unfold read_hist. destruct (nth_at p (rt_hist x)) as [l|] eqn:E; [|exists (Leaf (LUndef UBIndex)); intros; cbn; now rewrite E].
  destruct (nth_error l r) as [c|] eqn:E1; [exists (Leaf (LDone c x))|exists (Leaf (LUndef UBIndex))]; intros; cbn; now rewrite E, E1.
Qed.
Lemma update_state_a r en x : asks x (fun W cb s => update_current_state m r en s).
Proof.
  unfold update_current_state. destruct (en_int en); auto.
  refine (ask_bind x (fun W cb s => if has_history m then _ else write_cur s r (en_to en)) (fun _ W cb s => update_current_regions m s) _ (fun _ => update_regions_a)).
  destruct (has_history m); [|apply write_a].
  refine (ask_bind x (fun W cb s => current_parent m s) (fun p W cb s => bind (read_cur s r) (fun c s => bind (write_hist s p r c) (fun _ s => if en_hist en then _ else write_cur s r (en_to en)))) (parent_a x) _).
  intros p y. refine (ask_bind y (fun W cb s => read_cur s r) (fun c W cb s => bind (write_hist s p r c) (fun _ s => if en_hist en then _ else write_cur s r (en_to en))) (read_a y r) _).
  intros c z. refine (ask_bind z (fun W cb s => write_hist s p r c) (fun _ W cb s => if en_hist en then _ else write_cur s r (en_to en)) (write_hist_a z p r c) _).
  intros _ x1. destruct (en_hist en); [|apply write_a].
  refine (ask_bind x1 (fun W cb s => read_hist s _ r) (fun c W cb s => write_cur s r c) (read_hist_a x1 _ r) _). intros c' x2. apply write_a.
Qed.
Lemma entries_a e r x : asks x (fun W cb s => get_entries e r s).
Proof.
  unfold get_entries. destruct (get_table (rt_tabs x) e) as [arr|] eqn:E; [|exists (Leaf (LUndef UBIllformed)); intros; cbn; now rewrite E].
  refine (ask_ext x _ (fun W cb s => bind (read_cur s r) (fun c s => match nth_at c arr with None => Undef UBIndex | Some l => Done l s end)) _ _); [intros; cbn [rt_tabs put]; now rewrite E|].
  refine (ask_bind x (fun W cb s => read_cur s r) (fun c W cb s => match nth_at c arr with None => Undef UBIndex | Some l => Done l s end) (read_a x r) _).
  intros c y. destruct (nth_at c arr); auto.
Qed.
Lemma fired_a {A} (k : unit -> A) t e v r en x : asks x (fun W cb s => bind (update_current_state m r en s) (fun _ s => bind (execute_action cb t e v s) (fun v' s => Done (k v') s))).
Proof.
  refine (ask_bind x (fun W cb s => update_current_state m r en s) (fun _ W cb s => bind (execute_action cb t e v s) (fun v' s => Done (k v') s)) (update_state_a r en x) _).
  intros _ y. refine (ask_bind y (fun W cb s => execute_action cb t e v s) (fun v' W cb s => Done (k v') s) (action_a t e v y) _). auto.
Qed.
Lemma try_entries_a r e ens : forall v x, asks x (fun W cb s => try_entries cb m ens r e v s).
Proof.
  induction ens as [|en ens IH]; intros v x; cbn [try_entries]; auto.
  destruct (en_defer en).
  { now apply (ask_to (Deferred, v) x (with_queue x (rt_queue x ++ [(e, v)])) (fun W s => with_queue s (rt_queue s ++ [(e, v)]))). }
  destruct (en_tr en) as [t|]; auto.
  refine (ask_bind x (fun W cb s => execute_guard cb t e v s) (fun bv W cb s => if fst bv then _ else try_entries cb m ens r e (snd bv) s) (guard_a t e v x) _).
  intros [b v'] y. cbn [fst snd]. destruct b; [apply (fired_a (fun v' => (Fired, v')))|apply IH].
Qed.
Lemma try_region_a r e v x : asks x (fun W cb s => try_region cb m r e v s).
Proof.
  unfold try_region. refine (ask_bind x (fun W cb s => get_entries e r s) (fun l W cb s => match l with [] => Done (None, v) s | _ => bind (try_entries cb m l r e v s) (fun tv s => Done (Some (fst tv), snd tv) s) end) (entries_a e r x) _).
  intros l y. destruct l as [|en l]; auto. refine (ask_bind y (fun W cb s => try_entries cb m (en :: l) r e v s) (fun tv W cb s => Done (Some (fst tv), snd tv) s) (try_entries_a r e _ v y) _). auto.
Qed.
Lemma region_loop_a fuel limit e : forall r agf ati v x, asks x (fun W cb s => region_loop cb m fuel limit r agf ati e v s).
Proof.
  induction fuel as [|f IH]; intros r agf ati v x; cbn [region_loop]; auto. destruct (Nat.ltb r limit); auto.
  refine (ask_bind x (fun W cb s => try_region cb m r e v s) (fun tv W cb s => match fst tv with
    | None => region_loop cb m f limit (next_region r) agf ati e (snd tv) s
    | Some Deferred => Done (PDeferred, snd tv) s
    | Some Refused => region_loop cb m f limit (next_region r) agf false e (snd tv) s
    | Some Fired => region_loop cb m f limit (next_region r) false false e (snd tv) s end) (try_region_a r e v x) _).
  intros [[[| |]|] v'] y; cbn [fst snd]; auto.
Qed.
Lemma try_anonymous_a r ens : forall v x, asks x (fun W cb s => try_anonymous cb m ens r v s).
Proof.
  induction ens as [|en ens IH]; intros v x; cbn [try_anonymous]; auto. destruct (en_tr en) as [t|]; auto.
  refine (ask_bind x (fun W cb s => execute_guard cb t ENone v s) (fun bv W cb s => if fst bv then _ else try_anonymous cb m ens r (snd bv) s) (guard_a t ENone v x) _).
  intros [b v'] y. cbn [fst snd]. destruct b; [apply (fired_a (fun v' => (true, v')))|apply IH].
Qed.
Lemma anonymous_region_a r v x : asks x (fun W cb s => anonymous_region cb m r v s).
Proof.
  unfold anonymous_region. refine (ask_bind x (fun W cb s => get_entries ENone r s) (fun l W cb s => match l with [] => Done (None, v) s | _ => bind (try_anonymous cb m l r v s) (fun tv s => Done (Some (fst tv), snd tv) s) end) (entries_a ENone r x) _).
  intros l y. destruct l as [|en l]; auto. refine (ask_bind y (fun W cb s => try_anonymous cb m (en :: l) r v s) (fun tv W cb s => Done (Some (fst tv), snd tv) s) (try_anonymous_a r _ v y) _). auto.
Qed.
Lemma anonymous_pass_a fuel limit : forall r agf v x, asks x (fun W cb s => anonymous_pass cb m fuel limit r agf v s).
Proof.
  induction fuel as [|f IH]; intros r agf v x; cbn [anonymous_pass]; auto. destruct (Nat.ltb r limit); auto.
  refine (ask_bind x (fun W cb s => anonymous_region cb m r v s) (fun bv W cb s => match fst bv with
    | None => Done (None, snd bv) s
    | Some b => anonymous_pass cb m f limit (next_region r) (if b then false else agf) (snd bv) s end) (anonymous_region_a r v x) _).
  intros [[b|] v'] y; cbn [fst snd]; auto.
Qed.
Lemma anonymous_loop_a rfuel fuel : forall v x, asks x (fun W cb s => anonymous_loop cb m rfuel fuel v s).
Proof.
  induction fuel as [|f IH]; intros v x; cbn [anonymous_loop]; auto.
  refine (ask_ext x _ (fun W cb s => bind (anonymous_pass cb m rfuel (current_regions m x) 0 true v s) _) (fun W cb w tr => eq_refl) _).
  refine (ask_bind x (fun W cb s => anonymous_pass cb m rfuel (current_regions m x) 0 true v s) (fun ov W cb s => match fst ov with
    | None => Done tt s
    | Some true => Done tt s
    | Some false => anonymous_loop cb m rfuel f (snd ov) s end) (anonymous_pass_a rfuel _ 0 true v x) _).
  intros [[[|]|] v'] y; cbn [fst snd]; auto.
Qed.
Lemma anonymous_a fuel x : asks x (fun W cb s => process_anonymous cb m tt fuel s).
Proof. unfold process_anonymous. destruct (has_anonymous m); auto using anonymous_loop_a. Qed.
Lemma internal_a fuel e v x : asks x (fun W cb s => process_event_internal cb m tt fuel e v s).
Proof.
  unfold process_event_internal.
  refine (ask_ext x _ (fun W cb s => bind (region_loop cb m fuel (current_regions m x) 0 true true e v s) _) (fun W cb w tr => eq_refl) _).
  refine (ask_bind x (fun W cb s => region_loop cb m fuel (current_regions m x) 0 true true e v s) (fun pv W cb s => match fst pv with
    | PProcessed => _ | _ => Done pv s end) (region_loop_a fuel _ e 0 true true v x) _).
  intros [p v'] y. cbn [fst]. destruct p; auto.
  refine (ask_bind y (fun W cb s => process_anonymous cb m tt fuel s) (fun _ W cb s => Done _ s) (anonymous_a fuel y) _). auto.
Qed.
Lemma deferred_a fuel x : asks x (fun W cb s => process_deferred cb m tt fuel s).
Proof.
  unfold process_deferred. destruct (has_deferred m); auto. destruct (rt_queue x) as [|[e v] q] eqn:E.
  - refine (ask_ext x _ _ _ (ask_done tt x)). intros. cbn [put rt_queue]. now rewrite E.
  - destruct (internal_a fuel e v (with_queue x q)) as [t Ht].
    destruct (ask_bind (with_queue x q) (fun W cb s => process_event_internal cb m tt fuel e v s) (fun _ W cb s => Done tt s) (Logic.ex_intro _ t Ht) (fun _ y => ask_done tt y)) as [t' H'].
    exists t'. intros W cb w tr. rewrite <- H'. cbn [put rt_queue]. now rewrite E.
Qed.
Lemma handler_a e v x : asks x (fun W cb s => call_handler cb m e v s).
Proof.
  unfold call_handler. destruct (cd_unexpected _); auto.
  refine (ask_bind x (fun W cb s => at_cur s 0) (fun c W cb s => _) (at_a x 0) _).
  intros c y. destruct (get_table (rt_htabs y) e) as [arr|] eqn:E; [|refine (ask_ext y _ _ _ (ask_undef UBIllformed y)); intros; cbn [put rt_htabs]; now rewrite E].
  destruct (nth_at c arr) as [[[o d]|]|] eqn:E1;
    [|refine (ask_ext y _ _ _ (ask_undef UBNull y)); intros; cbn [put rt_htabs]; now rewrite E, E1|refine (ask_ext y _ _ _ (ask_range y)); intros; cbn [put rt_htabs]; now rewrite E, E1].
  refine (ask_ext y _ (fun W cb s => if alive s o then keep_payload (invoke cb CHandler (mkArgs e o TNone d) v s) else Undef UBNull) _ _).
  - intros. cbn [put rt_htabs]. now rewrite E, E1.
  - apply alive_a; auto. apply keep_a, invoke_a.
Qed.
Lemma event_a fuel e v x : asks x (fun W cb s => process_event cb m tt fuel e v s).
Proof.
  unfold process_event. destruct (in_dec ev_eq_dec e (events m)); auto.
  refine (ask_bind x (fun W cb s => process_event_internal cb m tt fuel e v s) (fun pv W cb s => match fst pv with
    | PInvalid => bind (call_handler cb m e (snd pv) s) (fun v' s => Done (false, v') s)
    | PDeferred | PGuardsFailed => Done (false, snd pv) s
    | PProcessed => bind (process_deferred cb m tt fuel s) (fun _ s => Done (true, snd pv) s) end) (internal_a fuel e v x) _).
  intros [p v'] y. cbn [fst snd]. destruct p; auto.
  all: first [ refine (ask_bind y (fun W cb s => call_handler cb m e v' s) (fun v' W cb s => Done (false, v') s) (handler_a e v' y) _); solve [auto]
             | refine (ask_bind y (fun W cb s => process_deferred cb m tt fuel s) (fun _ W cb s => Done (true, v') s) (deferred_a fuel y) _); solve [auto] ].
Qed.
Lemma q_is_a r p st x : asks x (fun W cb s => q_is m r p st s).
Proof.
  unfold q_is. refine (ask_bind x (fun W cb s => current_parent m s) (fun cp W cb s => if N.eqb cp (parent_idx m p) then _ else Done false s) (parent_a x) _).
  intros cp y. destruct (N.eqb cp _); auto.
  refine (ask_bind y (fun W cb s => current_state m s (to_region r)) (fun c W cb s => Done _ s) (state_a y _) _). auto.
Qed.
Lemma parent_is_a p x : asks x (fun W cb s => q_parent_is m p s).
Proof. unfold q_parent_is. refine (ask_bind x (fun W cb s => current_parent m s) (fun cp W cb s => Done _ s) (parent_a x) _). auto. Qed.
Lemma set_a r p st x : asks x (fun W cb s => set_state m r p st s).
Proof.
  unfold set_state. destruct (in_dec sref_eq_dec st (states m)); auto. destruct (in_dec Nat.eq_dec p (parents m)); auto.
  destruct (upd_nth (to_region r) (fun _ => Some (combined_idx m p st)) (rt_cur x)) as [l|] eqn:E; [exists (Leaf (LDone tt (with_cur x l)))|exists (Leaf (LRange x))];
    intros; cbn [put rt_cur]; rewrite E; reflexivity.
Qed.
Lemma status_loop_a fuel limit : forall r x, asks x (fun W cb s => status_loop m fuel limit r s).
Proof.
  induction fuel as [|f IH]; intros r x; cbn [status_loop]; auto. destruct (Nat.ltb r limit); auto.
  refine (ask_bind x (fun W cb s => read_cur s r) (fun c W cb s => _) (read_a x r) _). intros c y.
  refine (ask_bind y (fun W cb s => current_parent m s) (fun p W cb s => _) (parent_a y) _). intros p z.
  refine (ask_bind z (fun W cb s => current_state m s r) (fun st W cb s => _) (state_a z r) _). intros st z'.
  refine (ask_bind z' (fun W cb s => status_loop m f limit (next_region r) s) (fun l W cb s => Done _ s) (IH _ z') _). auto.
Qed.
Lemma set_dep_a d x : asks x (fun W cb s => set_dependency m d s).
Proof.
  unfold set_dependency. destruct (fill_dispatch m d (rt_tabs x)) as [t|] eqn:E; [exists (Leaf (LDone tt (with_tabs x t)))|exists (Leaf (LUndef UBIndex))];
    intros; cbn [put rt_tabs]; rewrite E; reflexivity.
Qed.
Theorem call_a fuel k x : asks x (fun W cb s => do_call cb m tt fuel k s).
Proof.
  destruct k; cbn [do_call].
  - refine (ask_bind x (fun W cb s => process_event cb m tt fuel e v s) (fun bv W cb s => Done _ s) (event_a fuel e v x) _). auto.
  - refine (ask_bind x (fun W cb s => q_is m r p st s) (fun bv W cb s => Done _ s) (q_is_a r p st x) _). auto.
  - refine (ask_bind x (fun W cb s => q_parent_is m p s) (fun bv W cb s => Done _ s) (parent_is_a p x) _). auto.
  - refine (ask_bind x (fun W cb s => set_state m r p st s) (fun bv W cb s => Done _ s) (set_a r p st x) _). auto.
  - refine (ask_bind x (fun W cb s => set_dependency m d s) (fun bv W cb s => Done _ s) (set_dep_a d x) _). auto.
  - refine (ask_bind x (fun W cb s => status m fuel s) (fun l W cb s => Done _ s) _ _); auto.
    unfold status. refine (ask_ext x _ (fun W cb s => status_loop m fuel (current_regions m x) 0 s) (fun W cb w tr => eq_refl) (status_loop_a fuel _ 0 x)).
Qed.
End Asks.
