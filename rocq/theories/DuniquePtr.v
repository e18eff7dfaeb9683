(** hsm::details::utils::dunique_ptr, details/utils/dunique_ptr.h: the owning
    pointer that holds the entries of the dispatch tables (dispatch_table.h 144,
    161).

    A program is a list of operations on pointer variables (numbered in order of
    construction), the heap is the list of allocated addresses; addresses may be
    reused after they were freed.  Raw pointers got from [new] or [release] are
    kept in a list of pointers the client has to look after.  Not modelled:
    the pointee and its destructor (a destructor that touches the variables). *)

From Coq Require Import List Arith Bool Lia.
Import ListNotations.

Definition addr := nat.
Record pstate := mkP {
  p_vars : list (option (option addr));  (* None: destroyed; Some p: alive, holding p *)
  p_raw : list addr;                     (* owned by the client *)
  p_heap : list addr                     (* allocated *)
}.
Definition p_init : pstate := mkP [] [] [].

Inductive pop :=
| PNew (a : addr)                 (* raw pointer = new T, the allocator answers a *)
| PDelete (a : addr)              (* delete of a raw pointer *)
| PConstruct                      (* dunique_ptr()                   11-14 *)
| PAdopt (a : addr)               (* dunique_ptr(raw)                15-18 *)
| PMoveConstruct (j : nat)        (* dunique_ptr(std::move(j))       21-25 *)
| PMoveAssign (i j : nat)         (* i = std::move(j)                26-30 *)
| PSwap (i j : nat)               (* 64-67, 98-101 *)
| PReset (i : nat)                (* i.reset()                       35-41 *)
| PResetTo (i : nat) (a : addr)   (* i.reset(raw) *)
| PResetGet (i j : nat)           (* i.reset(j.get()): the client gives away a pointer it does not own *)
| PRelease (i : nat)              (* raw = i.release()               42-47 *)
| PDestroy (i : nat).             (* ~dunique_ptr                    31-34 *)

(** [PIllegal]: not a C++ program (a destroyed variable, a raw pointer the client
    does not have, an allocator that hands out an address in use);
    [PDoubleFree]: delete of an address that is not allocated. *)
Inductive pres := POk (s : pstate) | PIllegal | PDoubleFree.

Fixpoint set_var (l : list (option (option addr))) (i : nat) (x : option (option addr)) :=
  match l, i with
  | [], _ => []
  | _ :: l, 0 => x :: l
  | y :: l, S i => y :: set_var l i x
  end.
Definition get_var (s : pstate) (i : nat) : option (option addr) :=
  match nth_error (p_vars s) i with Some x => x | None => None end.
Definition put_var (s : pstate) (i : nat) (x : option (option addr)) : pstate :=
  mkP (set_var (p_vars s) i x) (p_raw s) (p_heap s).
Fixpoint take (a : addr) (l : list addr) : list addr :=
  match l with [] => [] | b :: l => if Nat.eqb a b then l else b :: take a l end.
Definition has (a : addr) (l : list addr) : bool := existsb (Nat.eqb a) l.

(** delete p *)
Definition free (p : option addr) (s : pstate) : pres :=
  match p with
  | None => POk s
  | Some a => if has a (p_heap s) then POk (mkP (p_vars s) (p_raw s) (take a (p_heap s))) else PDoubleFree
  end.
(** reset(value), 35-41: remember, overwrite, delete. *)
Definition reset (i : nat) (value : option addr) (s : pstate) : pres :=
  match get_var s i with
  | None => PIllegal
  | Some to_delete => free to_delete (put_var s i (Some value))
  end.
(** swap, 64-67 (std::swap of the two pointers; the same variable is possible). *)
Definition swap (i j : nat) (s : pstate) : pres :=
  match get_var s i, get_var s j with
  | Some pi, Some pj => POk (put_var (put_var s i (Some pj)) j (Some pi))
  | _, _ => PIllegal
  end.
Definition add_var (s : pstate) (p : option addr) : pstate :=
  mkP (p_vars s ++ [Some p]) (p_raw s) (p_heap s).
Definition drop_raw (a : addr) (s : pstate) : pstate := mkP (p_vars s) (take a (p_raw s)) (p_heap s).

Definition p_step (o : pop) (s : pstate) : pres :=
  match o with
  | PNew a => if has a (p_heap s) then PIllegal else POk (mkP (p_vars s) (a :: p_raw s) (a :: p_heap s))
  | PDelete a => if has a (p_raw s) then free (Some a) (drop_raw a s) else PIllegal
  | PConstruct => POk (add_var s None)
  | PAdopt a => if has a (p_raw s) then POk (add_var (drop_raw a s) (Some a)) else PIllegal
  | PMoveConstruct j =>
      match get_var s j with
      | Some p => POk (put_var (add_var s p) j (Some None))
      | None => PIllegal
      end
  | PMoveAssign i j => swap i j s
  | PSwap i j => swap i j s
  | PReset i => reset i None s
  | PResetTo i a => if has a (p_raw s) then reset i (Some a) (drop_raw a s) else PIllegal
  | PResetGet i j => match get_var s j with Some p => reset i p s | None => PIllegal end
  | PRelease i =>
      match get_var s i with
      | Some p => POk (put_var (mkP (p_vars s) (match p with Some a => a :: p_raw s | None => p_raw s end) (p_heap s))
                               i (Some None))
      | None => PIllegal
      end
  | PDestroy i =>
      match reset i None s with
      | POk s => POk (put_var s i None)
      | r => r
      end
  end.
Fixpoint p_run (os : list pop) (s : pstate) : pres :=
  match os with
  | [] => POk s
  | o :: os => match p_step o s with POk s => p_run os s | r => r end
  end.

(** Vocabulary: the owners of an address. *)
Definition holds (a : addr) (x : option (option addr)) : nat :=
  match x with Some (Some b) => if Nat.eqb a b then 1 else 0 | _ => 0 end.
Definition owners (s : pstate) (a : addr) : nat :=
  list_sum (map (holds a) (p_vars s)) + count_occ Nat.eq_dec (p_raw s) a.
Definition allocated (s : pstate) (a : addr) : nat := count_occ Nat.eq_dec (p_heap s) a.
(** The client only gives away what it owns. *)
Definition disciplined (os : list pop) : Prop := forall i j, ~ In (PResetGet i j) os.

Definition owned (s : pstate) : Prop := forall a, owners s a = allocated s a /\ allocated s a <= 1.

Lemma set_var_sum a l : forall i x y, nth_error l i = Some y ->
  list_sum (map (holds a) (set_var l i x)) + holds a y = list_sum (map (holds a) l) + holds a x.
Proof.
  induction l as [|z l IH]; intros [|i] x y H; cbn in H; try discriminate.
  - inversion H; subst. cbn. lia.
  - specialize (IH i x y H). cbn [set_var map list_sum fold_right] in *. unfold list_sum in *. lia.
Qed.
Lemma put_var_owners s i x y a : nth_error (p_vars s) i = Some y ->
  owners (put_var s i x) a + holds a y = owners s a + holds a x.
Proof. intros H. unfold owners, put_var. cbn [p_vars p_raw]. pose proof (set_var_sum a _ _ x _ H). lia. Qed.
Lemma get_var_nth s i p : get_var s i = Some p -> nth_error (p_vars s) i = Some (Some p).
Proof. unfold get_var. destruct (nth_error (p_vars s) i) as [x|]; congruence. Qed.
Lemma has_count a l : has a l = true <-> 1 <= count_occ Nat.eq_dec l a.
Proof.
  unfold has. rewrite existsb_exists. change (1 <= count_occ Nat.eq_dec l a) with (count_occ Nat.eq_dec l a > 0).
  rewrite <- count_occ_In. split; [intros (b & H & E); apply Nat.eqb_eq in E; now subst|].
  intros H. exists a. split; [assumption|apply Nat.eqb_refl].
Qed.
Lemma take_count a l b : has a l = true ->
  count_occ Nat.eq_dec (take a l) b + (if Nat.eqb b a then 1 else 0) = count_occ Nat.eq_dec l b.
Proof.
  induction l as [|c l IH]; intros H; [discriminate|]. cbn [take]. destruct (Nat.eqb_spec a c).
  - subst c. cbn [count_occ]. destruct (Nat.eq_dec a b); destruct (Nat.eqb_spec b a); subst; try congruence; lia.
  - unfold has in H. cbn [existsb] in H. destruct (Nat.eqb_spec a c); [congruence|]. cbn [orb] in H. specialize (IH H).
    cbn [count_occ]. destruct (Nat.eq_dec c b); lia.
Qed.
Lemma set_var_nth l : forall i j x, nth_error (set_var l i x) j =
  if Nat.eqb i j then match nth_error l i with Some _ => Some x | None => None end else nth_error l j.
Proof.
  induction l as [|y l IH]; intros [|i] [|j] x; cbn; auto.
  - destruct (Nat.eqb i j); reflexivity.
Qed.

(** [free] gives back what nobody owns any more. *)
Lemma free_owned s p : (forall a, owners s a + holds a (Some p) = allocated s a /\ allocated s a <= 1) ->
  exists s', free p s = POk s' /\ owned s' /\ p_vars s' = p_vars s.
Proof.
  destruct p as [b|]; intros H; cbn [free].
  - assert (Hb : has b (p_heap s) = true).
    { apply has_count. destruct (H b) as [E _]. unfold allocated in E. cbn [holds] in E. rewrite Nat.eqb_refl in E. lia. }
    rewrite Hb. eexists. split; [reflexivity|]. split; [|reflexivity]. intros a. destruct (H a) as [E L].
    pose proof (take_count b (p_heap s) a Hb). unfold owners, allocated in *. cbn [p_vars p_raw p_heap holds] in *. lia.
  - eexists. split; [reflexivity|]. split; [|reflexivity]. intros a. destruct (H a) as [E L]. cbn [holds] in E. lia.
Qed.

Lemma reset_owned s i v : (forall a, owners s a + holds a (Some v) = allocated s a /\ allocated s a <= 1) ->
  reset i v s = PIllegal \/ exists s', reset i v s = POk s' /\ owned s' /\ p_vars s' = set_var (p_vars s) i (Some v).
Proof.
  intros H. unfold reset. destruct (get_var s i) as [p|] eqn:G; [|now left]. right.
  destruct (free_owned (put_var s i (Some v)) p) as (s' & E & O & Vs).
  - intros a. destruct (H a) as [E L]. pose proof (put_var_owners s i (Some v) _ a (get_var_nth _ _ _ G)).
    unfold allocated in *. cbn [put_var p_heap]. lia.
  - exists s'. auto.
Qed.

Lemma owned_reset_none s i : owned s -> reset i None s = PIllegal \/
  exists s', reset i None s = POk s' /\ owned s' /\ p_vars s' = set_var (p_vars s) i (Some None).
Proof. intros H. apply reset_owned. intros a. destruct (H a). cbn [holds]. lia. Qed.

Lemma drop_raw_owners s b a : has b (p_raw s) = true ->
  owners (drop_raw b s) a + holds a (Some (Some b)) = owners s a.
Proof. intros H. unfold owners, drop_raw. cbn [p_vars p_raw holds]. pose proof (take_count b (p_raw s) a H). lia. Qed.

Lemma add_var_owners s p a : owners (add_var s p) a = owners s a + holds a (Some p).
Proof. unfold owners, add_var. cbn [p_vars p_raw]. rewrite map_app, list_sum_app. cbn. lia. Qed.

Lemma swap_owned s i j : owned s -> swap i j s = PIllegal \/ exists s', swap i j s = POk s' /\ owned s'.
Proof.
  intros H. unfold swap. destruct (get_var s i) as [p|] eqn:Gi; [|now left].
  destruct (get_var s j) as [q|] eqn:Gj; [|now left]. right. eexists. split; [reflexivity|].
  apply get_var_nth in Gi. apply get_var_nth in Gj. intros a. destruct (H a) as [E L].
  pose proof (put_var_owners s i (Some q) _ a Gi) as E1.
  assert (N : nth_error (p_vars (put_var s i (Some q))) j = Some (Some q)).
  { cbn [put_var p_vars]. rewrite set_var_nth, Gi. destruct (Nat.eqb_spec i j); auto. }
  pose proof (put_var_owners (put_var s i (Some q)) j (Some p) _ a N) as E2.
  unfold allocated in *. cbn [put_var p_heap] in *. lia.
Qed.

Lemma step_owned o s : owned s -> (forall i j, o <> PResetGet i j) ->
  p_step o s = PIllegal \/ exists s', p_step o s = POk s' /\ owned s'.
Proof.
  intros H D. destruct o as [a|a| |a|j|i j|i j|i|i a|i j|i|i]; cbn [p_step].
  - destruct (has a (p_heap s)) eqn:Hh; [now left|]. right. eexists. split; [reflexivity|]. intros b.
    destruct (H b) as [E L]. unfold owners, allocated in *. cbn [p_vars p_raw p_heap count_occ].
    destruct (Nat.eq_dec a b); [|lia]. subst b. split; [lia|].
    destruct (count_occ Nat.eq_dec (p_heap s) a) as [|n] eqn:C; [lia|].
    assert (has a (p_heap s) = true) by (apply has_count; lia). congruence.
  - destruct (has a (p_raw s)) eqn:Hr; [|now left]. right.
    destruct (free_owned (drop_raw a s) (Some a)) as (s' & E & O & _); [|eauto].
    intros b. destruct (H b) as [E L]. rewrite drop_raw_owners by assumption. auto.
  - right. eexists. split; [reflexivity|]. intros a. destruct (H a). rewrite add_var_owners. cbn [holds]. unfold allocated in *. cbn [add_var p_heap]. lia.
  - destruct (has a (p_raw s)) eqn:Hr; [|now left]. right. eexists. split; [reflexivity|]. intros b. destruct (H b).
    rewrite add_var_owners, drop_raw_owners by assumption. auto.
  - destruct (get_var s j) as [p|] eqn:G; [|now left]. right. eexists. split; [reflexivity|].
    apply get_var_nth in G. intros a. destruct (H a).
    assert (N : nth_error (p_vars (add_var s p)) j = Some (Some p)).
    { cbn [add_var p_vars]. rewrite nth_error_app1; [assumption|]. apply nth_error_Some. congruence. }
    pose proof (put_var_owners _ j (Some None) _ a N) as E. rewrite add_var_owners in E. cbn [holds] in E.
    unfold allocated in *. cbn [put_var add_var p_heap] in *. cbn [holds] in *. lia.
  - now apply swap_owned.
  - now apply swap_owned.
  - destruct (owned_reset_none s i H) as [->|(s' & -> & O & _)]; eauto.
  - destruct (has a (p_raw s)) eqn:Hr; [|now left].
    destruct (reset_owned (drop_raw a s) i (Some a)) as [->|(s' & -> & O & _)]; eauto.
    intros b. destruct (H b). rewrite drop_raw_owners by assumption. auto.
  - now destruct (D i j).
  - destruct (get_var s i) as [p|] eqn:G; [|now left]. right. eexists. split; [reflexivity|].
    apply get_var_nth in G. intros a. destruct (H a) as [E L].
    set (s1 := mkP (p_vars s) match p with Some a => a :: p_raw s | None => p_raw s end (p_heap s)).
    pose proof (put_var_owners s1 i (Some None) _ a G) as E1. cbn [holds] in E1.
    assert (E2 : owners s1 a = owners s a + holds a (Some p)).
    { unfold s1, owners. cbn [p_vars p_raw]. destruct p as [b|]; cbn [count_occ holds]; [|lia].
      destruct (Nat.eq_dec b a), (Nat.eqb_spec a b); subst; try congruence; lia. }
    unfold allocated in *. cbn [put_var p_heap] in *. change (p_heap s1) with (p_heap s). cbn [holds] in *. lia.
  - destruct (owned_reset_none s i H) as [->|(s' & -> & O & Vs)]; [now left|]. right. eexists. split; [reflexivity|].
    destruct (nth_error (p_vars s') i) as [y|] eqn:N.
    + assert (holds 0 y = 0 /\ forall a, holds a y = 0) as [_ Hy].
      { rewrite Vs, set_var_nth, Nat.eqb_refl in N. destruct (nth_error (p_vars s) i); inversion N; subst; auto. }
      intros a. destruct (O a). pose proof (put_var_owners s' i None _ a N) as E. rewrite Hy in E. cbn [holds] in E.
      unfold allocated in *. cbn [put_var p_heap]. lia.
    + intros a. destruct (O a) as [E L]. unfold owners, allocated in *. cbn [put_var p_vars p_raw p_heap].
      replace (set_var (p_vars s') i None) with (p_vars s'); auto.
      clear -N. revert i N. induction (p_vars s') as [|x l IH]; intros [|i] N; cbn in *; try discriminate; auto. f_equal; auto.
Qed.

Lemma run_owned os : disciplined os -> forall s, owned s ->
  p_run os s = PIllegal \/ exists s', p_run os s = POk s' /\ owned s'.
Proof.
  induction os as [|o os IH]; intros D s H; cbn [p_run]; [eauto|].
  destruct (step_owned o s H) as [->|(s' & -> & O)]; [|now left|].
  - intros i j ->. apply (D i j). now left.
  - apply IH; [|assumption]. intros i j Hi. apply (D i j). now right.
Qed.

Lemma single_owner os : disciplined os ->
  match p_run os p_init with
  | POk s => forall a, owners s a = allocated s a /\ allocated s a <= 1
  | PIllegal => True
  | PDoubleFree => False
  end.
Proof.
  intros D. destruct (run_owned os D p_init) as [->|(s' & -> & O)]; auto. intros a. cbn. auto.
Qed.

Lemma no_leak os s : disciplined os -> p_run os p_init = POk s ->
  p_raw s = [] -> (forall i p, get_var s i = Some p -> p = None) -> p_heap s = [].
Proof.
  intros D H R Vs. pose proof (single_owner os D) as O. rewrite H in O.
  destruct (p_heap s) as [|a h] eqn:E; [reflexivity|]. destruct (O a) as [O1 _].
  unfold owners, allocated in O1. rewrite E, R in O1. cbn [count_occ] in O1.
  destruct (Nat.eq_dec a a) as [_|N]; [|congruence].
  assert (Z : list_sum (map (holds a) (p_vars s)) = 0); [|lia].
  clear -Vs. unfold get_var in Vs. induction (p_vars s) as [|x l IH]; [reflexivity|].
  cbn [map]. change (list_sum (holds a x :: map (holds a) l)) with (holds a x + list_sum (map (holds a) l)).
  rewrite IH; [|intros i p H; apply (Vs (S i) p H)]. specialize (Vs 0). cbn in Vs. destruct x as [[b|]|]; cbn; auto.
  specialize (Vs _ eq_refl). discriminate.
Qed.

(** What move assignment does: it deletes nothing, the old object lives on in the
    other variable. *)
Lemma move_assign_swaps i j s s' : p_step (PMoveAssign i j) s = POk s' ->
  p_heap s' = p_heap s /\ get_var s' i = get_var s j /\ get_var s' j = get_var s i.
Proof.
  cbn [p_step]. unfold swap. destruct (get_var s i) as [p|] eqn:Gi; [|discriminate].
  destruct (get_var s j) as [q|] eqn:Gj; [|discriminate]. intros H; inversion H; subst. clear H. split; [reflexivity|].
  pose proof (get_var_nth _ _ _ Gi) as Ni. pose proof (get_var_nth _ _ _ Gj) as Nj.
  unfold get_var, put_var; cbn [p_vars]. rewrite !set_var_nth, Ni, Nj, !Nat.eqb_refl.
  destruct (Nat.eqb_spec i j), (Nat.eqb_spec j i); subst; try congruence; auto.
  - rewrite Ni in Nj. inversion Nj. auto.
Qed.
