(** Generic facts about lists, [unique], positions and partial folds. *)

From Coq Require Import List Arith NArith Bool Lia FinFun.
From Verif Require Import Types Static Dispatch.
Import ListNotations.

(** Position of [x] in [l], or [length l] if absent. *)
Fixpoint pos {A} (dec : forall a b : A, {a = b} + {a <> b}) (x : A) (l : list A) : nat :=
  match l with
  | [] => 0
  | a :: l' => if dec x a then 0 else S (pos dec x l')
  end.

Section Pos.
Context {A : Type} (dec : forall a b : A, {a = b} + {a <> b}).

Lemma pos_le x l : pos dec x l <= length l.
Proof. induction l as [|a l IH]; cbn; [lia|]. destruct (dec x a); lia. Qed.

Lemma pos_lt x l : In x l <-> pos dec x l < length l.
Proof.
  induction l as [|a l IH]; cbn; [split; [tauto|lia]|].
  destruct (dec x a) as [->|Hne].
  - split; [lia|auto].
  - split.
    + intros [->|H]; [congruence|]. apply IH in H. lia.
    + intros H. right. apply IH. lia.
Qed.

Lemma pos_absent x l : ~ In x l -> pos dec x l = length l.
Proof.
  intros H. pose proof (pos_le x l). rewrite pos_lt in H. lia.
Qed.

Lemma nth_pos x l : In x l -> nth_error l (pos dec x l) = Some x.
Proof.
  induction l as [|a l IH]; cbn; [tauto|].
  destruct (dec x a) as [->|Hne]; [reflexivity|].
  intros [->|H]; [congruence|]. cbn. auto.
Qed.

Lemma pos_nth x l i : NoDup l -> nth_error l i = Some x -> pos dec x l = i.
Proof.
  intros Hnd Hi.
  assert (Hin : In x l) by (eapply nth_error_In; eauto).
  apply (proj1 (NoDup_nth_error l) Hnd).
  - apply pos_lt. exact Hin.
  - rewrite nth_pos by exact Hin. congruence.
Qed.

Lemma pos_inj x y l : In x l -> pos dec x l = pos dec y l -> x = y.
Proof.
  intros Hx He.
  assert (Hy : In y l) by (apply pos_lt; rewrite <- He; apply pos_lt; exact Hx).
  pose proof (nth_pos x l Hx). pose proof (nth_pos y l Hy). congruence.
Qed.
End Pos.

(** ** unique *)
Section Unique.
Context {A : Type} (dec : forall a b : A, {a = b} + {a <> b}).

Lemma unique_acc_In l : forall seen x,
  In x (unique_acc dec seen l) <-> In x l /\ ~ In x seen.
Proof.
  induction l as [|a l IH]; cbn; intros seen x; [tauto|].
  destruct (in_dec dec a seen) as [Ha|Ha].
  - rewrite IH. split; [tauto|]. intros [[->|H] Hn]; tauto.
  - cbn. rewrite IH. cbn. split.
    + intros [->|[H Hn]]; [tauto|]. tauto.
    + intros [[->|H] Hn]; [tauto|].
      destruct (dec a x) as [->|Hne]; [tauto|]. right. tauto.
Qed.

Lemma unique_acc_NoDup l : forall seen, NoDup (unique_acc dec seen l).
Proof.
  induction l as [|a l IH]; cbn; intros seen; [constructor|].
  destruct (in_dec dec a seen) as [Ha|Ha]; [apply IH|].
  constructor; [|apply IH]. rewrite unique_acc_In. cbn. tauto.
Qed.

Lemma unique_In x l : In x (unique dec l) <-> In x l.
Proof. unfold unique. rewrite unique_acc_In. cbn. tauto. Qed.

Lemma unique_NoDup l : NoDup (unique dec l).
Proof. apply unique_acc_NoDup. Qed.
End Unique.

Section UniqueBy.
Context {A K : Type} (dec : forall a b : K, {a = b} + {a <> b}) (key : A -> K).

Lemma unique_by_acc_sub l : forall seen x, In x (unique_by_acc dec key seen l) -> In x l.
Proof.
  induction l as [|a l IH]; cbn; intros seen x; [tauto|].
  destruct (in_dec dec (key a) seen); cbn; intros H.
  - right. eapply IH; eauto.
  - destruct H as [->|H]; [auto|]. right. eapply IH; eauto.
Qed.
Lemma unique_by_sub l x : In x (unique_by dec key l) -> In x l.
Proof. apply unique_by_acc_sub. Qed.

Lemma unique_by_acc_seen l : forall seen x,
  In x (unique_by_acc dec key seen l) -> ~ In (key x) seen.
Proof.
  induction l as [|a l IH]; cbn; intros seen x; [tauto|].
  destruct (in_dec dec (key a) seen) as [Ha|Ha]; cbn; intros H.
  - eapply IH; eauto.
  - destruct H as [->|H]; [auto|]. apply IH in H. cbn in H. tauto.
Qed.

Lemma unique_by_acc_cover l : forall seen x,
  In x l -> ~ In (key x) seen -> exists y, In y (unique_by_acc dec key seen l) /\ key y = key x.
Proof.
  induction l as [|a l IH]; cbn; intros seen x; [tauto|].
  intros [->|H] Hn.
  - destruct (in_dec dec (key x) seen); [tauto|]. exists x. cbn. auto.
  - destruct (in_dec dec (key a) seen) as [Ha|Ha].
    + apply IH; auto.
    + destruct (dec (key a) (key x)) as [He|Hne].
      * exists a. cbn. auto.
      * destruct (IH (key a :: seen) x H) as (y & Hy & Hk).
        -- cbn. tauto.
        -- exists y. cbn. auto.
Qed.
Lemma unique_by_cover l x : In x l -> exists y, In y (unique_by dec key l) /\ key y = key x.
Proof. intros H. apply unique_by_acc_cover; auto. Qed.

Lemma unique_by_acc_NoDup l : forall seen, NoDup (map key (unique_by_acc dec key seen l)).
Proof.
  induction l as [|a l IH]; cbn; intros seen; [constructor|].
  destruct (in_dec dec (key a) seen); [apply IH|].
  cbn. constructor; [|apply IH].
  rewrite in_map_iff. intros (y & Hk & Hy).
  apply unique_by_acc_seen in Hy. rewrite Hk in Hy. cbn in Hy. tauto.
Qed.
Lemma unique_by_NoDup l : NoDup (map key (unique_by dec key l)).
Proof. apply unique_by_acc_NoDup. Qed.
End UniqueBy.

(** ** list_prod *)
Section Prod.
Context {A B : Type} (da : forall a b : A, {a = b} + {a <> b})
        (db : forall a b : B, {a = b} + {a <> b}).

Lemma list_prod_length (la : list A) (lb : list B) :
  length (list_prod la lb) = length la * length lb.
Proof. apply prod_length. Qed.

Lemma NoDup_app_intro {C} (l1 l2 : list C) :
  NoDup l1 -> NoDup l2 -> (forall x, In x l1 -> In x l2 -> False) -> NoDup (l1 ++ l2).
Proof.
  induction l1 as [|a l1 IH]; cbn; intros H1 H2 Hd; [exact H2|].
  inversion H1 as [|? ? Hn Hnd]; subst. constructor.
  - rewrite in_app_iff. intros [H|H]; [tauto|]. eapply Hd; eauto.
  - apply IH; auto. intros x Hx Hx2. eapply Hd; eauto.
Qed.

Lemma NoDup_list_prod (la : list A) (lb : list B) :
  NoDup la -> NoDup lb -> NoDup (list_prod la lb).
Proof.
  intros Ha Hb. induction la as [|a la IH]; cbn; [constructor|].
  inversion Ha as [|? ? Hn Hnd]; subst.
  apply NoDup_app_intro.
  - apply Injective_map_NoDup; [intros x y H; congruence|exact Hb].
  - apply IH. exact Hnd.
  - intros [x y] H1 H2. apply in_map_iff in H1. destruct H1 as (z & Hz & _).
    apply in_prod_iff in H2. destruct H2. congruence.
Qed.

Lemma pos_app_l {C} (dc : forall a b : C, {a = b} + {a <> b}) x (l1 l2 : list C) :
  In x l1 -> pos dc x (l1 ++ l2) = pos dc x l1.
Proof.
  induction l1 as [|a l1 IH]; cbn; [tauto|]. intros H.
  destruct (dc x a); [reflexivity|]. rewrite IH; [reflexivity|]. destruct H; congruence.
Qed.
Lemma pos_app_r {C} (dc : forall a b : C, {a = b} + {a <> b}) x (l1 l2 : list C) :
  ~ In x l1 -> pos dc x (l1 ++ l2) = length l1 + pos dc x l2.
Proof.
  induction l1 as [|a l1 IH]; cbn; [reflexivity|]. intros H.
  destruct (dc x a) as [->|]; [tauto|]. rewrite IH; [reflexivity|]. tauto.
Qed.

Lemma pos_map_pair a x (lb : list B) :
  pos (pair_eq_dec da db) (a, x) (map (fun y => (a, y)) lb) = pos db x lb.
Proof.
  induction lb as [|b lb IH]; cbn [pos map]; [reflexivity|].
  destruct (pair_eq_dec da db (a, x) (a, b)) as [He|Hne];
    destruct (db x b) as [He'|Hne']; try congruence.
Qed.

Lemma pos_list_prod a b (la : list A) (lb : list B) :
  In a la -> In b lb ->
  pos (pair_eq_dec da db) (a, b) (list_prod la lb) = pos da a la * length lb + pos db b lb.
Proof.
  intros Ha Hb. induction la as [|c la IH]; cbn [list_prod pos]; [destruct Ha|].
  destruct (da a c) as [->|Hne].
  - rewrite pos_app_l.
    + rewrite pos_map_pair. reflexivity.
    + apply in_map_iff. eauto.
  - rewrite pos_app_r.
    + rewrite map_length, IH; [lia|]. destruct Ha; congruence.
    + rewrite in_map_iff. intros (y & Hy & _). congruence.
Qed.
End Prod.

(** ** Updates *)
Lemma upd_nth_Some {A} (f : A -> A) l : forall n,
  n < length l -> exists l', upd_nth n f l = Some l'.
Proof.
  induction l as [|a l IH]; cbn; intros n Hn; [lia|].
  destruct n as [|n]; cbn; [eauto|].
  destruct (IH n) as (l' & ->); [lia|]. cbn. eauto.
Qed.
Lemma upd_nth_None {A} (f : A -> A) l : forall n,
  upd_nth n f l = None <-> length l <= n.
Proof.
  induction l as [|a l IH]; cbn; intros n; [destruct n; split; try lia; reflexivity|].
  destruct n as [|n]; cbn; [split; [discriminate|lia]|].
  specialize (IH n). destruct (upd_nth n f l) as [l'|]; cbn.
  - split; [discriminate|]. intros H. assert (Hc : Some l' = None) by (apply IH; lia). discriminate.
  - split; [|reflexivity]. intros _. assert (length l <= n) by (apply IH; reflexivity). lia.
Qed.
Lemma upd_nth_spec {A} (f : A -> A) l : forall n l',
  upd_nth n f l = Some l' ->
  n < length l /\ length l' = length l /\
  forall k, nth_error l' k = if Nat.eq_dec k n then option_map f (nth_error l k) else nth_error l k.
Proof.
  induction l as [|a l IH]; cbn; intros n l0 H; [destruct n; discriminate|].
  destruct n as [|n]; cbn in H.
  - injection H as <-. cbn. repeat split; [lia|]. intros [|k]; reflexivity.
  - destruct (upd_nth n f l) as [l1|] eqn:E; [|discriminate].
    injection H as <-. destruct (IH _ _ E) as (Hn & Hl & Hk). cbn.
    split; [lia|]. split; [lia|]. intros [|k]; [reflexivity|]. cbn [nth_error].
    rewrite Hk. destruct (Nat.eq_dec k n), (Nat.eq_dec (S k) (S n)); try lia; reflexivity.
Qed.

Lemma nth_at_nth {A} (l : list A) (i : N) : nth_at i l = nth_error l (N.to_nat i).
Proof.
  unfold nth_at. destruct (N.ltb_spec i (N.of_nat (length l))) as [H|H]; [reflexivity|].
  symmetry. apply nth_error_None. lia.
Qed.
Lemma upd_at_upd {A} (f : A -> A) (l : list A) (i : N) : upd_at i f l = upd_nth (N.to_nat i) f l.
Proof.
  unfold upd_at. destruct (N.ltb_spec i (N.of_nat (length l))) as [H|H]; [reflexivity|].
  symmetry. apply upd_nth_None. lia.
Qed.

(** ** foldM *)
Lemma foldM_app {A S} (f : A -> S -> option S) l1 l2 s :
  foldM f (l1 ++ l2) s = match foldM f l1 s with Some s' => foldM f l2 s' | None => None end.
Proof.
  revert s; induction l1 as [|a l1 IH]; cbn; intros s; [reflexivity|].
  destruct (f a s); [apply IH|reflexivity].
Qed.
Lemma foldM_flat_map {A B S} (f : B -> S -> option S) (g : A -> list B) l s :
  foldM f (flat_map g l) s = foldM (fun a s => foldM f (g a) s) l s.
Proof.
  revert s; induction l as [|a l IH]; cbn; intros s; [reflexivity|].
  rewrite foldM_app. destruct (foldM f (g a) s); [apply IH|reflexivity].
Qed.
Lemma foldM_map {A B S} (f : B -> S -> option S) (g : A -> B) l s :
  foldM f (map g l) s = foldM (fun a s => f (g a) s) l s.
Proof.
  revert s; induction l as [|a l IH]; cbn; intros s; [reflexivity|].
  destruct (f (g a) s); [apply IH|reflexivity].
Qed.
Lemma foldM_ext {A S} (f g : A -> S -> option S) l s :
  (forall a s, In a l -> f a s = g a s) -> foldM f l s = foldM g l s.
Proof.
  revert s; induction l as [|a l IH]; cbn; intros s H; [reflexivity|].
  rewrite H by auto. destruct (g a s); [|reflexivity]. apply IH. auto.
Qed.

Lemma filter_flat_map {A B} (p : B -> bool) (g : A -> list B) l :
  filter p (flat_map g l) = flat_map (fun a => filter p (g a)) l.
Proof.
  induction l as [|a l IH]; cbn; [reflexivity|]. rewrite filter_app, IH. reflexivity.
Qed.
Lemma flat_map_ext_in {A B} (f g : A -> list B) l :
  (forall a, In a l -> f a = g a) -> flat_map f l = flat_map g l.
Proof.
  induction l as [|a l IH]; cbn; intros H; [reflexivity|]. rewrite H, IH; auto.
Qed.
Lemma flat_map_nil {A B} (f : A -> list B) l :
  (forall a, In a l -> f a = []) -> flat_map f l = [].
Proof.
  induction l as [|a l IH]; cbn; intros H; [reflexivity|]. rewrite H, IH; auto.
Qed.
Lemma map_flat_map {A B C} (h : B -> C) (g : A -> list B) l :
  map h (flat_map g l) = flat_map (fun a => map h (g a)) l.
Proof.
  induction l as [|a l IH]; cbn; [reflexivity|]. rewrite map_app, IH. reflexivity.
Qed.
Lemma flat_map_filter {A B} (p : A -> bool) (g : A -> list B) l :
  flat_map g (filter p l) = flat_map (fun a => if p a then g a else []) l.
Proof.
  induction l as [|a l IH]; cbn; [reflexivity|]. destruct (p a); cbn; rewrite IH; reflexivity.
Qed.
(** Picking one key out of a grouped traversal. *)
Lemma flat_map_pick {A B} (dec : forall a b : A, {a = b} + {a <> b}) (f : A -> list B) l x :
  NoDup l -> (forall a, In a l -> a <> x -> f a = []) ->
  (~ In x l -> f x = []) -> flat_map f l = f x.
Proof.
  intros Hnd Hne Hab.
  induction l as [|a l IH]; cbn; [symmetry; apply Hab; tauto|].
  inversion Hnd as [|? ? Hn Hnd']; subst.
  destruct (dec a x) as [->|Hax].
  - rewrite flat_map_nil; [apply app_nil_r|].
    intros b Hb. apply Hne; [right; exact Hb|]. intros ->. tauto.
  - rewrite (Hne a) by (cbn; auto). cbn. apply IH; auto.
    + intros b Hb. apply Hne. right. exact Hb.
    + intros Hx. apply Hab. cbn. intros [?|?]; [congruence|tauto].
Qed.

Lemma get_table_map_snd {A B} (f : A -> B) (t : list (ev * A)) e :
  get_table (map (fun p => (fst p, f (snd p))) t) e = option_map f (get_table t e).
Proof.
  induction t as [|[e' a] t IH]; cbn; [reflexivity|].
  destruct (ev_eq_dec e e'); [reflexivity|exact IH].
Qed.
