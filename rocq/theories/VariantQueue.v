(** hsm::variant_queue, details/variant_queue.h 21-62: a [std::queue] of
    [std::variant], modelled as a list (front first) of values of a type [A] (the
    variant type: event class and payload).  Client code, including the callables
    given to [visit] (which may use the queue themselves), is a tree.

    Not modelled: copying of elements (payloads are values), allocation failure. *)

From Coq Require Import List Arith Bool Lia.
Import ListNotations.

Section Queue.
Context {A : Type}.

(** empty 30-32, size 34-36, push 38-46. *)
Definition vq_empty (q : list A) : bool := match q with [] => true | _ => false end.
Definition vq_size (q : list A) : nat := length q.
Definition vq_push (a : A) (q : list A) : list A := q ++ [a].

(** What client code does; [UVisit f h k] calls visit with the callable [f] and
    then continues with [k]; if visit throws and [h] is set the exception is caught. *)
Inductive client :=
| UEnd
| UThrow
| UPush (a : A) (k : client)
| USize (k : nat -> client)
| UEmpty (k : bool -> client)
| UVisit (f : A -> client) (h : bool) (k : client).

(** Observations: element pushed, element handed to a callable, answers of size
    and empty, std::runtime_error of visit. *)
Inductive obs := BPush (a : A) | BCall (a : A) | BSize (n : nat) | BEmpty (b : bool) | BError.

(** Outcome: did it throw, the queue afterwards, the observations.
    visit, variant_queue.h 48-61: check, copy the front, pop, call. *)
Fixpoint vq_run (c : client) (q : list A) : bool * list A * list obs :=
  match c with
  | UEnd => (false, q, [])
  | UThrow => (true, q, [])
  | UPush a k => let '(t, q, l) := vq_run k (vq_push a q) in (t, q, BPush a :: l)
  | USize k => let '(t, q', l) := vq_run (k (vq_size q)) q in (t, q', BSize (vq_size q) :: l)
  | UEmpty k => let '(t, q', l) := vq_run (k (vq_empty q)) q in (t, q', BEmpty (vq_empty q) :: l)
  | UVisit f h k =>
      let '(t, q, l) :=
        if vq_empty q then (true, q, [BError])
        else match q with
             | [] => (true, q, [BError])
             | a :: q => let '(t, q, l) := vq_run (f a) q in (t, q, BCall a :: l)
             end in
      if andb t (negb h) then (true, q, l)
      else let '(t', q, l') := vq_run k q in (t', q, l ++ l')
  end.

(** Vocabulary for the properties. *)
Definition pushed (l : list obs) : list A := flat_map (fun b => match b with BPush a => [a] | _ => [] end) l.
Definition visited (l : list obs) : list A := flat_map (fun b => match b with BCall a => [a] | _ => [] end) l.

(** [fifo q l q']: [l] is a possible observation of a first-in-first-out queue
    that holds [q] before and [q'] after. *)
Inductive fifo : list A -> list obs -> list A -> Prop :=
| ff_nil q : fifo q [] q
| ff_push q a l q' : fifo (q ++ [a]) l q' -> fifo q (BPush a :: l) q'
| ff_call q a l q' : fifo q l q' -> fifo (a :: q) (BCall a :: l) q'
| ff_size q l q' : fifo q l q' -> fifo q (BSize (length q) :: l) q'
| ff_empty q l q' b : (b = true <-> q = []) -> fifo q l q' -> fifo q (BEmpty b :: l) q'
| ff_error l q' : fifo [] l q' -> fifo [] (BError :: l) q'.

Lemma fifo_app q l1 q1 l2 q2 : fifo q l1 q1 -> fifo q1 l2 q2 -> fifo q (l1 ++ l2) q2.
Proof. induction 1; intros; cbn [app]; [assumption|constructor; auto..]. Qed.

Lemma run_fifo c : forall q t q' l, vq_run c q = (t, q', l) -> fifo q l q'.
Proof.
  induction c as [| |a k IH|k IH|k IH|f IHf h k IHk]; intros q t q' l H; cbn [vq_run] in H.
  - inversion H; constructor.
  - inversion H; constructor.
  - destruct (vq_run k (vq_push a q)) as [[t1 q1] l1] eqn:E. inversion H; subst. constructor. eapply IH; eauto.
  - destruct (vq_run (k (vq_size q)) q) as [[t1 q1] l1] eqn:E. inversion H; subst. constructor. eapply IH; eauto.
  - destruct (vq_run (k (vq_empty q)) q) as [[t1 q1] l1] eqn:E. inversion H; subst. constructor; [|eapply IH; eauto].
    destruct q; cbn; split; congruence.
  - assert (G : exists t1 q1 l1, (if vq_empty q then (true, q, [BError]) else match q with
             | [] => (true, q, [BError])
             | a :: q => let '(t, q, l) := vq_run (f a) q in (t, q, BCall a :: l)
             end) = (t1, q1, l1) /\ fifo q l1 q1).
    { destruct q as [|a q]; cbn [vq_empty].
      - do 3 eexists. split; [reflexivity|]. repeat constructor.
      - destruct (vq_run (f a) q) as [[t1 q1] l1] eqn:E. do 3 eexists. split; [reflexivity|]. constructor. eapply IHf; eauto. }
    destruct G as (t1 & q1 & l1 & E & F). rewrite E in H.
    destruct (andb t1 (negb h)).
    + inversion H; subst; assumption.
    + destruct (vq_run k q1) as [[t2 q2] l2] eqn:E2. inversion H; subst. eapply fifo_app; eauto.
Qed.

Lemma fifo_balance q l q' : fifo q l q' -> visited l ++ q' = q ++ pushed l.
Proof.
  unfold visited, pushed. induction 1; cbn [flat_map app]; rewrite ?app_nil_r; auto.
  - rewrite IHfifo, <- app_assoc. reflexivity.
  - now rewrite IHfifo.
Qed.

Lemma fifo_split q l1 b l2 q' : fifo q (l1 ++ b :: l2) q' -> exists q1, fifo q l1 q1 /\ fifo q1 (b :: l2) q'.
Proof.
  revert q. induction l1 as [|x l1 IH]; intros q H; cbn [app] in H.
  - exists q. split; [constructor|assumption].
  - inversion H; subst; (destruct (IH _ ltac:(eassumption)) as (q1 & H1 & H2); exists q1; split; [constructor; assumption|assumption]).
Qed.

Lemma run_order c q t q' l : vq_run c q = (t, q', l) -> visited l ++ q' = q ++ pushed l.
Proof. intros H. eapply fifo_balance, run_fifo; eauto. Qed.

(** Every answer fits the numbers pushed and visited so far; visit fails exactly
    when everything pushed was visited, otherwise it hands out the oldest element. *)
Lemma run_answers c q t q' l : vq_run c q = (t, q', l) -> forall l1 b l2, l = l1 ++ b :: l2 ->
  match b with
  | BSize n => n + length (visited l1) = length q + length (pushed l1)
  | BEmpty b => b = true <-> length (visited l1) = length q + length (pushed l1)
  | BError => visited l1 = q ++ pushed l1
  | BCall a => nth_error (q ++ pushed l1) (length (visited l1)) = Some a
  | BPush _ => True
  end.
Proof.
  intros H l1 b l2 ->. apply run_fifo in H. apply fifo_split in H. destruct H as (q1 & H1 & H2).
  apply fifo_balance in H1. pose proof (f_equal (@length A) H1) as L. rewrite !app_length in L.
  destruct b as [a|a|n|b|]; auto; inversion H2; subst.
  - rewrite <- H1, nth_error_app2, Nat.sub_diag; [reflexivity|lia].
  - lia.
  - match goal with H : _ <-> q1 = [] |- _ => rewrite H end. split; intros E; [subst q1; cbn in L; lia|]. destruct q1; [reflexivity|cbn in L; lia].
  - now rewrite app_nil_r in H1.
Qed.

(** visit: the element is gone even if the callable throws. *)
Lemma visit_step f h k a q : exists t q1 l, vq_run (f a) q = (t, q1, l) /\
  vq_run (UVisit f h k) (a :: q) =
    if andb t (negb h) then (true, q1, BCall a :: l)
    else let '(t', q2, l') := vq_run k q1 in (t', q2, BCall a :: l ++ l').
Proof.
  destruct (vq_run (f a) q) as [[t q1] l] eqn:E. exists t, q1, l. split; [reflexivity|].
  cbn [vq_run vq_empty]. rewrite E. destruct (andb t (negb h)); [reflexivity|].
  destruct (vq_run k q1) as [[t2 q2] l2]. reflexivity.
Qed.

Lemma visit_empty f k : vq_run (UVisit f false k) [] = (true, [], [BError]).
Proof. reflexivity. Qed.

End Queue.
Arguments client : clear implicits.
