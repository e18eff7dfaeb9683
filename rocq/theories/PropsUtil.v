(** Properties of the two utility classes: the event queue (C33, VariantQueue.v) and
    the owning pointer of table entries (C42, DuniquePtr.v). *)

From Coq Require Import List Arith Bool.
From Verif Require Import VariantQueue DuniquePtr.
Import ListNotations.

(** C33. Whatever client code does with the queue, also inside callables. *)
Theorem C33_order : forall A (c : client A) q t q' l, vq_run c q = (t, q', l) ->
  visited l ++ q' = q ++ pushed l.
Proof. exact @run_order. Qed.
Print Assumptions C33_order.

Theorem C33_answers : forall A (c : client A) q t q' l, vq_run c q = (t, q', l) ->
  forall l1 b l2, l = l1 ++ b :: l2 ->
  match b with
  | BSize n => n + length (visited l1) = length q + length (pushed l1)
  | BEmpty b => b = true <-> length (visited l1) = length q + length (pushed l1)
  | BError => visited l1 = q ++ pushed l1
  | BCall a => nth_error (q ++ pushed l1) (length (visited l1)) = Some a
  | BPush _ => True
  end.
Proof. exact @run_answers. Qed.
Print Assumptions C33_answers.

(** visit calls the callable once, with the front, on the queue without it; what the
    callable leaves behind stays, whether it throws or not. *)
Theorem C33_visit : forall A (f : A -> client A) h k a q, exists t q1 l, vq_run (f a) q = (t, q1, l) /\
  vq_run (UVisit f h k) (a :: q) =
    if andb t (negb h) then (true, q1, BCall a :: l)
    else let '(t', q2, l') := vq_run k q1 in (t', q2, BCall a :: l ++ l').
Proof. exact @visit_step. Qed.
Print Assumptions C33_visit.
Theorem C33_visit_empty : forall A (f : A -> client A) k, vq_run (UVisit f false k) [] = (true, [], [BError]).
Proof. exact @visit_empty. Qed.
Print Assumptions C33_visit_empty.

(** The callable pushes its argument back and throws. *)
Example C33_applies :
  vq_run (UPush 1 (UPush 2 (UVisit (fun a => UPush (a + 10) UThrow) true
         (USize (fun n => UVisit (fun _ => UEnd) false (UVisit (fun _ => UEnd) false (UVisit (fun _ => UEnd) false UEnd)))))))
         [] =
  (true, [], [BPush 1; BPush 2; BCall 1; BPush 11; BSize 2; BCall 2; BCall 11; BError]).
Proof. reflexivity. Qed.

(** C42. Every allocated object has exactly one owner, freed addresses have none,
    nothing is freed twice. *)
Theorem C42_single_owner : forall os, disciplined os ->
  match p_run os p_init with
  | POk s => forall a, owners s a = allocated s a /\ allocated s a <= 1
  | PIllegal => True
  | PDoubleFree => False
  end.
Proof. exact single_owner. Qed.
Print Assumptions C42_single_owner.

Theorem C42_no_leak : forall os s, disciplined os -> p_run os p_init = POk s ->
  p_raw s = [] -> (forall i p, get_var s i = Some p -> p = None) -> p_heap s = [].
Proof. exact no_leak. Qed.
Print Assumptions C42_no_leak.

(** Move assignment exchanges the two pointers: nothing is deleted, the old object
    lives as long as the moved-from variable. *)
Theorem C42_move_assign : forall i j s s', p_step (PMoveAssign i j) s = POk s' ->
  p_heap s' = p_heap s /\ get_var s' i = get_var s j /\ get_var s' j = get_var s i.
Proof. exact move_assign_swaps. Qed.
Print Assumptions C42_move_assign.

Example C42_applies :
  p_run [PNew 7; PAdopt 7; PNew 8; PAdopt 8; PMoveAssign 0 1; PMoveAssign 0 0; PMoveConstruct 0; PDestroy 1;
         PNew 7; PResetTo 2 7; PRelease 2; PDelete 7; PDestroy 0; PDestroy 2] p_init = POk (mkP [None; None; None] [] []).
Proof. reflexivity. Qed.

(** Without the discipline: p.reset(p.get()). *)
Theorem C42_undisciplined_refuted : exists os, p_run os p_init = PDoubleFree.
Proof. exists [PNew 7; PAdopt 7; PResetGet 0 0; PDestroy 0]. reflexivity. Qed.
Print Assumptions C42_undisciplined_refuted.
