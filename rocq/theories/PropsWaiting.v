(** C88: how long a deferred event waits. *)

From Coq Require Import List Arith NArith Bool.
From Verif Require Import Types Static Dispatch Runtime Dsl Examples Spec Semantics Reach StaticFacts TableFacts Demo
  Waiting WaitingFacts WaitingDemo.
Import ListNotations.

(** C88. A deferred event with [length pre] others in front of it either is still in the
    line after the calls [ks] of a client, nearer to the front by the number of events
    taken, or one of the calls took it and offered it to the regions, with the payload it
    was deferred with. Every call that returns true takes one, a call that throws may,
    no other call does. *)
Theorem C88_line : forall V W (cb : cbfun V W) env root m vnone ds d0 s fuel ks os s' pre e v post,
  running cb env root m vnone ds d0 s -> run cb m vnone fuel ks s = Done os s' -> rt_queue s = pre ++ (e, v) :: post ->
  (exists gone left more, pre = gone ++ left /\ rt_queue s' = left ++ (e, v) :: post ++ more /\
     count_told TTrue ks os <= length gone /\ length gone <= count_told TTrue ks os + count_told TExn ks os) \/
  (exists ks1 os1 k1 o1 s1 more, served cb m vnone fuel ks s e v ks1 os1 k1 o1 s1 /\
     rt_queue s1 = (e, v) :: post ++ more /\
     (answer k1 o1 = Some TTrue \/ answer k1 o1 = Some TExn) /\
     count_told TTrue ks1 os1 <= length pre /\ length pre <= count_told TTrue ks1 os1 + count_told TExn ks1 os1).
Proof. exact @waiting_line. Qed.
Print Assumptions C88_line.

(** No event waits for longer than there are events in front of it: the calls may come in any
    number and any order, as soon as more of them returned true than events were in front of
    it, it had its turn. *)
Theorem C88_turn : forall V W (cb : cbfun V W) env root m vnone ds d0 s fuel ks os s' pre e v post,
  running cb env root m vnone ds d0 s -> run cb m vnone fuel ks s = Done os s' -> rt_queue s = pre ++ (e, v) :: post ->
  length pre < count_told TTrue ks os ->
  exists ks1 os1 k1 o1 s1, served cb m vnone fuel ks s e v ks1 os1 k1 o1 s1 /\ count_told TTrue ks1 os1 <= length pre.
Proof. exact @turn_comes. Qed.
Print Assumptions C88_turn.

(** And none overtakes: before that many calls returned true or threw, it is in the line. *)
Theorem C88_not_early : forall V W (cb : cbfun V W) env root m vnone ds d0 s fuel ks os s' pre e v post,
  running cb env root m vnone ds d0 s -> run cb m vnone fuel ks s = Done os s' -> rt_queue s = pre ++ (e, v) :: post ->
  count_told TTrue ks os + count_told TExn ks os <= length pre ->
  exists gone left more, pre = gone ++ left /\ rt_queue s' = left ++ (e, v) :: post ++ more /\
    length gone <= count_told TTrue ks os + count_told TExn ks os.
Proof. exact @no_turn_early. Qed.
Print Assumptions C88_not_early.

(** The line grows only by calls that return false, by one each. *)
Theorem C88_length : forall V W (cb : cbfun V W) env root m vnone ds d0 s fuel ks os s',
  running cb env root m vnone ds d0 s -> run cb m vnone fuel ks s = Done os s' ->
  length (rt_queue s') <= length (rt_queue s) + count_told TFalse ks os /\
  length (rt_queue s) <= length (rt_queue s') + count_told TTrue ks os + count_told TExn ks os.
Proof. exact @waiting_length. Qed.
Print Assumptions C88_length.

(** The third in the line has its turn with the third call that returns true; the second was
    deferred again and is at the end now. *)
Example C88_applies : demo_state ex_cb Defer.env 50 [pe 3; KProcess (EUser 3) 1; KProcess (EUser 2) 2] (fun m s =>
  rt_queue s = [(EUser 3, 0); (EUser 3, 1)] ++ (EUser 2, 2) :: [] /\
  (exists s', run ex_cb m 0 300 [pe 1; pe 2; is_ 50 1; is_ 50 2] s = Done [T; T; T; F] s' /\
     count_told TTrue [pe 1; pe 2; is_ 50 1; is_ 50 2] [T; T; T; F] = 2 /\ rt_queue s' = [(EUser 2, 2); (EUser 3, 1)]) /\
  (exists s', run ex_cb m 0 300 [pe 1; pe 2; is_ 50 1; pe 1] s = Done [T; T; T; T] s' /\
     count_told TTrue [pe 1; pe 2; is_ 50 1; pe 1] [T; T; T; T] = 3 /\ rt_queue s' = [(EUser 3, 1)] /\
     at_place m s' 0 = Some (50, SState 1))).
Proof. apply demo_intro. vm_compute. split; [reflexivity|]. split; [reflexivity|]. split; eexists; repeat split. Qed.

(** A call that throws takes an event or takes none. *)
Example C88_throws :
  demo_state recalled_throws Defer.env 50 [pe 2] (fun m s => rt_queue s = [(EUser 2, 0)] /\
    exists s', run recalled_throws m 0 300 [pe 1] s = Done [OExn (XUser 7)] s' /\ rt_queue s' = []) /\
  demo_state first_throws Defer.env 50 [pe 2] (fun m s => rt_queue s = [(EUser 2, 0)] /\
    exists s', run first_throws m 0 300 [pe 1] s = Done [OExn (XUser 7)] s' /\ rt_queue s' = [(EUser 2, 0)]).
Proof. split; apply demo_intro; vm_compute; (split; [reflexivity|]); (split; [reflexivity|]); eexists; split; reflexivity. Qed.

(** An event does not get its turn because the machine reached a state that handles it: it
    stays in the line for as long as the client does not send an event that is handled. *)
Theorem C88_when_ready_refuted : exists env root m s e, running ex_cb env root m 0 [0] 0 s /\
  rt_queue s = [(e, 0)] /\ (exists pl x o, at_place m s 0 = Some pl /\ candidate env root e pl (CRow x o) /\ x_guard x = NoGuard) /\
  forall n, exists os, run ex_cb m 0 300 (repeat (pe 3) n) s = Done os s.
Proof. exact ready_waits. Qed.
Print Assumptions C88_when_ready_refuted.
