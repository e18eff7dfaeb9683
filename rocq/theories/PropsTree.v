(** C82. What user code can cause. *)

From Coq Require Import List Arith NArith Bool Lia.
From Verif Require Import Types Static Dispatch Runtime Dsl Examples Data DataUse Script Explore ExploreUse Tree Equiv TreeUse.
Import ListNotations.

(** C82. A call of a state machine object is a finite tree of questions to user code: from
    every state of the object there is one tree, the same for all user code, and the call
    asks along one path of it. User code with events that carry no data. *)
Theorem C82_tree : forall m fuel k (x : rt unit unit), exists t : tree out,
  forall W (cb : cbfun unit W) w tr, do_call cb m tt fuel k (put x w tr) = interp cb t w tr.
Proof. exact call_a. Qed.
Print Assumptions C82_tree.

(** So two runs of the same client with different user code are the same up to the first
    question that is answered differently: [answers] are the answers to the questions of a
    run, one after the other. If no question is answered differently the runs are the same. *)
Theorem C82_first_difference : forall W1 W2 (cb1 : cbfun unit W1) (cb2 : cbfun unit W2) m fuel d w1 w2 ks outs1 outs2 s1 s2,
  session cb1 m tt fuel d w1 ks = Done outs1 s1 -> session cb2 m tt fuel d w2 ks = Done outs2 s2 ->
  outs1 = outs2 /\ config_of s1 = config_of s2 /\ rt_trace s1 = rt_trace s2 /\ answers cb1 w1 (rt_trace s1) = answers cb2 w2 (rt_trace s2) \/
  exists before x after1 after2 a y1 y2 a1 a2, rt_trace s1 = before ++ x :: after1 /\ rt_trace s2 = before ++ x :: after2 /\ length before = length a /\
    answers cb1 w1 (rt_trace s1) = a ++ y1 :: a1 /\ answers cb2 w2 (rt_trace s2) = a ++ y2 :: a2 /\ y1 <> y2.
Proof. exact @session_apart. Qed.
Print Assumptions C82_first_difference.

(** The machine of C79: three scripts, the outcomes, the questions and the answers. *)
Definition shown (script : list reply) : option (list out * list callee * list reply) :=
  match compile Answers.env 50 with
  | Some m => match session scripted m tt 50 0 script (map (fun e => KProcess e tt) Answers.events_) with
    | Done o s => Some (o, map k_callee (rt_trace s), answers scripted script (rt_trace s))
    | _ => None
    end
  | None => None
  end.
Example C82_applies :
  shown [Say false; Say false; Say true; Say true] =
    Some ([F; T; T; F], [CGuard 6 0; CGuard 0 0; CGuard 1 0; CAction 666], [Say false; Say false; Say true; Say true]) /\
  (* the second answer differs: the same questions up to the second *)
  shown [Say false; Say true; Say true; Say true] = Some ([F; T; F; F], [CGuard 6 0; CGuard 0 0], [Say false; Say true]) /\
  shown [Say false; Fail 3; Say true; Say true] =
    Some ([F; OExn (XUser 3); F; T], [CGuard 6 0; CGuard 0 0; CGuard 0 0], [Say false; Fail 3; Say true]).
Proof. vm_compute. repeat split. Qed.
