(** More about C34 and C39: callbacks that throw, and machines with deferred events. *)

From Coq Require Import List Arith NArith Bool Lia.
From Verif Require Import Types Static Dispatch Runtime Dsl Examples ListFacts IndexFacts Spec
  Semantics Reach Demo CallFacts MoreFacts.
Import ListNotations.

(** C34. create_state: the object is installed when the factory returns, before any
    later callback, whatever throws later; and not before. *)
Theorem C34_stages : forall V W (cb : cbfun V W) m r e d x o v s n v' s' ty f,
  executes cb m r e d x o v s n v' s' -> x_act x = Action ty (ACreate f) ->
  exists ks, rt_trace s' = rt_trace s ++ ks /\
   ((n <> None /\ Forall by_exit ks /\ rt_live s' = rt_live s) \/
    (exists before u u' w w' j, ks = before ++ [mkCall (CFactory f) (mkArgs e o TNone d) u] /\ Forall by_exit before /\
       n = Some j /\ cb (CFactory f) (mkArgs e o TNone d) u w = Raise j u' w' /\ rt_live s' = rt_live s) \/
    (exists before after_ u u' w w' b, ks = before ++ mkCall (CFactory f) (mkArgs e o TNone d) u :: after_ /\
       Forall by_exit before /\ Forall by_entry after_ /\ cb (CFactory f) (mkArgs e o TNone d) u w = Ret b u' w' /\
       (In (target_state (mc_env m) x) (rt_live s') <-> b = true) /\
       forall t, t <> target_state (mc_env m) x -> (In t (rt_live s') <-> In t (rt_live s)))).
Proof. exact @create_stages. Qed.
Print Assumptions C34_stages.

(** reuse_state: the function is called with the object of the target. *)
Theorem C34_reuse : forall V W (cb : cbfun V W) m r e d x o v s n v' s' ty f,
  executes cb m r e d x o v s n v' s' -> x_act x = Action ty (AReuse f) ->
  rt_live s' = rt_live s /\
  exists ks, rt_trace s' = rt_trace s ++ ks /\
   ((n <> None /\ Forall by_exit ks) \/
    exists before after_ u, ks = before ++ mkCall (CReuse f) (mkArgs e o (TObj (target_state (mc_env m) x)) d) u :: after_ /\
       Forall by_exit before /\ Forall by_entry after_).
Proof. exact @reuse_stages. Qed.
Print Assumptions C34_reuse.

(** State 1 has on_exit, state 2 on_entry and no default constructor. *)
Definition staged : cenv :=
 [ (1, mkCdef None None false true false None true);
   (2, mkCdef None None true false false None false);
   (50, tbl [ mkRow (SInitial WState 4) (EUser 9) NoGuard NoAction (SState 1);
              mkRow (SState 1) (EUser 1) NoGuard (Action 1 (ACreate 1)) (SState 2);
              mkRow (SState 2) (EUser 2) NoGuard NoAction (SState 1);
              mkRow (SState 1) (EUser 3) NoGuard (Action 2 (AReuse 1)) (SState 2) ]) ].
Definition entry_throws : cbfun nat nat := fun c a v w =>
  match c with CEntry 2 => if Nat.eqb v 7 then Raise 3 v w else Ret true v w | CFactory _ | CReuse _ => Ret true v (S w) | _ => Ret true v w end.
(** on_entry of state 2 throws: the object stays, and can be reused. *)
Example C34_stages_applies : demo_state entry_throws staged 50 [KProcess (EUser 9) 5] (fun m s =>
  ~ In (SState 2) (rt_live s) /\
  match process_event entry_throws m 0 300 (EUser 1) 7 s with
  | Threw (XUser 3) s' => In (SState 2) (rt_live s') /\ at_place m s' 0 = Some (50, SState 2) /\
      map (@k_callee nat) (rt_trace s') = [CExit 1; CFactory 1; CEntry 2] /\
      match process_event entry_throws m 0 300 (EUser 2) 5 s' with
      | Done (true, _) s2 =>
          match process_event entry_throws m 0 300 (EUser 3) 5 s2 with
          | Done (true, _) s3 => map signature (skipn 4 (rt_trace s3)) =
              [(CReuse 1, mkArgs (EUser 3) (SState 1) (TObj (SState 2)) 0); (CEntry 2, mkArgs (EUser 3) (SState 1) (TPtr (SState 2)) 0)]
          | _ => False
          end
      | _ => False
      end
  | _ => False
  end).
Proof.
  apply demo_intro. vm_compute. split; [reflexivity|].
  split; [intros H; repeat destruct H as [H|H]; discriminate || contradiction|]. repeat (split; [vm_compute; auto|]). vm_compute. reflexivity.
Qed.

(** C39. The general case, with deferred events: after each event that was handled,
    the one given and the one recalled, anonymous processing came to rest. *)
Theorem C39_rest : forall V W (cb : cbfun V W) env root m vnone ds d0 s fuel e v v' s',
  running cb env root m vnone ds d0 s -> (exists x, declared env root x /\ x_ev x = ENone) ->
  process_event cb m vnone fuel e v s = Done (true, v') s' ->
  exists vds avds s1, offer cb m ds vnone e v s vds avds OfHandled v' s1 /\ comes_to_rest cb env root m ds s1 /\
    (rt_queue s = [] -> s' = s1) /\
    (forall e2 v2 q, rt_queue s = (e2, v2) :: q -> exists vds2 avds2 oe v3,
       offer cb m ds vnone e2 v2 (with_queue s1 q) vds2 avds2 oe v3 s' /\ (oe = OfHandled -> comes_to_rest cb env root m ds s')).
Proof. exact @process_rests. Qed.
Print Assumptions C39_rest.

(** 1 -1-> 2, 2 -> 3 anonymously, state 1 defers 2, 3 -2-> 4, 4 -> 5 anonymously. *)
Definition resting : cenv :=
 [ (1, mkCdef None None false false false (Some [EUser 2]) true);
   (50, tbl [ mkRow (SInitial WState 1) (EUser 1) NoGuard NoAction (SState 2);
              mkRow (SState 2) ENone NoGuard NoAction (SState 3);
              mkRow (SState 3) (EUser 2) NoGuard NoAction (SState 4);
              mkRow (SState 4) ENone NoGuard NoAction (SState 5) ]) ].
Example C39_rest_applies : demo_state ex_cb resting 50 [KProcess (EUser 2) 5] (fun m s =>
  rt_queue s = [(EUser 2, 5)] /\ has_anonymous m = true /\
  match process_event ex_cb m 0 300 (EUser 1) 5 s with
  | Done (true, _) s' => at_place m s' 0 = Some (50, SState 5) /\ rt_queue s' = []
  | _ => False
  end).
Proof. apply demo_intro. vm_compute. repeat split. Qed.
