(** A program with four states of which two are enough. *)

From Coq Require Import List Arith NArith Bool.
From Verif Require Import Types Static Dispatch Runtime Dsl Examples Spec Semantics Flat FlatFacts FlatDemo EquivUse Merge MergeFacts MergeRun MergeLeast.
Import ListNotations.

Module Twins.
Definition go := EUser 1.  Definition back := EUser 2.
Definition g1 := Guard 1 1.
Definition a3 := Action 3 (ACall 3).  Definition a5 := Action 5 (AChain [ACall 5; ACall 6]).
Definition rows : list row :=
  [ mkRow (SInitial WState 1) go NoGuard a3 (SState 3);
    mkRow (SState 1) go g1 a3 (SState 2);
    mkRow (SState 4) go NoGuard a3 (SState 2);
    mkRow (SState 4) go g1 a3 (SState 3);
    mkRow (SState 2) back NoGuard a5 (SState 1);
    mkRow (SState 3) back NoGuard a5 (SState 4) ].
Definition env : cenv := [ (50, tbl rows) ].
Definition same : naming := fun c => c.
(** The states 2 and 3 have on_entry and on_exit, each a class of its own with the same
    code. *)
Definition busy : cdef := mkCdef None None true true false None true.
Definition env2 : cenv := [ (2, busy); (3, busy); (50, tbl rows) ].
Definition twins : naming := fun c => match c with CEntry 3 => CEntry 2 | CExit 3 => CExit 2 | _ => c end.
Lemma same_kinds : keeps_kind same.
Proof. intros c. reflexivity. Qed.

Lemma all_led : forall a, In a (children env 50) -> led_to same env 50 a.
Proof.
  assert (L1 : led_to same env 50 (SState 1)) by (apply led_start; reflexivity).
  assert (L3 : led_to same env 50 (SState 3)) by (apply (led_row same env 50 _ go (None, [CAction 3], SState 3) L1); vm_compute; auto).
  assert (L2 : led_to same env 50 (SState 2)) by (apply (led_row same env 50 _ go (Some (CGuard 1 1), [CAction 3], SState 2) L1); vm_compute; auto).
  assert (L4 : led_to same env 50 (SState 4)) by (apply (led_row same env 50 _ back (None, [CAction 5; CAction 6], SState 4) L3); vm_compute; auto).
  intros a Ha. vm_compute in Ha. repeat (destruct Ha as [<- | Ha]; [assumption|]). destruct Ha.
Qed.
End Twins.

(** The calls a program makes, with user code that is told everything. *)
Definition all_calls {V W} (cb : cbfun V W) (env : cenv) (root : cls) (vnone : V) (w : W) (l : list (ev * V)) : option (list out * list (called V) * W) :=
  match compile env root with
  | None => None
  | Some m => match session cb m vnone 300 0 w (map (fun ev => KProcess (fst ev) (snd ev)) l) with
              | Done outs s => Some (outs, rt_trace s, rt_world s)
              | _ => None
              end
  end.
(** Guards that look at the state: they object to state 4. *)
Definition looks : cbfun unit unit := fun c a v w =>
  match c, a_src a with CGuard _ _, SState 4 => Raise 7 v w | CGuard _ _, _ => Ret false v w | _, _ => Ret true v w end.
Lemma looking_tells : exists lab env root (cb : cbfun unit unit) l r r',
  flat env root /\ all_calls cb env root tt tt l = Some r /\ all_calls cb (merged lab env root) root tt tt l = Some r' /\
  fst (fst r) <> fst (fst r').
Proof.
  exists Twins.same, Twins.env, 50, looks, [(Twins.go, tt); (Twins.back, tt); (Twins.go, tt)]. do 2 eexists.
  split; [apply flat_intro; vm_compute; reflexivity|]. split; [vm_compute; reflexivity|]. split; [vm_compute; reflexivity|]. cbn. discriminate.
Qed.
