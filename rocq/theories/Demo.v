(** Concrete machines and reachable states, used to show that the hypotheses of
    the theorems are met. *)

From Coq Require Import List Arith NArith Bool Lia.
From Verif Require Import Types Static Dispatch Runtime Dsl Examples ListFacts IndexFacts Spec
  DispatchFacts FlattenFacts Semantics RefineFacts StaticFacts Reach ReachFacts TableFacts.
Import ListNotations.

(** Construct [sm<root>] with dependency 0 and call its members in turn. *)
Definition demo (cb : cbfun nat nat) (env : cenv) (root : cls) (ks : list (call nat))
  : option (machine * list out * rt nat nat) :=
  match compile env root with
  | None => None
  | Some m => match session cb m 0 300 0 0 ks with
              | Done os s => Some (m, os, s)
              | _ => None
              end
  end.

Lemma demo_reach cb env root ks m os s : demo cb env root ks = Some (m, os, s) ->
  Nat.leb (max_initials m) 255 = true ->
  compile env root = Some m /\ few_regions env root /\ reachable cb m 0 (deps_run ks [0]) 0 s.
Proof.
  unfold demo. destruct (compile env root) as [m'|] eqn:Hm; [|discriminate].
  destruct (session cb m' 0 300 0 0 ks) as [os' s'|x s'|u|] eqn:Hs; try discriminate.
  intros H F; inversion H; subst. apply Nat.leb_le in F. split; [reflexivity|]. split.
  - eapply max_few; eauto.
  - destruct (compile_comp _ _ _ Hm) as (Hc & _ & _). eapply session_reachable; eauto.
Qed.

(** [demo_state]: there is a machine of the given program in a reachable state
    with the given property. *)
Definition demo_state (cb : cbfun nat nat) (env : cenv) (root : cls) (ks : list (call nat))
    (P : machine -> rt nat nat -> Prop) : Prop :=
  exists m s, compile env root = Some m /\ few_regions env root /\
    reachable cb m 0 (deps_run ks [0]) 0 s /\ P m s.

Lemma demo_intro cb env root ks (P : machine -> rt nat nat -> Prop) :
  match demo cb env root ks with
  | Some (m, _, s) => Nat.leb (max_initials m) 255 = true /\ P m s
  | None => False
  end -> demo_state cb env root ks P.
Proof.
  destruct (demo cb env root ks) as [[[m os] s]|] eqn:E; [|intros []]. intros [F H].
  destruct (demo_reach _ _ _ _ _ _ _ E F) as (H1 & H2 & H3). exists m, s. auto.
Qed.

Lemma demo_candidates env root m e pl cs : compile env root = Some m -> cands m e pl = cs ->
  candidate_list env root e pl cs.
Proof. intros Hm <-. compiled Hm. now apply (candidate_list_cands m Hc). Qed.

(** User code that throws: guard type 6, actions numbered 666. *)
Definition throw_cb : cbfun nat nat := fun c a v w =>
  match c with
  | CGuard 6 _ => Raise 6 v w
  | CAction 666 => Raise 7 v w
  | _ => ex_cb c a v w
  end.
Definition boom := Action 66 (ACall 666).
Definition bang := Guard 6 0.
