(** Laws: what can be counted in the calls of user code, given weights of the callees, and
    read off the places of the regions, given a value of each place. *)

From Coq Require Import List Arith NArith ZArith Bool.
From Verif Require Import Types Static Dispatch Runtime IndexFacts Spec DispatchFacts Semantics.
Import ListNotations.
Local Open Scope Z_scope.

(** The weight of a call; guards and the handler of unexpected events weigh nothing. *)
Definition weight (psi : callee -> Z) (k : callee) : Z :=
  match k with CGuard _ _ | CHandler => 0 | _ => psi k end.
Definition sum (l : list Z) : Z := fold_right Z.add 0 l.
Definition total {V} (psi : callee -> Z) (t : list (called V)) : Z := sum (map (fun k => weight psi (k_callee k)) t).
(** The value of all regions. *)
Definition level {V W} (m : machine) (phi : place -> Z) (s : rt V W) : Z :=
  sum (map (fun r => match at_place m s r with Some pl => phi pl | None => 0 end) (seq 0 (length (rt_cur s)))).

(** Every row leads to a place of the machine, and there are no history states. *)
Definition known_targets (env : cenv) (root : cls) : Prop :=
  forall x, declared env root x -> is_history (x_tgt x) = false /\ exists pl, target_place env x = Some pl /\ is_place env root pl.

(** What a row that is tried in [pl] adds to the value of its region: the place it leads to
    against [pl]; nothing for an internal row. *)
Definition gain (env : cenv) (phi : place -> Z) (x : xrow) (pl : place) : Z :=
  if x_int x then 0 else match target_place env x with Some pl' => phi pl' - phi pl | None => 0 end.

(** The law of the rows: the calls of every row weigh what the row adds. *)
Definition lawful (env : cenv) (root : cls) (phi : place -> Z) (psi : callee -> Z) : Prop :=
  forall e pl x o, candidate env root e pl (CRow x o) ->
  sum (map (weight psi) (row_calls env x)) = gain env phi x pl.
(** They weigh at most that, also if only the first of them are made. *)
Definition bounded (env : cenv) (root : cls) (phi : place -> Z) (psi : callee -> Z) : Prop :=
  forall e pl x o, candidate env root e pl (CRow x o) ->
  forall l l', row_calls env x = l ++ l' -> sum (map (weight psi) l) <= gain env phi x pl.

(** The checks, for a compiled machine. *)
Definition row_places (m : machine) (x : xrow) : list place :=
  source_place x :: match x_src x with
                    | SState c => if is_composite (mc_env m) c then map (pair c) (child_typeids (mc_env m) c) else []
                    | _ => []
                    end.
Definition all_cands (m : machine) : list (place * xrow) :=
  flat_map (fun x => map (fun pl => (pl, x)) (row_places m x)) (mc_flat m) ++
  map (fun x => (source_place x, x)) (flat_map (internal_of_pair (mc_env m)) (state_pairs m)).
Definition known_ok (m : machine) : bool :=
  forallb (fun x => negb (is_history (x_tgt x)) && match target_place (mc_env m) x with Some pl => if in_dec place_eq_dec pl (places m) then true else false | None => false end)
          (mc_flat m).
Definition lawful_ok (m : machine) (phi : place -> Z) (psi : callee -> Z) : bool :=
  forallb (fun px => sum (map (weight psi) (row_calls (mc_env m) (snd px))) =? gain (mc_env m) phi (snd px) (fst px)) (all_cands m).
Definition bounded_ok (m : machine) (phi : place -> Z) (psi : callee -> Z) : bool :=
  forallb (fun px => forallb (fun n => sum (map (weight psi) (firstn n (row_calls (mc_env m) (snd px)))) <=? gain (mc_env m) phi (snd px) (fst px))
                             (seq 0 (S (length (row_calls (mc_env m) (snd px)))))) (all_cands m).
