(** The notations with which users write rows: details/state.h 9-135,
    details/event.h 16-35, front/transition_dsl.h, front/transition_tuple.h. *)

From Coq Require Import List Arith NArith Bool.
From Verif Require Import Types.
Import ListNotations.

(** Every operator of [StateBase<Type>] builds [state_t<Type>] for its own type
    (state.h 14-82), whatever wrapper it was called on. *)
Definition as_state (s : sref) : sref :=
  match s with
  | SState c => SState c
  | SInitial _ c => SInitial WState c
  | SDirect _ p c => SDirect WState p c
  | SEntry _ p c => SEntry WState p c
  | SExit _ p c => SExit WState p c
  | SHistory _ p => SHistory WState p
  end.

(** state.h 98-135: state<C>, *state<C> (operator*, 101-104), initial<C>,
    direct<P,S>, entry<P,S>, exit<P,S>, history<P>. *)
Definition state (c : cls) : sref := SState c.
Definition initial (c : cls) : sref := SInitial WOwn c.
Definition star_state (c : cls) : sref := initial c.
Definition direct (p c : cls) : sref := SDirect WOwn p c.
Definition entry (p c : cls) : sref := SEntry WOwn p c.
Definition exit (p c : cls) : sref := SExit WOwn p c.
Definition history (p : cls) : sref := SHistory WOwn p.

(** Partial transitions, transition_dsl.h 13-187. *)
Inductive tEG := TEG (e : ev) (g : guard).
Inductive tEA := TEA (e : ev) (a : action).
Inductive tEGA := TEGA (e : ev) (g : guard) (a : action).
Inductive tSE := TSE (s : sref) (e : ev).
Inductive tSEG := TSEG (s : sref) (e : ev) (g : guard).
Inductive tSEA := TSEA (s : sref) (e : ev) (a : action).
Inductive tSEGA := TSEGA (s : sref) (e : ev) (g : guard) (a : action).
Inductive tSA := TSA (s : sref) (a : action).
Inductive tSG := TSG (s : sref) (g : guard).
Inductive tSGA := TSGA (s : sref) (g : guard) (a : action).

(** event.h 24-32 and transition_dsl.h 38-41. *)
Definition event_guard (e : ev) (g : guard) : tEG := TEG e g.
Definition event_action (e : ev) (a : action) : tEA := TEA e a.
Definition eg_action (x : tEG) (a : action) : tEGA := let (e, g) := x in TEGA e g a.

(** Internal rows: event.h 19-22, transition_dsl.h 21-24, 43-46, 59-62. *)
Definition plus_event (e : ev) : irow := mkIrow e NoGuard NoAction.
Definition plus_eg (x : tEG) : irow := let (e, g) := x in mkIrow e g NoAction.
Definition plus_ea (x : tEA) : irow := let (e, a) := x in mkIrow e NoGuard a.
Definition plus_ega (x : tEGA) : irow := let (e, g, a) := x in mkIrow e g a.

(** StateBase operators +, /, [] (state.h 12-43); TransitionSG::operator/
    (transition_dsl.h 180-183). *)
Definition st_event (s : sref) (e : ev) : tSE := TSE s e.
Definition st_eg (s : sref) (x : tEG) : tSEG := let (e, g) := x in TSEG s e g.
Definition st_ea (s : sref) (x : tEA) : tSEA := let (e, a) := x in TSEA s e a.
Definition st_ega (s : sref) (x : tEGA) : tSEGA := let (e, g, a) := x in TSEGA s e g a.
Definition st_action (s : sref) (a : action) : tSA := TSA s a.
Definition st_guard (s : sref) (g : guard) : tSG := TSG s g.
Definition sg_action (x : tSG) (a : action) : tSGA := let (s, g) := x in TSGA s g a.

(** Postfix: [... = target] (transition_dsl.h 77-80, 94-97, 110-113, 122-125,
    136-140, 155-159, 173-178; state.h 46-50): the target keeps its wrapper. *)
Definition se_to (x : tSE) (t : sref) : row :=
  let (s, e) := x in mkRow (as_state s) e NoGuard NoAction t.
Definition seg_to (x : tSEG) (t : sref) : row :=
  let (s, e, g) := x in mkRow (as_state s) e g NoAction t.
Definition sea_to (x : tSEA) (t : sref) : row :=
  let (s, e, a) := x in mkRow (as_state s) e NoGuard a t.
Definition sega_to (x : tSEGA) (t : sref) : row :=
  let (s, e, g, a) := x in mkRow (as_state s) e g a t.
Definition sa_to (x : tSA) (t : sref) : row :=
  let (s, a) := x in mkRow (as_state s) ENone NoGuard a t.
Definition sg_to (x : tSG) (t : sref) : row :=
  let (s, g) := x in mkRow (as_state s) ENone g NoAction t.
Definition sga_to (x : tSGA) (t : sref) : row :=
  let (s, g, a) := x in mkRow (as_state s) ENone g a t.
Definition st_to (s t : sref) : row := mkRow (as_state s) ENone NoGuard NoAction t.

(** Prefix: [target <= ...] (state.h 52-89): the target becomes state_t<Type>.
    [from_st] exists for state_t<Source> sources only (85-89). *)
Definition from_se (t : sref) (x : tSE) : row :=
  let (s, e) := x in mkRow (as_state s) e NoGuard NoAction (as_state t).
Definition from_seg (t : sref) (x : tSEG) : row :=
  let (s, e, g) := x in mkRow (as_state s) e g NoAction (as_state t).
Definition from_sea (t : sref) (x : tSEA) : row :=
  let (s, e, a) := x in mkRow (as_state s) e NoGuard a (as_state t).
Definition from_sega (t : sref) (x : tSEGA) : row :=
  let (s, e, g, a) := x in mkRow (as_state s) e g a (as_state t).
Definition from_st (t s : sref) : row := mkRow s ENone NoGuard NoAction (as_state t).

(** Tuple front end: hsm::transition / hsm::internal_transition
    (front/transition_tuple.h, transition.h 133-137): arguments as given. *)
Definition tuple_transition (s : sref) (e : ev) (g : guard) (a : action) (t : sref) : row :=
  mkRow s e g a t.
Definition tuple_internal_transition (e : ev) (g : guard) (a : action) : irow :=
  mkIrow e g a.
