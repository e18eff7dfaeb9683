(** The programs in the directory example of the repository, and what they are meant to do. *)

From Coq Require Import List Arith NArith Bool.
From Verif Require Import Types Static Dispatch Runtime Dsl.
Import ListNotations.

(** User code without exceptions that does not write to the event (it gets copies of
    everything): all lambdas of both programs.  [f] is what a call does to everything else. *)
Definition plain_user {V W} (f : callee -> args -> V -> W -> W) : cbfun V W :=
  fun c a v w => Ret true v (f c a v w).
(** What a client sees of a number of calls of process_event. *)
Definition answers (l : list bool) : list out := map OBool l.

(** ** example/turnstile/main.cpp *)
Module Turnstile.
(* States 7-10; class Turnstile 28-44. *)
Definition Locked := 1. Definition Unlocked := 2. Definition Turnstile := 10.
(* Events 13-16, guard 19, actions 22-26. *)
Inductive input := Push | Coin.
Definition ev_of (i : input) : ev := match i with Push => EUser 1 | Coin => EUser 2 end.
Definition noError := Guard 1 0.
Definition beep := Action 1 (ACall 1).
Definition blink := Action 2 (ACall 2).
(* The table, 32-41. *)
Definition env : cenv :=
 [ (Turnstile, mkCdef (Some
     [ sea_to (st_ea (star_state Locked) (event_action (ev_of Push) beep)) (state Locked);
       sega_to (st_ega (state Locked) (eg_action (event_guard (ev_of Coin) noError) blink)) (state Unlocked);
       seg_to (st_eg (state Unlocked) (event_guard (ev_of Push) noError)) (state Locked);
       sea_to (st_ea (state Unlocked) (event_action (ev_of Coin) blink)) (state Unlocked) ])
     None false false false None true) ].

(** What it is meant to do (doc/example/turnstile_example.wsd): the next state and the
    user code called. *)
Definition next (locked : bool) (i : input) : bool * list callee :=
  match locked, i with
  | true, Push => (true, [CAction 1])
  | true, Coin => (false, [CGuard 1 0; CAction 2])
  | false, Push => (true, [CGuard 1 0])
  | false, Coin => (false, [CAction 2])
  end.
Fixpoint spec (locked : bool) (l : list input) : bool * list callee :=
  match l with
  | [] => (locked, [])
  | i :: l' => let (b, c) := next locked i in let (b', c') := spec b l' in (b', c ++ c')
  end.
Definition state_of (locked : bool) : sref := SState (if locked then Locked else Unlocked).
End Turnstile.

(** ** example/cdplayer/main.cpp *)
Module CdPlayer.
(* States 6-19; class Playing 52-70, class CdPlayer 73-100. *)
Definition Empty := 1. Definition Open := 2. Definition Stopped := 3. Definition Paused := 4.
Definition Song1 := 5. Definition Song2 := 6. Definition Song3 := 7.
Definition Playing := 10. Definition CdPlayer := 11.
(* Events 22-37. *)
Inductive input := cd_detected | open_close | stop | play | pause2 | end_pause | next_song | prev_song.
Definition ev_of (i : input) : ev := EUser (match i with
  cd_detected => 1 | open_close => 2 | stop => 3 | play => 4 | pause2 => 5 | end_pause => 6 | next_song => 7 | prev_song => 8 end).
(* Actions 40-50. *)
Inductive deed := store_cd_info | open_drawer | close_drawer | stopped_again | start_playback | stop_and_open
  | pause_playback | stop_playback | resume_playback | start_next_song | start_prev_song.
Definition fn (d : deed) : nat := match d with
  store_cd_info => 1 | open_drawer => 2 | close_drawer => 3 | stopped_again => 4 | start_playback => 5 | stop_and_open => 6
  | pause_playback => 7 | stop_playback => 8 | resume_playback => 9 | start_next_song => 10 | start_prev_song => 11 end.
Definition row (s : sref) (i : input) (d : deed) (t : sref) : row :=
  sea_to (st_ea s (event_action (ev_of i) (Action (fn d) (ACall (fn d))))) t.
(* The tables, 56-66 and 77-97. *)
Definition env : cenv :=
 [ (Playing, mkCdef (Some
     [ row (star_state Song1) next_song start_next_song (state Song2);
       row (state Song2) prev_song start_prev_song (state Song1);
       row (state Song2) next_song start_next_song (state Song3);
       row (state Song3) prev_song start_prev_song (state Song2) ])
     None false false false None true);
   (CdPlayer, mkCdef (Some
     [ row (star_state Empty) cd_detected store_cd_info (state Stopped);
       row (state Empty) open_close open_drawer (state Open);
       row (state Open) open_close close_drawer (state Empty);
       row (state Stopped) open_close open_drawer (state Open);
       row (state Stopped) stop stopped_again (state Stopped);
       row (state Stopped) play start_playback (state Playing);
       row (state Playing) open_close stop_and_open (state Open);
       row (state Playing) pause2 pause_playback (state Paused);
       row (state Playing) stop stop_playback (state Stopped);
       row (state Paused) end_pause resume_playback (state Playing);
       row (state Paused) stop stop_playback (state Stopped);
       row (state Paused) open_close stop_and_open (state Open) ])
     None false false false None true) ].

(** What it is meant to do (doc/example/cdplayer_example.wsd). *)
Inductive track := T1 | T2 | T3.
Inductive mode := Nothing | Drawer | Halt | Pause | Song (t : track).
Definition next (s : mode) (i : input) : option (mode * deed) :=
  match s, i with
  | Nothing, cd_detected => Some (Halt, store_cd_info)
  | Nothing, open_close => Some (Drawer, open_drawer)
  | Drawer, open_close => Some (Nothing, close_drawer)
  | Halt, open_close => Some (Drawer, open_drawer)
  | Halt, stop => Some (Halt, stopped_again)
  | Halt, play => Some (Song T1, start_playback)
  | Pause, end_pause => Some (Song T1, resume_playback)
  | Pause, stop | Song _, stop => Some (Halt, stop_playback)
  | Pause, open_close | Song _, open_close => Some (Drawer, stop_and_open)
  | Song _, pause2 => Some (Pause, pause_playback)
  | Song T1, next_song => Some (Song T2, start_next_song)
  | Song T2, next_song => Some (Song T3, start_next_song)
  | Song T2, prev_song => Some (Song T1, start_prev_song)
  | Song T3, prev_song => Some (Song T2, start_prev_song)
  | _, _ => None
  end.
(** Mode, answers and actions after a number of events; others are ignored. *)
Fixpoint spec (s : mode) (l : list input) : mode * list bool * list deed :=
  match l with
  | [] => (s, [], [])
  | i :: l' =>
      match next s i with
      | Some (s1, d) => let '(s2, bs, ds) := spec s1 l' in (s2, true :: bs, d :: ds)
      | None => let '(s2, bs, ds) := spec s l' in (s2, false :: bs, ds)
      end
  end.
Definition place_of (s : mode) : place :=
  match s with
  | Nothing => (CdPlayer, SState Empty)
  | Drawer => (CdPlayer, SState Open)
  | Halt => (CdPlayer, SState Stopped)
  | Pause => (CdPlayer, SState Paused)
  | Song T1 => (Playing, SState Song1)
  | Song T2 => (Playing, SState Song2)
  | Song T3 => (Playing, SState Song3)
  end.
End CdPlayer.
