(** C62: the programs in the directory example. *)

From Coq Require Import List Arith NArith Bool Lia.
From Verif Require Import Types Static Dispatch Runtime Dsl Semantics Programs ProgramFacts.
Import ListNotations.

(** C62. For every sequence of events, whatever the events carry and whatever the lambdas do
    apart from throwing: the turnstile answers true to every event, is in the state of the
    diagram, and has called the guards and actions of the diagram in this order. *)
Theorem C62_turnstile : forall V W (f : callee -> args -> V -> W -> W) vnone fuel w (l : list (Turnstile.input * V)),
  2 <= fuel -> exists m s,
  compile Turnstile.env Turnstile.Turnstile = Some m /\
  session (plain_user f) m vnone fuel 0 w (map (fun iv => KProcess (Turnstile.ev_of (fst iv)) (snd iv)) l) =
    Done (answers (repeat true (length l))) s /\
  at_place m s 0 = Some (Turnstile.Turnstile, Turnstile.state_of (fst (Turnstile.spec true (map fst l)))) /\
  map k_callee (rt_trace s) = snd (Turnstile.spec true (map fst l)).
Proof. exact @turnstile. Qed.
Print Assumptions C62_turnstile.

(** The player answers true to the events for which the diagram has an arrow and false to
    the others, is in the state of the diagram, and has called its actions in this order. *)
Theorem C62_cdplayer : forall V W (f : callee -> args -> V -> W -> W) vnone fuel w (l : list (CdPlayer.input * V)),
  2 <= fuel -> exists m s,
  compile CdPlayer.env CdPlayer.CdPlayer = Some m /\
  session (plain_user f) m vnone fuel 0 w (map (fun iv => KProcess (CdPlayer.ev_of (fst iv)) (snd iv)) l) =
    Done (answers (snd (fst (CdPlayer.spec CdPlayer.Nothing (map fst l))))) s /\
  at_place m s 0 = Some (CdPlayer.place_of (fst (fst (CdPlayer.spec CdPlayer.Nothing (map fst l))))) /\
  map k_callee (rt_trace s) = map (fun d => CAction (CdPlayer.fn d)) (snd (CdPlayer.spec CdPlayer.Nothing (map fst l))).
Proof. exact @cdplayer. Qed.
Print Assumptions C62_cdplayer.

(** What this means without the diagrams.  The turnstile is unlocked if and only if the last
    event is a coin, and it has blinked once for every coin. *)
Theorem C62_unlocked : forall V W (f : callee -> args -> V -> W -> W) vnone fuel w, 2 <= fuel ->
  forall l : list (Turnstile.input * V), exists m s outs,
  compile Turnstile.env Turnstile.Turnstile = Some m /\
  session (plain_user f) m vnone fuel 0 w (map (fun iv => KProcess (Turnstile.ev_of (fst iv)) (snd iv)) l) = Done outs s /\
  (at_place m s 0 = Some (Turnstile.Turnstile, SState Turnstile.Unlocked) <-> exists l' v, l = l' ++ [(Turnstile.Coin, v)]) /\
  (at_place m s 0 = Some (Turnstile.Turnstile, SState Turnstile.Locked) <-> l = [] \/ exists l' v, l = l' ++ [(Turnstile.Push, v)]) /\
  length (filter (fun k => match k_callee k with CAction 2 => true | _ => false end) (rt_trace s)) =
  length (filter (fun iv => match fst iv with Turnstile.Coin => true | _ => false end) l).
Proof. exact @turnstile_unlocked. Qed.
Print Assumptions C62_unlocked.

(** The drawer of the player is open if and only if open_close came an odd number of times,
    whatever else came between. *)
Theorem C62_drawer : forall V W (f : callee -> args -> V -> W -> W) vnone fuel w, 2 <= fuel ->
  forall l : list (CdPlayer.input * V), exists m s outs,
  compile CdPlayer.env CdPlayer.CdPlayer = Some m /\
  session (plain_user f) m vnone fuel 0 w (map (fun iv => KProcess (CdPlayer.ev_of (fst iv)) (snd iv)) l) = Done outs s /\
  (at_place m s 0 = Some (CdPlayer.CdPlayer, SState CdPlayer.Open) <->
   Nat.Odd (length (filter (fun iv => match fst iv with CdPlayer.open_close => true | _ => false end) l))).
Proof. exact @cd_drawer. Qed.
Print Assumptions C62_drawer.

(** The row "Paused + end_pause / resume_playback = Playing" does not resume the song that
    was paused: it starts with the first one. *)
Theorem C62_resume_refuted : exists m s s' outs outs' (l : list (CdPlayer.input * nat)),
  compile CdPlayer.env CdPlayer.CdPlayer = Some m /\
  session (plain_user (fun _ _ _ w => w)) m 0 2 0 tt (map (fun iv => KProcess (CdPlayer.ev_of (fst iv)) (snd iv)) l) = Done outs s /\
  session (plain_user (fun _ _ _ w => w)) m 0 2 0 tt
    (map (fun iv => KProcess (CdPlayer.ev_of (fst iv)) (snd iv)) (l ++ [(CdPlayer.pause2, 0); (CdPlayer.end_pause, 0)])) = Done outs' s' /\
  at_place m s 0 = Some (CdPlayer.Playing, SState CdPlayer.Song2) /\
  at_place m s' 0 = Some (CdPlayer.Playing, SState CdPlayer.Song1).
Proof. exact cd_resume. Qed.
Print Assumptions C62_resume_refuted.

(** The assertions of the two programs. *)
Example C62_main_turnstile : exists m s, compile Turnstile.env Turnstile.Turnstile = Some m /\
  session (V := unit) (plain_user (fun c _ _ w => c :: w)) m tt 2 0 []
    [ KIs 0 Turnstile.Turnstile (SState Turnstile.Locked); KProcess (Turnstile.ev_of Turnstile.Coin) tt;
      KIs 0 Turnstile.Turnstile (SState Turnstile.Unlocked); KProcess (Turnstile.ev_of Turnstile.Push) tt;
      KIs 0 Turnstile.Turnstile (SState Turnstile.Locked) ] = Done (answers [true; true; true; true; true]) s /\
  rt_world s = [CGuard 1 0; CAction 2; CGuard 1 0].
Proof. eexists. eexists. split; [vm_compute; reflexivity|]. split; vm_compute; reflexivity. Qed.
Example C62_main_cdplayer : exists m s, compile CdPlayer.env CdPlayer.CdPlayer = Some m /\
  session (V := unit) (plain_user (fun _ _ _ w => w)) m tt 2 0 tt [KIs 0 CdPlayer.CdPlayer (SState CdPlayer.Empty)] = Done (answers [true]) s.
Proof. eexists. eexists. split; vm_compute; reflexivity. Qed.
Example C62_example : CdPlayer.spec CdPlayer.Nothing
  [CdPlayer.play; CdPlayer.cd_detected; CdPlayer.play; CdPlayer.next_song; CdPlayer.next_song; CdPlayer.next_song; CdPlayer.open_close] =
  (CdPlayer.Drawer, [false; true; true; true; true; false; true],
   [CdPlayer.store_cd_info; CdPlayer.start_playback; CdPlayer.start_next_song; CdPlayer.start_next_song; CdPlayer.stop_and_open]).
Proof. reflexivity. Qed.
