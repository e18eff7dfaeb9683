(** C63: the text that status returns. *)

From Coq Require Import List Arith NArith Bool String Ascii.
From Verif Require Import Types Static Dispatch Runtime Dsl Examples Spec Semantics Reach StaticFacts StatusSpec Demo
  StatusText StatusTextFacts.
Import ListNotations.
Open Scope string_scope.

(** C63. The text is made of the numbers of C47, without anything between the regions. *)
Theorem C63_text : forall V W env root m, compile env root = Some m ->
  forall (cb : cbfun V W) vnone ds d0 fuel s (pl : nat -> place),
  running cb env root m vnone ds d0 s ->
  (forall r, r < active m s -> at_place m s r = Some (pl r)) -> active m s < fuel ->
  status_text m fuel s = Done (put_regions (map (fun r => line m (fst (pl 0)) r (pl r)) (seq 0 (active m s)))) s.
Proof. exact @text_lines. Qed.
Print Assumptions C63_text.

(** Still no two different states have the same text: it says how many regions are active
    and where each of them is. *)
Theorem C63_text_determines : forall V W env root m, compile env root = Some m ->
  forall (cb : cbfun V W) vnone ds d0 fuel s s' (pl pl' : nat -> place) ds' d0' t,
  running cb env root m vnone ds d0 s -> running cb env root m vnone ds' d0' s' ->
  (forall r, r < active m s -> at_place m s r = Some (pl r)) ->
  (forall r, r < active m s' -> at_place m s' r = Some (pl' r)) ->
  active m s < fuel -> active m s' < fuel ->
  status_text m fuel s = Done t s -> status_text m fuel s' = Done t s' ->
  active m s' = active m s /\ (forall r, r < active m s -> pl' r = pl r).
Proof. exact @text_determines. Qed.
Print Assumptions C63_text_determines.

(** No region is written as its number, *)
Theorem C63_never_the_number : forall r, r < 256 -> put_char r <> put_number (N.of_nat r).
Proof. exact char_not_number. Qed.
Print Assumptions C63_never_the_number.

(** the text between the brackets is a digit d only for region 48 + d, *)
Theorem C63_digit_of_another : forall r d, r < 256 -> d < 10 -> put_char r = put_number (N.of_nat d) <-> r = 48 + d.
Proof. exact char_digit. Qed.
Print Assumptions C63_digit_of_another.

(** and because region 0 is written as the character zero, a reader of status().c_str()
    sees nothing but the first bracket, whatever the program and its state. *)
Theorem C63_c_string : forall V W env root m (cb : cbfun V W) vnone ds d0 fuel s s' t,
  running cb env root m vnone ds d0 s -> 1 <= active m s ->
  status_text m fuel s = Done t s' -> c_str t = "[".
Proof. exact @text_c_str. Qed.
Print Assumptions C63_c_string.

Example C63_applies : demo_state ex_cb Regions.env Regions.Main [pe 1] (fun m s =>
  active m s = 2 /\ at_place m s 0 = Some (Regions.Main, SState 2) /\ at_place m s 1 = Some (Regions.Main, SState 4) /\
  status_text m 3 s = Done ("[" ++ String "000" "] combined: 1 parent: 0 state: 1[" ++ String "001" "] combined: 2 parent: 0 state: 2") s).
Proof. apply demo_intro. vm_compute. repeat (split; [reflexivity|]). reflexivity. Qed.
