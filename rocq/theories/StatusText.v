(** The text that status returns, sm.h 156-167. *)

From Coq Require Import List Arith NArith String Ascii DecimalString.
From Verif Require Import Types Static Dispatch Runtime.
Import ListNotations.
Open Scope string_scope.

(** operator<< of std::ostream for an unsigned number (Idx is std::uint64_t, idx.h 21):
    decimal digits. *)
Definition put_number (n : N) : string := NilZero.string_of_uint (N.to_uint n).
(** operator<< for Region, which is std::uint8_t (sm.h 31), that is unsigned char: one
    character, the one with this code. *)
Definition put_char (r : nat) : string := String (ascii_of_nat r) "".
(** The four lines in the loop, sm.h 161-164; there is nothing between two regions. *)
Definition put_region (l : nat * N * N * N) : string :=
  let '(r, c, p, st) := l in
  "[" ++ put_char r ++ "] " ++ "combined: " ++ put_number c ++ " " ++ "parent: " ++ put_number p ++ " " ++
  "state: " ++ put_number st.
Fixpoint put_regions (l : list (nat * N * N * N)) : string :=
  match l with [] => "" | x :: l' => put_region x ++ put_regions l' end.
Definition status_text {V W} (m : machine) (fuel : nat) (s : rt V W) : res V W string :=
  bind (status m fuel s) (fun l s => Done (put_regions l) s).

(** What a reader of a C string (status().c_str()) sees: everything before the first
    character with code zero. *)
Fixpoint c_str (s : string) : string :=
  match s with
  | "" => ""
  | String c s' => if Ascii.eqb c zero then "" else String c (c_str s')
  end.
