(** C74: the library and an interpreter without tables. *)

From Coq Require Import List Arith NArith Bool.
From Verif Require Import Types Static Dispatch Runtime Spec Semantics Interp InterpFacts Dsl Examples Demo SafeDemo InterpDemo.
Import ListNotations.

(** For all programs that compile and have at most 255 regions, all user code and all
    sequences of calls of the public members: the library ends as the interpreter does --
    normally, with undefined behaviour of the same kind, or never. If it ends, every call has the same result and the data members
    hold the same: the place of every region, history, deferred events, number of regions,
    objects, user data, and user code was called in the same order with the same arguments.
    There is no condition on the program but the number of regions. *)
Theorem C74_interpreter : forall V W (cb : cbfun V W) env root m vnone fuel d w ks,
  compile env root = Some m -> few_regions env root -> 255 < fuel ->
  same_answer m (Forall2 (tells m)) (session cb m vnone fuel d w ks) (interpreter cb env root vnone fuel d w ks).
Proof. exact interpreter_session. Qed.
Print Assumptions C74_interpreter.

(** The interpreter's rows are those of the program, in the order of its tables. *)
Theorem C74_rows : forall env root m, compile env root = Some m ->
  visits env root (table env root) (outer_rows env root) /\
  keeps_first same_cpp_type [] (internal_rows env root (outer_rows env root)) (inner_rows env root).
Proof. exact interpreter_rows. Qed.
Print Assumptions C74_rows.

(** So the library's behaviour is undefined exactly where the interpreter says so, and
    an event loop that ends in one ends in the other. *)
Theorem C74_undefined : forall V W (cb : cbfun V W) env root m vnone fuel d w ks u,
  compile env root = Some m -> few_regions env root -> 255 < fuel ->
  (session cb m vnone fuel d w ks = Undef u <-> interpreter cb env root vnone fuel d w ks = Bad u) /\
  (session cb m vnone fuel d w ks = Timeout <-> interpreter cb env root vnone fuel d w ks = Endless).
Proof. exact interpreter_undefined. Qed.
Print Assumptions C74_undefined.

(** Two regions, a composite with two regions, an internal row, history, deferral, an
    exception, an unexpected event. *)
Example C74_two : usable Two.env 50 /\
  shown throw_cb Two.env 50 [pe 2; pe 3; pe 5; pe 7; pe 1; pe 1; pe 2; pe 6; KStatus; pe 5; pe 2] = Some
   ([ZBool true; ZBool false; ZBool true; ZExn (XUser 7); ZBool true; ZBool false; ZBool true; ZBool true;
     ZStatus [(0, At (11, SState 2), At (11, SState 2)); (1, At (50, SState 5), At (11, SState 2))];
     ZBool true; ZBool true],
    [Some (At (11, SState 2)); Some (At (50, SState 5))],
    [CEntry 5; CAction 0; CAction 666; CAction 0; CHandler; CEntry 5; CAction 0; CExit 11; CEntry 5]).
Proof. split; [apply usable_intro|]; vm_compute; reflexivity. Qed.

(** Undefined behaviour: a guard called with no object, rows offered outside the machine,
    a region led outside the machine. *)
Example C74_wrong :
  (usable Wrong.null_guard 50 /\ refuses ex_cb Wrong.null_guard 50 [pe 1] UBNull) /\
  (usable Wrong.source_outside 50 /\ refuses ex_cb Wrong.source_outside 50 [] UBIndex) /\
  (usable Wrong.target_outside 50 /\ shown ex_cb Wrong.target_outside 50 [pe 1; KIs 0 50 (SState 1)] =
     Some ([ZBool true; ZBool false], [Some Nowhere], []) /\
   refuses ex_cb Wrong.target_outside 50 [pe 1; pe 1] UBIndex).
Proof.
  repeat apply conj; solve [apply usable_intro; vm_compute; reflexivity | vm_compute; reflexivity].
Qed.

(** A completion row that leads to its own source. *)
Example C74_endless : usable Two.endless 50 /\ interpreter ex_cb Two.endless 50 0 300 0 0 [pe 1] = Endless.
Proof. split; [apply usable_intro|]; vm_compute; reflexivity. Qed.
