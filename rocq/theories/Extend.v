(** Programs that differ in additional rows for one event: vocabulary for C61.  Nothing
    here is a model of code of the repository. *)

From Coq Require Import List Arith NArith Bool.
From Verif Require Import Types Static Dispatch Runtime Spec Amalgam.
Import ListNotations.

(** [inserted R b l l']: [l'] is [l] with more elements; [R k x] holds for each of them,
    where [k] is what stands before it in [b ++ l]. *)
Inductive inserted {A} (R : list A -> A -> Prop) : list A -> list A -> list A -> Prop :=
| ins_nil b : inserted R b [] []
| ins_old b x l l' : inserted R (b ++ [x]) l l' -> inserted R b (x :: l) (x :: l')
| ins_new b x l l' : R b x -> inserted R b l l' -> inserted R b l (x :: l').

(** What is asked of a row that is added to the table of class [c] after the rows [b]: it
    starts where an earlier row starts; *)
Definition starts_known (env : cenv) (c : cls) (b : list row) (r : row) : Prop :=
  exists r0, In r0 b /\
    (r_src r = r_src r0 \/
     (internals env c = [] /\ exists w k, r_src r0 = SInitial w k /\ r_src r = SState k /\ ~ composite env k)).
(** it ends in a state that an earlier row names; *)
Definition ends_known (env : cenv) (c : cls) (b : list row) (r : row) : Prop :=
  exists r1, In r1 b /\
    (r_tgt r = r_tgt r1 \/
     (r_tgt r = unmarked (r_src r1) /\ (internals env c = [] \/ r_tgt r = r_src r1))).
(** this is neither a composite nor a pseudo state of one.  (States have to be written as
    before if class [c] has internal rows; otherwise a state may lose its mark.) *)
Definition leads_nowhere (env : cenv) (r : row) : Prop :=
  (forall k, leads_into (r_tgt r) k -> ~ composite env k) /\ (forall w k, r_tgt r <> SHistory w k).
Definition extra (env : cenv) (e : ev) (c : cls) (b : list row) (r : row) : Prop :=
  r_ev r = e /\ starts_known env c b r /\ ends_known env c b r /\ leads_nowhere env r.

(** [env'] is [env] with more rows in the tables of its classes; [X c b r] holds for each
    row [r] added to the table of [c], where [b] are the rows of [env] before it. *)
Definition extends_class (X : cls -> list row -> row -> Prop) (cd cd' : cls * cdef) : Prop :=
  fst cd' = fst cd /\
  match cd_table (snd cd), cd_table (snd cd') with
  | None, None => snd cd' = snd cd
  | Some l, Some l' =>
      snd cd' = mkCdef (Some l') (cd_internal (snd cd)) (cd_entry (snd cd)) (cd_exit (snd cd))
                       (cd_unexpected (snd cd)) (cd_defer (snd cd)) (cd_defctor (snd cd)) /\
      inserted (X (fst cd)) [] l l'
  | _, _ => False
  end.
Definition extends_by (X : cls -> list row -> row -> Prop) (env env' : cenv) : Prop :=
  Forall2 (extends_class X) env env'.
Definition extends (e : ev) (env env' : cenv) : Prop := extends_by (extra env e) env env'.

(** A client that does not send the event. *)
Definition does_not_send {V} (e : ev) (k : call V) : Prop :=
  match k with KProcess e' _ => e' <> e | _ => True end.

(** Some client that does not send [e], with some user code, tells the two apart. *)
Definition noticed (e : ev) (env env' : cenv) (root : cls) : Prop :=
  exists V W (cb : cbfun V W) vnone m m' fuel d w ks,
  compile env root = Some m /\ compile env' root = Some m' /\ (forall k, In k ks -> does_not_send e k) /\
  ~ same_result eq (session cb m vnone fuel d w ks) (session cb m' vnone fuel d w ks).
