(** Proofs about the text of status. *)

From Coq Require Import List Arith NArith Bool Lia String Ascii DecimalString DecimalPos DecimalN.
From Verif Require Import Types Static Dispatch Runtime Spec Semantics Reach StatusSpec StatusFacts StatusText.
Import ListNotations.
Open Scope string_scope.

Fixpoint digits (s : string) : Prop := match s with "" => True | String c s' => (48 <= nat_of_ascii c <= 57) /\ digits s' end.
Definition starts_with_digit (s : string) : Prop := match s with "" => False | String c _ => 48 <= nat_of_ascii c <= 57 end.
Lemma empty_digits d : digits (NilEmpty.string_of_uint d).
Proof. induction d; cbn [NilEmpty.string_of_uint digits]; (exact I || (split; [vm_compute; lia|assumption])). Qed.
Lemma number_digits n : digits (put_number n).
Proof.
  unfold put_number, NilZero.string_of_uint. destruct (N.to_uint n) as [|d|d|d|d|d|d|d|d|d|d];
    [split; [vm_compute; lia|exact I]|apply empty_digits..].
Qed.
Lemma number_inj n n' : put_number n = put_number n' -> n = n'.
Proof.
  intros H. apply DecimalN.Unsigned.to_uint_inj.
  assert (A : forall k, N.to_uint k <> Decimal.Nil). { intros [|k]; [discriminate|]. apply DecimalPos.Unsigned.to_uint_nonnil. }
  apply (f_equal NilZero.uint_of_string) in H. unfold put_number in H. rewrite !NilZero.usu in H by apply A. now inversion H.
Qed.
Lemma digits_app : forall a b x y, digits a -> digits b -> ~ starts_with_digit x -> ~ starts_with_digit y ->
  a ++ x = b ++ y -> a = b /\ x = y.
Proof.
  induction a as [|c a IH]; intros [|d b] x y Ha Hb Hx Hy H; cbn [append] in H.
  - auto.
  - subst x. destruct Hx. exact (proj1 Hb).
  - subst y. destruct Hy. exact (proj1 Ha).
  - injection H as -> H. destruct Ha as [_ Ha], Hb as [_ Hb]. destruct (IH b x y Ha Hb Hx Hy H) as [-> ->]. auto.
Qed.
Lemma append_assoc : forall a b c : string, (a ++ b) ++ c = a ++ (b ++ c).
Proof. induction a as [|x a IH]; intros b c; [reflexivity|]. cbn. now rewrite IH. Qed.
Lemma regions_no_digit l : ~ starts_with_digit (put_regions l).
Proof. destruct l as [|[[[r c] p] st] l]; [exact id|]. cbn. lia. Qed.
Lemma space_no_digit s : ~ starts_with_digit (" " ++ s).
Proof. vm_compute. lia. Qed.
Lemma app_inv_lit : forall a x y : string, a ++ x = a ++ y -> x = y.
Proof. induction a as [|c a IH]; intros x y H; [exact H|]. injection H as H. now apply IH. Qed.
Lemma regions_inj : forall l l', Forall (fun x => fst (fst (fst x)) < 256) l -> Forall (fun x => fst (fst (fst x)) < 256) l' ->
  put_regions l = put_regions l' -> l = l'.
Proof.
  induction l as [|[[[r c] p] st] l IH]; intros [|[[[r' c'] p'] st'] l'] H H' E; [reflexivity|discriminate|discriminate|].
  inversion H as [|? ? Hr Hl]; subst. inversion H' as [|? ? Hr' Hl']; subst. cbn [fst] in Hr, Hr'.
  cbn [put_regions put_region] in E. unfold put_char in E. rewrite !append_assoc in E.
  apply app_inv_lit in E. cbn [append] in E.
  injection E as Ec E. assert (r = r').
  { apply (f_equal nat_of_ascii) in Ec. rewrite !nat_ascii_embedding in Ec by assumption. exact Ec. }
  subst r'.
  apply digits_app in E; [|apply number_digits|apply number_digits|apply space_no_digit|apply space_no_digit].
  destruct E as [Ecn E]. apply number_inj in Ecn. subst c'. cbn [append] in E. injection E as E.
  apply digits_app in E; [|apply number_digits|apply number_digits|apply space_no_digit|apply space_no_digit].
  destruct E as [Epn E]. apply number_inj in Epn. subst p'. cbn [append] in E. injection E as E.
  apply digits_app in E; [|apply number_digits|apply number_digits|apply regions_no_digit|apply regions_no_digit].
  destruct E as [Esn E]. apply number_inj in Esn. subst st'. f_equal. now apply IH.
Qed.

Section Text.
Context {V W : Type}.
Variables (env : cenv) (root : cls) (m : machine).
Hypothesis Hm : compile env root = Some m.
Variable cb : cbfun V W.
Variable vnone : V.
Lemma text_lines ds d0 fuel (s : rt V W) (pl : nat -> place) : running cb env root m vnone ds d0 s ->
  (forall r, r < active m s -> at_place m s r = Some (pl r)) -> active m s < fuel ->
  status_text m fuel s = Done (put_regions (map (fun r => line m (fst (pl 0)) r (pl r)) (seq 0 (active m s)))) s.
Proof. intros R P F. unfold status_text. now rewrite (status_lines env root m Hm cb vnone ds d0 fuel s pl R P F). Qed.
Lemma text_determines ds d0 fuel (s s' : rt V W) (pl pl' : nat -> place) ds' d0' t :
  running cb env root m vnone ds d0 s -> running cb env root m vnone ds' d0' s' ->
  (forall r, r < active m s -> at_place m s r = Some (pl r)) ->
  (forall r, r < active m s' -> at_place m s' r = Some (pl' r)) ->
  active m s < fuel -> active m s' < fuel ->
  status_text m fuel s = Done t s -> status_text m fuel s' = Done t s' ->
  active m s' = active m s /\ (forall r, r < active m s -> pl' r = pl r).
Proof.
  intros R R' P P' F F' H H'.
  pose proof (status_lines env root m Hm cb vnone ds d0 fuel s pl R P F) as E.
  pose proof (status_lines env root m Hm cb vnone ds' d0' fuel s' pl' R' P' F') as E'.
  unfold status_text in H, H'. rewrite E in H. rewrite E' in H'. cbn [bind] in H, H'. injection H as H. injection H' as H'. subst t.
  assert (B : forall k n (f : nat -> place), n <= 255 ->
    Forall (fun x => fst (fst (fst x)) < 256) (map (fun r => line m k r (f r)) (seq 0 n))).
  { intros k n g Hn. apply Forall_forall. intros x Hx. apply in_map_iff in Hx. destruct Hx as (r & <- & Hr). apply in_seq in Hr. cbn. lia. }
  apply regions_inj in H'; [|apply B; eapply LoopFacts.active_255; exact R'|apply B; eapply LoopFacts.active_255; exact R].
  rewrite H' in E'. exact (status_determines env root m Hm cb vnone ds d0 fuel s s' pl pl' ds' d0' _ R R' P P' F F' E E').
Qed.
(** Region 0 is written as the character with code zero. *)
Lemma text_c_str ds d0 fuel (s s' : rt V W) t : running cb env root m vnone ds d0 s -> 1 <= active m s ->
  status_text m fuel s = Done t s' -> c_str t = "[".
Proof.
  intros R A. unfold status_text, status. change (current_regions m s) with (active m s).
  destruct fuel as [|fuel]; [discriminate|]. cbn [status_loop]. destruct (Nat.ltb_spec 0 (active m s)); [|lia].
  destruct (read_cur s 0) as [c s1| | |]; cbn [bind]; try discriminate.
  destruct (current_parent m s1) as [p s2| | |]; cbn [bind]; try discriminate.
  destruct (current_state m s2 0) as [q s3| | |]; cbn [bind]; try discriminate.
  destruct (status_loop m fuel _ _ s3) as [l s4| | |]; cbn [bind]; try discriminate.
  intros H1. injection H1 as <- _. reflexivity.
Qed.
End Text.

(** The character of a region is the digit of region r - 48. *)
Lemma char_not_number r : r < 256 -> put_char r <> put_number (N.of_nat r).
Proof.
  intros H. do 256 (destruct r as [|r]; [vm_compute; discriminate|]). lia.
Qed.
Lemma char_digit r d : r < 256 -> d < 10 -> put_char r = put_number (N.of_nat d) <-> r = 48 + d.
Proof.
  intros H Hd. unfold put_char. split.
  - intros E. assert (Ec : ascii_of_nat r = ascii_of_nat (48 + d)).
    { do 10 (destruct d as [|d]; [now injection E|]). lia. }
    apply (f_equal nat_of_ascii) in Ec. rewrite !nat_ascii_embedding in Ec by lia. exact Ec.
  - intros ->. do 10 (destruct d as [|d]; [reflexivity|]). lia.
Qed.
