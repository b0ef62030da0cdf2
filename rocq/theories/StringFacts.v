(** Facts about the strings that are used as names. *)
Require Import String Ascii Arith Decimal DecimalString DecimalNat Bool List Lia.
From Verif Require Import PyBase.
Import ListNotations.
Open Scope list_scope.
Open Scope nat_scope.

(** [s] does not contain the character [c]. *)
Definition without_char (c : ascii) (s : string) : Prop := ~ In c (list_ascii_of_string s).

Lemma append_assoc a b c : ((a ++ b) ++ c = a ++ (b ++ c))%string.
Proof. induction a as [|x a IH]; simpl; [reflexivity|]. now rewrite IH. Qed.

Lemma append_nil_r a : (a ++ "" = a)%string.
Proof. induction a as [|x a IH]; simpl; [reflexivity|]. now rewrite IH. Qed.

(** Two strings agree up to the first occurrence of a character. *)
Lemma append_split c a b x y :
  without_char c a -> without_char c b ->
  (a ++ String c x)%string = (b ++ String c y)%string -> a = b /\ x = y.
Proof.
  unfold without_char. revert b. induction a as [|h a IH]; intros [|k b]; simpl.
  - intros _ _ [= ->]. auto.
  - intros _ Hb [= <- _]. exfalso. apply Hb. now left.
  - intros Ha _ [= -> _]. exfalso. apply Ha. now left.
  - intros Ha Hb [= -> He].
    destruct (IH b) as [-> ->]; [tauto | tauto | exact He |]. auto.
Qed.

Lemma append_inj_l p a b : (p ++ a)%string = (p ++ b)%string -> a = b.
Proof. induction p as [|c p IH]; simpl; [auto|]. intros [= H]. auto. Qed.

Lemma append_length a b :
  String.length (a ++ b)%string = String.length a + String.length b.
Proof. induction a as [|c a IH]; simpl; [reflexivity|]. now rewrite IH. Qed.

Lemma append_inj_r s a b : (a ++ s)%string = (b ++ s)%string -> a = b.
Proof.
  revert b. induction a as [|c a IH]; intros [|d b] H; simpl in *.
  - reflexivity.
  - exfalso. apply (f_equal String.length) in H. simpl in H. rewrite append_length in H. lia.
  - exfalso. apply (f_equal String.length) in H. simpl in H. rewrite append_length in H. lia.
  - injection H as -> H. f_equal. auto.
Qed.

Lemma list_ascii_app a b :
  list_ascii_of_string (a ++ b)%string = list_ascii_of_string a ++ list_ascii_of_string b.
Proof. induction a as [|c a IH]; simpl; [reflexivity|]. now rewrite IH. Qed.

Lemma without_char_app c a b :
  without_char c (a ++ b)%string <-> without_char c a /\ without_char c b.
Proof. unfold without_char. rewrite list_ascii_app, in_app_iff. tauto. Qed.

Lemma to_uint_not_nil n : Nat.to_uint n <> Nil.
Proof.
  intros H. pose proof (Unsigned.of_to n) as E. rewrite H in E. simpl in E. subst n.
  discriminate.
Qed.

Lemma str_nat_inj n m : str_nat n = str_nat m -> n = m.
Proof.
  unfold str_nat. intros H.
  apply (f_equal NilZero.uint_of_string) in H.
  rewrite !NilZero.usu in H by apply to_uint_not_nil.
  injection H as H. now apply Unsigned.to_uint_inj.
Qed.
