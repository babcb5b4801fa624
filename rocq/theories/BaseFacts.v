(** Lemmas about the common vocabulary. *)
From Verif Require Import Base.
Set Implicit Arguments.

Lemma obind_ok_inv {A B} (m : outcome A) (f : A -> outcome B) (b : B) :
  obind m f = Ok b -> exists a, m = Ok a /\ f a = Ok b.
Proof. destruct m as [a| |]; cbn; intros H; try discriminate. exists a. auto. Qed.

Lemma vget_ok {A} (l : list A) (i : nat) (x : A) :
  vget l i = Ok x <-> nth_error l i = Some x.
Proof. unfold vget. destruct (nth_error l i); split; intros H; inversion H; subst; auto. Qed.

Lemma vget_lt {A} (l : list A) (i : nat) :
  (i < length l)%nat -> exists x, vget l i = Ok x /\ nth_error l i = Some x.
Proof.
  intros H. destruct (nth_error l i) as [x|] eqn:E.
  - exists x. split; auto. now apply vget_ok.
  - apply nth_error_None in E. lia.
Qed.

Lemma vget_ub {A} (l : list A) (i : nat) : vget l i = UB <-> (length l <= i)%nat.
Proof.
  unfold vget. destruct (nth_error l i) as [x|] eqn:E.
  - split; [discriminate|]. intros H. apply nth_error_None in H. congruence.
  - split; auto. intros _. now apply nth_error_None.
Qed.

Lemma vget_not_fuel {A} (l : list A) (i : nat) : vget l i <> OutOfFuel.
Proof. unfold vget. destruct (nth_error l i); discriminate. Qed.

Lemma vget_app1 {A} (l1 l2 : list A) i : (i < length l1)%nat -> vget (l1 ++ l2) i = vget l1 i.
Proof. intros H. unfold vget. now rewrite nth_error_app1. Qed.

Lemma vget_app2 {A} (l1 l2 : list A) i :
  (length l1 <= i)%nat -> vget (l1 ++ l2) i = vget l2 (i - length l1).
Proof. intros H. unfold vget. now rewrite nth_error_app2. Qed.

Lemma vget_mid {A} (l1 l2 : list A) x : vget (l1 ++ x :: l2) (length l1) = Ok x.
Proof. rewrite vget_app2 by lia. now rewrite Nat.sub_diag. Qed.

Lemma vback_app {A} (l : list A) x : vback (l ++ [x]) = Ok x.
Proof.
  destruct l as [|y l]; cbn; [reflexivity|]. now rewrite last_last.
Qed.

Lemma vback_last {A} (l : list A) d : l <> [] -> vback l = Ok (last l d).
Proof.
  intros H. destruct (exists_last H) as [l' [x ->]]. now rewrite vback_app, last_last.
Qed.

Lemma length_list_set {A} (l : list A) i x : length (list_set l i x) = length l.
Proof. revert i. induction l as [|y l IH]; intros [|i]; cbn; auto. Qed.

Lemma nth_error_list_set_same {A} (l : list A) i x :
  (i < length l)%nat -> nth_error (list_set l i x) i = Some x.
Proof. revert i. induction l as [|y l IH]; intros [|i]; cbn; intros H; try lia; auto. apply IH. lia. Qed.

Lemma nth_error_list_set_other {A} (l : list A) i j x :
  i <> j -> nth_error (list_set l i x) j = nth_error l j.
Proof.
  revert i j. induction l as [|y l IH]; intros [|i] [|j]; cbn; intros H; auto; try lia.
Qed.
