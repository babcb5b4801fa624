(** C01: partition-point search. *)
From Verif Require Import Base BinarySearchModel BinarySearchProofs.

(** For a predicate that is true on a prefix of the range and false afterwards
    the search returns the first index at which it is not true.  [cond] is only
    required to be defined inside the range, so an evaluation outside it would
    make the result [UB]. *)
Theorem C01_partition_point :
  forall (first count : nat) (p : nat -> bool),
  (forall i j, first <= i -> i <= j -> j < first + count -> p j = true -> p i = true)%nat ->
  forall cond : nat -> outcome bool,
  (forall i, first <= i < first + count -> cond i = Ok (p i))%nat ->
  exists r, binary_search first count cond = Ok r /\ (first <= r <= first + count)%nat /\
    (forall i, first <= i < r -> p i = true)%nat /\
    (forall i, r <= i < first + count -> p i = false)%nat.
Proof. exact binary_search_partition. Qed.
Print Assumptions C01_partition_point.

(** For an arbitrary predicate (no monotonicity) the search still terminates,
    evaluates the predicate only inside the range and returns an index of the
    range (or its end). *)
Theorem C01_terminates_in_range :
  forall (cond : nat -> outcome bool) (first count : nat),
  (forall i, first <= i < first + count -> exists b, cond i = Ok b)%nat ->
  exists r, binary_search first count cond = Ok r /\ (first <= r <= first + count)%nat.
Proof. exact binary_search_in_range. Qed.
Print Assumptions C01_terminates_in_range.

Example C01_example :
  binary_search 2 5 (fun i => if (i <? 2)%nat || (6 <? i)%nat then UB else Ok (i <? 5)%nat) = Ok 5%nat.
Proof. reflexivity. Qed.
