(** Model of the partition-point search. *)
From Verif Require Import Base.
Set Implicit Arguments.

(** src/binary_search.hpp:6-21 [binary_search].  [cond] may itself be undefined
    at some indices (it usually reads a vector).  [size_t] is [nat]: [first] and
    [count] never exceed the container size, so no wrap-around arises. *)
Fixpoint binary_search_loop (fuel : nat) (cond : nat -> outcome bool) (first count : nat)
  : outcome nat :=
  if (0 <? count)%nat then
    match fuel with
    | O => OutOfFuel
    | S fuel' =>
        let step := Nat.div count 2 in
        let i := (first + step)%nat in
        do b <- cond i;
        if b : bool
        then binary_search_loop fuel' cond (i + 1)%nat (count - (step + 1))%nat
        else binary_search_loop fuel' cond first step
    end
  else Ok first.

(** The count at least halves, so [count] iterations are always enough. *)
Definition binary_search (first count : nat) (cond : nat -> outcome bool) : outcome nat :=
  binary_search_loop count cond first count.
