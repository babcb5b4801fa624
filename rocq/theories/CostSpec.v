(** Specification for [CostProps]. *)
From Verif Require Import Base TreeModel.

(** [x] lies [d] levels below [o]: 0 for itself, 1 for a child. *)
Inductive deep {P} (h : heap P) (o : nat) : nat -> nat -> Prop :=
| deep_self : deep h o o 0
| deep_child x y d : ob_parent (h x) = Some y -> deep h o y d -> deep h o x (S d).
