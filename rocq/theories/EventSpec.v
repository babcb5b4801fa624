(** Specification of drawing order and of who gets an event. *)
From Verif Require Import Base TreeModel TreeSpec EventModel.

(** [a] comes before [b] in the list. *)
Definition before (l : list nat) (a b : nat) : Prop := exists l1 l2 l3, l = l1 ++ a :: l2 ++ b :: l3.

Section Spec.
Variable P : Type.
Variable h : heap P.
Variable visible : nat -> bool.

(** [c] is in the container [r], at any depth. *)
Definition in_container (r c : nat) : Prop := c <> r /\ below h r c.
(** [c] is shown in the container [r]: it and all its ancestors below [r] are visible. *)
Inductive shown (r : nat) : nat -> Prop :=
| shown_top c : ob_parent (h c) = Some r -> visible c = true -> shown r c
| shown_below c p : ob_parent (h c) = Some p -> shown r p -> visible c = true -> shown r c.
(** [y] lies over [x]: it is one of its descendants, or it belongs to a later sibling. *)
Definition over (x y : nat) : Prop :=
  below h x y \/ exists p cs a b, visits h p cs /\ before cs a b /\ below h a x /\ below h b y.

(** A drawing order: what is shown, once, and what lies over another object after it. *)
Record painted (r : nat) (l : list nat) : Prop := {
  pa_shown : forall c, In c l <-> shown r c;
  pa_once : NoDup l;
  pa_order : forall x y, In x l -> In y l -> x <> y -> (before l x y <-> over x y)
}.
(** [c] satisfies [f] and lies over all others that do. *)
Definition topmost (r : nat) (f : nat -> bool) (c : nat) : Prop :=
  in_container r c /\ f c = true /\ forall x, in_container r x -> f x = true -> over x c.
End Spec.
Arguments shown {P}. Arguments painted {P}. Arguments in_container {P}. Arguments over {P}. Arguments topmost {P}.

(** The first objects of a list up to the one that satisfies [f]. *)
Fixpoint up_to (f : nat -> bool) (l : list nat) : list nat :=
  match l with [] => [] | x :: l => x :: if f x then [] else up_to f l end.
