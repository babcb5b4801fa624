(** Common vocabulary of the model: outcomes with explicit undefined behaviour
    and bounds-checked vector access. *)
From Coq Require Export List ZArith Lia Bool Arith Sorted.
From Coq Require Export ZifyBool ZifyNat.
Export ListNotations.
Set Implicit Arguments.

(** Result of running a piece of the modelled C++ code.  [UB] is undefined
    behaviour (out-of-range access, division by zero, use of an uninitialised
    object); [OutOfFuel] only arises from the model's own loop bound and is
    excluded by the theorems. *)
Inductive outcome (A : Type) : Type :=
| Ok (a : A)
| UB
| OutOfFuel.
Arguments Ok {A} a.
Arguments UB {A}.
Arguments OutOfFuel {A}.

Definition obind {A B} (m : outcome A) (f : A -> outcome B) : outcome B :=
  match m with
  | Ok a => f a
  | UB => UB
  | OutOfFuel => OutOfFuel
  end.

Definition omap {A B} (f : A -> B) (m : outcome A) : outcome B :=
  obind m (fun a => Ok (f a)).

Declare Scope outcome_scope.
Delimit Scope outcome_scope with outcome.
Notation "'do' x <- e ; f" := (obind e (fun x => f))
  (at level 200, x pattern, e at level 100, f at level 200, right associativity) : outcome_scope.
Open Scope outcome_scope.

(** [v[i]] for a [std::vector], a string view or a C array: reading outside is
    undefined behaviour. *)
Definition vget {A} (l : list A) (i : nat) : outcome A :=
  match nth_error l i with
  | Some x => Ok x
  | None => UB
  end.

(** [v[i]] for a signed index. *)
Definition zget {A} (l : list A) (i : Z) : outcome A :=
  if (i <? 0)%Z then UB else vget l (Z.to_nat i).

(** [v.back()]: undefined on an empty vector. *)
Definition vback {A} (l : list A) : outcome A :=
  match l with
  | [] => UB
  | x :: l' => Ok (last l' x)
  end.

(** Write [v[i] = x]. *)
Fixpoint list_set {A} (l : list A) (i : nat) (x : A) : list A :=
  match l, i with
  | [], _ => []
  | _ :: l', O => x :: l'
  | y :: l', S i' => y :: list_set l' i' x
  end.

Definition vset {A} (l : list A) (i : nat) (x : A) : outcome (list A) :=
  if (i <? length l)%nat then Ok (list_set l i x) else UB.

(** Unsigned 32-bit wrap-around. *)
Definition wrap32 (z : Z) : Z := (z mod 2 ^ 32)%Z.

(** Conversion of an unsigned 32-bit value to [int32_t] (two's complement). *)
Definition to_int32 (z : Z) : Z :=
  let w := wrap32 z in if (w <? 2 ^ 31)%Z then w else (w - 2 ^ 32)%Z.

(** Keep comparisons and arithmetic folded during simplification. *)
Global Arguments Nat.ltb : simpl never.
Global Arguments Nat.leb : simpl never.
Global Arguments Nat.div : simpl never.
Global Arguments Z.ltb : simpl never.
Global Arguments Z.leb : simpl never.
Global Arguments Z.eqb : simpl never.
Global Arguments Z.mul : simpl never.
Global Arguments Z.add : simpl never.
Global Arguments Z.sub : simpl never.
Global Arguments Z.pow : simpl never.
Global Arguments Z.max : simpl never.
Global Arguments Z.min : simpl never.
Global Arguments Z.of_nat : simpl never.
Global Arguments Z.to_nat : simpl never.
