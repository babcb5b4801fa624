(** What a dictionary does, without buckets and hashes. *)
From Verif Require Import Base HashModel.
Set Implicit Arguments.
Open Scope Z_scope.

Section Dictionary.
Variable A V : Type.
(** When two things are the same key. *)
Variable alike : A -> A -> bool.
(** What was stored under a key: the first value. *)
Fixpoint first_stored (past : list (A * V)) (a : A) : option V :=
  match past with
  | [] => None
  | (a', v) :: past => if alike a' a then Some v else first_stored past a
  end.
Fixpoint answers (past : list (A * V)) (ops : list (table_op V A)) : list (option V) :=
  match ops with
  | [] => []
  | Find _ a :: ops => first_stored past a :: answers past ops
  | Emplace a v :: ops => answers (past ++ [(a, v)]) ops
  end.
End Dictionary.
