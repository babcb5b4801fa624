(** Specification of nested values: a document is a sequence of plain stretches
    of characters and of spans that set a value for their body. *)
From Verif Require Import Base ValueRunsModel RunBuilderModel.
Set Implicit Arguments.
Open Scope Z_scope.

Inductive doc (T : Type) : Type :=
| DNil
| DChars (n : nat) (rest : doc T)
| DSpan (v : T) (body rest : doc T).
Arguments DNil {T}.
Arguments DChars {T} n rest.

(** The value of every character: that of the innermost enclosing span, or
    [base] outside all spans. *)
Fixpoint doc_values {T} (base : T) (d : doc T) : list T :=
  match d with
  | DNil => []
  | DChars n rest => repeat base n ++ doc_values base rest
  | DSpan v body rest => doc_values v body ++ doc_values base rest
  end.

Fixpoint doc_length {T} (d : doc T) : Z :=
  match d with
  | DNil => 0
  | DChars n rest => Z.of_nat n + doc_length rest
  | DSpan _ body rest => doc_length body + doc_length rest
  end.

(** The builder calls a client makes for the document starting at [p]: [push]
    where a span starts, [pop] where it ends. *)
Fixpoint doc_ops {T} (p : Z) (d : doc T) : list (rb_op T) :=
  match d with
  | DNil => []
  | DChars n rest => doc_ops (p + Z.of_nat n) rest
  | DSpan v body rest =>
      RPush p v :: doc_ops p body ++ RPop (p + doc_length body) :: doc_ops (p + doc_length body) rest
  end.
