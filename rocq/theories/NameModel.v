(** Model of the names of [UIObject]s.  A name is the contents of a std::string. *)
From Coq Require Export String Ascii.
From Verif Require Import Base TreeModel.
Open Scope list_scope.

Section Names.
Variable P : Type.
Variable name : nat -> string.

(** sample/ui_object.hpp:106-119 [for_each_child] with the function of
    sample/ui_object.cpp:155-168 [find_first_child], from the sibling [cur] on. *)
Fixpoint find_from (fuel : nat) (h : heap P) (wanted : string) (cur : option nat) : outcome (option nat) :=
  match cur with
  | None => Ok None
  | Some c =>
      match fuel with
      | O => OutOfFuel
      | S fuel => if (wanted =? name c)%string then Ok (Some c) else find_from fuel h wanted (ob_next (h c))
      end
  end.
(** sample/ui_object.cpp:155-168 [find_first_child]. *)
Definition find_first_child (fuel : nat) (h : heap P) (o : nat) (wanted : string) : outcome (option nat) :=
  find_from fuel h wanted (ob_first (h o)).

(** sample/ui_object.hpp:163-176 [for_each_ancestor] with the function of
    sample/ui_object.cpp:117-126 [get_full_name], from the ancestor [cur] on. *)
Fixpoint name_from (fuel : nat) (h : heap P) (result : string) (cur : option nat) : outcome string :=
  match cur with
  | None => Ok result
  | Some a =>
      match fuel with
      | O => OutOfFuel
      | S fuel => name_from fuel h (name a ++ "." ++ result)%string (ob_parent (h a))
      end
  end.
(** sample/ui_object.cpp:117-126 [get_full_name]. *)
Definition get_full_name (fuel : nat) (h : heap P) (o : nat) : outcome string := name_from fuel h (name o) (ob_parent (h o)).
End Names.
Arguments find_from {P}. Arguments find_first_child {P}. Arguments name_from {P}. Arguments get_full_name {P}.
