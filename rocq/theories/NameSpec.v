(** What finding by name and full names are meant to be. *)
From Verif Require Import Base TreeModel TreeSpec NameModel.
Open Scope list_scope.

Section Spec.
Variable P : Type.
(** The objects from the root down to [o]. *)
Inductive path (h : heap P) : nat -> list nat -> Prop :=
| path_root o : ob_parent (h o) = None -> path h o [o]
| path_child o p l : ob_parent (h o) = Some p -> path h p l -> path h o (l ++ [o]).
(** No two children of one parent have the same name. *)
Definition distinct (name : nat -> string) (h : heap P) : Prop :=
  forall a b p, ob_parent (h a) = Some p -> ob_parent (h b) = Some p -> name a = name b -> a = b.
End Spec.
Arguments path {P}. Arguments distinct {P}.
(** Names with a separator between them. *)
Fixpoint joined (sep : string) (l : list string) : string :=
  match l with [] => "" | [s] => s | s :: l => (s ++ sep ++ joined sep l)%string end.
(** The text up to each separator, and after the last. *)
Fixpoint split_at (sep : ascii) (s : string) : list string :=
  match s with
  | EmptyString => [EmptyString]
  | String c s => if (c =? sep)%char then EmptyString :: split_at sep s
                  else match split_at sep s with [] => [String c EmptyString] | w :: ws => String c w :: ws end
  end.
(** Following names from an object down. *)
Fixpoint descend {P} (name : nat -> string) (fuel : nat) (h : heap P) (o : nat) (names : list string) : outcome (option nat) :=
  match names with
  | [] => Ok (Some o)
  | s :: names => do c <- find_first_child name fuel h o s; match c with Some c => descend name fuel h c names | None => Ok None end
  end.
Definition no_dot (s : string) : Prop := ~ In "."%char (list_ascii_of_string s).
