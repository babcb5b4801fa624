(** Specification for [LifeProps]: how long an object should live.  Objects are numbered in the
    order they are made. *)
From Verif Require Import Base LifeModel.

(** The object exists. *)
Definition alive (m : mem) (o : nat) : Prop := look m o <> None.

(** The object uses another one: its first child, or the sibling after it. *)
Definition leads (m : mem) (a b : nat) : Prop := exists n, look m a = Some n /\ (n_first n = Some b \/ n_next n = Some b).

(** Who was put under whom, oldest first. *)
Definition puts (xs : list op) : list (nat * nat) :=
  flat_map (fun x => match x with Put c (Some p) => [(c, p)] | _ => [] end) xs.
(** Every object is put under another one at most once and never taken away, and nothing is put
    under its own descendants: levels grow downwards. *)
Definition orderly (xs : list op) : Prop :=
  NoDup (map fst (puts xs)) /\ (forall c, ~ In (Put c None) xs) /\
  exists level : nat -> nat, forall c p, In (c, p) (puts xs) -> level p < level c.

(** An object lives if the program holds it, if the object it was put under lives, or if an
    object lives that was put under the same one before it. *)
Inductive lives (hold : nat -> Prop) (ps : list (nat * nat)) : nat -> Prop :=
| lives_held o : hold o -> lives hold ps o
| lives_child c p : In (c, p) ps -> lives hold ps p -> lives hold ps c
| lives_younger s c p A B D : ps = A ++ (s, p) :: B ++ (c, p) :: D -> lives hold ps s -> lives hold ps c.
