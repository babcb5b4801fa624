(** Specification of the tree of objects. *)
From Verif Require Import Base TreeModel.

Section Spec.
Variable P : Type.
Variable add : P -> P -> P.

(** [for_each_child], [for_each_child_reverse]: the objects on the way along a link. *)
Inductive along (link : nat -> option nat) : option nat -> list nat -> Prop :=
| along_end : along link None []
| along_step x l : along link (link x) l -> along link (Some x) (x :: l).
Definition visits (h : heap P) (p : nat) (l : list nat) : Prop := along (fun x => ob_next (h x)) (ob_first (h p)) l.
Definition visits_back (h : heap P) (p : nat) (l : list nat) : Prop := along (fun x => ob_prev (h x)) (ob_last (h p)) l.

(** Each object occurs exactly once in its parent's list, in both directions, and in no
    other list. *)
Definition tree_ok (h : heap P) : Prop :=
  forall p, exists l, visits h p l /\ visits_back h p (rev l) /\ NoDup l /\ forall c, In c l <-> ob_parent (h c) = Some p.
(** [x] is [c] or one of its descendants. *)
Inductive below (h : heap P) (c : nat) : nat -> Prop :=
| below_self : below h c c
| below_child x y : ob_parent (h x) = Some y -> below h c y -> below h c x.
(** Every object is where its parent and its own position put it. *)
Definition placed (h : heap P) : Prop :=
  forall o, ob_abs (h o) = match ob_parent (h o) with Some p => add (ob_abs (h p)) (ob_pos (h o)) | None => ob_pos (h o) end.

Inductive op := OParent (c : nat) (new : option nat) | OPosition (c : nat) (p : P).
(** What a history may do here: give a parent to an object that has none, or move or
    remove an only child; not below itself. *)
Definition allowed (h : heap P) (o : op) : Prop :=
  match o with
  | OPosition _ _ => True
  | OParent c new =>
      new = ob_parent (h c) \/ new = Some c \/
      ((forall n, new = Some n -> ~ below h c n) /\
       (forall old, ob_parent (h c) = Some old -> forall x, ob_parent (h x) = Some old -> x = c))
  end.
(** The children after a call: the object leaves its old parent and becomes the last
    child of the new one. *)
Definition children_after (h : heap P) (o : op) (p : nat) (l : list nat) : list nat :=
  match o with
  | OPosition _ _ => l
  | OParent c new =>
      if same new (ob_parent (h c)) || same new (Some c) then l
      else if same new (Some p) then l ++ [c] else filter (fun x => negb (Nat.eqb x c)) l
  end.

(** One call, a history of calls, and what can be reached with allowed ones from objects
    that have just been created. *)
Definition call (fuel : nat) (h : heap P) (o : op) : outcome (heap P) :=
  match o with OParent c new => set_parent add fuel h c new | OPosition c p => set_position add fuel h c p end.
Fixpoint calls (fuel : nat) (h : heap P) (l : list op) : outcome (heap P) :=
  match l with [] => Ok h | o :: l => do h <- call fuel h o; calls fuel h l end.
Inductive reachable : heap P -> Prop :=
| reachable_start (pos : nat -> P) : reachable (fun x => fresh (pos x))
| reachable_call h fuel o h' : reachable h -> allowed h o -> call fuel h o = Ok h' -> reachable h'.
End Spec.
Arguments visits {P}. Arguments visits_back {P}. Arguments tree_ok {P}. Arguments below {P}. Arguments placed {P}. Arguments OParent {P}. Arguments OPosition {P}. Arguments allowed {P}. Arguments children_after {P}.
Arguments call {P}. Arguments calls {P}. Arguments reachable {P}.
