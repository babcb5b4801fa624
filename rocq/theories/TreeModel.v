(** Model of the tree of [UIObject]s: linking and absolute positions.

    Simplifications: every object is kept alive by its owner, so locking a weak pointer
    always gives the object; objects are numbers; positions are elements of any type
    with an addition (for example pairs of floats); sizes are left out. *)
From Verif Require Import Base.

Section Tree.
Variable P : Type.
Variable add : P -> P -> P.

(** sample/ui_object.hpp:85-94: the fields of an object. *)
Record obj := { ob_parent : option nat; ob_first : option nat; ob_next : option nat; ob_prev : option nat; ob_last : option nat; ob_pos : P; ob_abs : P }.
Definition heap := nat -> obj.
Definition upd (h : heap) (k : nat) (o : obj) : heap := fun i => if Nat.eqb i k then o else h i.
Definition set_par (o : obj) v := {| ob_parent := v; ob_first := ob_first o; ob_next := ob_next o; ob_prev := ob_prev o; ob_last := ob_last o; ob_pos := ob_pos o; ob_abs := ob_abs o |}.
Definition set_first (o : obj) v := {| ob_parent := ob_parent o; ob_first := v; ob_next := ob_next o; ob_prev := ob_prev o; ob_last := ob_last o; ob_pos := ob_pos o; ob_abs := ob_abs o |}.
Definition set_next (o : obj) v := {| ob_parent := ob_parent o; ob_first := ob_first o; ob_next := v; ob_prev := ob_prev o; ob_last := ob_last o; ob_pos := ob_pos o; ob_abs := ob_abs o |}.
Definition set_prev (o : obj) v := {| ob_parent := ob_parent o; ob_first := ob_first o; ob_next := ob_next o; ob_prev := v; ob_last := ob_last o; ob_pos := ob_pos o; ob_abs := ob_abs o |}.
Definition set_last (o : obj) v := {| ob_parent := ob_parent o; ob_first := ob_first o; ob_next := ob_next o; ob_prev := ob_prev o; ob_last := v; ob_pos := ob_pos o; ob_abs := ob_abs o |}.
Definition set_pos (o : obj) v := {| ob_parent := ob_parent o; ob_first := ob_first o; ob_next := ob_next o; ob_prev := ob_prev o; ob_last := ob_last o; ob_pos := v; ob_abs := ob_abs o |}.
Definition set_abs (o : obj) v := {| ob_parent := ob_parent o; ob_first := ob_first o; ob_next := ob_next o; ob_prev := ob_prev o; ob_last := ob_last o; ob_pos := ob_pos o; ob_abs := v |}.

(** A new object: sample/ui_object.hpp:85-94. *)
Definition fresh (p : P) : obj := {| ob_parent := None; ob_first := None; ob_next := None; ob_prev := None; ob_last := None; ob_pos := p; ob_abs := p |}.

Definition same (a b : option nat) : bool :=
  match a, b with Some x, Some y => Nat.eqb x y | None, None => true | _, _ => false end.

(** sample/ui_object.cpp:176-183: the first part of [recalc_absolute_dimensions]. *)
Definition place (h : heap) (o : nat) : heap :=
  upd h o (set_abs (h o) (match ob_parent (h o) with Some p => add (ob_abs (h p)) (ob_pos (h o)) | None => ob_pos (h o) end)).

(** sample/ui_object.cpp:175-189 [recalc_absolute_dimensions] with
    sample/ui_object.hpp:107-118, 142-151: the loop over the siblings from [cur] on.
    For each, [recalc_absolute_dimensions] (which visits its descendants) and then its
    descendants once more. *)
Fixpoint visit (fuel : nat) (h : heap) (cur : option nat) : outcome heap :=
  match cur with
  | None => Ok h
  | Some c =>
      match fuel with
      | O => OutOfFuel
      | S fuel =>
          let h := place h c in
          do h <- visit fuel h (ob_first (h c));
          do h <- visit fuel h (ob_first (h c));
          visit fuel h (ob_next (h c))
      end
  end.
Definition recalc (fuel : nat) (h : heap) (o : nat) : outcome heap := let h := place h o in visit fuel h (ob_first (h o)).

(** sample/ui_object.cpp:47-58: leaving the old parent. *)
Definition unlink (h : heap) (c : nat) (old : option nat) : heap :=
  match old with
  | None => h
  | Some o =>
      let h :=
        if same (ob_first (h o)) (Some c) then upd h o (set_first (h o) (ob_next (h c)))
        else match ob_prev (h c) with Some q => upd h q (set_next (h q) (ob_next (h c))) | None => h end in
      if same (ob_last (h o)) (Some c) then upd h o (set_last (h o) (ob_next (h c))) else h
  end.
(** sample/ui_object.cpp:61-72: joining the new one. *)
Definition link (h : heap) (c : nat) (new : option nat) : heap :=
  match new with
  | None => h
  | Some n =>
      let h := upd h c (set_prev (h c) (ob_last (h n))) in
      let h := match ob_last (h n) with Some l => upd h l (set_next (h l) (Some c)) | None => upd h n (set_first (h n) (Some c)) end in
      upd h n (set_last (h n) (Some c))
  end.
(** sample/ui_object.cpp:37-75 [set_parent]. *)
Definition set_parent (fuel : nat) (h : heap) (c : nat) (new : option nat) : outcome heap :=
  let old := ob_parent (h c) in
  if same new old || same new (Some c) then Ok h
  else
    let h := upd h c (set_par (h c) new) in
    recalc fuel (link (unlink h c old) c new) c.
(** sample/ui_object.cpp:77-81 [set_position]. *)
Definition set_position (fuel : nat) (h : heap) (c : nat) (p : P) : outcome heap := recalc fuel (upd h c (set_pos (h c) p)) c.
End Tree.
Arguments ob_parent {P}. Arguments ob_first {P}. Arguments ob_next {P}. Arguments ob_prev {P}. Arguments ob_last {P}. Arguments ob_pos {P}. Arguments ob_abs {P}.
Arguments upd {P}. Arguments set_par {P}. Arguments set_first {P}. Arguments set_next {P}. Arguments set_prev {P}. Arguments set_last {P}. Arguments set_pos {P}. Arguments set_abs {P}.
Arguments fresh {P}. Arguments place {P}. Arguments visit {P}. Arguments recalc {P}. Arguments unlink {P}. Arguments link {P}. Arguments set_parent {P}. Arguments set_position {P}.
