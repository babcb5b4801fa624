(** Model of the work done when a UI object moves: [TreeModel] with a log of the objects whose
    absolute position is computed. *)
From Verif Require Import Base TreeModel.

Section Cost.
Variable P : Type.
Variable add : P -> P -> P.
(** sample/ui_object.cpp:175-189 [recalc_absolute_dimensions], sample/ui_object.hpp:107-118, 142-151:
    each object in the log has had its position computed (176-183) at that moment. *)
Fixpoint visit_log (fuel : nat) (h : heap P) (cur : option nat) : outcome (heap P * list nat) :=
  match cur with
  | None => Ok (h, [])
  | Some c =>
      match fuel with
      | O => OutOfFuel
      | S fuel =>
          let h := place add h c in
          do (h, a) <- visit_log fuel h (ob_first (h c));
          do (h, b) <- visit_log fuel h (ob_first (h c));
          do (h, d) <- visit_log fuel h (ob_next (h c));
          Ok (h, c :: a ++ b ++ d)
      end
  end.
Definition recalc_log (fuel : nat) (h : heap P) (o : nat) : outcome (heap P * list nat) :=
  let h := place add h o in do (h, a) <- visit_log fuel h (ob_first (h o)); Ok (h, o :: a).
(** sample/ui_object.cpp:77-81 [set_position]. *)
Definition set_position_log (fuel : nat) (h : heap P) (c : nat) (p : P) : outcome (heap P * list nat) := recalc_log fuel (upd h c (set_pos (h c) p)) c.
End Cost.
Arguments visit_log {P}. Arguments recalc_log {P}. Arguments set_position_log {P}.
