(** What drawing a partly highlighted rectangle means. *)
From Verif Require Import Base ClipModel.
Open Scope Q_scope.

(** The column [t] belongs to the rectangle. *)
Definition covers (r : rect) (t : Q) : Prop := r_x r <= t /\ t < r_x r + r_w r.
(** The texture column drawn at [t]: the texture is stretched over the rectangle. *)
Definition texel (x w u uw t : Q) : Q := u + uw * (t - x) / w.
(** [t] is drawn by exactly one of the rectangles, [r]. *)
Definition drawn_by (rs : list rect) (t : Q) (r : rect) : Prop :=
  exists a b, rs = a ++ r :: b /\ covers r t /\ Forall (fun s => ~ covers s t) (a ++ b).
