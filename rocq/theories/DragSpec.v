(** Where a cursor appears for a point of the text box. *)
From Coq Require Import List ZArith QArith Qabs.
Import ListNotations.
From Verif Require Import Base PackingModel LayoutModel LayoutSpec ClickSpec.
Open Scope Z_scope.

(** The caret [i] of the cursor [c] is in the line of the point, as high as it, and of all
    places for a caret in that line it is the nearest to the point. *)
Definition nearest_to (B : Z -> Prop) (d : sdoc) (y w : Q) (al : xalign) (x q : Q) (c : Z) (i : cursor_info) : Prop :=
  exists s r X, nth_error d (ci_line i) = Some s /\ (ci_y i == y + heights (firstn (ci_line i) d))%Q /\ (ci_height i == sl_height s)%Q /\
    (0 < q <= heights d -> heights (firstn (ci_line i) d) < q <= heights (firstn (ci_line i) d) + sl_height s)%Q /\
    In r (sl_runs s) /\ B (cp_get_position c) /\ sr_start r <= cp_get_position c <= sr_end r /\ place r (cp_get_position c) X /\
    (ci_x i == align_x w al s + X)%Q /\
    forall r' p' X', In r' (sl_runs s) -> B p' -> sr_start r' <= p' <= sr_end r' -> place r' p' X' ->
      (Qabs (x - ci_x i) <= Qabs (x - (align_x w al s + X')))%Q.
