(** What Up, Down, Home and End do to the caret. *)
From Coq Require Import List ZArith QArith Qabs.
Import ListNotations.
From Verif Require Import Base PackingModel LayoutModel LayoutSpec TextBoxModel ClickSpec.
Open Scope Z_scope.

(** The text stays; without Shift nothing is selected, with Shift the selection begins where
    it began, or where the cursor was. *)
Definition only_moved (b b' : box) (sel : bool) : Prop :=
  tb_text b' = tb_text b /\ tb_layout b' = tb_layout b /\ (sel = false -> cp_is_valid (tb_anchor b') = false) /\
  (sel = true -> tb_anchor b' = if cp_is_valid (tb_anchor b) then tb_anchor b else tb_cursor b).

(** The caret is in line [k], as high as the line, with its left edge at [x]. *)
Definition caret_in (d : sdoc) (y : Q) (k : nat) (x : Q) (i : cursor_info) : Prop :=
  exists s, nth_error d k = Some s /\ ci_line i = k /\ (ci_x i == x)%Q /\ (ci_y i == y + heights (firstn k d))%Q /\ (ci_height i == sl_height s)%Q.

(** The caret is in line [k] at a place for the cursor, and none of the line is nearer to [x]. *)
Definition nearest_in (B : Z -> Prop) (d : sdoc) (y w : Q) (al : xalign) (k : nat) (x : Q) (b : box) : Prop :=
  exists s r X, nth_error d k = Some s /\ In r (sl_runs s) /\ B (cp_get_position (tb_cursor b)) /\ place r (cp_get_position (tb_cursor b)) X /\
    sr_start r <= cp_get_position (tb_cursor b) <= sr_end r /\ caret_in d y k (align_x w al s + X) (tb_info b) /\
    forall r' p' X', In r' (sl_runs s) -> B p' -> sr_start r' <= p' <= sr_end r' -> place r' p' X' ->
      (Qabs (x - ci_x (tb_info b)) <= Qabs (x - (align_x w al s + X')))%Q.
