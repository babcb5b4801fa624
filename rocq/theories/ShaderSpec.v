(** What appears on the screen for a rectangle, in whole pixels.  Columns and rows are
    counted from the upper left corner of the window. *)
From Verif Require Import Base ClipModel GlModel.
Open Scope Q_scope.

(** The pixel is one of the rectangle's: its corners are moved to the whole pixel to their
    upper left. *)
Definition in_rect (r : rect) (i j : Z) : bool :=
  ((Qfloor (r_x r) <=? i) && (i <? Qfloor (r_x r + r_w r)) && (Qfloor (r_y r) <=? j) && (j <? Qfloor (r_y r + r_h r)))%Z.

(** The frame [fb'] is [fb] with one colour laid over each pixel [on] holds of. *)
Definition laid_over (on : Z -> Z -> bool) (color : Z -> Z -> rgba) (fb fb' : frame) : Prop :=
  forall i j, same_rgba (fb' i j) (if on i j then blend (color i j) (fb i j) else fb i j).

(** The centre of a pixel is properly inside or outside a rectangle, in unrounded
    coordinates. *)
Definition centre_inside (r : rect) (i j : Z) : Prop :=
  r_x r < inject_Z i + (1 # 2) /\ inject_Z i + (1 # 2) < r_x r + r_w r /\
  r_y r < inject_Z j + (1 # 2) /\ inject_Z j + (1 # 2) < r_y r + r_h r.
Definition centre_outside (r : rect) (i j : Z) : Prop :=
  inject_Z i + (1 # 2) < r_x r \/ r_x r + r_w r < inject_Z i + (1 # 2) \/
  inject_Z j + (1 # 2) < r_y r \/ r_y r + r_h r < inject_Z j + (1 # 2).

(** A picture of [n] by [m] texels lies in a texture at column [a] and row [b]; its pixels
    are [pic]. *)
Definition picture_at (tx : texture) (a b n m : Z) (pic : Z -> Z -> rgba) : Prop :=
  (0 <= a /\ 0 <= b /\ a + n <= t_w tx /\ b + m <= t_h tx)%Z /\
  forall k l, (0 <= k < n -> 0 <= l < m -> t_texel tx (a + k) (b + l) = pic k l)%Z.
(** The rectangle that shows it at [x], [y] in its own size. *)
Definition shows (tx : texture) (a b n m : Z) (x y : Q) : rect :=
  {| r_x := x; r_y := y; r_w := inject_Z n; r_h := inject_Z m;
     r_u := inject_Z a / inject_Z (t_w tx); r_v := inject_Z b / inject_Z (t_h tx);
     r_uw := inject_Z n / inject_Z (t_w tx); r_vh := inject_Z m / inject_Z (t_h tx); r_white := false |}.

(** The border of the block of pixels from column [l] to column [r] and row [t] to row [b]. *)
Definition on_border (l t r b : Z) (p : Z * Z) : Prop :=
  let '(i, j) := p in
  (l <= i <= r /\ t <= j <= b /\ (i = l \/ i = r \/ j = t \/ j = b))%Z.

(** One of the three numbers, with another one not above it and another one not below it. *)
Definition middle (m a b c : Q) : Prop :=
  (m == a /\ (b <= m /\ m <= c \/ c <= m /\ m <= b)) \/
  (m == b /\ (a <= m /\ m <= c \/ c <= m /\ m <= a)) \/
  (m == c /\ (a <= m /\ m <= b \/ b <= m /\ m <= a)).

(** What is asked of GLSL's [length]: no negative result, zero for nothing but zero. *)
Definition is_length (length : Q -> Q -> Q) : Prop :=
  (forall x y, 0 <= length x y) /\ (forall x y, length x y == 0 <-> x == 0 /\ y == 0).
