(** What OpenGL does with the primitives it is given: the part of the OpenGL 4.6
    specification the sample program relies on.  None of this is code in /repo; it belongs
    to the trusted base, as an oracle where OpenGL leaves a choice.

    Numbers are exact rationals. *)
From Coq Require Export QArith Qround.
From Verif Require Import Base.
Set Implicit Arguments.
Open Scope Q_scope.

Definition pt : Type := (Q * Q)%type.
Definition same_pt (a b : pt) : Prop := fst a == fst b /\ snd a == snd b.

(** The viewport of a window [w] wide and [h] high: from normalised device coordinates to
    window coordinates, whose origin is the lower left corner. *)
Definition to_window (w h : Z) (p : pt) : pt :=
  ((fst p + 1) * inject_Z w / 2, (snd p + 1) * inject_Z h / 2).
(** The centre of the pixel in column [i] and row [j], rows counted from the top. *)
Definition centre (h i j : Z) : pt := (inject_Z i + (1 # 2), inject_Z h - inject_Z j - (1 # 2)).

(** ** Triangles *)
Definition tri : Type := (pt * pt * pt)%type.
(** Twice the signed area of a triangle. *)
Definition area (a b c : pt) : Q := (fst b - fst a) * (snd c - snd a) - (snd b - snd a) * (fst c - fst a).
Definition strictly_inside (t : tri) (p : pt) : Prop :=
  let '(a, b, c) := t in
  (0 < area a b p /\ 0 < area b c p /\ 0 < area c a p) \/ (area a b p < 0 /\ area b c p < 0 /\ area c a p < 0).
(** [p] is on the other side of the line [a b] than [c]. *)
Definition beyond (a b c p : pt) : Prop := area a b p * area a b c < 0.
Definition strictly_outside (t : tri) (p : pt) : Prop :=
  let '(a, b, c) := t in beyond a b c p \/ beyond b c a p \/ beyond c a b p.
Definition between (a b p : pt) : Prop :=
  exists t, 0 < t /\ t < 1 /\ fst p == fst a + t * (fst b - fst a) /\ snd p == snd a + t * (snd b - snd a).

(** Point sampling of polygons (OpenGL 4.6, 14.6.1): which centres a triangle colours.  A
    centre inside is coloured, one outside is not, and one on the edge between two triangles
    is coloured by exactly one of them; which one is left open. *)
Record rasterizes (covers : tri -> pt -> bool) : Prop := {
  rz_same : forall a b c p a' b' c' p', same_pt a a' -> same_pt b b' -> same_pt c c' -> same_pt p p' ->
    covers (a, b, c) p = covers (a', b', c') p';
  rz_in : forall t p, strictly_inside t p -> covers t p = true;
  rz_out : forall t p, strictly_outside t p -> covers t p = false;
  rz_flat : forall a b c p, area a b c == 0 -> covers (a, b, c) p = false;
  rz_edge : forall a b c d p, area a b c * area a b d < 0 -> between a b p ->
    covers (a, c, b) p = negb (covers (a, d, b) p)
}.

(** Values between the vertices of a triangle (14.6.1, all [gl_Position.w] are 1). *)
Definition interpolate (t : tri) (ua ub uc : Q) (p : pt) : Q :=
  let '(a, b, c) := t in
  (area b c p * ua + area c a p * ub + area a b p * uc) / area a b c.

(** ** Lines *)
(** Lines one pixel wide between pixel centres along an axis (14.5.1, the diamond-exit
    rule): from the first pixel up to, but without, the last.  Pixels are given by column
    and row. *)
Fixpoint line_from (n : nat) (x y dx dy : Z) : list (Z * Z) :=
  match n with O => [] | S n => (x, y) :: line_from n (x + dx) (y + dy) dx dy end.
Definition line_pixels (a b : Z * Z) : list (Z * Z) :=
  let '(ax, ay) := a in
  let '(bx, by_) := b in
  line_from (Z.to_nat (Z.max (Z.abs (bx - ax)) (Z.abs (by_ - ay)))) ax ay (Z.sgn (bx - ax)) (Z.sgn (by_ - ay)).

(** ** Colours *)
Record rgba := { q_r : Q; q_g : Q; q_b : Q; q_a : Q }.
Definition same_rgba (a b : rgba) : Prop := q_r a == q_r b /\ q_g a == q_g b /\ q_b a == q_b b /\ q_a a == q_a b.
Definition map2 (f : Q -> Q -> Q) (a b : rgba) : rgba :=
  {| q_r := f (q_r a) (q_r b); q_g := f (q_g a) (q_g b); q_b := f (q_b a) (q_b b); q_a := f (q_a a) (q_a b) |}.
(** A texture of [t_w] by [t_h] texels. *)
Record texture := { t_w : Z; t_h : Z; t_texel : Z -> Z -> rgba }.
(** [GL_CLAMP_TO_EDGE] and [GL_LINEAR] (8.14.2, 8.14.3). *)
Definition clamp (n k : Z) : Z := Z.max 0 (Z.min (n - 1) k).
Definition mix (f a b : Q) : Q := (1 - f) * a + f * b.
Definition sample (tx : texture) (st : pt) : rgba :=
  let u := fst st * inject_Z (t_w tx) - (1 # 2) in
  let v := snd st * inject_Z (t_h tx) - (1 # 2) in
  let i := Qfloor u in
  let j := Qfloor v in
  let fu := u - inject_Z i in
  let fv := v - inject_Z j in
  let at_ i j := t_texel tx (clamp (t_w tx) i) (clamp (t_h tx) j) in
  map2 (mix fv) (map2 (mix fu) (at_ i j) (at_ (i + 1)%Z j)) (map2 (mix fu) (at_ i (j + 1)%Z) (at_ (i + 1)%Z (j + 1)%Z)).
(** [glBlendFunc(GL_SRC_ALPHA, GL_ONE_MINUS_SRC_ALPHA)] (17.3.6). *)
Definition blend (src dst : rgba) : rgba := map2 (fun s d => s * q_a src + d * (1 - q_a src)) src dst.

(** A frame buffer: the colour of the pixel in column [i] and row [j] from the top.  Colours
    are not rounded to the buffer's eight bits. *)
Definition frame : Type := Z -> Z -> rgba.
