(** What drawing into a bitmap means. *)
From Verif Require Import Base FloatModel ColorModel BitmapModel.
Open Scope Z_scope.

(** The pixel in column [x] of row [y]. *)
Definition pixel (b : bitmap) (x y : Z) : Z := bm_at b (y * bm_w b + x).
(** The pixel is in the bitmap. *)
Definition within (b : bitmap) (x y : Z) : Prop := 0 <= x < bm_w b /\ 0 <= y < bm_h b.
(** A bitmap whose size the program can represent. *)
Definition sized (b : bitmap) : Prop := 0 <= bm_w b < 2 ^ 32 /\ 0 <= bm_h b < 2 ^ 32 /\ bm_w b * bm_h b < 2 ^ 32.
(** A point of the rectangle at [x], [y]. *)
Definition in_rect (x y w h px py : Z) : Prop := x <= px < x + w /\ y <= py < y + h.
(** [b'] is [b] with the pixels in [where_] replaced by [what]; nothing else changed. *)
Definition painted (b b' : bitmap) (where_ : Z -> Z -> Prop) (what : Z -> Z -> Z) : Prop :=
  bm_w b' = bm_w b /\ bm_h b' = bm_h b /\
  (forall px py, within b px py -> where_ px py -> pixel b' px py = what px py) /\
  (forall px py, within b px py -> ~ where_ px py -> pixel b' px py = pixel b px py).
(** The mixture of [src], in the share of its opacity, and [dst]. *)
Definition mixed (src dst : color) : color :=
  let mix s d := f32_add (f32_mul s (c_a src)) (f32_mul d (f32_sub f32_1 (c_a src))) in
  {| c_r := mix (c_r src) (c_r dst); c_g := mix (c_g src) (c_g dst);
     c_b := mix (c_b src) (c_b dst); c_a := mix (c_a src) (c_a dst) |}.
(** The colour that drawing [s] tinted by [c] over [d] leaves: [s] alone over a
    transparent pixel, the blend of the two otherwise. *)
Definition over (s d : Z) (c : color) : outcome Z :=
  let dst := from_argb_uint d in
  let src := {| c_r := f32_mul (c_r (from_argb_uint s)) (c_r c); c_g := f32_mul (c_g (from_argb_uint s)) (c_g c);
                c_b := f32_mul (c_b (from_argb_uint s)) (c_b c); c_a := f32_mul (c_a (from_argb_uint s)) (c_a c) |} in
  to_argb (match SFcompare (c_a dst) f32_0 with Some Gt => mixed src dst | _ => src end).
