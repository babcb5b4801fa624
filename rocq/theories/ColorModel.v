(** Model of the colour conversions. *)
From Verif Require Import Base FloatModel.
Open Scope Z_scope.

(** src/color.hpp:7-11. *)
Record color := { c_r : f32; c_g : f32; c_b : f32; c_a : f32 }.

(** src/color.hpp:13-15 [from_rgb]. *)
Definition from_rgb (r g b a : f32) : color :=
  {| c_r := f32_div r f32_255; c_g := f32_div g f32_255;
     c_b := f32_div b f32_255; c_a := f32_div a f32_255 |}.

(** [static_cast<float>] of an unsigned expression. *)
Definition fz (z : Z) : f32 := f32_of_Z z.

(** src/color.hpp:17-20 [from_abgr_uint].  The red channel is not masked. *)
Definition from_abgr_uint (w : Z) : color :=
  from_rgb (fz (Z.shiftr w 16)) (fz (Z.land (Z.shiftr w 8) 255))
           (fz (Z.land w 255)) (fz (Z.land (Z.shiftr w 24) 255)).

(** src/color.hpp:22-25 [from_argb_uint]. *)
Definition from_argb_uint (w : Z) : color :=
  from_rgb (fz (Z.land w 255)) (fz (Z.land (Z.shiftr w 8) 255))
           (fz (Z.land (Z.shiftr w 16) 255)) (fz (Z.land (Z.shiftr w 24) 255)).

(** src/color.hpp:27-30 [from_rgba_uint]. *)
Definition from_rgba_uint (w : Z) : color :=
  from_rgb (fz (Z.land (Z.shiftr w 24) 255)) (fz (Z.land (Z.shiftr w 16) 255))
           (fz (Z.land (Z.shiftr w 8) 255)) (fz (Z.land w 255)).

(** [static_cast<uint32_t>(x * 255.f) & 0xFFu]. *)
Definition channel_byte (x : f32) : outcome Z :=
  do v <- f32_to_u32 (f32_mul x f32_255); Ok (Z.land v 255).

Definition pack4 (b3 b2 b1 b0 : Z) : Z :=
  Z.lor (Z.lor (Z.lor (Z.shiftl b3 24) (Z.shiftl b2 16)) (Z.shiftl b1 8)) b0.

(** src/color.hpp:32-37 [to_abgr]: r at bit 16, g at 8, b at 0, a at 24. *)
Definition to_abgr (c : color) : outcome Z :=
  do r <- channel_byte (c_r c); do g <- channel_byte (c_g c);
  do b <- channel_byte (c_b c); do a <- channel_byte (c_a c);
  Ok (pack4 a r g b).

(** src/color.hpp:39-44 [to_argb]: r at bit 0, g at 8, b at 16, a at 24. *)
Definition to_argb (c : color) : outcome Z :=
  do r <- channel_byte (c_r c); do g <- channel_byte (c_g c);
  do b <- channel_byte (c_b c); do a <- channel_byte (c_a c);
  Ok (pack4 a b g r).

(** src/color.hpp:46-51 [to_rgba]: r at bit 24, g at 16, b at 8, a at 0. *)
Definition to_rgba (c : color) : outcome Z :=
  do r <- channel_byte (c_r c); do g <- channel_byte (c_g c);
  do b <- channel_byte (c_b c); do a <- channel_byte (c_a c);
  Ok (pack4 r g b a).

(** src/color.hpp:53-55, 57-71: [blend] = src * src.a + dst * (1 - src.a). *)
Definition color_add (c d : color) : color :=
  {| c_r := f32_add (c_r c) (c_r d); c_g := f32_add (c_g c) (c_g d);
     c_b := f32_add (c_b c) (c_b d); c_a := f32_add (c_a c) (c_a d) |}.
Definition color_scale (c : color) (s : f32) : color :=
  {| c_r := f32_mul (c_r c) s; c_g := f32_mul (c_g c) s;
     c_b := f32_mul (c_b c) s; c_a := f32_mul (c_a c) s |}.
Definition blend (src dst : color) : color :=
  color_add (color_scale src (c_a src)) (color_scale dst (f32_sub f32_1 (c_a src))).
