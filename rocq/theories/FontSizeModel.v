(** Model of the font size arithmetic. *)
From Verif Require Import Base FloatModel.
Open Scope Z_scope.

(** src/font_common.hpp:87-88 [GLYPH_SUB_SUPER_SCALE], [GLYPH_SMALL_CAPS_SCALE]: the
    literals 0.7f and 0.8f as binary32 numbers. *)
Definition sub_super_scale : f32 := S754_finite false 11744051 (-24).
Definition small_caps_scale : f32 := S754_finite false 13421773 (-24).
(** src/font_common.hpp:95-100 [calc_font_scale_modifier]. *)
Definition scale_modifier (caps sub : bool) : f32 :=
  let m := f32_1 in
  let m := f32_mul m (if sub then sub_super_scale else f32_1) in
  f32_mul m (if caps then small_caps_scale else f32_1).
(** src/font_common.hpp:102-105 [calc_effective_font_size]. *)
Definition effective_size (n : Z) (caps sub : bool) : outcome Z := f32_to_u32 (f32_mul (f32_of_Z n) (scale_modifier caps sub)).
