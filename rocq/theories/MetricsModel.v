(** Model of the measures of a font: src/font_data.cpp:37-104. *)
From Verif Require Import Base FloatModel FontSizeModel.
Open Scope Z_scope.

(** What the measures read of a font.
    src/font_data.hpp:37-50 and FreeType's FT_FaceRec (units_per_EM, underline_position, underline_thickness)
    and FT_Size_Metrics (x_ppem, y_ppem, ascender, descender). *)
Record font_numbers := FontNumbers {
  fn_upem : Z; (* FT_UShort *)
  fn_x_ppem : Z; (* FT_UShort *)
  fn_y_ppem : Z; (* FT_UShort *)
  fn_ascender : Z; (* FT_Pos, 64ths of a pixel *)
  fn_descender : Z;
  fn_underline_position : Z; (* FT_Short *)
  fn_underline_thickness : Z; (* FT_Short *)
  fn_strike_position : Z; (* int16_t *)
  fn_strike_thickness : Z; (* int16_t *)
  fn_sub : bool; (* synthInfo.syntheticSubscript *)
  fn_super : bool; (* synthInfo.syntheticSuperscript *)
}.
(** The conversion of an int to int16_t. *)
Definition wrap16 (z : Z) : Z := (z + 32768) mod 65536 - 32768.

(** src/font_registry.cpp:304-307: the strike-out line from the OS/2 table, if the file has one ([FontData fontData{...}]
    at :262-272 makes both numbers zero otherwise). *)
Definition strike_of_table (os2 : option (Z * Z)) : Z * Z :=
  match os2 with Some (position, size) => (wrap16 (- position), wrap16 size) | None => (0, 0) end.

(** src/font_data.cpp:37-40 *)
Definition get_ascent (f : font_numbers) : f32 :=
  f32_div (f32_div (f32_of_Z (fn_ascender f)) (f32_of_Z 64)) (scale_modifier false (fn_sub f || fn_super f)).
(** src/font_data.cpp:42-45 *)
Definition get_descent (f : font_numbers) : f32 :=
  f32_div (f32_div (f32_of_Z (fn_descender f)) (f32_of_Z 64)) (scale_modifier false (fn_sub f || fn_super f)).
(** src/font_data.cpp:51-57 *)
Definition get_ppem_x (f : font_numbers) : f32 := f32_of_Z (fn_x_ppem f).
Definition get_ppem_y (f : font_numbers) : f32 := f32_of_Z (fn_y_ppem f).
(** src/font_data.cpp:59-67 *)
Definition get_scale_x (f : font_numbers) : f32 := f32_div (f32_of_Z (fn_x_ppem f)) (f32_of_Z (fn_upem f)).
Definition get_scale_y (f : font_numbers) : f32 := f32_div (f32_of_Z (fn_y_ppem f)) (f32_of_Z (fn_upem f)).
(** src/font_data.cpp:90-104: [-ftFace->underline_position] is computed as an int. *)
Definition get_underline_position (f : font_numbers) : f32 := f32_mul (get_scale_y f) (f32_of_Z (- fn_underline_position f)).
Definition get_underline_thickness (f : font_numbers) : f32 := f32_mul (get_scale_y f) (f32_of_Z (fn_underline_thickness f)).
Definition get_strikethrough_position (f : font_numbers) : f32 := f32_mul (get_scale_y f) (f32_of_Z (fn_strike_position f)).
Definition get_strikethrough_thickness (f : font_numbers) : f32 := f32_mul (get_scale_y f) (f32_of_Z (fn_strike_thickness f)).
(** src/text_draw_util.hpp:74, 106: the height of the drawn underline, and :85, 98: of the drawn strike-out line. *)
Definition underline_height (f : font_numbers) : f32 := f32_add (get_underline_thickness f) (S754_finite false 8388608 (-24)).
Definition strikethrough_height (f : font_numbers) : f32 := f32_add (get_strikethrough_thickness f) (S754_finite false 8388608 (-24)).
