(** Variation selectors: src/harfbuzz_font.cpp. *)
From Verif Require Import Base.
Open Scope Z_scope.

(** src/harfbuzz_font.cpp:308-318 [hb_ft_get_variation_glyph]; [variant u s] is
    [FT_Face_GetCharVariantIndex], [None] stands for the answer [false]. *)
Definition variation_glyph (variant : Z -> Z -> Z) (u s : Z) : option Z :=
  let g := variant u s in if g =? 0 then None else Some g.
