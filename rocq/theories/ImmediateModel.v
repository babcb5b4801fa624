(** Texts that are drawn at once, without an object that keeps their layout:
    sample/ui_container.cpp [draw_text_immediate].  Numbers are exact rationals in place
    of floats. *)
From Verif Require Import Base ValueRunsModel LayoutModel FloatModel ColorModel FormattingModel DrawModel ScreenModel BuilderModel BuilderSpec.
From Coq Require Export QArith.
Open Scope Z_scope.

(** src/layout_builder.cpp:185-186: [static_cast<int32_t>(x * 64.f)], undefined where the
    result has no such number. *)
Definition to_fixed (x : Q) : outcome Z :=
  let z := Z.quot (64 * Qnum x) (Zpos (Qden x)) in
  if (- 2 ^ 31 <=? z) && (z <? 2 ^ 31) then Ok z else UB.

(** sample/ui_container.cpp:223-238 [draw_text_immediate], for the [count] bytes at the
    start of [text] and the table of fonts [fonts]; no flags are set, so tabs count in
    spaces and the text is horizontal. *)
Definition draw_immediate (vars : cvars) (glyph_info : Z -> Z -> picture) (plain : Z) (e : engine) (fonts : runs_view Z)
    (c : color) (text : list Z) (count : Z) (x y w h : Q) (xa : xalign) (ya : yalign) : outcome (list drawn) :=
  do area <- to_fixed w;
  do tab <- to_fixed 8;
  do l <- build_text e text false fonts None None None tab false area count (aligned_start_y ya h) lo_empty;
  draw_unformatted vars glyph_info plain l x y w xa c.

(** sample/ui_container.cpp:226: one font for the whole text. *)
Definition one_font (font count : Z) : runs_view Z := vr_view (vr_single font count).
