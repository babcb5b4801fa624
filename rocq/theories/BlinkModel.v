(** Model of how a text box is drawn, frame by frame: its text and its caret. *)
From Verif Require Import Base ValueRunsModel FloatModel ColorModel FormattingModel FormattingIterModel LayoutModel DrawModel CursorModel TextBoxModel ScreenModel.
Open Scope Z_scope.

(** sample/text_box.hpp:39 [m_textColor], sample/text_box.cpp:429 [strokeState]. *)
Definition text_color : color := {| c_r := f32_0; c_g := f32_0; c_b := f32_0; c_a := f32_1 |}.
Definition no_stroke : stroke := {| k_color := {| c_r := f32_0; c_g := f32_0; c_b := f32_0; c_a := f32_0 |}; k_thickness := 0; k_joins := ST_NONE |}.
(** src/formatting.cpp:109-124 [make_default_formatting_runs], the tables [draw_text] reads, for
    a text of [n] bytes; src/value_runs.hpp:87-89, 144-145. *)
Definition plain_views (n : Z) : fmt_views :=
  {| fv_color := vr_view (vr_single text_color n); fv_stroke := vr_view (vr_single no_stroke n);
     fv_strike := br_view (br_add [] n false); fv_under := br_view (br_add [] n false) |}.

(** sample/text_box.cpp:192-203 [render] for a box whose text is plain: the formatting is the
    one made with [m_contentText] in [recalc_text] (430-432). *)
Definition show_box (vars : cvars) (glyph_info : Z -> Z -> picture) (stroke_info : Z -> Z -> Z -> stroke_type -> picture) (image : Z)
    (fm : Z -> metrics) (w : Q) (al : xalign) (px py : Q) (b : box) : outcome (list drawn) :=
  render_box vars glyph_info stroke_info image fm (tb_layout b) (plain_views (Z.of_nat (List.length (tb_content b)))) px py w al
    (tb_anchor b) (tb_cursor b) (tb_focused b) (tb_flash b) (tb_info b).
