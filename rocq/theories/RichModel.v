(** A text box from its markup to the screen: sample/text_box.cpp [recalc_text] and [render],
    for a box that does not have the focus.  Numbers are exact rationals in place of floats. *)
From Coq Require Export QArith.
From Verif Require Import Base ValueRunsModel FloatModel ColorModel FormattingModel FormattingIterModel LayoutModel DrawModel ScreenModel BuilderModel BuilderSpec ImmediateModel.
Open Scope Z_scope.

(** sample/text_box.hpp:36-46: what the appearance of the text depends on; the area is that of
    the object (sample/ui_object.hpp:86-88 [m_size], [m_absolutePosition]). *)
Record text_area := {
  ta_text : bytes; ta_rich : bool; ta_font : font; ta_color : color; ta_wrapped : bool;
  ta_x : Q; ta_y : Q; ta_w : Q; ta_h : Q; ta_xalign : xalign; ta_yalign : yalign }.

(** src/value_runs.hpp:156-158, 186-188: a table of booleans in its packed form. *)
Definition packed (r : value_runs bool) : bool_runs := map (fun p => br_encode (snd p) (fst p)) (combine (vr_limits r) (vr_values r)).
(** src/formatting.hpp:18-27 [FormattingRuns]: the tables that are read to draw. *)
Definition rich_views (r : formatting_runs) : fmt_views :=
  {| fv_color := vr_view (fr_colors r); fv_stroke := vr_view (fr_strokes r);
     fv_strike := br_view (packed (fr_flags r Strike)); fv_under := br_view (packed (fr_flags r Under)) |}.

(** src/value_runs_iterator.hpp:52-69, 71-88: what is in memory behind the last entry of the
    tables the builder walks over; it reads one entry too many (C54). *)
Record behind := { be_font : Z * Z; be_flag : flag -> Z }.
(** src/value_runs.hpp:107-113, 124-126 with that entry. *)
Definition fonts_in_memory (handle : font -> Z) (m : behind) (r : value_runs font) : runs_view Z :=
  {| rv_count := List.length (vr_limits r); rv_limit := vget (vr_limits r ++ [fst (be_font m)]);
     rv_value := vget (map handle (vr_values r) ++ [snd (be_font m)]) |}.
(** src/value_runs.hpp:160-166, 176-178 with that entry. *)
Definition flags_in_memory (m : behind) (k : flag) (r : value_runs bool) : runs_view bool :=
  {| rv_count := List.length (packed r); rv_limit := fun i => omap br_word_limit (vget (packed r ++ [be_flag m k]) i);
     rv_value := fun i => omap br_word_value (vget (packed r ++ [be_flag m k]) i) |}.

Section Area.
Variable get_family : bytes -> Z.
Variable from_chars_float : bytes -> option f32.
(** The number by which the builder's model knows a font. *)
Variable handle : font -> Z.
(** The libraries' answers for a text. *)
Variable e : list Z -> engine.
Variable m : behind.

(** sample/text_box.cpp:429 [StrokeState{}]. *)
Definition no_outline : stroke := {| k_color := {| c_r := f32_0; c_g := f32_0; c_b := f32_0; c_a := f32_0 |}; k_thickness := 0; k_joins := ST_NONE |}.
(** sample/text_box.cpp:430-434. *)
Definition content (b : text_area) : outcome (bytes * formatting_runs) :=
  if ta_rich b then parse_inline_formatting get_family from_chars_float (ta_text b) (ta_font b) (ta_color b) no_outline
  else Ok (make_default_formatting_runs (ta_text b) (ta_font b) (ta_color b) no_outline).

(** sample/text_box.cpp:420-457 [recalc_text]; [old] is the layout before the call, which stays
    when there is nothing to show (437-441).  Left out: the cursor (436, 456) and a missing font
    (425-427). *)
Definition recalc (b : text_area) (old : layout) : outcome (fmt_views * layout) :=
  do r <- content b;
  let '(text, runs) := r in
  match text with
  | [] => Ok (rich_views runs, old)
  | _ =>
      let t := map code text in
      do area <- to_fixed (if ta_wrapped b then ta_w b else 0);
      do tab <- to_fixed 8;
      do l <- build_text (e t) (t ++ [0]) false (fonts_in_memory handle m (fr_fonts runs)) (Some (flags_in_memory m Small (fr_flags runs Small)))
        (Some (flags_in_memory m Sub (fr_flags runs Sub))) (Some (flags_in_memory m Super (fr_flags runs Super)))
        tab false area (Z.of_nat (List.length t)) (aligned_start_y (ta_yalign b) (ta_h b)) old;
      Ok (rich_views runs, l)
  end.

(** sample/text_box.cpp:420-457 [recalc_text], then 192-203 [render]. *)
Definition show_area (vars : cvars) (glyph_info : Z -> Z -> picture) (stroke_info : Z -> Z -> Z -> stroke_type -> picture) (plain : Z)
    (fm : Z -> metrics) (b : text_area) (old : layout) (anchor cursor flash : Z) (caret : cursor_info) : outcome (list drawn) :=
  do r <- recalc b old;
  render_box vars glyph_info stroke_info plain fm (snd r) (fst r) (ta_x b) (ta_y b) (ta_w b) (ta_xalign b) anchor cursor false flash caret.
End Area.
