(** Model of the settings of a [TextBox] that its layout depends on. *)
From Verif Require Import Base FloatModel PackingModel LayoutModel CursorModel TextBoxModel.

(** sample/text_box.hpp:36, 42-44 and the size of the object ([UIObject::m_size]). *)
Record settings := { se_font : option Z; se_x : xalign; se_y : yalign; se_wrapped : bool; se_width : Q; se_height : Q }.
(** As made; the size of a new object is 0 (sample/ui_object.hpp:86). *)
Definition new_settings : settings := {| se_font := None; se_x := XLeft; se_y := YTop; se_wrapped := true; se_width := 0; se_height := 0 |}.

Definition with_font (b : box) : box := {| tb_text := tb_text b; tb_content := tb_content b; tb_cursor := tb_cursor b; tb_anchor := tb_anchor b;
  tb_focused := tb_focused b; tb_editable := tb_editable b; tb_rich := tb_rich b; tb_multi := tb_multi b; tb_selectable := tb_selectable b; tb_font := true; tb_drag := tb_drag b;
  tb_layout := tb_layout b; tb_ctrl := tb_ctrl b; tb_info := tb_info b; tb_timer := tb_timer b; tb_flash := tb_flash b |}.

(** An event of the box, or a call of a setter.  The font given is a real one. *)
Inductive event := EDo (c : cmd) | EFont (f : Z) | EX (a : xalign) | EY (a : yalign) | EWrapped (x : bool) | ESize (w h : Q).

Section Settings.
(** [build_layout_info] of a font, a text area and alignments, for rich or plain text. *)
Variable builder : Z -> Q -> Q -> xalign -> yalign -> bool -> list Z -> layout.
Variable strip : list Z -> list Z.
(** [get_ascent() - get_descent()] of a font. *)
Variable tall : Z -> Q.
Variables (following preceding : list Z -> Z -> Z) (decode : list Z -> Z -> Z) (white : Z -> bool).

(** sample/text_box.cpp:444-454: the parameters. *)
Definition font_of (s : settings) : Z := match se_font s with Some f => f | None => 0 end.
Definition box_build (s : settings) : bool -> list Z -> layout :=
  builder (font_of s) (if se_wrapped s then se_width s else 0%Q) (se_height s) (se_x s) (se_y s).
Definition redo (s : settings) (b : box) : outcome (box * settings) :=
  do b <- recalc (se_width s) (se_x s) (box_build s) strip (tall (font_of s)) b; Ok (b, s).

(** sample/text_box.cpp:461-464 [set_font], 471-484 [set_text_x_alignment],
    [set_text_y_alignment], [set_text_wrapped], 503-506 [set_size]. *)
Definition occurs (st : box * settings * option (list Z)) (e : event) : outcome (box * settings * option (list Z)) :=
  let '(b, s, clip) := st in
  let set b s := do st <- redo s b; Ok (st, clip) in
  match e with
  | EDo c =>
      do (b, clip) <- step (se_width s) (se_x s) (box_build s) strip (tall (font_of s)) following preceding decode white (b, clip) c;
      Ok (b, s, clip)
  | EFont f => set (with_font b) {| se_font := Some f; se_x := se_x s; se_y := se_y s; se_wrapped := se_wrapped s; se_width := se_width s; se_height := se_height s |}
  | EX a => set b {| se_font := se_font s; se_x := a; se_y := se_y s; se_wrapped := se_wrapped s; se_width := se_width s; se_height := se_height s |}
  | EY a => set b {| se_font := se_font s; se_x := se_x s; se_y := a; se_wrapped := se_wrapped s; se_width := se_width s; se_height := se_height s |}
  | EWrapped x => set b {| se_font := se_font s; se_x := se_x s; se_y := se_y s; se_wrapped := x; se_width := se_width s; se_height := se_height s |}
  | ESize w h => set b {| se_font := se_font s; se_x := se_x s; se_y := se_y s; se_wrapped := se_wrapped s; se_width := w; se_height := h |}
  end.
Fixpoint occur (st : box * settings * option (list Z)) (es : list event) : outcome (box * settings * option (list Z)) :=
  match es with [] => Ok st | e :: es => do st <- occurs st e; occur st es end.
End Settings.

(** sample/text_box.hpp:36-57: a box as made, without a font. *)
Definition made_box : box := {| tb_text := []; tb_content := []; tb_cursor := 0; tb_anchor := invalid_value; tb_focused := false; tb_editable := true;
  tb_rich := false; tb_multi := true; tb_selectable := true; tb_font := false; tb_drag := false; tb_layout := lo_empty; tb_ctrl := []; tb_info := no_info;
  tb_timer := f32_0; tb_flash := 0 |}.
