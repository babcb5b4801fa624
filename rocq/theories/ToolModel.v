(** Model of how the sample program's tool bar looks: which menus and items are highlighted
    as the mouse moves and presses, and what is drawn for them.

    Coordinates are exact rationals in place of [float], colours exact fractions of 255. *)
From Verif Require Import Base UiModel WindowModel.
From Verif Require Import ClipModel GlModel ShaderModel.
Set Implicit Arguments.
Open Scope nat_scope.
Open Scope list_scope.

(** * Highlights *)

(** The window of WindowModel.v with [m_hovered] of every menu (sample/tool_bar_menu.hpp:23)
    and of every item (sample/tool_bar_menu_item.hpp:32). *)
Record view := { vw_window : window; vw_menus : list bool; vw_items : list (list bool) }.
(** All of them are false at first. *)
Definition make_view (width : Q) (box : Q * Q * Q * Q) (menus : list (nat * nat)) : view :=
  {| vw_window := make_window width box menus;
     vw_menus := map (fun _ => false) menus;
     vw_items := map (fun m => repeat false (snd m)) menus |}.

(** sample/tool_bar.cpp:16-53 [handle_mouse_move]: what it does to [m_hovered] of the
    menus. *)
Definition menus_hovered (b : bar) (hs : list bool) (x y : Q) : list bool :=
  if b_open b && inside 0 (b_width b) 20 x y then
    match first_index (in_menu x y) (b_menus b) with
    | Some _ => map (fun _ => false) hs
    | None => hs
    end
  else if b_open b then hs
  else map (in_menu x y) (b_menus b).
(** sample/tool_bar_menu_item.cpp:27-31 [handle_mouse_move], for all items: visible or not,
    all of them are told (sample/ui_container.cpp:299-306). *)
Definition items_hovered (w : window) (x y : Q) : list (list bool) :=
  map (fun mt => map (in_item (m_left (fst mt)) x y) (t_items (snd mt))) (combine (b_menus (w_bar w)) (w_trays w)).
Definition view_move (v : view) (x y : Q) : view :=
  let w := vw_window v in
  {| vw_window := {| w_bar := bar_move (w_bar w) x y; w_trays := w_trays w; w_box := w_box w;
                     w_focused := w_focused w; w_drag := w_drag w |};
     vw_menus := menus_hovered (w_bar w) (vw_menus v) x y;
     vw_items := items_hovered w x y |}.
(** sample/tool_bar_menu.cpp:42-51: a menu that is pressed is highlighted by [m_hovered]
    exactly when the press closes it. *)
Definition view_press (v : view) (x y : Q) (b : button) : view :=
  let '(w, t) := press (vw_window v) x y b in
  {| vw_window := w;
     vw_menus := match t with
                 | OnMenu i => list_set (vw_menus v) i (negb (b_open (w_bar w)))
                 | _ => vw_menus v
                 end;
     vw_items := vw_items v |}.
Definition with_window (v : view) (w : window) : view := {| vw_window := w; vw_menus := vw_menus v; vw_items := vw_items v |}.
(** All events in order, as in WindowModel.v. *)
Fixpoint view_run (v : view) (x y : Q) (es : list wmouse) : view :=
  match es with
  | [] => v
  | WMove x' y' :: es => view_run (view_move v x' y') x' y' es
  | WPress b :: es => view_run (view_press v x y b) x y es
  | (WRelease _ | WAway) as e :: es => view_run (with_window v (fst (window_run (vw_window v) x y [e]))) x y es
  end.

(** * Drawing *)

(** src/color.hpp:13-15 [from_rgb]. *)
Definition rgb (r g b a : Z) : rgba :=
  {| q_r := inject_Z r / 255; q_g := inject_Z g / 255; q_b := inject_Z b / 255; q_a := inject_Z a / 255 |}.
(** sample/tool_bar.cpp:7. *)
Definition UNDERLINE_COLOR : rgba := rgb 240 240 240 255.
(** sample/tool_bar_menu.cpp:11-18. *)
Definition HOVER_COLOR : rgba := rgb 211 224 255 127.
Definition HOVER_BORDER_COLOR : rgba := rgb 153 209 255 127.
Definition SELECTED_COLOR : rgba := rgb 153 209 255 127.
Definition SELECTED_BORDER_COLOR : rgba := rgb 51 163 255 127.
Definition TRAY_COLOR : rgba := rgb 242 242 242 255.
Definition TRAY_BORDER_COLOR : rgba := rgb 204 204 204 255.
(** sample/tool_bar_menu_item.cpp:9-10. *)
Definition ITEM_HOVER_COLOR : rgba := rgb 145 201 247 255.
Definition CHECK_BOX_COLOR : rgba := rgb 86 176 250 255.

(** A call of [emit_rect] without a texture (sample/ui_container.cpp:67-71) with the pipeline
    [RECT] or [OUTLINE]. *)
Record part := { p_rect : rect; p_color : rgba; p_outline : bool }.
Definition emit_part (outline : bool) (x y w h : Q) (c : rgba) : part :=
  {| p_rect := {| r_x := x; r_y := y; r_w := w; r_h := h; r_u := 0; r_v := 0; r_uw := 1; r_vh := 1; r_white := false |};
     p_color := c; p_outline := outline |}.
(** The text of a call of [draw_text_immediate]: the name of a menu, the check mark of an
    item, the text of an item; [lb_centred]: [XAlignment::CENTER] or [LEFT].  What is
    drawn in the area is the subject of ImmediateModel.v. *)
Inductive words := MenuName (i : nat) | CheckMark (i j : nat) | ItemText (i j : nat).
Record label := { lb_words : words; lb_x : Q; lb_y : Q; lb_w : Q; lb_h : Q; lb_centred : bool }.
Inductive shape := Part (p : part) | Label (l : label).

(** sample/tool_bar.cpp:58-62 [render]. *)
Definition bar_shapes (b : bar) : list shape :=
  [Part (emit_part false 0 (0 + 20 - 2) (b_width b) 2 UNDERLINE_COLOR)].
(** sample/tool_bar_menu.cpp:61-82 [render] of the menu [i]. *)
Definition menu_shapes (i : nat) (m : menu) (hovered : bool) : list shape :=
  let x := m_left m in
  let y := 0%Q in
  let w := m_width m in
  let h := 19%Q in
  (if m_open m then
     [Part (emit_part false (x + 1) (y + 1) (w - 2) (h - 2) SELECTED_COLOR);
      Part (emit_part true x y (w - 1) (h - 1) SELECTED_BORDER_COLOR)]
   else if hovered then
     [Part (emit_part false (x + 1) (y + 1) (w - 2) (h - 2) HOVER_COLOR);
      Part (emit_part true x y (w - 1) (h - 1) HOVER_BORDER_COLOR)]
   else []) ++
  [Label {| lb_words := MenuName i; lb_x := x; lb_y := y; lb_w := w; lb_h := h; lb_centred := true |}].
(** sample/frame.cpp:9-14 [render] of the tray of a menu at [left]
    (sample/tool_bar_menu.cpp:26-29). *)
Definition tray_shapes (left : Q) (t : tray) : list shape :=
  let x := (left + 0)%Q in
  let y := (0 + 20)%Q in
  [Part (emit_part false x y (172 - 1) (t_height t) TRAY_COLOR);
   Part (emit_part true x y (172 - 1) (t_height t) TRAY_BORDER_COLOR)].
(** sample/tool_bar_menu_item.cpp:33-56 [render] of the item [j] of the menu [i]. *)
Definition item_shapes (i j : nat) (left : Q) (it : item) (hovered : bool) : list shape :=
  let x := (left + 0 + 3)%Q in
  let y := (0 + 20 + i_y it)%Q in
  (if hovered then [Part (emit_part false x y 166 22 ITEM_HOVER_COLOR)] else []) ++
  (if i_selected it then
     (if hovered then [Part (emit_part false x y 22 22 CHECK_BOX_COLOR)] else []) ++
     [Label {| lb_words := CheckMark i j; lb_x := x; lb_y := y; lb_w := 22; lb_h := 22; lb_centred := true |}]
   else []) ++
  [Label {| lb_words := ItemText i j; lb_x := (x + 32)%Q; lb_y := y; lb_w := 166; lb_h := 22; lb_centred := false |}].

(** sample/ui_object.cpp:191-202 [render_internal]: an object, then its children in order;
    nothing of what is invisible.  The tray of a menu is visible while the menu is open
    (sample/tool_bar_menu.cpp:97-100 [set_open], and line 30). *)
Fixpoint items_shapes (i j : nat) (left : Q) (its : list item) (hs : list bool) : list shape :=
  match its, hs with
  | it :: its, h :: hs => item_shapes i j left it h ++ items_shapes i (S j) left its hs
  | _, _ => []
  end.
Fixpoint menus_shapes (i : nat) (ms : list menu) (ts : list tray) (hs : list bool) (ihs : list (list bool)) : list shape :=
  match ms, ts, hs, ihs with
  | m :: ms, t :: ts, h :: hs, ih :: ihs =>
      menu_shapes i m h ++
      (if m_open m then tray_shapes (m_left m) t ++ items_shapes i 0 (m_left m) (t_items t) ih else []) ++
      menus_shapes (S i) ms ts hs ihs
  | _, _, _, _ => []
  end.
Definition render_bar (v : view) : list shape :=
  let w := vw_window v in
  bar_shapes (w_bar w) ++ menus_shapes 0 (b_menus (w_bar w)) (w_trays w) (vw_menus v) (vw_items v).

(** * Pixels *)

Section Pixels.
Variable covers : tri -> pt -> bool.
Variable w h : Z.
(** A line loop with blending; sample/outline_shader.hpp:31-33: its colour is the given one. *)
Definition draw_outline (c : rgba) (fb : frame) (r : rect) : frame :=
  fold_left (fun fb p => fun i j => if ((fst p =? i) && (snd p =? j))%Z then blend c (fb i j) else fb i j) (outline_pixels w h r) fb.
Definition draw_part (fb : frame) (p : part) : frame :=
  if p_outline p then draw_outline (p_color p) fb (p_rect p)
  else draw_rect_pixels covers w h default_texture (p_color p) fb (p_rect p).
(** What is drawn, without the texts. *)
Definition draw_shapes (fb : frame) (ss : list shape) : frame :=
  fold_left (fun fb s => match s with Part p => draw_part fb p | Label _ => fb end) ss fb.
End Pixels.
