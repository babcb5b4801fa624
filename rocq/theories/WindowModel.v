(** Model of the sample program's window: menu items and the settings behind them, mouse
    buttons over menus, items and the text box, and the layout after resizing.
    Coordinates are rational numbers: the sizes involved are small whole numbers. *)
From Coq Require Export String.
From Verif Require Import Base UiModel.
Set Implicit Arguments.
Open Scope nat_scope.
Open Scope list_scope.

(** * Menu items *)

(** sample/tool_bar_menu_item.hpp:31-35: an item at height [i_y] of its tray, whether it is
    selected, and the setting (sample/config_vars.hpp) its callback writes. *)
Record item := { i_y : Q; i_selected : bool; i_setting : bool }.
(** sample/tool_bar_menu.hpp:21: the tray of a menu: its height and its items. *)
Record tray := { t_height : Q; t_items : list item }.
(** sample/tool_bar_menu.cpp:25-31, in [create]. *)
Definition new_tray : tray := {| t_height := 2 * 3 - 1; t_items := [] |}.
(** sample/tool_bar_menu.cpp:84-95 [add_item].  The settings are off at first
    (sample/config_vars.hpp), and so are the items. *)
Definition add_item (t : tray) : tray :=
  {| t_height := t_height t + 22;
     t_items := t_items t ++ [ {| i_y := t_height t - 3 + 1; i_selected := false; i_setting := false |} ] |}.
Fixpoint make_tray (n : nat) : tray := match n with O => new_tray | S n => add_item (make_tray n) end.

(** sample/main.cpp:202-205 and the three like it, 210-225: the callbacks of the items. *)
Definition clicked (i : item) : item :=
  let selected := negb (i_selected i) in
  {| i_y := i_y i; i_selected := selected; i_setting := selected |}.

(** sample/ui_object.cpp:170-173 [is_mouse_inside] for any object. *)
Definition within (left top width height x y : Q) : bool :=
  Qle_bool left x && Qle_bool top y && Qle_bool (x - left) width && Qle_bool (y - top) height.
(** An item of the tray of a menu at [left]: sample/tool_bar_menu.cpp:28 places the tray
    under the bar, line 88 the item 3 pixels from its left; items are 166 by 22
    (sample/tool_bar_menu_item.hpp:9-10). *)
Definition in_item (left x y : Q) (i : item) : bool := within (left + 0 + 3) (0 + 20 + i_y i) 166 22 x y.

(** * Mouse buttons *)

(** Who takes an event. *)
Inductive target := OnItem (menu item : nat) | OnMenu (menu : nat) | OnBox | OnNothing.
Inductive button := First | Other.
Inductive wmouse := WMove (x y : Q) | WPress (b : button) | WRelease (b : button) | WAway.
(** The bar, a tray per menu, the rectangle of the text box, whether the text box has the
    focus and whether it is selecting with the mouse (sample/text_box.hpp:49). *)
Record window := { w_bar : bar; w_trays : list tray; w_box : Q * Q * Q * Q; w_focused : bool; w_drag : bool }.

(** sample/main.cpp:194-226 [set_up_toolbar] for menus given by the length of their name
    and their number of items. *)
Definition make_window (width : Q) (box : Q * Q * Q * Q) (menus : list (nat * nat)) : window :=
  {| w_bar := make_bar width (map fst menus); w_trays := map (fun m => make_tray (snd m)) menus;
     w_box := box; w_focused := false; w_drag := false |}.

(** The part of the walk of sample/ui_container.cpp:256-271 [handle_mouse_button] that goes
    through the first [n] menus, the last one first: its items, the last one first, if the tray
    is visible (sample/tool_bar_menu_item.cpp:16-25 [handle_mouse_button]; line 257 of the
    container), the tray itself, which takes nothing (sample/frame.hpp), then the menu
    (sample/tool_bar_menu.cpp:36-59 [handle_mouse_button]), which takes only the first
    button. *)
Fixpoint taker (b : button) (ms : list menu) (ts : list tray) (x y : Q) (n : nat) : option target :=
  match n with
  | O => None
  | S n =>
      match nth_error ms n, nth_error ts n with
      | Some m, Some t =>
          match (if m_open m then last_index (in_item (m_left m) x y) (t_items t) else None) with
          | Some j => Some (OnItem n j)
          | None =>
              if match b with First => in_menu x y m | Other => false end then Some (OnMenu n)
              else taker b ms ts x y n
          end
      | _, _ => taker b ms ts x y n
      end
  end.
Definition bar_taker (b : button) (w : window) (x y : Q) : option target :=
  taker b (b_menus (w_bar w)) (w_trays w) x y (List.length (b_menus (w_bar w))).

(** sample/text_box.cpp:19: the box is asked after the bar, which takes nothing
    itself. *)
Definition in_box (w : window) (x y : Q) : bool := let '(l, t, wd, h) := w_box w in within l t wd h x y.

(** sample/tool_bar_menu.cpp:38-56 for the menu [i]. *)
Definition toggle (b : bar) (i : nat) : bar :=
  let now := negb (b_open b) in
  {| b_width := b_width b; b_open := now;
     b_menus := match nth_error (b_menus b) i with Some m => list_set (b_menus b) i (set_open m now) | None => b_menus b end |}.
Definition click_item (ts : list tray) (i j : nat) : list tray :=
  match nth_error ts i with
  | Some t => match nth_error (t_items t) j with
              | Some it => list_set ts i {| t_height := t_height t; t_items := list_set (t_items t) j (clicked it) |}
              | None => ts
              end
  | None => ts
  end.

(** sample/ui_container.cpp:251-278 [handle_mouse_button] for a press.  A press of the first
    button gives the focus to whoever takes it, and takes it from the text box otherwise:
    sample/text_box.cpp:175-179 [handle_focus_lost] ends the selecting. *)
Definition press (w : window) (x y : Q) (b : button) : window * target :=
  match b with
  | First =>
      match bar_taker First w x y with
      | Some (OnItem i j) =>
          ({| w_bar := w_bar w; w_trays := click_item (w_trays w) i j; w_box := w_box w; w_focused := false;
              w_drag := if w_focused w then false else w_drag w |}, OnItem i j)
      | Some (OnMenu i) =>
          ({| w_bar := toggle (w_bar w) i; w_trays := w_trays w; w_box := w_box w; w_focused := false;
              w_drag := if w_focused w then false else w_drag w |}, OnMenu i)
      | _ =>
          if in_box w x y
          then ({| w_bar := w_bar w; w_trays := w_trays w; w_box := w_box w; w_focused := true; w_drag := true |}, OnBox)
          else ({| w_bar := w_bar w; w_trays := w_trays w; w_box := w_box w; w_focused := false;
                   w_drag := if w_focused w then false else w_drag w |}, OnNothing)
      end
  | Other => (w, match bar_taker Other w x y with Some t => t | None => OnNothing end)
  end.
(** The same for a release: sample/text_box.cpp:15-17 and 55-61, reached unless a menu or
    an item takes the event. *)
Definition release (w : window) (x y : Q) (b : button) : window * target :=
  match bar_taker b w x y with
  | Some t => (w, t)
  | None =>
      (match b with
       | First => {| w_bar := w_bar w; w_trays := w_trays w; w_box := w_box w; w_focused := w_focused w;
                     w_drag := if w_focused w then false else w_drag w |}
       | Other => w
       end, OnNothing)
  end.

(** [WAway]: the window loses the focus (sample/ui_container.cpp:331-333
    [handle_focus_lost]).  All events in order, with who took each press and release; the mouse is at (x, y) at
    first (sample/main.cpp:143-150 asks for the position when a button is pressed or
    released).  What selecting with the mouse does to the text is TextBoxModel's subject. *)
Fixpoint window_run (w : window) (x y : Q) (es : list wmouse) : window * list (wmouse * target) :=
  match es with
  | [] => (w, [])
  | WMove x' y' :: es =>
      window_run {| w_bar := bar_move (w_bar w) x' y'; w_trays := w_trays w; w_box := w_box w;
                    w_focused := w_focused w; w_drag := w_drag w |} x' y' es
  | WAway :: es =>
      let '(w, l) := window_run {| w_bar := w_bar w; w_trays := w_trays w; w_box := w_box w; w_focused := false;
                                   w_drag := if w_focused w then false else w_drag w |} x y es in
      (w, (WAway, OnNothing) :: l)
  | WPress b :: es => let '(w, t) := press w x y b in let '(w, l) := window_run w x y es in (w, (WPress b, t) :: l)
  | WRelease b :: es => let '(w, t) := release w x y b in let '(w, l) := window_run w x y es in (w, (WRelease b, t) :: l)
  end.

(** * Resizing *)

Record rect := { r_x : Q; r_y : Q; r_w : Q; r_h : Q }.
(** The container's size, the viewport, and the container's children with their names. *)
Record layout := { la_w : Q; la_h : Q; la_view : Z * Z; la_children : list (string * rect) }.
Definition resized (c : string * rect) (w h : Q) : string * rect :=
  (fst c, {| r_x := r_x (snd c); r_y := r_y (snd c); r_w := w; r_h := h |}).
(** [find_first_child] (sample/ui_object.cpp:155-168; its walk is modelled in NameModel.v)
    followed by [set_size]. *)
Fixpoint resize_child (name : string) (w h : Q) (cs : list (string * rect)) : list (string * rect) :=
  match cs with
  | [] => []
  | c :: cs => if (fst c =? name)%string then resized c w h :: cs else c :: resize_child name w h cs
  end.
(** sample/main.cpp:170-186 [on_resize]. *)
Definition on_resize (l : layout) (s : Z * Z) : layout :=
  let '(w, h) := (inject_Z (fst s), inject_Z (snd s)) in
  {| la_w := w; la_h := h; la_view := s;
     la_children := resize_child "ToolBar" w 20 (resize_child "TextBox" (w - 2 * 10) (h - 10) (la_children l)) |}.
(** sample/main.cpp:79-87, 100, 194-197: the window as it is first shown.  The container
    has size 0 before line 100 (sample/ui_object.hpp:86). *)
Definition first_layout : layout :=
  on_resize {| la_w := 0; la_h := 0; la_view := (0, 0)%Z;
               la_children := [ ("TextBox"%string, {| r_x := 10; r_y := 20; r_w := 640 - 2 * 10; r_h := 480 - 10 - 20 |});
                                ("ToolBar"%string, {| r_x := 0; r_y := 0; r_w := 640; r_h := 20 |}) ] |} (640, 480)%Z.
Definition layout_after (sizes : list (Z * Z)) : layout := fold_left on_resize sizes first_layout.
