(** How the tool bar of the sample program is meant to look, given which menu is open
    (C66), where the mouse is and which items are switched on (C82).  Columns and rows of
    pixels are counted from the upper left corner of the window. *)
From Verif Require Import Base UiModel UiSpec WindowModel WindowSpec.
From Verif Require Import GlModel ToolModel.
Open Scope nat_scope.
Open Scope list_scope.

(** Where the mouse is after some events. *)
Fixpoint mouse_after (x y : Q) (es : list wmouse) : Q * Q :=
  match es with
  | [] => (x, y)
  | WMove x' y' :: es => mouse_after x' y' es
  | _ :: es => mouse_after x y es
  end.

(** A menu is shown plain, under the mouse, or open. *)
Inductive mark := Plain | Hovered | Chosen.
(** The open menu is marked as open; if there is none, the menu under the mouse is marked. *)
Definition mark_of (names : list nat) (now : option nat) (x y : Q) (k : nat) : mark :=
  match now with
  | Some o => if o =? k then Chosen else Plain
  | None => match menu_at 0 names x y with Some o => if o =? k then Hovered else Plain | None => Plain end
  end.
(** How a menu is shown (sample/tool_bar_menu.cpp:66-77). *)
Definition marked (open hovered : bool) : mark := if open then Chosen else if hovered then Hovered else Plain.

(** The mouse is over the item [k] of a menu that begins at [left]. *)
Definition over_item (left : Q) (k : nat) (x y : Q) : bool :=
  Qle_bool (left + 3) x && Qle_bool x (left + 169) &&
  Qle_bool (23 + 22 * inject_Z (Z.of_nat k)) y && Qle_bool y (45 + 22 * inject_Z (Z.of_nat k)).

(** ** Pixels *)
Open Scope Z_scope.
(** The block of pixels from column [l] to column [r] and row [t] to row [b], and its
    border. *)
Definition block (l t r b i j : Z) : bool := (l <=? i) && (i <=? r) && (t <=? j) && (j <=? b).
Definition border (l t r b i j : Z) : bool := block l t r b i j && negb (block (l + 1) (t + 1) (r - 1) (b - 1) i j).

(** A colour given in 255ths: red, green, blue and opacity. *)
Definition shade (r g b a : Z) : rgba :=
  {| q_r := inject_Z r / 255; q_g := inject_Z g / 255; q_b := inject_Z b / 255; q_a := inject_Z a / 255 |}.
(** A button: a translucent colour with a darker border, once over each pixel. *)
Definition button_pixel (m : mark) (edge : bool) (c : rgba) : rgba :=
  match m with
  | Plain => c
  | Hovered => blend (if edge then shade 153 209 255 127 else shade 211 224 255 127) c
  | Chosen => blend (if edge then shade 51 163 255 127 else shade 153 209 255 127) c
  end.
(** The buttons are next to each other, ten pixels per character and 19 pixels high. *)
Fixpoint buttons_pixel (left : Z) (names : list nat) (marks : nat -> mark) (i j : Z) (c : rgba) : rgba :=
  match names with
  | [] => c
  | n :: names =>
      let right := left + 10 * Z.of_nat n in
      if block left 0 (right - 1) 18 i j
      then button_pixel (marks O) (border left 0 (right - 1) 18 i j) c
      else buttons_pixel right names (fun k => marks (S k)) i j c
  end.

(** A tray of [n] items: 172 pixels wide with a grey border one pixel wide; the rows of
    166 by 22 pixels lie three pixels inside.  [hover] and [on] say which items are under the
    mouse and which are switched on: an item under the mouse is blue, with a darker square at
    its left if it is on. *)
Definition tray_pixel (left : Z) (n : nat) (hover on : nat -> bool) (i j : Z) (c : rgba) : rgba :=
  let bottom := 25 + 22 * Z.of_nat n in
  let k := Z.to_nat ((j - 23) / 22) in
  if border left 20 (left + 171) bottom i j then shade 204 204 204 255
  else if block (left + 3) 23 (left + 168) (bottom - 3) i j && hover k then
    (if on k && (i <=? left + 24) then shade 86 176 250 255 else shade 145 201 247 255)
  else if block left 20 (left + 171) bottom i j then shade 242 242 242 255
  else c.

(** Where menus begin, in pixels. *)
Fixpoint begins (left : Z) (names : list nat) (k : nat) : Z :=
  match names, k with
  | n :: names, S k => begins (left + 10 * Z.of_nat n) names k
  | _, _ => left
  end.

(** The whole tool bar of a window [width] pixels wide: a light line of two pixels along the
    lower end of the bar, the buttons, and the tray of the open menu. *)
Definition bar_pixel (width : Z) (menus : list (nat * nat)) (now : option nat) (x y : Q) (on : nat -> nat -> bool) (i j : Z) (c : rgba) : rgba :=
  if j <? 20 then
    buttons_pixel 0 (map fst menus) (mark_of (map fst menus) now x y) i j
      (if block 0 18 (width - 1) 19 i j then shade 240 240 240 255 else c)
  else match now with
       | None => c
       | Some o => tray_pixel (begins 0 (map fst menus) o) (nth o (map snd menus) O)
                     (fun k => over_item (left_of (map fst menus) o) k x y) (on o) i j c
       end.

(** A pixel of the area given to a text. *)
Definition in_label (l : label) (i j : Z) : bool :=
  (Qfloor (lb_x l) <=? i) && (i <? Qfloor (lb_x l + lb_w l)) && (Qfloor (lb_y l) <=? j) && (j <? Qfloor (lb_y l + lb_h l)).

(** The texts of the bar in the order of drawing, with the area of each (left, top, width,
    height) and whether it is centred: the name of each menu on its button, and behind the
    name of the open menu its items, a check mark in front of those that are on. *)
Definition text_spot : Type := (words * (Z * Z * Z * Z) * bool)%type.
Fixpoint item_texts (m : nat) (left : Z) (on : nat -> bool) (k n : nat) : list text_spot :=
  match n with
  | O => []
  | S n =>
      let top := 23 + 22 * Z.of_nat k in
      (if on k then [(CheckMark m k, (left + 3, top, 22, 22), true)] else []) ++
      (ItemText m k, (left + 35, top, 166, 22), false) :: item_texts m left on (S k) n
  end.
Fixpoint texts (left : Z) (m : nat) (menus : list (nat * nat)) (now : option nat) (on : nat -> nat -> bool) : list text_spot :=
  match menus with
  | [] => []
  | (n, count) :: menus =>
      (MenuName m, (left, 0, 10 * Z.of_nat n, 19), true) ::
      (match now with Some o => if Nat.eqb o m then item_texts m left (on m) 0 count else [] | None => [] end) ++
      texts (left + 10 * Z.of_nat n) (S m) menus now on
  end.
(** The texts among the drawn shapes. *)
Definition spots (ss : list shape) : list text_spot :=
  flat_map (fun s => match s with
                     | Part _ => []
                     | Label l => [(lb_words l, (Qfloor (lb_x l), Qfloor (lb_y l), Qfloor (lb_w l), Qfloor (lb_h l)), lb_centred l)]
                     end) ss.
