(** Model of [TextBox]: editing, cursor movement, selection, clipboard. *)
From Coq Require Export QArith.
From Verif Require Import Base FloatModel PackingModel LayoutModel CursorModel.
Open Scope Z_scope.

(** sample/text_box.hpp:36-57.  Text is a list of bytes; cursor and selection start are
    packed words (src/cursor_position.hpp).  Size, alignment, wrapping and font are arguments of
    the functions below. *)
Record box := {
  tb_text : list Z; tb_content : list Z; tb_cursor : Z; tb_anchor : Z;
  tb_focused : bool; tb_editable : bool; tb_rich : bool; tb_multi : bool; tb_selectable : bool; tb_font : bool; tb_drag : bool;
  tb_layout : layout;
  (** The text of [m_cursorCtrl]. *)
  tb_ctrl : list Z;
  (** [m_visualCursorInfo]. *)
  tb_info : cursor_info;
  tb_timer : f32; tb_flash : Z
}.
Definition tb_line (b : box) : nat := ci_line (tb_info b).
Definition tb_x (b : box) : Q := ci_x (tb_info b).
(** [VisualCursorInfo] as it is made, src/layout_info.hpp:38-43. *)
Definition no_info : cursor_info := {| ci_x := 0; ci_y := 0; ci_height := 0; ci_line := 0 |}.

(** Field updates. *)
Definition with_text b t c l k i := {| tb_text := t; tb_content := c; tb_cursor := tb_cursor b; tb_anchor := tb_anchor b;
  tb_focused := tb_focused b; tb_editable := tb_editable b; tb_rich := tb_rich b; tb_multi := tb_multi b; tb_selectable := tb_selectable b; tb_font := tb_font b; tb_drag := tb_drag b;
  tb_layout := l; tb_ctrl := k; tb_info := i; tb_timer := tb_timer b; tb_flash := tb_flash b |}.
Definition with_cursor b c a := {| tb_text := tb_text b; tb_content := tb_content b; tb_cursor := c; tb_anchor := a;
  tb_focused := tb_focused b; tb_editable := tb_editable b; tb_rich := tb_rich b; tb_multi := tb_multi b; tb_selectable := tb_selectable b; tb_font := tb_font b; tb_drag := tb_drag b;
  tb_layout := tb_layout b; tb_ctrl := tb_ctrl b; tb_info := tb_info b; tb_timer := tb_timer b; tb_flash := tb_flash b |}.
Definition with_visual b i := with_text b (tb_text b) (tb_content b) (tb_layout b) (tb_ctrl b) i.
Definition with_blink b t n := {| tb_text := tb_text b; tb_content := tb_content b; tb_cursor := tb_cursor b; tb_anchor := tb_anchor b;
  tb_focused := tb_focused b; tb_editable := tb_editable b; tb_rich := tb_rich b; tb_multi := tb_multi b; tb_selectable := tb_selectable b; tb_font := tb_font b; tb_drag := tb_drag b;
  tb_layout := tb_layout b; tb_ctrl := tb_ctrl b; tb_info := tb_info b; tb_timer := t; tb_flash := n |}.
Definition with_focus b f d := {| tb_text := tb_text b; tb_content := tb_content b; tb_cursor := tb_cursor b; tb_anchor := tb_anchor b;
  tb_focused := f; tb_editable := tb_editable b; tb_rich := tb_rich b; tb_multi := tb_multi b; tb_selectable := tb_selectable b; tb_font := tb_font b; tb_drag := d;
  tb_layout := tb_layout b; tb_ctrl := tb_ctrl b; tb_info := tb_info b; tb_timer := tb_timer b; tb_flash := tb_flash b |}.
Definition with_modes b e r m s := {| tb_text := tb_text b; tb_content := tb_content b; tb_cursor := tb_cursor b; tb_anchor := tb_anchor b;
  tb_focused := tb_focused b; tb_editable := e; tb_rich := r; tb_multi := m; tb_selectable := s; tb_font := tb_font b; tb_drag := tb_drag b;
  tb_layout := tb_layout b; tb_ctrl := tb_ctrl b; tb_info := tb_info b; tb_timer := tb_timer b; tb_flash := tb_flash b |}.

(** sample/text_box.cpp:181-190 [update].  The number of the flash starts at 0 and is never set
    to less, so the loop has at most ten rounds. *)
Definition half : f32 := f32_div f32_1 (f32_of_Z 2).
Fixpoint flash_loop (rounds : nat) (t : f32) (n : Z) : f32 * Z :=
  match rounds with
  | O => (t, n)
  | S rounds => if (n <? 10) && f32_le half t then flash_loop rounds (f32_sub t half) (n + 1) else (t, n)
  end.
Definition update (b : box) (dt : f32) : box :=
  let '(t, n) := flash_loop 10 (f32_add (tb_timer b) dt) (tb_flash b) in with_blink b t n.

(** ICU's [U8_APPEND_UNSAFE], sample/text_box.cpp:379-382. *)
Definition u8_append (c : Z) : list Z :=
  if c <=? 127 then [c]
  else if c <=? 2047 then [Z.lor (Z.shiftr c 6) 192; Z.lor (Z.land c 63) 128]
  else if c <=? 65535 then [Z.lor (Z.shiftr c 12) 224; Z.lor (Z.land (Z.shiftr c 6) 63) 128; Z.lor (Z.land c 63) 128]
  else [Z.lor (Z.shiftr c 18) 240; Z.lor (Z.land (Z.shiftr c 12) 63) 128; Z.lor (Z.land (Z.shiftr c 6) 63) 128; Z.lor (Z.land c 63) 128].

(** [std::string::substr]: a start after the end throws [std::out_of_range], which nobody
    catches; it is [UB] here. *)
Definition substr (t : list Z) (start len : Z) : outcome (list Z) :=
  if Z.of_nat (length t) <? start then UB else Ok (firstn (Z.to_nat len) (skipn (Z.to_nat start) t)).
Definition substr_from (t : list Z) (start : Z) : outcome (list Z) :=
  if Z.of_nat (length t) <? start then UB else Ok (skipn (Z.to_nat start) t).

Section TextBox.
(** Width of the box and alignment of its text. *)
Variables (w : Q) (al : xalign).
(** [LayoutBuilder::build_layout_info] for the box's font and size, of rich or plain text. *)
Variable build : bool -> list Z -> layout.
(** The content of rich text ([parse_inline_formatting]). *)
Variable strip : list Z -> list Z.
(** [get_ascent() - get_descent()] of the font. *)
Variable tall : Q.
(** The break iterator after [set_text], ICU's decoding and character properties. *)
Variables (following preceding : list Z -> Z -> Z) (decode : list Z -> Z -> Z) (white : Z -> bool).

(** sample/text_box.cpp:420-457 [recalc_text], 207-211 [should_focused_use_rich_text],
    src/formatting.cpp:109-111. *)
Definition recalc (b : box) : outcome box :=
  let rich := if tb_focused b then tb_rich b && negb (tb_editable b) else tb_rich b in
  if negb (tb_font b) then Ok (with_visual b no_info)
  else
    let shown := if rich then strip (tb_text b) else tb_text b in
    match shown with
    | [] => Ok (with_text b (tb_text b) shown (tb_layout b) shown {| ci_x := 0; ci_y := 0; ci_height := tall; ci_line := 0 |})
    | _ =>
        let l := build rich (tb_text b) in
        do i <- calc_cursor_pixel_pos l w al (tb_cursor b);
        Ok (with_text b (tb_text b) shown l shown i)
    end.
(** sample/text_box.cpp:466-469 [set_text]. *)
Definition set_text (b : box) (t : list Z) : outcome box :=
  recalc (with_text b t (tb_content b) (tb_layout b) (tb_ctrl b) (tb_info b)).

(** sample/text_box.cpp:267-283 [set_cursor_position_internal]. *)
Definition set_cursor (b : box) (pos : Z) (selecting : bool) : outcome box :=
  let a := if selecting then (if cp_is_valid (tb_anchor b) then tb_anchor b else tb_cursor b) else invalid_value in
  let b := with_cursor b pos a in
  do i <- calc_cursor_pixel_pos (tb_layout b) w al pos;
  Ok (with_blink (with_visual b i) f32_0 0).

(** The text that [m_cursorCtrl] may read: a [std::string] ends in a zero byte. *)
Definition ctrl_memory (b : box) : list Z := tb_ctrl b ++ [0].

(** sample/text_box.cpp:213-265: the cursor moves.  Mouse coordinates, doubles cut to floats in
    the code (262-263), are exact numbers. *)
Definition move_next_char b sel := set_cursor b (next_character (following (tb_ctrl b)) (tb_cursor b)) sel.
Definition move_prev_char b sel := set_cursor b (prev_character (preceding (tb_ctrl b)) (tb_cursor b)) sel.
Definition move_next_word b sel :=
  do p <- next_word (ctrl_memory b) (following (tb_ctrl b)) (decode (tb_ctrl b)) white (tb_cursor b); set_cursor b p sel.
Definition move_prev_word b sel :=
  do p <- prev_word (ctrl_memory b) (preceding (tb_ctrl b)) (decode (tb_ctrl b)) white (tb_cursor b); set_cursor b p sel.
(** [get_line_count() - 1] is unsigned: for no lines it is the largest number. *)
Definition move_next_line b sel :=
  let n := length (lo_lines (tb_layout b)) in
  do p <- (if (n =? 0)%nat || (tb_line b <? n - 1)%nat
           then find_closest_cursor_position (following (tb_ctrl b)) (tb_layout b) w al (tb_line b + 1) (tb_x b)
           else Ok (tb_cursor b));
  set_cursor b p sel.
Definition move_prev_line b sel :=
  do p <- (if (0 <? tb_line b)%nat
           then find_closest_cursor_position (following (tb_ctrl b)) (tb_layout b) w al (tb_line b - 1) (tb_x b)
           else Ok (tb_cursor b));
  set_cursor b p sel.
Definition move_line_start b sel := do p <- get_line_start_position (tb_layout b) (tb_line b); set_cursor b p sel.
Definition move_line_end b sel := do p <- get_line_end_position (tb_layout b) (tb_line b); set_cursor b p sel.
Definition move_text_start b sel := set_cursor b 0 sel.
Definition move_text_end b sel := set_cursor b (cp_make (Z.of_nat (length (tb_ctrl b)))) sel.
Definition move_mouse b (x y : Q) sel :=
  do p <- closest_to_position (following (tb_ctrl b)) (tb_layout b) w al x y; set_cursor b p sel.

(** sample/text_box.cpp:385-396 [insert_text]. *)
Definition insert_text (b : box) (s : list Z) (start : Z) : outcome box :=
  let b := with_cursor b (cp_make (cp_get_position (tb_cursor b) + Z.of_nat (length s))) (tb_anchor b) in
  if start <? Z.of_nat (length (tb_text b)) then
    do before <- substr (tb_text b) 0 start;
    do after <- substr_from (tb_text b) start;
    set_text b (before ++ s ++ after)
  else set_text b (tb_text b ++ s).
(** sample/text_box.cpp:398-402 [remove_text]. *)
Definition remove_text (b : box) (start end_ : Z) : outcome box :=
  do before <- substr (tb_text b) 0 start;
  do after <- substr_from (tb_text b) end_;
  set_text b (before ++ after).
(** sample/text_box.cpp:404-418 [remove_highlighted_text]. *)
Definition remove_highlighted (b : box) : outcome box :=
  let start := tb_anchor b in
  let end_ := tb_cursor b in
  if cp_eqb start end_ || negb (cp_is_valid start) then Ok b
  else
    let '(start, end_) := if cp_get_position end_ <? cp_get_position start then (end_, start) else (start, end_) in
    remove_text (with_cursor b start invalid_value) (cp_get_position start) (cp_get_position end_).
(** sample/text_box.cpp:374-383 [insert_typed_character]. *)
Definition insert_typed (b : box) (c : Z) : outcome box :=
  do b <- (if cp_is_valid (tb_anchor b) then remove_highlighted b else Ok b);
  insert_text b (u8_append c) (cp_get_position (tb_cursor b)).

(** sample/text_box.cpp:285-301 [handle_key_backspace]. *)
Definition key_backspace (b : box) (ctrl : bool) : outcome box :=
  if cp_is_valid (tb_anchor b) then remove_highlighted b
  else if 0 <? cp_get_position (tb_cursor b) then
    let end_ := cp_get_position (tb_cursor b) in
    do b <- (if ctrl then move_prev_word b false else move_prev_char b false);
    remove_text b (cp_get_position (tb_cursor b)) end_
  else Ok b.
(** sample/text_box.cpp:303-321 [handle_key_delete]. *)
Definition key_delete (b : box) (ctrl : bool) : outcome box :=
  if cp_is_valid (tb_anchor b) then remove_highlighted b
  else if cp_get_position (tb_cursor b) <? Z.of_nat (length (tb_text b)) then
    let start := tb_cursor b in
    do b <- (if ctrl then move_next_word b false else move_next_char b false);
    let end_ := cp_get_position (tb_cursor b) in
    remove_text (with_cursor b start (tb_anchor b)) (cp_get_position start) end_
  else Ok b.

(** sample/ui_container.cpp:347-356 and sample/text_box.cpp:175-179 [handle_focus_lost]. *)
Definition lose_focus (b : box) : outcome box :=
  if tb_focused b then recalc (with_focus (with_cursor b (tb_cursor b) invalid_value) false false) else Ok b.
(** sample/ui_container.cpp:335-345 and sample/text_box.cpp:171-173 [handle_focused]. *)
Definition gain_focus (b : box) : outcome box :=
  if tb_focused b then Ok b else recalc (with_focus b true (tb_drag b)).

(** sample/text_box.cpp:323-331 [handle_key_enter]. *)
Definition key_enter (b : box) : outcome box :=
  if tb_multi b then do b <- remove_highlighted b; insert_typed b 10 else lose_focus b.

(** sample/text_box.cpp:346-363 [clipboard_copy_text]: what the clipboard holds afterwards.
    [None] is a clipboard without text.  ([glfwSetClipboardString] stops at a zero byte; the
    text is assumed to have none.) *)
Definition copy (b : box) (clip : option (list Z)) : outcome (option (list Z)) :=
  if negb (cp_is_valid (tb_anchor b)) then Ok clip
  else
    let s := cp_get_position (tb_anchor b) in
    let e := cp_get_position (tb_cursor b) in
    if s =? e then Ok clip
    else let '(s, e) := if e <? s then (e, s) else (s, e) in
         do t <- substr (tb_text b) s (e - s); Ok (Some t).
(** sample/text_box.cpp:365-372 [clipboard_paste_text]: [glfwGetClipboardString] gives a null
    pointer when there is no text. *)
Definition paste (b : box) (clip : option (list Z)) : outcome box :=
  if tb_editable b then
    do b <- remove_highlighted b;
    match clip with Some s => insert_text b s (cp_get_position (tb_cursor b)) | None => UB end
  else Ok b.

(** What can happen to a box.  [CPress] is a press inside it, [n] the answer of
    [text_box_click]; [CAway] is a press elsewhere or a loss of the window's focus;
    [CReplace] is a call of [set_text] by the program; [CClip] is another program writing the clipboard;
    [CTick] is a call of [update]; the others are the program's settings. *)
Inductive cmd :=
| KUp (sel : bool) | KDown (sel : bool) | KLeft (ctrl sel : bool) | KRight (ctrl sel : bool)
| KHome (ctrl sel : bool) | KEnd (ctrl sel : bool)
| KBackspace (ctrl : bool) | KDelete (ctrl : bool) | KEnter | KTab
| KCut | KCopy | KPaste | KAll
| CType (c : Z) | CPress (x y : Q) (sel : bool) (n : Z) | CRelease | CDrag (x y : Q) | CAway
| CReplace (t : list Z) | CClip (s : option (list Z)) | CTick (dt : f32)
| CMulti (x : bool) | CRich (x : bool) | CEditable (x : bool) | CSelectable (x : bool).

(** sample/text_box.cpp:64-152 [handle_key_press] for a focused box, 333-335 [handle_key_tab], 337-344
    [clipboard_cut_text]. *)
Definition key (b : box) (clip : option (list Z)) (k : cmd) : outcome (box * option (list Z)) :=
  let keep m := do b <- m; Ok (b, clip) in
  match k with
  | KUp s => keep (move_prev_line b s)
  | KDown s => keep (move_next_line b s)
  | KLeft true s => keep (move_prev_word b s)
  | KLeft false s => keep (move_prev_char b s)
  | KRight true s => keep (move_next_word b s)
  | KRight false s => keep (move_next_char b s)
  | KHome true s => keep (move_text_start b s)
  | KHome false s => keep (move_line_start b s)
  | KEnd true s => keep (move_text_end b s)
  | KEnd false s => keep (move_line_end b s)
  | KBackspace c => keep (key_backspace b c)
  | KDelete c => keep (key_delete b c)
  | KEnter => keep (key_enter b)
  | KTab => keep (insert_typed b 9)
  | KCut => if tb_editable b then do clip <- copy b clip; do b <- remove_highlighted b; Ok (b, clip) else Ok (b, clip)
  | KCopy => do clip <- copy b clip; Ok (b, clip)
  | KPaste => keep (paste b clip)
  | KAll => keep (do b <- move_text_start b false; move_text_end b true)
  | _ => Ok (b, clip)
  end.

(** sample/text_box.cpp:13-62 [handle_mouse_button] and the focus the container gives
    (sample/ui_container.cpp:261-271). *)
Definition press (b : box) (x y : Q) (sel : bool) (n : Z) : outcome box :=
  do b <- (if tb_focused b then
             do b <- move_mouse b x y sel;
             match n mod 4 with
             | 1 => do b <- move_prev_word b false; move_next_word b true
             | 2 => do b <- move_line_start b false; move_line_end b true
             | 3 => do b <- move_text_start b false; move_text_end b true
             | _ => Ok b
             end
           else do b <- recalc b; move_mouse b x y sel);
  gain_focus (with_focus b (tb_focused b) true).

(** sample/text_box.cpp:55-59 (release), 154-160 [handle_mouse_move], 162-169 [handle_text_input],
    485-501 [set_multi_line], [set_rich_text], [set_editable], [set_selectable]. *)
Definition step (st : box * option (list Z)) (c : cmd) : outcome (box * option (list Z)) :=
  let '(b, clip) := st in
  match c with
  | CPress x y sel n => do b <- press b x y sel n; Ok (b, clip)
  | CRelease => Ok ((if tb_focused b then with_focus b true false else b), clip)
  | CDrag x y => if tb_focused b && tb_drag b then do b <- move_mouse b x y true; Ok (b, clip) else Ok (b, clip)
  | CAway => do b <- lose_focus b; Ok (b, clip)
  | CType ch => if tb_focused b && tb_editable b then do b <- insert_typed b ch; Ok (b, clip) else Ok (b, clip)
  | CReplace t => do b <- set_text b t; Ok (b, clip)
  | CClip s => Ok (b, s)
  | CTick dt => Ok (update b dt, clip)
  | CMulti x => Ok (with_modes b (tb_editable b) (tb_rich b) x (tb_selectable b), clip)
  | CRich x => do b <- recalc (with_modes b (tb_editable b) x (tb_multi b) (tb_selectable b)); Ok (b, clip)
  | CEditable x => Ok (with_modes b x (tb_rich b) (tb_multi b) (tb_selectable b), clip)
  | CSelectable x => Ok (with_modes b (tb_editable b) (tb_rich b) (tb_multi b) x, clip)
  | _ => if tb_focused b then key b clip c else Ok (b, clip)
  end.
(** A history of events. *)
Fixpoint steps (st : box * option (list Z)) (cs : list cmd) : outcome (box * option (list Z)) :=
  match cs with [] => Ok st | c :: cs => do st <- step st c; steps st cs end.
End TextBox.

(** A new box (sample/text_box.hpp:36-57) that has been given a font. *)
Definition new_box : box := {| tb_text := []; tb_content := []; tb_cursor := 0; tb_anchor := invalid_value; tb_focused := false; tb_editable := true;
  tb_rich := false; tb_multi := true; tb_selectable := true; tb_font := true; tb_drag := false; tb_layout := lo_empty; tb_ctrl := []; tb_info := no_info;
  tb_timer := f32_0; tb_flash := 0 |}.
