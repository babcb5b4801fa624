(** Model of the sample program's UI container: drawing state, focus, clicks, menus. *)
From Coq Require Export QArith.
From Verif Require Import Base.
Set Implicit Arguments.
Open Scope nat_scope.

(** * Drawing state *)

(** What one draw call shows: [pl_size] is the screen size the bound program was last
    given (sample/pipeline.cpp: [set_uniform_float2]), ['D] stands for extents, texture
    coordinates and colour, which sample/ui_container.cpp:406-408 sets anew for every
    draw call. *)
Record shown (D : Type) := { s_pipeline : nat; s_texture : nat; s_size : option (Q * Q); s_data : D }.
(** The OpenGL state that matters: bound program, texture bound to the unit used for
    drawing, and per program the screen size uniform. *)
Record gl := { gl_program : option nat; gl_texture : option nat; gl_size : nat -> option (Q * Q) }.
(** sample/ui_container.hpp:64-66: the container's own record of what is bound. *)
Record drawer := { d_pipeline : option nat; d_texture : option nat }.

(** sample/ui_container.cpp:386-410 [draw_rect_internal], a container of size [sz]. *)
Definition draw_rect {D} (sz : Q * Q) (g : gl) (d : drawer) (tex : option nat) (pipe : nat) (x : D)
  : gl * drawer * list (shown D) :=
  match tex with
  | None => (g, d, [])
  | Some t =>
      let '(g, d) :=
        if match d_pipeline d with Some p => p =? pipe | None => false end then (g, d)
        else ({| gl_program := Some pipe; gl_texture := gl_texture g;
                 gl_size := fun p => if p =? pipe then Some sz else gl_size g p |},
              {| d_pipeline := Some pipe; d_texture := d_texture d |}) in
      let '(g, d) :=
        if match d_texture d with Some t' => t' =? t | None => false end then (g, d)
        else ({| gl_program := gl_program g; gl_texture := Some t; gl_size := gl_size g |},
              {| d_pipeline := d_pipeline d; d_texture := Some t |}) in
      (g, d, match gl_program g, gl_texture g with
             | Some p, Some t' => [ {| s_pipeline := p; s_texture := t'; s_size := gl_size g p; s_data := x |} ]
             | _, _ => []
             end)
  end.

(** One request to draw: [q_new] says that the atlas had to create the texture for it,
    which binds it (sample/image.cpp:13-14) behind the container's back. *)
Record request (D : Type) := { q_new : bool; q_texture : option nat; q_pipeline : nat; q_data : D }.

(** sample/image.cpp:5-20 [Image::Image] as called from
    sample/text_atlas.cpp:157-175 [get_or_create_target_page]. *)
Definition new_image {D} (g : gl) (q : request D) : gl :=
  if q_new q then
    match q_texture q with
    | Some t => {| gl_program := gl_program g; gl_texture := Some t; gl_size := gl_size g |}
    | None => g
    end
  else g.

Fixpoint draw_all {D} (sz : Q * Q) (g : gl) (d : drawer) (qs : list (request D)) : list (shown D) :=
  match qs with
  | [] => []
  | q :: qs =>
      let '(g, d, out) := draw_rect sz (new_image g q) d (q_texture q) (q_pipeline q) (q_data q) in
      out ++ draw_all sz g d qs
  end.

(** sample/ui_container.cpp:240-249 [render]: the record is cleared, then the objects
    make their requests. *)
Definition render {D} (sz : Q * Q) (g : gl) (qs : list (request D)) : list (shown D) :=
  draw_all sz g {| d_pipeline := None; d_texture := None |} qs.

(** * Focus and clicks *)

(** Notifications an object receives. *)
Inductive note := Focused (o : nat) | Lost (o : nat).
(** sample/ui_container.hpp:68,78-80 and sample/ui_object.hpp: [m_focusedObject] (a weak
    pointer), every object's [m_focused] and whether it still exists, the click data. *)
Record ui := { u_focus : option nat; u_flag : nat -> bool; u_live : nat -> bool;
               u_time : Q; u_count : Z; u_pos : Z }.
(** include/cursor_position.hpp: [CursorPosition::INVALID_VALUE]. *)
Definition invalid_pos : Z := 4294967295%Z.
Definition ui_start : ui := {| u_focus := None; u_flag := fun _ => false; u_live := fun _ => true;
                              u_time := 0%Q; u_count := 0%Z; u_pos := invalid_pos |}.
(** [m_focusedObject.lock()]. *)
Definition locked (u : ui) : option nat := match u_focus u with Some o => if u_live u o then Some o else None | None => None end.
Definition with_flag (u : ui) (o : nat) (b : bool) : ui :=
  {| u_focus := u_focus u; u_flag := fun p => if p =? o then b else u_flag u p; u_live := u_live u;
     u_time := u_time u; u_count := u_count u; u_pos := u_pos u |}.

(** sample/ui_container.cpp:347-356 [release_focused_object].  The [handle_focus_lost] of
    sample/text_box.cpp:175-179 and of sample/ui_object.cpp:31 does not touch the container. *)
Definition release_focused (u : ui) : ui * list note :=
  let '(u, ns) := match locked u with Some o => (with_flag u o false, [Lost o]) | None => (u, []) end in
  ({| u_focus := None; u_flag := u_flag u; u_live := u_live u; u_time := u_time u; u_count := 0%Z; u_pos := invalid_pos |}, ns).

(** sample/ui_container.cpp:335-345 [focus_object]. *)
Definition focus_object (u : ui) (o : nat) : ui * list note :=
  if match locked u with Some p => p =? o | None => false end then (u, [])
  else
    let '(u, ns) := release_focused u in
    (with_flag {| u_focus := Some o; u_flag := u_flag u; u_live := u_live u; u_time := u_time u; u_count := u_count u; u_pos := u_pos u |} o true,
     ns ++ [Focused o]).

(** sample/ui_container.cpp:370-384 [text_box_click]; [now] is the answer of
    [glfwGetTime]. *)
Definition text_box_click (u : ui) (pos : Z) (now : Q) : ui * Z :=
  let n := if (pos =? u_pos u)%Z && Qle_bool (now - u_time u) (1 # 2) then wrap32 (u_count u + 1) else 0%Z in
  ({| u_focus := u_focus u; u_flag := u_flag u; u_live := u_live u; u_time := now; u_count := n; u_pos := pos |}, n).

(** What happens to a container.  [Press hit] is a press of the first mouse button,
    sample/ui_container.cpp:251-278: [hit] is the topmost visible object that takes it.
    [Release] is every other call of [release_focused_object]: the window loses focus
    (331-333) or Enter is pressed in a single line box (sample/text_box.cpp:329).
    [Click] is [text_box_click]; [Destroy] is the end of an object's life. *)
Inductive event := Press (hit : option nat) | Release | Click (pos : Z) (now : Q) | Destroy (o : nat).
Definition ui_step (u : ui) (e : event) : ui * list note * list Z :=
  match e with
  | Press (Some o) => (focus_object u o, [])
  | Press None | Release => (release_focused u, [])
  | Click pos now => let '(u, n) := text_box_click u pos now in (u, [], [n])
  | Destroy o => ({| u_focus := u_focus u; u_flag := u_flag u; u_live := fun p => if p =? o then false else u_live u p;
                     u_time := u_time u; u_count := u_count u; u_pos := u_pos u |}, [], [])
  end.
(** Final state, notifications in order, answers of [text_box_click] in order. *)
Fixpoint ui_run (u : ui) (es : list event) : ui * list note * list Z :=
  match es with
  | [] => (u, [], [])
  | e :: es =>
      let '(u, ns, cs) := ui_step u e in
      let '(u, ns', cs') := ui_run u es in
      (u, ns ++ ns', cs ++ cs')
  end.

(** * Menus *)

(** sample/tool_bar.hpp:23, sample/tool_bar_menu.hpp:22: a bar of the given width with
    its menus, each with left end, width and whether it is open (the hover highlight is
    in ToolModel.v). *)
Record menu := { m_left : Q; m_width : Q; m_open : bool }.
Record bar := { b_width : Q; b_open : bool; b_menus : list menu }.

(** sample/tool_bar.cpp:64-79 [add_menu], sample/tool_bar_menu.cpp:20-34 [create]: 10 pixels
    per character of the name, placed after the menus that are there.  The bar is at (0, 0). *)
Definition add_menu (b : bar) (len : nat) : bar :=
  {| b_width := b_width b; b_open := b_open b;
     b_menus := b_menus b ++ [ {| m_left := fold_left (fun a m => a + m_width m)%Q (b_menus b) 0%Q;
                                  m_width := (10 * inject_Z (Z.of_nat len))%Q; m_open := false |} ] |}.
(** sample/tool_bar.cpp:9-14 [create]. *)
Definition make_bar (width : Q) (names : list nat) : bar :=
  fold_left add_menu names {| b_width := width; b_open := false; b_menus := [] |}.

(** sample/ui_object.cpp:170-173 [is_mouse_inside]; menus are 19 pixels high
    (sample/tool_bar_menu.cpp:22), the bar 20 (sample/tool_bar.hpp:9). *)
Definition inside (left width height : Q) (x y : Q) : bool :=
  Qle_bool left x && Qle_bool 0 y && Qle_bool (x - left) width && Qle_bool (y - 0) height.
Definition in_menu (x y : Q) (m : menu) : bool := inside (m_left m) (m_width m) 19 x y.
Definition set_open (m : menu) (b : bool) : menu := {| m_left := m_left m; m_width := m_width m; m_open := b |}.

(** The index of the first element that satisfies [f]. *)
Fixpoint first_index {A} (f : A -> bool) (l : list A) : option nat :=
  match l with [] => None | a :: l => if f a then Some 0 else option_map S (first_index f l) end.
(** The index of the last one. *)
Definition last_index {A} (f : A -> bool) (l : list A) : option nat :=
  option_map (fun i => length l - 1 - i) (first_index f (rev l)).

(** sample/tool_bar.cpp:16-53 [handle_mouse_move]. *)
Definition bar_move (b : bar) (x y : Q) : bar :=
  if b_open b && inside 0 (b_width b) 20 x y then
    match first_index (in_menu x y) (b_menus b) with
    | Some i => {| b_width := b_width b; b_open := b_open b;
                   b_menus := map (fun '(j, m) => set_open m (j =? i)) (combine (seq 0 (length (b_menus b))) (b_menus b)) |}
    | None => b
    end
  else b.

(** A press of the first mouse button: the container asks the last child first
    (sample/ui_container.cpp:254-268, sample/ui_object.hpp: [for_each_descendant_bottom_up]),
    and the menu that contains the mouse answers: sample/tool_bar_menu.cpp:36-59
    [handle_mouse_button].  The trays lie below the menus and do not overlap them. *)
Definition bar_press (b : bar) (x y : Q) : bar :=
  match last_index (in_menu x y) (b_menus b) with
  | Some i =>
      let now := negb (b_open b) in
      {| b_width := b_width b; b_open := now;
         b_menus := match nth_error (b_menus b) i with Some m => list_set (b_menus b) i (set_open m now) | None => b_menus b end |}
  | None => b
  end.

Inductive mouse := Moved (x y : Q) | Pressed.
(** [Pressed] happens where the mouse was last reported
    (sample/main.cpp: [on_mouse_button_event] asks for the cursor position). *)
Fixpoint bar_run (b : bar) (x y : Q) (es : list mouse) : bar :=
  match es with
  | [] => b
  | Moved x' y' :: es => bar_run (bar_move b x' y') x' y' es
  | Pressed :: es => bar_run (bar_press b x y) x y es
  end.
