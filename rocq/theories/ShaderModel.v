(** Model of the sample program's shaders and of the drawing of one rectangle on the frame
    buffer.

    GLSL's [float] is replaced by exact rationals: [fma], [floor] and products are exact. *)
From Coq Require Import Qminmax.
From Verif Require Import Base ClipModel GlModel.
Set Implicit Arguments.
Open Scope Q_scope.

(** [gl_Position.xy] and [v_texCoord] of a vertex. *)
Record vertex := { v_pos : pt; v_tex : pt }.
(** [(mask & (1 << (gl_VertexID % n))) != 0] as a number. *)
Definition has (mask id n : Z) : Q := if (Z.land mask (Z.shiftl 1 (id mod n)) =? 0)%Z then 0 else 1.
Definition fma (a b c : Q) : Q := a * b + c.
Definition floor (q : Q) : Q := inject_Z (Qfloor q).
(** [gl_Position.xy = fma(gl_Position.xy, vec2(2.0, -2.0), vec2(-1.0, 1.0))] of a position in
    pixels multiplied with [u_invScreenSize]: sample/rect_shader.hpp:19-20,
    sample/outline_shader.hpp:18-19, sample/msdf_shader.hpp:20-21. *)
Definition to_clip (inv p : pt) : pt := (fma (fst p * fst inv) 2 (-1), fma (snd p * snd inv) (-2) 1).

(** sample/rect_shader.hpp:16-23. *)
Definition rect_vertex (inv : pt) (r : rect) (id : Z) : vertex :=
  let bx := has 25 id 6 in
  let by_ := has 11 id 6 in
  {| v_pos := to_clip inv (floor (fma bx (r_w r) (r_x r)), floor (fma by_ (r_h r) (r_y r)));
     v_tex := (fma bx (r_uw r) (r_u r), fma by_ (r_vh r) (r_v r)) |}.
(** sample/msdf_shader.hpp:16-24. *)
Definition msdf_vertex (inv : pt) (r : rect) (id : Z) : vertex :=
  let bx := has 25 id 6 in
  let by_ := has 11 id 6 in
  {| v_pos := to_clip inv (fma bx (r_w r) (r_x r), fma by_ (r_h r) (r_y r));
     v_tex := (fma bx (r_uw r) (r_u r), fma by_ (r_vh r) (r_v r)) |}.
(** sample/outline_shader.hpp:15-21. *)
Definition outline_position (inv : pt) (r : rect) (id : Z) : pt :=
  let bx := has 6 id 4 in
  let by_ := has 12 id 4 in
  to_clip inv (floor (fma bx (r_w r) (r_x r)) + (1 # 2), floor (fma by_ (r_h r) (r_y r)) + (1 # 2)).

(** sample/rect_shader.hpp:36-38. *)
Definition rect_fragment (tx : texture) (color : rgba) (st : pt) : rgba := map2 Qmult (sample tx st) color.

(** sample/pipeline.cpp:19-22 and 86-88: [GL_TRIANGLES] with six vertices. *)
Definition triangles (v : Z -> vertex) : list (vertex * vertex * vertex) := [(v 0, v 1, v 2); (v 3, v 4, v 5)]%Z.
(** sample/pipeline.cpp:23-24: [GL_LINE_LOOP] with four vertices. *)
Definition line_loop (v : Z -> pt) : list (pt * pt) :=
  [(v 0, v 1); (v 1, v 2); (v 2, v 3); (v 3, v 0)]%Z.

(** sample/ui_container.cpp:397: [1.f / get_size()]; the container has the size of the
    window (sample/main.cpp:170-177). *)
Definition inv_screen (w h : Z) : pt := (1 / inject_Z w, 1 / inject_Z h).

Section Draw.
(** Which pixels OpenGL finds in a triangle. *)
Variable covers : tri -> pt -> bool.
(** The size of the window: sample/main.cpp:173 [glViewport]. *)
Variable w h : Z.

Definition on_screen (t : vertex * vertex * vertex) : tri :=
  let '(a, b, c) := t in (to_window w h (v_pos a), to_window w h (v_pos b), to_window w h (v_pos c)).
(** [v_texCoord] in the fragment shader. *)
Definition tex_at (t : vertex * vertex * vertex) (p : pt) : pt :=
  let '(a, b, c) := t in
  (interpolate (on_screen t) (fst (v_tex a)) (fst (v_tex b)) (fst (v_tex c)) p,
   interpolate (on_screen t) (snd (v_tex a)) (snd (v_tex b)) (snd (v_tex c)) p).
(** One triangle with blending, sample/main.cpp:71-72. *)
Definition draw_triangle (fragment : pt -> rgba) (fb : frame) (t : vertex * vertex * vertex) : frame :=
  fun i j => let p := centre h i j in
             if covers (on_screen t) p then blend (fragment (tex_at t p)) (fb i j) else fb i j.
(** sample/ui_container.cpp:386-410 [draw_rect_internal] with the pipeline [RECT]. *)
Definition draw_rect_pixels (tx : texture) (color : rgba) (fb : frame) (r : rect) : frame :=
  fold_left (draw_triangle (rect_fragment tx color)) (triangles (rect_vertex (inv_screen w h) r)) fb.
(** The same for the rectangles [emit_rect] draws under a highlight: the white ones have
    their own colour. *)
Definition white_rgba : rgba := {| q_r := 1; q_g := 1; q_b := 1; q_a := 1 |}.
Definition draw_rects (tx : texture) (color : rgba) (fb : frame) (rs : list rect) : frame :=
  fold_left (fun fb r => draw_rect_pixels tx (if r_white r then white_rgba else color) fb r) rs fb.

(** The triangles of a rectangle that colour a pixel. *)
Definition hits (v : Z -> vertex) (i j : Z) : nat :=
  List.length (filter (fun t => covers (on_screen t) (centre h i j)) (triangles v)).
(** The pixels at the corners of an outline, as OpenGL finds them in the positions of its
    vertices, and the pixels of its lines. *)
Definition pixel_of (p : pt) : Z * Z := let q := to_window w h p in (Qfloor (fst q), (h - 1 - Qfloor (snd q))%Z).
Definition outline_pixels (r : rect) : list (Z * Z) :=
  flat_map (fun s => line_pixels (pixel_of (fst s)) (pixel_of (snd s))) (line_loop (outline_position (inv_screen w h) r)).
End Draw.

(** sample/text_atlas.cpp:18-22: the default texture. *)
Definition default_texture : texture := {| t_w := 8; t_h := 8; t_texel := fun _ _ => white_rgba |}.

(** ** Distance fields *)
(** sample/msdf_shader.hpp:37-39 [median]. *)
Definition median (r g b : Q) : Q := Qmax (Qmin r g) (Qmin (Qmax r g) b).
(** sample/msdf_shader.hpp:42-43. *)
Definition sig_dist (c : rgba) : Q := median (q_r c) (q_g c) (q_b c).
(** GLSL's [smoothstep]; its result is undefined unless [e0 < e1] (GLSL 4.60, 8.3). *)
Definition smoothstep (e0 e1 x : Q) : outcome Q :=
  if Qle_bool e1 e0 then UB
  else let t := Qmin (Qmax ((x - e0) / (e1 - e0)) 0) 1 in Ok (t * t * (3 - 2 * t)).
Section Msdf.
(** GLSL's [length]. *)
Variable length : Q -> Q -> Q.
(** sample/msdf_shader.hpp:45-46: the opacity, from the distance and its derivatives. *)
Definition opacity (dx dy sig : Q) : outcome Q :=
  let w := length dx dy in smoothstep ((1 # 2) - w) ((1 # 2) + w) sig.
(** [dFdx] and [dFdy] of a value known at all pixels: the differences inside the square of
    two by two pixels the pixel belongs to (GLSL 4.60, 8.14.1). *)
Definition dfdx (f : Z -> Z -> Q) (i j : Z) : Q := f (2 * (i / 2) + 1)%Z j - f (2 * (i / 2))%Z j.
Definition dfdy (f : Z -> Z -> Q) (i j : Z) : Q := f i (2 * (j / 2) + 1)%Z - f i (2 * (j / 2))%Z.
(** sample/msdf_shader.hpp:41-49; [st] is [v_texCoord] at every pixel. *)
Definition msdf_fragment (tx : texture) (color : rgba) (st : Z -> Z -> pt) (i j : Z) : outcome rgba :=
  let sig i j := sig_dist (sample tx (st i j)) in
  do o <- opacity (dfdx sig i j) (dfdy sig i j) (sig i j);
  Ok {| q_r := q_r color; q_g := q_g color; q_b := q_b color; q_a := q_a color * o |}.
End Msdf.
