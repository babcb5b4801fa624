(** Model of what the sample program draws for a laid out text: the box behind a
    selection, glyphs, strokes, lines, and the caret of a text box.

    Coordinates are exact rationals as in [LayoutModel], [DrawModel] and [ClipModel]. *)
From Coq Require Export QArith.
From Verif Require Import Base PackingModel FloatModel ColorModel FormattingModel FormattingIterModel LayoutModel DrawModel ClipModel.
Open Scope Z_scope.

(** sample/pipeline.hpp: the programs used here. *)
Inductive pipe := PRect | PMsdf | POutline.
(** sample/config_vars.hpp:5-8. *)
Record cvars := { cv_msdf : bool; cv_glyph_outlines : bool; cv_run_outlines : bool; cv_boundaries : bool }.
(** What [get_glyph_info] and [get_stroke_info] of the atlas in use say: the texture (none:
    a null pointer), its part, the size and the offset of the picture, whether it has its
    own colours. *)
Record picture := {
  pi_image : option Z; pi_u : Q; pi_v : Q; pi_uw : Q; pi_vh : Q; pi_w : Q; pi_h : Q; pi_dx : Q; pi_dy : Q; pi_colored : bool
}.
(** A call of sample/ui_container.cpp:386-410 [draw_rect_internal] that draws. *)
Record drawn := { dr_rect : rect; dr_image : Z; dr_color : color; dr_pipe : pipe }.

(** [{1.f, 1.f, 1.f, 1.f}], [{0, 0.5f, 0, 1}], [Color::from_rgb(0, 120, 215)] and [{0, 0, 0, 1}]. *)
Definition white : color := {| c_r := f32_1; c_g := f32_1; c_b := f32_1; c_a := f32_1 |}.
Definition green : color := {| c_r := f32_0; c_g := f32_div f32_1 (f32_of_Z 2); c_b := f32_0; c_a := f32_1 |}.
Definition blue : color := from_rgb (f32_of_Z 0) (f32_of_Z 120) (f32_of_Z 215) f32_255.
Definition caret_color : color := {| c_r := f32_0; c_g := f32_0; c_b := f32_0; c_a := f32_1 |}.

(** sample/ui_container.cpp:16-65 [emit_rect] with 386-391: no texture, nothing drawn. *)
Definition emit (x y w h u v uw vh : Q) (image : option Z) (c : color) (p : pipe) (clip : option (Q * Q)) : list drawn :=
  match image with
  | None => []
  | Some t => map (fun r => {| dr_rect := r; dr_image := t; dr_color := if r_white r then white else c; dr_pipe := p |})
                (emit_rect x y w h u v uw vh clip)
  end.

Section Screen.
Variable vars : cvars.
(** The atlas in use: pictures of glyphs and of strokes; the default texture. *)
Variable glyph_info : Z -> Z -> picture.
Variable stroke_info : Z -> Z -> Z -> stroke_type -> picture.
Variable plain : Z.
(** [FontRegistry::get_font_data]. *)
Variable font_metrics : Z -> metrics.

(** sample/ui_container.cpp:67-71 [emit_rect] without a texture. *)
Definition emit_plain (x y w h : Q) (c : color) (p : pipe) (clip : option (Q * Q)) : list drawn :=
  emit x y w h 0 0 1 1 (Some plain) c p clip.
Definition text_pipe : pipe := if cv_msdf vars then PMsdf else PRect.

(** sample/ui_container.cpp:115-125: the boxes behind the selected part of each run. *)
Fixpoint highlight (l : layout) (px py : Q) (s e : Z) (calls : list (nat * nat * Q * Q)) : outcome (list drawn) :=
  match calls with
  | [] => Ok []
  | (line, run, lineX, lineY) :: calls =>
      do here <-
        (do inside <- run_contains_char_range l run s e;
         if inside then
           do (a, b) <- get_position_range_in_run l run s e;
           do li <- vget (lo_lines l) line;
           do h <- get_line_height l line;
           Ok (emit_plain (px + lineX + a)%Q (py + lineY - li_ascent li)%Q (b - a)%Q h blue PRect None)
         else Ok []);
      do rest <- highlight l px py s e calls;
      Ok (here ++ rest)
  end.

(** sample/ui_container.cpp:135-149: the callback for a run: the range under which its glyphs
    are white. *)
Definition run_clip (l : layout) (px : Q) (sel : option (Z * Z)) (run : nat) : outcome (option (Q * Q)) :=
  match sel with
  | None => Ok None
  | Some (s, e) =>
      do inside <- run_contains_char_range l run s e;
      if inside then do (a, b) <- get_position_range_in_run l run s e; Ok (Some ((a + px)%Q, (b + px)%Q))
      else Ok None
  end.

(** A picture at a position: sample/ui_container.cpp:163-165 and 185-187. *)
Definition put (i : picture) (x y : Q) (c : color) (clip : option (Q * Q)) : list drawn :=
  emit (x + pi_dx i)%Q (y + pi_dy i)%Q (pi_w i) (pi_h i) (pi_u i) (pi_v i) (pi_uw i) (pi_vh i) (pi_image i) c text_pipe clip.
(** sample/ui_container.cpp:151-192: the callbacks for glyphs, strokes and rectangles. *)
Fixpoint paint (l : layout) (px py : Q) (sel : option (Z * Z)) (clip : option (Q * Q)) (calls : list draw_call) : outcome (list drawn) :=
  match calls with
  | [] => Ok []
  | DRun _ run :: calls => do clip <- run_clip l px sel run; paint l px py sel clip calls
  | DGlyph font g x y c :: calls =>
      let i := glyph_info font g in
      let here := put i (px + x)%Q (py + y)%Q (if pi_colored i then white else c) clip in
      let frame := if cv_glyph_outlines vars
                   then emit_plain (px + x + pi_dx i)%Q (py + y + pi_dy i)%Q (pi_w i) (pi_h i) green POutline None else [] in
      do rest <- paint l px py sel clip calls;
      Ok (here ++ frame ++ rest)
  | DStroke font g x y s :: calls =>
      do rest <- paint l px py sel clip calls;
      Ok (put (stroke_info font g (k_thickness s) (k_joins s)) (px + x)%Q (py + y)%Q (k_color s) None ++ rest)
  | DRect _ x y w h c :: calls =>
      do rest <- paint l px py sel clip calls;
      Ok (emit_plain (px + x)%Q (py + y)%Q w h c PRect clip ++ rest)
  end.

(** sample/ui_container.cpp:195-220: outlines of runs, borders of glyphs. *)
Fixpoint run_outlines (l : layout) (px py : Q) (calls : list (nat * nat * Q * Q)) : outcome (list drawn) :=
  match calls with
  | [] => Ok []
  | (line, run, lineX, lineY) :: calls =>
      do base <- get_first_position_index l run;
      do n <- get_run_glyph_count l run;
      do a <- vget (lo_pos l) base;
      do b <- vget (lo_pos l) (base + 2 * n);
      do li <- vget (lo_lines l) line;
      do h <- get_line_height l line;
      do rest <- run_outlines l px py calls;
      Ok (emit_plain (px + lineX + a)%Q (py + lineY - li_ascent li)%Q (b - a)%Q h green POutline None ++ rest)
  end.
Fixpoint borders (l : layout) (px py lineX top h : Q) (base i : nat) (n : nat) : outcome (list drawn) :=
  do a <- vget (lo_pos l) (base + 2 * i);
  let here := emit_plain (px + lineX + a)%Q top (1 # 2) h green POutline None in
  match n with
  | O => Ok here
  | S n => do rest <- borders l px py lineX top h base (S i) n; Ok (here ++ rest)
  end.
Fixpoint glyph_borders (l : layout) (px py : Q) (calls : list (nat * nat * Q * Q)) : outcome (list drawn) :=
  match calls with
  | [] => Ok []
  | (line, run, lineX, lineY) :: calls =>
      do base <- get_first_position_index l run;
      do n <- get_run_glyph_count l run;
      do li <- vget (lo_lines l) line;
      do h <- get_line_height l line;
      do here <- borders l px py lineX (py + lineY - li_ascent li)%Q h base 0 n;
      do rest <- glyph_borders l px py calls;
      Ok (here ++ rest)
  end.

(** sample/ui_container.cpp:102-113: the selection in order; none when its start is invalid. *)
Definition selection (anchor cursor : Z) : option (Z * Z) :=
  if cp_is_valid anchor then
    let s := cp_get_position anchor in
    let e := cp_get_position cursor in
    Some (if e <? s then (e, s) else (s, e))
  else None.
(** sample/ui_container.cpp:99-221 [draw_text] with formatting. *)
Definition draw_formatted (l : layout) (v : fmt_views) (px py w : Q) (a : xalign) (anchor cursor : Z) : outcome (list drawn) :=
  let sel := selection anchor cursor in
  do runs <- for_each_run l w a;
  do boxes <- (match sel with Some (s, e) => highlight l px py s e runs | None => Ok [] end);
  do calls <- draw_text font_metrics l v w a;
  do text <- paint l px py sel None calls;
  do outlines <- (if cv_run_outlines vars then run_outlines l px py runs else Ok []);
  do marks <- (if cv_boundaries vars then glyph_borders l px py runs else Ok []);
  Ok (boxes ++ text ++ outlines ++ marks).

(** sample/ui_container.cpp:73-97 [draw_text] without formatting. *)
Definition draw_unformatted (l : layout) (px py w : Q) (a : xalign) (c : color) : outcome (list drawn) :=
  do calls <- draw_plain l w a;
  Ok (flat_map (fun '(font, g, x, y) =>
        let i := glyph_info font g in
        put i (px + x)%Q (py + y)%Q (if pi_colored i then white else c) None ++
        (if cv_glyph_outlines vars
         then emit_plain (px + x + pi_dx i)%Q (py + y + pi_dy i)%Q (pi_w i) (pi_h i) green POutline None else [])) calls).

(** sample/text_box.cpp:192-203 [render]: the text, then the caret in a focused box while the
    number of the flash is even; [caret] is [m_visualCursorInfo]. *)
Definition render_box (l : layout) (v : fmt_views) (px py w : Q) (a : xalign) (anchor cursor : Z)
    (focused : bool) (flash : Z) (caret : cursor_info) : outcome (list drawn) :=
  do text <- draw_formatted l v px py w a anchor cursor;
  Ok (text ++ (if focused && Z.even flash
               then emit_plain (px + ci_x caret)%Q (py + ci_y caret)%Q 1 (ci_height caret) caret_color PRect None else [])).
End Screen.
