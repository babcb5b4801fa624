(** The boxes of a selection and the places of glyphs, in the single precision floats the
    program computes them with. *)
From Verif Require Import Base FloatModel LayoutModel FloatLayoutModel.
Open Scope Z_scope.

(** src/layout_info.cpp:326-339 [get_position_range_in_run]: the tables of [l] with the
    positions [ps] in place of [lo_pos l]. *)
Definition range_f (l : layout) (ps : list f32) (run : nat) (first last : Z) : outcome (f32 * f32) :=
  do r <- vget (lo_runs l) run;
  do a <- offset_in_run l ps run (Z.max (Z.min first (ru_end r)) (ru_start r));
  do b <- offset_in_run l ps run (Z.max (Z.min last (ru_end r)) (ru_start r));
  Ok (if ru_rtl r then (b, a) else (a, b)).

(** src/layout_info.cpp:366-369 [get_line_height]; [ts] holds the [totalDescent] of the lines. *)
Definition height_f (ts : list f32) (i : nat) : outcome f32 :=
  match i with
  | O => vget ts 0
  | S j => do t <- vget ts i; do u <- vget ts j; Ok (f32_sub t u)
  end.

(** src/layout_info.hpp:205-214 [for_each_line]: the calls (line, x, baseline y); [ws] holds
    the widths of the lines and [ascents] their ascents. *)
Fixpoint lines_f (n : nat) (ws ascents ts : list f32) (textWidth : f32) (align : xalign) (i : nat) (lineY : f32)
  : outcome (list (nat * f32 * f32)) :=
  match n with
  | O => Ok []
  | S n' =>
      do w <- vget ws i;
      do a <- vget ascents i;
      do h <- height_f ts i;
      do rest <- lines_f n' ws ascents ts textWidth align (S i) (f32_add lineY h);
      Ok ((i, line_start textWidth w align, f32_add lineY a) :: rest)
  end.

(** src/layout_info.hpp:216-225 [for_each_run]: the calls (line, run, x, y). *)
Fixpoint runs_f (l : layout) (calls : list (nat * f32 * f32)) (run : nat) : outcome (list (nat * nat * f32 * f32)) :=
  match calls with
  | [] => Ok []
  | (line, x, y) :: rest =>
      do e <- get_line_run_end_index l line;
      do calls <- runs_f l rest (Nat.max run e);
      Ok (map (fun r => (line, r, x, y)) (seq run (e - run)) ++ calls)
  end.
Definition visits_f (l : layout) (ws ascents ts : list f32) (textWidth : f32) (align : xalign) (startY : f32)
  : outcome (list (nat * nat * f32 * f32)) :=
  do calls <- lines_f (length (lo_lines l)) ws ascents ts textWidth align 0 startY; runs_f l calls 0.

(** sample/ui_container.cpp:121-123: the rectangle given to [emit_rect]. *)
Record fbox := { fb_x : f32; fb_y : f32; fb_w : f32; fb_h : f32 }.
Definition box_f (px py lineX lineY ascent lo hi h : f32) : fbox :=
  {| fb_x := f32_add (f32_add px lineX) lo; fb_y := f32_sub (f32_add py lineY) ascent; fb_w := f32_sub hi lo; fb_h := h |}.

(** sample/ui_container.cpp:115-125: the boxes behind the selected part of each run. *)
Fixpoint boxes_f (l : layout) (ps ascents ts : list f32) (px py : f32) (s e : Z) (calls : list (nat * nat * f32 * f32)) : outcome (list fbox) :=
  match calls with
  | [] => Ok []
  | (line, run, lineX, lineY) :: calls =>
      do here <-
        (do inside <- run_contains_char_range l run s e;
         if inside then
           do (lo, hi) <- range_f l ps run s e;
           do a <- vget ascents line;
           do h <- height_f ts line;
           Ok [box_f px py lineX lineY a lo hi h]
         else Ok []);
      do rest <- boxes_f l ps ascents ts px py s e calls;
      Ok (here ++ rest)
  end.
Definition select_f (l : layout) (ps ws ascents ts : list f32) (textWidth : f32) (align : xalign) (startY px py : f32) (s e : Z) : outcome (list fbox) :=
  do calls <- visits_f l ws ascents ts textWidth align startY; boxes_f l ps ascents ts px py s e calls.

(** src/text_draw_util.hpp:56-70, sample/ui_container.cpp:163-165: where the origin of a glyph is
    put, before the offset of its picture is added: glyphs [n], the first of which has its
    position at [p]. *)
Fixpoint glyph_spots (ps : list f32) (px py lineX lineY : f32) (p n : nat) : outcome (list (f32 * f32)) :=
  match n with
  | O => Ok []
  | S n' =>
      do x <- vget ps p;
      do y <- vget ps (p + 1);
      do rest <- glyph_spots ps px py lineX lineY (p + 2) n';
      Ok ((f32_add px (f32_add lineX x), f32_add py (f32_add lineY y)) :: rest)
  end.
(** src/text_draw_util.hpp:45-112: the counters [g] and [p] go on from run to run. *)
Fixpoint run_spots (l : layout) (ps : list f32) (px py : f32) (calls : list (nat * nat * f32 * f32)) (g p : nat) : outcome (list (list (f32 * f32))) :=
  match calls with
  | [] => Ok []
  | (_, run, lineX, lineY) :: calls =>
      do r <- vget (lo_runs l) run;
      let n := (ru_glyph_end r - g)%nat in
      do here <- glyph_spots ps px py lineX lineY p n;
      do rest <- run_spots l ps px py calls (g + n) (p + 2 * n + 2);
      Ok (here :: rest)
  end.
Definition spots_f (l : layout) (ps ws ascents ts : list f32) (textWidth : f32) (align : xalign) (startY px py : f32) : outcome (list (list (f32 * f32))) :=
  do calls <- visits_f l ws ascents ts textWidth align startY; run_spots l ps px py calls 0 0.
