(** Model of [draw_text]: the calls made to the visitor, in order.

    Coordinates are exact rationals as in [LayoutModel]; colours and strokes are
    those of the formatting tables.  The glyph and position counters are not
    wrapped at 2^32. *)
From Verif Require Import Base ValueRunsModel FloatModel ColorModel FormattingModel FormattingIterModel LayoutModel.
Open Scope Z_scope.

(** src/font_data.hpp [get_underline_position] and the like: what the font says. *)
Record metrics := { me_under_pos : Q; me_under_thick : Q; me_strike_pos : Q; me_strike_thick : Q }.

(** A call of the visitor of the first overload: font, glyph, x, y. *)
Definition plain_call : Type := Z * Z * Q * Q.

(** A call of the visitor of the second overload.  [DRect]: the flag says which of
    the two lines is drawn; the visitor is not told. *)
Inductive draw_call :=
| DRun (line run : nat)
| DStroke (font glyph : Z) (x y : Q) (s : stroke)
| DGlyph (font glyph : Z) (x y : Q) (c : color)
| DRect (strike : bool) (x y w h : Q) (c : color).

(** src/text_draw_util.hpp:22-30: the loop over the [n] glyphs of a run. *)
Fixpoint plain_glyphs (n : nat) (l : layout) (font : Z) (lineX lineY : Q) (g p : nat) : outcome (list plain_call) :=
  match n with
  | O => Ok []
  | S n' =>
      do pX <- vget (lo_pos l) p;
      do pY <- vget (lo_pos l) (p + 1);
      do id <- vget (lo_glyphs l) g;
      do rest <- plain_glyphs n' l font lineX lineY (g + 1) (p + 2);
      Ok ((font, id, (lineX + pX)%Q, (lineY + pY)%Q) :: rest)
  end.

(** src/text_draw_util.hpp:17-33: the callback of [for_each_run]; [g] and [p] are
    the counters kept across runs. *)
Fixpoint plain_runs (l : layout) (calls : list (nat * nat * Q * Q)) (g p : nat) : outcome (list plain_call) :=
  match calls with
  | [] => Ok []
  | (line, run, lineX, lineY) :: rest =>
      do r <- vget (lo_runs l) run;
      let n := (ru_glyph_end r - g)%nat in
      do here <- plain_glyphs n l (ru_font r) lineX lineY g p;
      do there <- plain_runs l rest (g + n) (p + 2 * n + 2);
      Ok (here ++ there)
  end.

(** src/text_draw_util.hpp:10-34 [draw_text] without formatting. *)
Definition draw_plain (l : layout) (areaWidth : Q) (align : xalign) : outcome (list plain_call) :=
  do calls <- for_each_run l areaWidth align; plain_runs l calls 0 0.

(** [stroke.color.a > 0.f]. *)
Definition stroke_visible (s : stroke) : bool := SFltb f32_0 (c_a (k_color s)).

(** [get_prev_color]: uninitialised before the first [advance_to]. *)
Definition prev_color (it : fiter) : outcome color := match fi_prev it with Some c => Ok c | None => UB end.

(** src/text_draw_util.hpp:56-93: the loop over the [n] glyphs of a run; the
    result carries the iterator and the starts of the two lines. *)
Fixpoint draw_glyphs (n : nat) (l : layout) (v : fmt_views) (m : metrics) (font : Z) (lineX lineY : Q) (g p : nat)
  (it : fiter) (uStart sStart : Q) : outcome (list draw_call * fiter * Q * Q) :=
  match n with
  | O => Ok ([], it, uStart, sStart)
  | S n' =>
      do pX <- vget (lo_pos l) p;
      do pY <- vget (lo_pos l) (p + 1);
      do id <- vget (lo_glyphs l) g;
      do c <- vget (lo_chars l) g;
      do (ev, it) <- fi_advance_to v it c;
      do st <- fi_stroke v it;
      do prev <- prev_color it;
      let strokeCall := if stroke_visible st then [DStroke font id (lineX + pX)%Q (lineY + pY)%Q st] else [] in
      let glyphCall := [DGlyph font id (lineX + pX)%Q (lineY + pY)%Q (fi_color it)] in
      let underCall :=
        if ev_under_end ev
        then [DRect false (lineX + uStart)%Q (lineY + me_under_pos m)%Q (pX - uStart)%Q (me_under_thick m + (1 # 2))%Q prev]
        else [] in
      let uStart := if ev_under_begin ev then pX else uStart in
      let strikeCall :=
        if ev_strike_end ev
        then [DRect true (lineX + sStart)%Q (lineY + me_strike_pos m)%Q (pX - sStart)%Q (me_strike_thick m + (1 # 2))%Q prev]
        else [] in
      let sStart := if ev_strike_begin ev then pX else sStart in
      do (rest, it, uStart, sStart) <- draw_glyphs n' l v m font lineX lineY (g + 1) (p + 2) it uStart sStart;
      Ok (strokeCall ++ glyphCall ++ underCall ++ strikeCall ++ rest, it, uStart, sStart)
  end.

Section Draw.
(** [FontRegistry::get_font_data]. *)
Variable font_metrics : Z -> metrics.

(** src/text_draw_util.hpp:45-112: the callback of [for_each_run]. *)
Fixpoint draw_runs (l : layout) (v : fmt_views) (calls : list (nat * nat * Q * Q)) (g p : nat) : outcome (list draw_call) :=
  match calls with
  | [] => Ok []
  | (line, run, lineX, lineY) :: rest =>
      do r <- vget (lo_runs l) run;
      let m := font_metrics (ru_font r) in
      do it <- fi_make v (if ru_rtl r then ru_end r else ru_start r);
      do start <- vget (lo_pos l) p;
      let n := (ru_glyph_end r - g)%nat in
      do (body, it, uStart, sStart) <- draw_glyphs n l v m (ru_font r) lineX lineY g p it start start;
      let p := (p + 2 * n)%nat in
      do strikeCall <-
        (if fi_strike it
         then do e <- vget (lo_pos l) p;
              Ok [DRect true (lineX + sStart)%Q (lineY + me_strike_pos m)%Q (e - sStart)%Q (me_strike_thick m + (1 # 2))%Q (fi_color it)]
         else Ok []);
      do underCall <-
        (if fi_under it
         then do e <- vget (lo_pos l) p;
              Ok [DRect false (lineX + uStart)%Q (lineY + me_under_pos m)%Q (e - uStart)%Q (me_under_thick m + (1 # 2))%Q (fi_color it)]
         else Ok []);
      do there <- draw_runs l v rest (g + n) (p + 2);
      Ok (DRun line run :: body ++ strikeCall ++ underCall ++ there)
  end.

(** src/text_draw_util.hpp:36-113 [draw_text] with formatting. *)
Definition draw_text (l : layout) (v : fmt_views) (areaWidth : Q) (align : xalign) : outcome (list draw_call) :=
  do calls <- for_each_run l areaWidth align; draw_runs l v calls 0 0.
End Draw.
