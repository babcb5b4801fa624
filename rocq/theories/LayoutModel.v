(** Model of [LayoutInfo]: construction and queries.

    Coordinates ([float] in the source) are exact rationals: rounding, infinities
    and NaN are not modelled.  Character indices are [Z] with the 32-bit unsigned
    wrap-around of the source where a subtraction can wrap; glyph, run and line
    indices are [nat].  Fonts are opaque handles. *)
From Coq Require Export QArith.
From Verif Require Import Base BinarySearchModel PackingModel.
Open Scope Z_scope.

Definition qltb (a b : Q) : bool := negb (Qle_bool b a).

(** src/layout_info.hpp:174-181 [VisualRun]. *)
Record vrun := {
  ru_font : Z;
  ru_glyph_end : nat;
  ru_start : Z;
  ru_end : Z;
  ru_offset : Z;
  ru_rtl : bool
}.

(** src/layout_info.hpp:183-190 [LineInfo]. *)
Record line_info := {
  li_run_end : nat;
  li_width : Q;
  li_ascent : Q;
  li_descent : Q
}.

(** src/layout_info.hpp:192-197.  [lo_pos] is the flat array x0 y0 x1 y1 ... *)
Record layout := {
  lo_runs : list vrun;
  lo_lines : list line_info;
  lo_glyphs : list Z;
  lo_chars : list Z;
  lo_pos : list Q;
  lo_start_y : Q
}.

Definition lo_empty : layout :=
  {| lo_runs := []; lo_lines := []; lo_glyphs := []; lo_chars := []; lo_pos := []; lo_start_y := 0%Q |}.

(** src/layout_info.cpp:20-26 [clear]: the vertical start is kept. *)
Definition lo_clear (l : layout) : layout :=
  {| lo_runs := []; lo_lines := []; lo_glyphs := []; lo_chars := []; lo_pos := []; lo_start_y := lo_start_y l |}.

(** src/layout_info.cpp:32-34 [append_glyph]. *)
Definition append_glyph (l : layout) (g : Z) : layout :=
  {| lo_runs := lo_runs l; lo_lines := lo_lines l; lo_glyphs := lo_glyphs l ++ [g];
     lo_chars := lo_chars l; lo_pos := lo_pos l; lo_start_y := lo_start_y l |}.
(** src/layout_info.cpp:36-38 [append_char_index]. *)
Definition append_char_index (l : layout) (c : Z) : layout :=
  {| lo_runs := lo_runs l; lo_lines := lo_lines l; lo_glyphs := lo_glyphs l;
     lo_chars := lo_chars l ++ [c]; lo_pos := lo_pos l; lo_start_y := lo_start_y l |}.
(** src/layout_info.cpp:40-43 [append_glyph_position]. *)
Definition append_glyph_position (l : layout) (x y : Q) : layout :=
  {| lo_runs := lo_runs l; lo_lines := lo_lines l; lo_glyphs := lo_glyphs l;
     lo_chars := lo_chars l; lo_pos := lo_pos l ++ [x; y]; lo_start_y := lo_start_y l |}.
(** src/layout_info.cpp:45-54 [append_run]; [charEndOffset] is zero-initialised. *)
Definition append_run (l : layout) (font start end_ : Z) (rtl : bool) : layout :=
  {| lo_runs := lo_runs l ++ [{| ru_font := font; ru_glyph_end := length (lo_glyphs l);
                                 ru_start := start; ru_end := end_; ru_offset := 0; ru_rtl := rtl |}];
     lo_lines := lo_lines l; lo_glyphs := lo_glyphs l;
     lo_chars := lo_chars l; lo_pos := lo_pos l; lo_start_y := lo_start_y l |}.

(** [m_lines.empty() ? height : m_lines.back().totalDescent + height]. *)
Definition next_descent (lines : list line_info) (height : Q) : Q :=
  match rev lines with
  | [] => height
  | li :: _ => (li_descent li + height)%Q
  end.

(** src/layout_info.cpp:56-66 [append_line].  With no run at all the index
    [size() - 1] wraps and the access is undefined. *)
Definition append_line (l : layout) (height ascent : Q) : outcome layout :=
  do r <- vback (lo_runs l);
  do width <- vget (lo_pos l) (2 * (ru_glyph_end r + (length (lo_runs l) - 1)));
  Ok {| lo_runs := lo_runs l;
        lo_lines := lo_lines l ++ [{| li_run_end := length (lo_runs l); li_width := width; li_ascent := ascent;
                                      li_descent := next_descent (lo_lines l) height |}];
        lo_glyphs := lo_glyphs l; lo_chars := lo_chars l; lo_pos := lo_pos l; lo_start_y := lo_start_y l |}.

(** src/layout_info.cpp:68-86 [append_empty_line]. *)
Definition append_empty_line (l : layout) (font charIndex : Z) (height ascent : Q) : layout :=
  let glyphEnd := match rev (lo_runs l) with [] => O | r :: _ => ru_glyph_end r end in
  let runs := lo_runs l ++ [{| ru_font := font; ru_glyph_end := glyphEnd; ru_start := charIndex;
                               ru_end := charIndex; ru_offset := 0; ru_rtl := false |}] in
  {| lo_runs := runs;
     lo_lines := lo_lines l ++ [{| li_run_end := length runs; li_width := 0%Q; li_ascent := ascent;
                                   li_descent := next_descent (lo_lines l) height |}];
     lo_glyphs := lo_glyphs l; lo_chars := lo_chars l; lo_pos := lo_pos l ++ [0%Q; 0%Q]; lo_start_y := lo_start_y l |}.

(** src/layout_info.cpp:88-90 [set_run_char_end_offset]. *)
Definition set_run_char_end_offset (l : layout) (runIndex : nat) (offset : Z) : outcome layout :=
  do r <- vget (lo_runs l) runIndex;
  do runs <- vset (lo_runs l) runIndex
    {| ru_font := ru_font r; ru_glyph_end := ru_glyph_end r; ru_start := ru_start r; ru_end := ru_end r;
       ru_offset := offset; ru_rtl := ru_rtl r |};
  Ok {| lo_runs := runs; lo_lines := lo_lines l; lo_glyphs := lo_glyphs l;
        lo_chars := lo_chars l; lo_pos := lo_pos l; lo_start_y := lo_start_y l |}.

(** src/layout_info.cpp:92-94 [set_text_start_y]. *)
Definition set_text_start_y (l : layout) (y : Q) : layout :=
  {| lo_runs := lo_runs l; lo_lines := lo_lines l; lo_glyphs := lo_glyphs l;
     lo_chars := lo_chars l; lo_pos := lo_pos l; lo_start_y := y |}.

(** ** Index queries *)

(** src/layout_info.cpp:346-348 [get_first_run_index]. *)
Definition get_first_run_index (l : layout) (line : nat) : outcome nat :=
  match line with O => Ok O | S j => omap li_run_end (vget (lo_lines l) j) end.
(** src/layout_info.cpp:350-352 [get_first_glyph_index]. *)
Definition get_first_glyph_index (l : layout) (run : nat) : outcome nat :=
  match run with O => Ok O | S j => omap ru_glyph_end (vget (lo_runs l) j) end.
(** src/layout_info.cpp:354-356 [get_first_position_index]. *)
Definition get_first_position_index (l : layout) (run : nat) : outcome nat :=
  match run with O => Ok O | S j => omap (fun r => (2 * (ru_glyph_end r + run))%nat) (vget (lo_runs l) j) end.
(** src/layout_info.cpp:358-360, 383-385, 407-409. *)
Definition get_line_run_end_index (l : layout) (line : nat) : outcome nat := omap li_run_end (vget (lo_lines l) line).
Definition get_run_glyph_end_index (l : layout) (run : nat) : outcome nat := omap ru_glyph_end (vget (lo_runs l) run).
Definition get_run_glyph_count (l : layout) (run : nat) : outcome nat :=
  do e <- get_run_glyph_end_index l run; do f <- get_first_glyph_index l run; Ok (e - f)%nat.

(** ** Geometry queries *)

(** src/layout_info.cpp:366-369 [get_line_height]. *)
Definition get_line_height (l : layout) (line : nat) : outcome Q :=
  do li <- vget (lo_lines l) line;
  match line with
  | O => Ok (li_descent li)
  | S j => do p <- vget (lo_lines l) j; Ok (li_descent li - li_descent p)%Q
  end.
(** src/layout_info.cpp:362-364, 371-377. *)
Definition get_line_width (l : layout) (line : nat) : outcome Q := omap li_width (vget (lo_lines l) line).
Definition get_line_total_descent (l : layout) (line : nat) : outcome Q := omap li_descent (vget (lo_lines l) line).

(** src/text_alignment.hpp:7-11. *)
Inductive xalign := XLeft | XRight | XCenter.

(** src/layout_info.cpp:192-205 [get_line_x_start]. *)
Definition get_line_x_start (l : layout) (line : nat) (textWidth : Q) (align : xalign) : outcome Q :=
  do w <- get_line_width l line;
  Ok (match align with
      | XLeft => 0
      | XRight => textWidth - w
      | XCenter => (1 # 2) * (textWidth - w)
      end)%Q.

(** src/layout_info.cpp:431-441 [get_text_width]. *)
Definition get_text_width (l : layout) : Q :=
  fold_left (fun w li => if qltb w (li_width li) then li_width li else w) (lo_lines l) 0%Q.
(** src/layout_info.cpp:443-445 [get_text_height]. *)
Definition get_text_height (l : layout) : Q :=
  match rev (lo_lines l) with [] => 0%Q | li :: _ => li_descent li end.

(** src/text_alignment.hpp:13-17; src/layout_builder.cpp:236-238: the vertical
    start given to [set_text_start_y]. *)
Inductive yalign := YTop | YCenter | YBottom.
Definition yalign_value (a : yalign) : Q := match a with YTop => 0 | YCenter => 1 | YBottom => 2 end%Q.
Definition aligned_start_y (align : yalign) (areaHeight totalHeight : Q) : Q :=
  (yalign_value align * (areaHeight - totalHeight) * (1 # 2))%Q.

(** src/layout_info.hpp:205-214 [for_each_line]: the calls (line, x, baseline y). *)
Fixpoint for_each_line_loop (n : nat) (l : layout) (textWidth : Q) (align : xalign) (i : nat) (lineY : Q)
  : outcome (list (nat * Q * Q)) :=
  match n with
  | O => Ok []
  | S n' =>
      do x <- get_line_x_start l i textWidth align;
      do li <- vget (lo_lines l) i;
      do h <- get_line_height l i;
      do rest <- for_each_line_loop n' l textWidth align (S i) (lineY + h)%Q;
      Ok ((i, x, (lineY + li_ascent li)%Q) :: rest)
  end.
Definition for_each_line (l : layout) (textWidth : Q) (align : xalign) : outcome (list (nat * Q * Q)) :=
  for_each_line_loop (length (lo_lines l)) l textWidth align 0 (lo_start_y l).

(** src/layout_info.hpp:216-225 [for_each_run]: the calls (line, run, x, y). *)
Fixpoint for_each_run_loop (l : layout) (calls : list (nat * Q * Q)) (run : nat) : outcome (list (nat * nat * Q * Q)) :=
  match calls with
  | [] => Ok []
  | (line, x, y) :: rest =>
      do e <- get_line_run_end_index l line;
      do calls <- for_each_run_loop l rest (Nat.max run e);
      Ok (map (fun r => (line, r, x, y)) (seq run (e - run)) ++ calls)
  end.
Definition for_each_run (l : layout) (textWidth : Q) (align : xalign) : outcome (list (nat * nat * Q * Q)) :=
  do calls <- for_each_line l textWidth align; for_each_run_loop l calls 0.

(** src/layout_info.cpp:146-150 [get_closest_line_to_height]. *)
Definition get_closest_line_to_height (l : layout) (y : Q) : outcome nat :=
  binary_search 0 (length (lo_lines l))
    (fun i => do li <- vget (lo_lines l) i; Ok (qltb (li_descent li) y)).

(** ** Cursor to run *)

(** src/layout_info.cpp:527-535 [affinity_prefer_prev_run]. *)
Definition affinity_prefer_prev_run (atLineBreak atSoftLineBreak prevRTL nextRTL : bool) (a : affinity) : bool :=
  (atSoftLineBreak && affinity_eqb a AOpposite)
  || (negb atLineBreak && prevRTL && negb nextRTL && affinity_eqb a ADefault)
  || (negb atLineBreak && negb prevRTL && nextRTL && affinity_eqb a AOpposite).

(** src/layout_info.cpp:116-141: the loop from run [i]; [None] when it falls through.
    The sum of end index and offset is not wrapped (a text has fewer than 2^31 bytes). *)
Fixpoint cursor_loop (fuel : nat) (l : layout) (pos : Z) (a : affinity) (i line : nat) : outcome (option nat * nat) :=
  if (i <? length (lo_runs l))%nat then
    match fuel with
    | O => OutOfFuel
    | S fuel' =>
        do li <- vget (lo_lines l) line;
        let line := if (i =? li_run_end li)%nat then S line else line in
        do run <- vget (lo_runs l) i;
        do li <- vget (lo_lines l) line;
        let hasNext := (i + 1 <? length (lo_runs l))%nat in
        let beforeBreak := hasNext && (i + 1 =? li_run_end li)%nat in
        let afterBreak := (i =? li_run_end li)%nat in
        let beforeSoft := beforeBreak && (ru_offset run =? 0) in
        do afterSoft <- (if afterBreak && (0 <? i)%nat
                         then do p <- vget (lo_runs l) (i - 1); Ok (ru_offset p =? 0) else Ok false);
        do usePrevEnd <- (if (0 <? i)%nat
                          then do p <- vget (lo_runs l) (i - 1);
                               Ok (affinity_prefer_prev_run afterBreak afterSoft (ru_rtl p) (ru_rtl run) a)
                          else Ok false);
        do useNextStart <- (if hasNext
                            then do q <- vget (lo_runs l) (i + 1);
                                 Ok (negb (affinity_prefer_prev_run beforeBreak beforeSoft (ru_rtl run) (ru_rtl q) a))
                            else Ok false);
        let ignoreStart := (pos =? ru_start run) && usePrevEnd in
        let ignoreEnd := (pos =? ru_end run + ru_offset run) && useNextStart in
        if (ru_start run <=? pos) && (pos <=? ru_end run + ru_offset run) && negb ignoreStart && negb ignoreEnd
        then Ok (Some i, line)
        else cursor_loop fuel' l pos a (S i) line
    end
  else Ok (None, line).

(** src/layout_info.cpp:111-144 [get_run_containing_cursor]: run and line.  On an
    empty layout the result is [size() - 1] = 2^64 - 1, given as -1 here. *)
Definition get_run_containing_cursor (l : layout) (cursor : Z) : outcome (Z * nat) :=
  do (r, line) <- cursor_loop (length (lo_runs l)) l (cp_get_position cursor) (cp_get_affinity cursor) 0 0;
  Ok (match r with Some i => Z.of_nat i | None => Z.of_nat (length (lo_runs l)) - 1 end, line).

(** ** Caret offsets *)

(** src/layout_info.cpp:467-494 [get_glyph_offset_ltr]. *)
Definition get_glyph_offset_ltr (l : layout) (run : nat) (cursor : Z) : outcome Q :=
  do first <- get_first_glyph_index l run;
  do r <- vget (lo_runs l) run;
  let last := ru_glyph_end r in
  do firstPos <- get_first_position_index l run;
  do g <- binary_search first (last - first) (fun i => do c <- vget (lo_chars l) i; Ok (c <? cursor));
  do next <- (if (g =? last)%nat then Ok (ru_end r) else vget (lo_chars l) g);
  let clusterDiff := wrap32 (next - cursor) in
  do off <- vget (lo_pos l) (firstPos + 2 * (g - first));
  if (0 <? clusterDiff) && (0 <? g)%nat then
    do prevChar <- vget (lo_chars l) (g - 1);
    let count := wrap32 (next - prevChar) in
    do prev <- zget (lo_pos l) (Z.of_nat firstPos + 2 * (Z.of_nat g - Z.of_nat first - 1));
    let scale := (inject_Z (wrap32 (count - clusterDiff)) / inject_Z count)%Q in
    Ok (prev + (off - prev) * scale)%Q
  else Ok off.

(** src/layout_info.cpp:496-523 [get_glyph_offset_rtl]. *)
Definition get_glyph_offset_rtl (l : layout) (run : nat) (cursor : Z) : outcome Q :=
  do first <- get_first_glyph_index l run;
  do r <- vget (lo_runs l) run;
  let last := ru_glyph_end r in
  do firstPos <- get_first_position_index l run;
  do g <- binary_search first (last - first) (fun i => do c <- vget (lo_chars l) i; Ok (cursor <=? c));
  do next <- (if (g =? first)%nat then Ok (ru_end r) else vget (lo_chars l) (g - 1));
  let clusterDiff := wrap32 (next - cursor) in
  do off <- vget (lo_pos l) (firstPos + 2 * (g - first));
  if (0 <? clusterDiff) && (g <? last)%nat then
    do nextChar <- vget (lo_chars l) g;
    let count := wrap32 (next - nextChar) in
    do prev <- vget (lo_pos l) (firstPos + 2 * (g - first + 1));
    let scale := (inject_Z (wrap32 (count - clusterDiff)) / inject_Z count)%Q in
    Ok (prev + (off - prev) * scale)%Q
  else Ok off.

(** src/layout_info.cpp:341-344 [get_glyph_offset_in_run]. *)
Definition get_glyph_offset_in_run (l : layout) (run : nat) (cursor : Z) : outcome Q :=
  do r <- vget (lo_runs l) run;
  if ru_rtl r then get_glyph_offset_rtl l run cursor else get_glyph_offset_ltr l run cursor.

(** src/layout_info.cpp:320-324 [run_contains_char_range]. *)
Definition run_contains_char_range (l : layout) (run : nat) (first last : Z) : outcome bool :=
  do r <- vget (lo_runs l) run; Ok ((ru_start r <? last) && (first <? ru_end r)).

(** src/layout_info.cpp:326-339 [get_position_range_in_run]. *)
Definition get_position_range_in_run (l : layout) (run : nat) (first last : Z) : outcome (Q * Q) :=
  do r <- vget (lo_runs l) run;
  do a <- get_glyph_offset_in_run l run (Z.max (Z.min first (ru_end r)) (ru_start r));
  do b <- get_glyph_offset_in_run l run (Z.max (Z.min last (ru_end r)) (ru_start r));
  Ok (if ru_rtl r then (b, a) else (a, b)).

(** src/layout_info.hpp:38-43, src/layout_info.cpp:96-109 [calc_cursor_pixel_pos]. *)
Record cursor_info := { ci_x : Q; ci_y : Q; ci_height : Q; ci_line : nat }.
Definition calc_cursor_pixel_pos (l : layout) (textWidth : Q) (align : xalign) (cursor : Z) : outcome cursor_info :=
  do (run, line) <- get_run_containing_cursor l cursor;
  do lineX <- get_line_x_start l line textWidth align;
  do off <- (if run <? 0 then UB else get_glyph_offset_in_run l (Z.to_nat run) (cp_get_position cursor));
  do above <- (match line with O => Ok 0%Q | S j => get_line_total_descent l j end);
  do total <- get_line_total_descent l line;
  Ok {| ci_x := (lineX + off)%Q; ci_y := (lo_start_y l + above)%Q; ci_height := (total - above)%Q; ci_line := line |}.

(** ** Line start and end *)

(** src/layout_info.cpp:160-165 and 179-184: the run of [i, i + n) that is best
    with respect to [better new old] on the end indices, starting from [best]. *)
Fixpoint best_run (n : nat) (l : layout) (better : Z -> Z -> bool) (i best : nat) (bestEnd : Z) : outcome nat :=
  match n with
  | O => Ok best
  | S n' =>
      do r <- vget (lo_runs l) i;
      if better (ru_end r) bestEnd then best_run n' l better (S i) i (ru_end r)
      else best_run n' l better (S i) best bestEnd
  end.

(** src/layout_info.cpp:14-16 [make_cursor]. *)
Definition make_cursor (pos : Z) (opposite : bool) : Z := Z.lor (wrap32 pos) (if opposite then 2 ^ 31 else 0).

(** src/layout_info.cpp:152-169 [get_line_start_position]. *)
Definition get_line_start_position (l : layout) (line : nat) : outcome Z :=
  match lo_lines l with
  | [] => Ok 0
  | _ =>
      do first <- get_first_run_index l line;
      do r <- vget (lo_runs l) first;
      do e <- get_line_run_end_index l line;
      do b <- best_run (e - S first) l (fun new old => new <? old) (S first) first (ru_end r);
      do r <- vget (lo_runs l) b;
      Ok (cp_make (if ru_rtl r then ru_end r else ru_start r))
  end.

(** src/layout_info.cpp:171-190 [get_line_end_position]. *)
Definition get_line_end_position (l : layout) (line : nat) : outcome Z :=
  match lo_lines l with
  | [] => Ok 0
  | _ =>
      do first <- get_first_run_index l line;
      do r <- vget (lo_runs l) first;
      do e <- get_line_run_end_index l line;
      do b <- best_run (e - S first) l (fun new old => old <? new) (S first) first (ru_end r);
      do r <- vget (lo_runs l) b;
      Ok (make_cursor (if ru_rtl r then ru_start r else ru_end r) ((b =? e - 1)%nat && (ru_offset r =? 0)))
  end.

(** ** Hit testing *)
Section HitTest.
(** [icu::BreakIterator::following]: the next boundary, or -1 when there is none. *)
Variable following : Z -> Z.

(** src/layout_info.cpp:283-315: the walk over the caret stops of a cluster.
    [nextCharIndex] is an [int32_t] mixed with unsigned values: -1 counts as 2^32 - 1.
    Boundaries increase, so at most [endChar - startChar] + 1 steps are made. *)
Fixpoint cluster_walk (fuel : nat) (r : vrun) (startChar endChar : Z) (startPos endPos : Q) (firstAff lastAff : bool)
  (cursorX : Q) (currChar : Z) (currPos : Q) : outcome Z :=
  match fuel with
  | O => OutOfFuel
  | S fuel' =>
      let nextChar := wrap32 (following currChar) in
      let nextPos := (startPos + inject_Z (wrap32 (nextChar - startChar)) / inject_Z (wrap32 (endChar - startChar))
                                 * (endPos - startPos))%Q in
      if ru_rtl r && qltb nextPos cursorX && Qle_bool cursorX currPos then
        let sel := if qltb (cursorX - nextPos) (currPos - cursorX) then nextChar else currChar in
        Ok (make_cursor sel ((sel =? ru_end r) && firstAff || (sel =? ru_start r) && lastAff))
      else if negb (ru_rtl r) && qltb currPos cursorX && Qle_bool cursorX nextPos then
        let sel := if qltb (nextPos - cursorX) (cursorX - currPos) then nextChar else currChar in
        Ok (make_cursor sel ((sel =? ru_start r) && firstAff || (sel =? ru_end r) && lastAff))
      else if endChar <=? nextChar then Ok (cp_make startChar)
      else cluster_walk fuel' r startChar endChar startPos endPos firstAff lastAff cursorX nextChar nextPos
  end.

(** src/layout_info.cpp:207-318 [find_closest_cursor_position]. *)
Definition find_closest_cursor_position (l : layout) (textWidth : Q) (align : xalign) (line : nat) (cursorX : Q) : outcome Z :=
  match lo_lines l with
  | [] => Ok 0
  | _ =>
      do x0 <- get_line_x_start l line textWidth align;
      let cursorX := (cursorX - x0)%Q in
      do firstRun <- get_first_run_index l line;
      do lastRun <- get_line_run_end_index l line;
      do run <- binary_search firstRun (lastRun - firstRun)
                  (fun i => do r <- vget (lo_runs l) i;
                            do p <- vget (lo_pos l) (2 * (ru_glyph_end r + i)); Ok (qltb p cursorX));
      if (run =? lastRun)%nat then
        do r <- vget (lo_runs l) (lastRun - 1);
        Ok (cp_set_affinity (cp_make (if ru_rtl r then ru_start r else ru_end r)) AOpposite)
      else
        do first <- get_first_glyph_index l run;
        do r <- vget (lo_runs l) run;
        let last := ru_glyph_end r in
        do firstPos <- get_first_position_index l run;
        do k <- binary_search 0 (last - first)
                  (fun i => do p <- vget (lo_pos l) (firstPos + 2 * i); Ok (qltb p cursorX));
        let g := (first + k)%nat in
        do (startChar, endChar, startPos, endPos) <-
          (if ru_rtl r then
             if (g =? first)%nat then
               do p <- vget (lo_pos l) firstPos; Ok (ru_end r, ru_end r, p, p)
             else
               do sc <- vget (lo_chars l) (g - 1);
               do ec <- (if (g - 1 =? first)%nat then Ok (ru_end r) else vget (lo_chars l) (g - 2));
               do sp <- vget (lo_pos l) (firstPos + 2 * (g - first));
               do ep <- vget (lo_pos l) (firstPos + 2 * (g - 1 - first));
               Ok (sc, ec, sp, ep)
           else
             do sc <- (if (g =? first)%nat then Ok (ru_start r) else vget (lo_chars l) (g - 1));
             do ec <- (if (g =? last)%nat then Ok (ru_end r) else vget (lo_chars l) g);
             do sp <- (if (g =? first)%nat then vget (lo_pos l) firstPos
                       else vget (lo_pos l) (firstPos + 2 * (g - 1 - first)));
             do ep <- vget (lo_pos l) (firstPos + 2 * (g - first));
             Ok (sc, ec, sp, ep));
        let firstRunInLine := (run =? firstRun)%nat in
        let lastRunInLine := (run =? lastRun - 1)%nat in
        do firstAff <- (if negb firstRunInLine && negb (ru_rtl r)
                        then do p <- vget (lo_runs l) (run - 1); Ok (ru_rtl p) else Ok false);
        do lastAff <- (if lastRunInLine && (ru_offset r =? 0) then Ok true
                       else if negb lastRunInLine && negb (ru_rtl r)
                       then do q <- vget (lo_runs l) (run + 1); Ok (ru_rtl q) else Ok false);
        if startChar =? endChar then Ok (make_cursor startChar firstAff)
        else cluster_walk (S (Z.to_nat (endChar - startChar))) r startChar endChar startPos endPos firstAff lastAff cursorX startChar startPos
  end.

(** src/cursor_controller.cpp:123-132 [closest_to_position]: on an empty layout the
    clamped index is 2^64 - 1, which [find_closest_cursor_position] does not use. *)
Definition closest_to_position (l : layout) (textWidth : Q) (align : xalign) (posX posY : Q) : outcome Z :=
  do line <- get_closest_line_to_height l posY;
  find_closest_cursor_position l textWidth align
    (if (line =? length (lo_lines l))%nat then length (lo_lines l) - 1 else line)%nat posX.
End HitTest.
