(** Hit testing on the numbers the program keeps: single precision floats. *)
From Verif Require Import Base FloatModel BinarySearchModel PackingModel LayoutModel FloatLayoutModel.
Open Scope Z_scope.

Section HitTest.
(** [icu::BreakIterator::following]: the next boundary, or -1 when there is none. *)
Variable following : Z -> Z.

(** src/layout_info.cpp:288-290: where the caret stop [next] of a cluster is.  No fused
    multiply-add. *)
Definition stop_pos (startChar endChar : Z) (startPos endPos : f32) (next : Z) : f32 :=
  f32_add startPos (f32_mul (f32_div (f32_of_Z (wrap32 (next - startChar))) (f32_of_Z (wrap32 (endChar - startChar))))
                            (f32_sub endPos startPos)).

(** src/layout_info.cpp:283-315: the walk over the caret stops of a cluster, as
    [LayoutModel.cluster_walk], with floats. *)
Fixpoint cluster_walk_f (fuel : nat) (r : vrun) (startChar endChar : Z) (startPos endPos : f32) (firstAff lastAff : bool)
  (cursorX : f32) (currChar : Z) (currPos : f32) : outcome Z :=
  match fuel with
  | O => OutOfFuel
  | S fuel' =>
      let nextChar := wrap32 (following currChar) in
      let nextPos := stop_pos startChar endChar startPos endPos nextChar in
      if ru_rtl r && f32_lt nextPos cursorX && f32_le cursorX currPos then
        let sel := if f32_lt (f32_sub cursorX nextPos) (f32_sub currPos cursorX) then nextChar else currChar in
        Ok (make_cursor sel ((sel =? ru_end r) && firstAff || (sel =? ru_start r) && lastAff))
      else if negb (ru_rtl r) && f32_lt currPos cursorX && f32_le cursorX nextPos then
        let sel := if f32_lt (f32_sub nextPos cursorX) (f32_sub cursorX currPos) then nextChar else currChar in
        Ok (make_cursor sel ((sel =? ru_start r) && firstAff || (sel =? ru_end r) && lastAff))
      else if endChar <=? nextChar then Ok (cp_make startChar)
      else cluster_walk_f fuel' r startChar endChar startPos endPos firstAff lastAff cursorX nextChar nextPos
  end.

(** src/layout_info.cpp:207-318 [find_closest_cursor_position]: the tables of [l], with
    the positions [ps] in place of [lo_pos l] and the line widths [ws]. *)
Definition find_closest_f (l : layout) (ps ws : list f32) (textWidth : f32) (align : xalign) (line : nat) (cursorX : f32) : outcome Z :=
  match lo_lines l with
  | [] => Ok 0
  | _ =>
      do lineWidth <- vget ws line;
      let cursorX := f32_sub cursorX (line_start textWidth lineWidth align) in
      do firstRun <- get_first_run_index l line;
      do lastRun <- get_line_run_end_index l line;
      do run <- binary_search firstRun (lastRun - firstRun)
                  (fun i => do r <- vget (lo_runs l) i;
                            do p <- vget ps (2 * (ru_glyph_end r + i)); Ok (f32_lt p cursorX));
      if (run =? lastRun)%nat then
        do r <- vget (lo_runs l) (lastRun - 1);
        Ok (cp_set_affinity (cp_make (if ru_rtl r then ru_start r else ru_end r)) AOpposite)
      else
        do first <- get_first_glyph_index l run;
        do r <- vget (lo_runs l) run;
        let last := ru_glyph_end r in
        do firstPos <- get_first_position_index l run;
        do k <- binary_search 0 (last - first)
                  (fun i => do p <- vget ps (firstPos + 2 * i); Ok (f32_lt p cursorX));
        let g := (first + k)%nat in
        do (startChar, endChar, startPos, endPos) <-
          (if ru_rtl r then
             if (g =? first)%nat then
               do p <- vget ps firstPos; Ok (ru_end r, ru_end r, p, p)
             else
               do sc <- vget (lo_chars l) (g - 1);
               do ec <- (if (g - 1 =? first)%nat then Ok (ru_end r) else vget (lo_chars l) (g - 2));
               do sp <- vget ps (firstPos + 2 * (g - first));
               do ep <- vget ps (firstPos + 2 * (g - 1 - first));
               Ok (sc, ec, sp, ep)
           else
             do sc <- (if (g =? first)%nat then Ok (ru_start r) else vget (lo_chars l) (g - 1));
             do ec <- (if (g =? last)%nat then Ok (ru_end r) else vget (lo_chars l) g);
             do sp <- (if (g =? first)%nat then vget ps firstPos
                       else vget ps (firstPos + 2 * (g - 1 - first)));
             do ep <- vget ps (firstPos + 2 * (g - first));
             Ok (sc, ec, sp, ep));
        let firstRunInLine := (run =? firstRun)%nat in
        let lastRunInLine := (run =? lastRun - 1)%nat in
        do firstAff <- (if negb firstRunInLine && negb (ru_rtl r)
                        then do p <- vget (lo_runs l) (run - 1); Ok (ru_rtl p) else Ok false);
        do lastAff <- (if lastRunInLine && (ru_offset r =? 0) then Ok true
                       else if negb lastRunInLine && negb (ru_rtl r)
                       then do q <- vget (lo_runs l) (run + 1); Ok (ru_rtl q) else Ok false);
        if startChar =? endChar then Ok (make_cursor startChar firstAff)
        else cluster_walk_f (S (Z.to_nat (endChar - startChar))) r startChar endChar startPos endPos firstAff lastAff cursorX startChar startPos
  end.

(** src/cursor_controller.cpp:123-132 [closest_to_position]; [ts] holds the
    [totalDescent] of the lines. *)
Definition closest_f (l : layout) (ps ws ts : list f32) (textWidth : f32) (align : xalign) (posX posY : f32) : outcome Z :=
  do line <- closest_line ts posY;
  find_closest_f l ps ws textWidth align
    (if (line =? length (lo_lines l))%nat then length (lo_lines l) - 1 else line)%nat posX.
End HitTest.
