(** The layout tables' numbers as the program keeps them: single precision floats. *)
From Verif Require Import Base FloatModel BinarySearchModel LayoutModel.
Open Scope Z_scope.

(** [scalbnf(x, n)]. *)
Definition f32_scalbn (x : f32) (n : Z) : f32 := SFldexp 24 128 x n.
Definition f32_lt (x y : f32) : bool := SFltb x y.

(** src/layout_builder.cpp:605,610-611,619,624-625: a 26.6 fixed-point distance, an
    [int32_t], becomes a float and is divided by 64. *)
Definition fixed_f32 (w : Z) : f32 := f32_scalbn (f32_of_Z w) (-6).

(** src/layout_builder.cpp:185-186: the width of the text area and of a tab become
    26.6 fixed point.  The conversion of a value that does not fit is undefined. *)
Definition to_fixed (x : f32) : outcome Z :=
  match f32_trunc (f32_mul x (f32_of_Z 64)) with
  | Some v => if (- 2 ^ 31 <=? v) && (v <? 2 ^ 31) then Ok v else UB
  | None => UB
  end.

(** Lines 485-491 and 514-520 of src/layout_info.cpp: between the position before and
    the position found.  No fused multiply-add. *)
Definition between (prev off : f32) (part count : Z) : f32 :=
  f32_add prev (f32_mul (f32_sub off prev) (f32_div (f32_of_Z part) (f32_of_Z count))).

(** src/layout_info.cpp:467-494 [get_glyph_offset_ltr]: the tables of [l] with the
    positions [ps] in place of [lo_pos l]. *)
Definition offset_ltr (l : layout) (ps : list f32) (run : nat) (cursor : Z) : outcome f32 :=
  do first <- get_first_glyph_index l run;
  do r <- vget (lo_runs l) run;
  let last := ru_glyph_end r in
  do firstPos <- get_first_position_index l run;
  do g <- binary_search first (last - first) (fun i => do c <- vget (lo_chars l) i; Ok (c <? cursor));
  do next <- (if (g =? last)%nat then Ok (ru_end r) else vget (lo_chars l) g);
  let clusterDiff := wrap32 (next - cursor) in
  do off <- vget ps (firstPos + 2 * (g - first));
  if (0 <? clusterDiff) && (0 <? g)%nat then
    do prevChar <- vget (lo_chars l) (g - 1);
    let count := wrap32 (next - prevChar) in
    do prev <- zget ps (Z.of_nat firstPos + 2 * (Z.of_nat g - Z.of_nat first - 1));
    Ok (between prev off (wrap32 (count - clusterDiff)) count)
  else Ok off.

(** src/layout_info.cpp:496-523 [get_glyph_offset_rtl]. *)
Definition offset_rtl (l : layout) (ps : list f32) (run : nat) (cursor : Z) : outcome f32 :=
  do first <- get_first_glyph_index l run;
  do r <- vget (lo_runs l) run;
  let last := ru_glyph_end r in
  do firstPos <- get_first_position_index l run;
  do g <- binary_search first (last - first) (fun i => do c <- vget (lo_chars l) i; Ok (cursor <=? c));
  do next <- (if (g =? first)%nat then Ok (ru_end r) else vget (lo_chars l) (g - 1));
  let clusterDiff := wrap32 (next - cursor) in
  do off <- vget ps (firstPos + 2 * (g - first));
  if (0 <? clusterDiff) && (g <? last)%nat then
    do nextChar <- vget (lo_chars l) g;
    let count := wrap32 (next - nextChar) in
    do prev <- vget ps (firstPos + 2 * (g - first + 1));
    Ok (between prev off (wrap32 (count - clusterDiff)) count)
  else Ok off.

(** src/layout_info.cpp:341-344 [get_glyph_offset_in_run]. *)
Definition offset_in_run (l : layout) (ps : list f32) (run : nat) (cursor : Z) : outcome f32 :=
  do r <- vget (lo_runs l) run;
  if ru_rtl r then offset_rtl l ps run cursor else offset_ltr l ps run cursor.

(** src/layout_info.cpp:192-205 [get_line_x_start]: [lineWidth] is the line's width. *)
Definition line_start (textWidth lineWidth : f32) (align : xalign) : f32 :=
  match align with
  | XLeft => f32_0
  | XRight => f32_sub textWidth lineWidth
  | XCenter => f32_mul (f32_div f32_1 (f32_of_Z 2)) (f32_sub textWidth lineWidth)
  end.

(** src/layout_info.cpp:104: where the caret is drawn. *)
Definition screen_x (textWidth lineWidth : f32) (align : xalign) (off : f32) : f32 :=
  f32_add (line_start textWidth lineWidth align) off.

(** src/layout_info.cpp:56-66, 68-86: [totalDescent] of the lines with heights [hs],
    after lines of total height [t] ([None]: no line yet). *)
Fixpoint descents (t : option f32) (hs : list f32) : list f32 :=
  match hs with
  | [] => []
  | h :: hs => let t := match t with None => h | Some t => f32_add t h end in t :: descents (Some t) hs
  end.

(** src/layout_info.cpp:146-150 [get_closest_line_to_height]. *)
Definition closest_line (ts : list f32) (y : f32) : outcome nat :=
  binary_search 0 (length ts) (fun i => do t <- vget ts i; Ok (f32_lt t y)).
(** src/layout_info.cpp:105-106: top and height of line [i] as the caret shows it, text
    starting at [y]. *)
Definition line_top (ts : list f32) (y : f32) (i : nat) : outcome f32 :=
  do a <- match i with O => Ok f32_0 | S j => vget ts j end; Ok (f32_add y a).
Definition line_tall (ts : list f32) (i : nat) : outcome f32 :=
  do a <- match i with O => Ok f32_0 | S j => vget ts j end; do t <- vget ts i; Ok (f32_sub t a).
