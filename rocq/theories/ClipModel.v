(** Model of how the sample program emits rectangles under a highlight. *)
From Coq Require Export QArith.
From Verif Require Import Base.
Open Scope Q_scope.

(** Coordinates are exact rationals in place of [float].  A rectangle as it is drawn:
    sample/ui_container.cpp:386-410 [draw_rect_internal]. *)
Record rect := { r_x : Q; r_y : Q; r_w : Q; r_h : Q; r_u : Q; r_v : Q; r_uw : Q; r_vh : Q; r_white : bool }.
(** Comparison of rationals as booleans. *)
Definition qle (a b : Q) : bool := Qle_bool a b.
Definition qlt (a b : Q) : bool := negb (Qle_bool b a).

(** sample/ui_container.cpp:16-65 [emit_rect]: the rectangles drawn, in order.  The
    given colour is [r_white = false], white is [r_white = true]; texture and pipeline
    are passed on unchanged. *)
Definition emit_rect (x y w h : Q) (tc0 tc1 tc2 tc3 : Q) (clip : option (Q * Q)) : list rect :=
  match clip with
  | None => [ {| r_x := x; r_y := y; r_w := w; r_h := h; r_u := tc0; r_v := tc1; r_uw := tc2; r_vh := tc3; r_white := false |} ]
  | Some (first, second) =>
      if qle second x || qle (x + w) first then
        [ {| r_x := x; r_y := y; r_w := w; r_h := h; r_u := tc0; r_v := tc1; r_uw := tc2; r_vh := tc3; r_white := false |} ]
      else
        let '(newx, neww, newu, newuw, lp) :=
          if qle (x + 1) first && qlt first (x + w) then
            let diff := first - x in
            let tcd := tc2 * diff / w in
            (x + diff, w - diff, tc0 + tcd, tc2 - tcd,
             [ {| r_x := x; r_y := y; r_w := diff; r_h := h; r_u := tc0; r_v := tc1; r_uw := tcd; r_vh := tc3; r_white := false |} ])
          else (x, w, tc0, tc2, []) in
        let '(neww, newuw, rp) :=
          if qlt x second && qle (second + 1) (x + w) then
            let diff := x + w - second in
            let tcd := tc2 * diff / w in
            (neww - diff, newuw - tcd,
             [ {| r_x := x + w - diff; r_y := y; r_w := diff; r_h := h; r_u := tc0 + tc2 - tcd; r_v := tc1; r_uw := tcd; r_vh := tc3; r_white := false |} ])
          else (neww, newuw, []) in
        lp ++ rp ++ [ {| r_x := newx; r_y := y; r_w := neww; r_h := h; r_u := newu; r_v := tc1; r_uw := newuw; r_vh := tc3; r_white := true |} ]
  end.

(** sample/ui_container.cpp:115-125: the left end and the width of the box drawn behind the
    selected part of a run; [range] is what [get_position_range_in_run] gives. *)
Definition highlight_box (position_x line_x : Q) (range : Q * Q) : Q * Q :=
  (position_x + line_x + fst range, snd range - fst range).
(** sample/ui_container.cpp:135-149: the range under which the glyphs of the run are drawn
    in white. *)
Definition highlight_clip (position_x : Q) (range : Q * Q) : Q * Q :=
  (fst range + position_x, snd range + position_x).
