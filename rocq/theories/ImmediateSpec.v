(** What a text drawn at once must look like: lines below each other, each glyph in its
    place on its line, the block of lines where the alignment asks for it. *)
From Verif Require Import Base ValueRunsModel ValueRunsSpec LayoutModel LayoutSpec DrawModel BuilderModel BuilderSpec.
From Coq Require Export QArith.
Open Scope Z_scope.

(** Where a block [height] high begins in an area [h] high. *)
Definition block_top (ya : yalign) (h height : Q) : Q :=
  match ya with YTop => 0 | YCenter => (h - height) / 2 | YBottom => h - height end%Q.
(** The glyphs of a line whose top is at [top] in an area [w] wide. *)
Definition line_calls (w : Q) (xa : xalign) (top : Q) (s : sline) : list plain_call :=
  flat_map (fun r => map (fun g => (sr_font r, sg_id g, (align_x w xa s + sg_x g)%Q, (top + sl_ascent s + sg_y g)%Q)) (sr_glyphs r)) (sl_runs s).
Fixpoint block_calls (w : Q) (xa : xalign) (top : Q) (d : sdoc) : list plain_call :=
  match d with
  | [] => []
  | s :: d' => line_calls w xa top s ++ block_calls w xa (top + sl_height s) d'
  end.

(** A table with one font for [count] bytes; [pad] can be read after it. *)
Definition font_source (fonts : runs_view Z) (font count : Z) (pad : table Z) : sources :=
  let none := {| st_view := None; st_table := []; st_pad := [] |} in
  {| so_view := fonts; so_table := [(count, font)]; so_pad := pad; so_small := none; so_sub := none; so_super := none |}.
