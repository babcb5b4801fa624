(** Text in which every glyph is one caret stop. *)
From Coq Require Import ZArith List.
From Verif Require Import LayoutSpec.
Open Scope Z_scope.

(** The characters of every glyph of the run, or of every group of glyphs of the same
    characters, have no caret stop within: the next stop after their first is their end. *)
Definition one_stop (following : Z -> Z) (r : srun) : Prop :=
  forall j, (j < run_len r)%nat -> nth j (logical_chars r) (sr_end r) < char_after r j -> following (nth j (logical_chars r) (sr_end r)) = char_after r j.
