(** Specification of [LayoutInfo]: a document of lines, runs and glyphs, the
    operations that store it and the tables it must give. *)
From Verif Require Import Base PackingModel LayoutModel.
Open Scope Z_scope.

(** A placed glyph: identifier, character it comes from, position. *)
Record sglyph := { sg_id : Z; sg_char : Z; sg_x : Q; sg_y : Q }.
(** A run of glyphs, left to right, with the position after the last one. *)
Record srun := {
  sr_font : Z; sr_start : Z; sr_end : Z; sr_offset : Z; sr_rtl : bool;
  sr_glyphs : list sglyph; sr_end_x : Q; sr_end_y : Q
}.
Record sline := { sl_runs : list srun; sl_height : Q; sl_ascent : Q }.
Definition sdoc := list sline.

(** The line [append_empty_line] makes. *)
Definition empty_run (font c : Z) : srun :=
  {| sr_font := font; sr_start := c; sr_end := c; sr_offset := 0; sr_rtl := false;
     sr_glyphs := []; sr_end_x := 0; sr_end_y := 0 |}.

Definition doc_runs (d : sdoc) : list srun := flat_map sl_runs d.
Definition run_len (r : srun) : nat := length (sr_glyphs r).
Definition count_glyphs (rs : list srun) : nat := length (flat_map sr_glyphs rs).
Definition doc_glyphs (d : sdoc) : list sglyph := flat_map sr_glyphs (doc_runs d).

(** Horizontal positions of a run: the left edge of each glyph, then the right
    edge of the last. *)
Definition run_xs (r : srun) : list Q := map sg_x (sr_glyphs r) ++ [sr_end_x r].
Definition run_chars (r : srun) : list Z := map sg_char (sr_glyphs r).
Definition run_first_x (r : srun) : Q := hd 0%Q (run_xs r).

(** Line widths and heights. *)
Definition line_width (s : sline) : Q := last (map sr_end_x (sl_runs s)) 0%Q.
Fixpoint heights (d : sdoc) : Q := match d with [] => 0 | s :: d' => sl_height s + heights d' end%Q.

(** ** Histories of building operations *)
Inductive lop :=
| LGlyph (g : Z) | LChar (c : Z) | LPos (x y : Q)
| LRun (font start end_ : Z) (rtl : bool)
| LLine (height ascent : Q)
| LEmpty (font c : Z) (height ascent : Q)
| LOffset (run : nat) (offset : Z)
| LStartY (y : Q)
| LClear.

Definition lstep (l : layout) (o : lop) : outcome layout :=
  match o with
  | LGlyph g => Ok (append_glyph l g)
  | LChar c => Ok (append_char_index l c)
  | LPos x y => Ok (append_glyph_position l x y)
  | LRun f s e rtl => Ok (append_run l f s e rtl)
  | LLine h a => append_line l h a
  | LEmpty f c h a => Ok (append_empty_line l f c h a)
  | LOffset i o => set_run_char_end_offset l i o
  | LStartY y => Ok (set_text_start_y l y)
  | LClear => Ok (lo_clear l)
  end.
Fixpoint lsteps (l : layout) (os : list lop) : outcome layout :=
  match os with
  | [] => Ok l
  | o :: os' => do l' <- lstep l o; lsteps l' os'
  end.

(** The operations that store a run as number [i], a line, a document: glyphs
    from left to right, the position after the last one, the run, then the
    offset of its separator. *)
Definition glyph_ops (g : sglyph) : list lop := [LGlyph (sg_id g); LChar (sg_char g); LPos (sg_x g) (sg_y g)].
Definition run_ops (r : srun) : list lop :=
  flat_map glyph_ops (sr_glyphs r) ++ [LPos (sr_end_x r) (sr_end_y r); LRun (sr_font r) (sr_start r) (sr_end r) (sr_rtl r)].
Definition line_ops (s : sline) : list lop := flat_map run_ops (sl_runs s) ++ [LLine (sl_height s) (sl_ascent s)].
Fixpoint offset_ops (i : nat) (rs : list srun) : list lop :=
  match rs with [] => [] | r :: rs' => LOffset i (sr_offset r) :: offset_ops (S i) rs' end.
Definition doc_ops (d : sdoc) : list lop := flat_map line_ops d ++ offset_ops 0 (doc_runs d).

(** [lay] is the layout left by storing document [d] and vertical start [y]. *)
Definition stored (d : sdoc) (y : Q) (lay : layout) : Prop := lsteps lo_empty (doc_ops d ++ [LStartY y]) = Ok lay.

(** ** The tables a document must give *)
Fixpoint runs_of (g : nat) (rs : list srun) : list vrun :=
  match rs with
  | [] => []
  | r :: rs' =>
      {| ru_font := sr_font r; ru_glyph_end := (g + run_len r)%nat; ru_start := sr_start r; ru_end := sr_end r;
         ru_offset := sr_offset r; ru_rtl := sr_rtl r |} :: runs_of (g + run_len r) rs'
  end.
Fixpoint lines_of (k : nat) (y : Q) (d : sdoc) : list line_info :=
  match d with
  | [] => []
  | s :: d' =>
      {| li_run_end := (k + length (sl_runs s))%nat; li_width := line_width s; li_ascent := sl_ascent s;
         li_descent := (y + sl_height s)%Q |} :: lines_of (k + length (sl_runs s)) (y + sl_height s) d'
  end.
Definition doc_lines (d : sdoc) : list line_info := lines_of 0 0 d.
Definition glyph_pos (g : sglyph) : list Q := [sg_x g; sg_y g].
Definition run_pos (r : srun) : list Q := flat_map glyph_pos (sr_glyphs r) ++ [sr_end_x r; sr_end_y r].

Definition layout_of (d : sdoc) (y : Q) : layout :=
  {| lo_runs := runs_of 0 (doc_runs d); lo_lines := doc_lines d;
     lo_glyphs := map sg_id (doc_glyphs d); lo_chars := map sg_char (doc_glyphs d);
     lo_pos := flat_map run_pos (doc_runs d); lo_start_y := y |}.

(** Every line has a run. *)
Definition doc_ok (d : sdoc) : Prop := Forall (fun s => sl_runs s <> []) d.

(** ** Well-formed runs *)

(** Characters and positions of a run in logical order. *)
Definition logical_chars (r : srun) : list Z := if sr_rtl r then rev (run_chars r) else run_chars r.
Definition logical_xs (r : srun) : list Q := if sr_rtl r then rev (run_xs r) else run_xs r.

(** Indices are 32-bit; glyphs of a left-to-right run come from increasing
    characters, the first one from the run's first character; a right-to-left
    run is the mirror image.  A run without glyphs has no characters. *)
Fixpoint nondecreasing (l : list Z) : Prop :=
  match l with a :: (b :: _) as l' => a <= b /\ nondecreasing l' | _ => True end.
Definition run_ok (r : srun) : Prop :=
  0 <= sr_start r <= sr_end r /\ sr_end r < 2 ^ 31 /\ 0 <= sr_offset r /\
  Forall (fun c => sr_start r <= c < sr_end r) (run_chars r) /\
  match logical_chars r with
  | [] => sr_start r = sr_end r
  | (c :: _) as cs => c = sr_start r /\ nondecreasing cs
  end.

(** Glyph positions never go left. *)
Fixpoint qnondecreasing (l : list Q) : Prop :=
  match l with a :: (b :: _) as l' => (a <= b)%Q /\ qnondecreasing l' | _ => True end.
Fixpoint qincreasing (l : list Q) : Prop :=
  match l with a :: (b :: _) as l' => (a < b)%Q /\ qincreasing l' | _ => True end.

(** ** Geometry *)

(** The calls of [for_each_line] up to equality of rationals. *)
Definition call_eq (c1 c2 : nat * Q * Q) : Prop :=
  fst (fst c1) = fst (fst c2) /\ (snd (fst c1) == snd (fst c2))%Q /\ (snd c1 == snd c2)%Q.
Definition align_x (w : Q) (a : xalign) (s : sline) : Q :=
  match a with XLeft => 0 | XRight => w - line_width s | XCenter => (w - line_width s) / 2 end%Q.
Fixpoint expected_calls (w : Q) (a : xalign) (i : nat) (y : Q) (d : sdoc) : list (nat * Q * Q) :=
  match d with
  | [] => []
  | s :: d' => (i, align_x w a s, (y + sl_ascent s)%Q) :: expected_calls w a (S i) (y + sl_height s)%Q d'
  end.

(** The bottom of line [i]. *)
Definition bottom (d : sdoc) (i : nat) : Q := heights (firstn (S i) d).

(** ** Carets *)

(** The point at [p] on the straight way from [a] (at [c]) to [b] (at [n]). *)
Definition lerp (a b : Q) (c n p : Z) : Q := (a + (b - a) * (inject_Z (p - c) / inject_Z (n - c)))%Q.
(** Character after glyph [k] in logical order. *)
Definition char_after (r : srun) (k : nat) : Z := nth (S k) (logical_chars r) (sr_end r).

(** Before-or-at in the direction the run is read: rightwards, or leftwards for a
    right-to-left run. *)
Definition reads (r : srun) (a b : Q) : Prop := if sr_rtl r then (b <= a)%Q else (a <= b)%Q.

(** ** Cursor to run *)

(** Run [i] is on line [k]. *)
Definition run_on_line (d : sdoc) (i k : nat) : Prop :=
  (k < length d)%nat /\ (length (doc_runs (firstn k d)) <= i < length (doc_runs (firstn (S k) d)))%nat.
(** [p] is a caret position of run [i]: from its first character up to the end of
    the separator after it. *)
Definition run_holds (d : sdoc) (i : nat) (p : Z) : Prop :=
  exists r, nth_error (doc_runs d) i = Some r /\ sr_start r <= p <= sr_end r + sr_offset r.

(** Runs in the order of the text, each starting where the one before ends; only
    the last may be empty; a change of direction does not fall on a line start. *)
Definition joined (d : sdoc) : Prop :=
  forall i r q, nth_error (doc_runs d) i = Some r -> nth_error (doc_runs d) (S i) = Some q ->
  sr_end r + sr_offset r = sr_start q /\ sr_start r < sr_end r + sr_offset r /\
  (forall k, run_on_line d i k -> ~ run_on_line d (S i) k -> sr_rtl r = sr_rtl q).

(** The run before the boundary keeps the cursor: inside a line where the direction
    turns from right-to-left (default affinity) or to right-to-left (opposite
    affinity); between lines after a soft break, with opposite affinity. *)
Definition keeps_cursor (d : sdoc) (i k : nat) (r q : srun) (a : affinity) : Prop :=
  (run_on_line d (S i) k /\ sr_rtl r = true /\ sr_rtl q = false /\ a = ADefault) \/
  (run_on_line d (S i) k /\ sr_rtl r = false /\ sr_rtl q = true /\ a = AOpposite) \/
  (~ run_on_line d (S i) k /\ sr_offset r = 0 /\ a = AOpposite).

(** ** Hit testing *)

(** [following] walks over the caret stops [B]. *)
Definition walks (B : Z -> Prop) (following : Z -> Z) : Prop :=
  forall c, 0 <= c < 2 ^ 31 ->
  (following c = -1 /\ forall x, c < x -> ~ B x) \/
  (c < following c < 2 ^ 31 /\ B (following c) /\ forall x, c < x < following c -> ~ B x).
(** [following] moves forward. *)
Definition forward (following : Z -> Z) : Prop :=
  forall c, 0 <= c < 2 ^ 31 -> following c = -1 \/ c < following c < 2 ^ 31.
(** Glyphs begin at caret stops, and the run ends at one. *)
Definition begins_at_stops (B : Z -> Prop) (r : srun) : Prop := Forall B (run_chars r) /\ B (sr_end r).
(** One glyph for each group of characters. *)
Fixpoint increasing (l : list Z) : Prop :=
  match l with a :: (b :: _) as l' => a < b /\ increasing l' | _ => True end.
(** Each run of the line begins where the one before it ends. *)
Fixpoint adjacent (rs : list srun) : Prop :=
  match rs with a :: (b :: _) as rs' => (sr_end_x a == run_first_x b)%Q /\ adjacent rs' | _ => True end.
