(** What a markup document asks of the screen: every character in the font, the colour, the
    outline and with the lines that the innermost tags around it ask for. *)
From Coq Require Export QArith.
From Verif Require Import Base ValueRunsModel ValueRunsSpec FloatModel ColorModel FormattingModel FormattingSpec FormattingIterModel FormattingIterSpec LayoutModel LayoutSpec DrawModel DrawSpec BuilderModel BuilderSpec.
Open Scope Z_scope.

Section Look.
Variable get_family : bytes -> Z.
(** The document, and what holds outside all tags. *)
Variables (d : doc) (f : font) (c : color) (k : stroke).

(** The text that is displayed. *)
Definition displayed : bytes := map fst (paths [] d).
(** The tags around the character at [i]. *)
Definition around (i : Z) : list tag := match nth_error (paths [] d) (Z.to_nat i) with Some (_, p) => p | None => [] end.
Definition font_at (i : Z) : font :=
  {| f_family := innermost (sets_family get_family) (around i) (f_family f); f_weight := innermost sets_weight (around i) (f_weight f);
     f_style := innermost sets_slant (around i) (f_style f); f_size := innermost sets_size (around i) (f_size f) |}.
Definition color_at (i : Z) : color := innermost sets_color (around i) c.
Definition stroke_at (i : Z) : stroke := innermost sets_stroke (around i) k.
Definition flag_at (b : flag) (i : Z) : bool := innermost (sets_flag b) (around i) false.
Definition line_at (strike : bool) : Z -> bool := flag_at (if strike then Strike else Under).

(** The glyphs of a run: each with the outline and the colour of its character. *)
Definition glyph_looks (p : place) (g : sglyph) : list draw_call :=
  let x := (pl_x p + sg_x g)%Q in let y := (pl_y p + sg_y g)%Q in let font := sr_font (pl_of p) in
  (if visible (stroke_at (sg_char g)) then [DStroke font (sg_id g) x y (stroke_at (sg_char g))] else [])
  ++ [DGlyph font (sg_id g) x y (color_at (sg_char g))].
Definition run_looks (p : place) : list draw_call := DRun (pl_line p) (pl_run p) :: flat_map (glyph_looks p) (sr_glyphs (pl_of p)).

(** Lines under (through) exactly the glyphs whose characters have one, each in the colour of
    its glyphs. *)
Definition lines_look (mt : metrics) (p : place) (strike : bool) (calls : list draw_call) : Prop :=
  exists spans, spans_in 0 (run_len (pl_of p)) spans /\ spans_exact (line_at strike) (pl_of p) spans /\ spans_colored color_at (pl_of p) spans /\
    Forall2 (fun ij cl => exists col, draw_eq cl (rect_at mt p strike (fst ij) (snd ij) col) /\
               ((fst ij < snd ij)%nat -> col = color_at (nth_char (pl_of p) (snd ij - 1)))) spans (filter (rect_of strike) calls).
(** No line begins inside the run where the colour changes. *)
Definition steady (strike : bool) (r : srun) : Prop :=
  forall j, (S j < run_len r)%nat -> line_at strike (nth_char r (S j)) = true -> line_at strike (nth_char r j) = false ->
    same_color (color_at (nth_char r (S j))) (color_at (nth_char r j)) = true.

(** The face and the size of a run are those the registry chooses for every character of it:
    for the font its tags name and whether it is small capitals, a subscript or a superscript. *)
Definition font_looks (handle : font -> Z) (e : engine) (r : srun) : Prop :=
  exists g, sr_font r = en_code e g /\ forall i, sr_start r <= i < sr_end r ->
  exists h a b limit script, en_sub e (handle (font_at i)) a limit script (flag_at Small i) (flag_at Sub i) (flag_at Super i) = (h, b) /\
    a <= i < b /\ sf_face g = sf_face h /\ sf_size g = sf_size h.
End Look.
