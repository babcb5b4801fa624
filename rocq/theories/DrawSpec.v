(** Specification of [draw_text]: what each run of a document must contribute. *)
From Verif Require Import Base ValueRunsModel ValueRunsSpec FloatModel ColorModel FormattingModel FormattingIterModel
  FormattingIterSpec LayoutModel LayoutSpec DrawModel.
Open Scope Z_scope.

(** A run and where it is drawn: line and run number, the origin of its line. *)
Record place := { pl_line : nat; pl_run : nat; pl_x : Q; pl_y : Q; pl_of : srun }.
Fixpoint place_runs (i k : nat) (x y : Q) (rs : list srun) : list place :=
  match rs with
  | [] => []
  | r :: rs' => {| pl_line := i; pl_run := k; pl_x := x; pl_y := y; pl_of := r |} :: place_runs i (S k) x y rs'
  end.
(** The runs of a document in order, line after line. *)
Fixpoint places (w : Q) (a : xalign) (i k : nat) (y : Q) (d : sdoc) : list place :=
  match d with
  | [] => []
  | s :: d' => place_runs i k (align_x w a s) (y + sl_ascent s)%Q (sl_runs s)
               ++ places w a (S i) (k + List.length (sl_runs s)) (y + sl_height s)%Q d'
  end.

(** The glyphs of a run, each at its own position. *)
Definition plain_run_calls (p : place) : list plain_call :=
  map (fun g => (sr_font (pl_of p), sg_id g, (pl_x p + sg_x g)%Q, (pl_y p + sg_y g)%Q)) (sr_glyphs (pl_of p)).
Definition plain_eq (a b : plain_call) : Prop :=
  let '(f, g, x, y) := a in let '(f', g', x', y') := b in f = f' /\ g = g' /\ (x == x')%Q /\ (y == y')%Q.

(** Calls equal up to equality of rationals. *)
Definition draw_eq (a b : draw_call) : Prop :=
  match a, b with
  | DRun l r, DRun l' r' => l = l' /\ r = r'
  | DStroke f g x y s, DStroke f' g' x' y' s' => f = f' /\ g = g' /\ (x == x')%Q /\ (y == y')%Q /\ s = s'
  | DGlyph f g x y c, DGlyph f' g' x' y' c' => f = f' /\ g = g' /\ (x == x')%Q /\ (y == y')%Q /\ c = c'
  | DRect k x y w h c, DRect k' x' y' w' h' c' =>
      k = k' /\ (x == x')%Q /\ (y == y')%Q /\ (w == w')%Q /\ (h == h')%Q /\ c = c'
  | _, _ => False
  end.

(** The attributes of a character. *)
Definition attr {T} (t : table T) (dflt : T) (c : Z) : T := match lookup t c with Some v => v | None => dflt end.
Definition no_color : color := {| c_r := f32_0; c_g := f32_0; c_b := f32_0; c_a := f32_0 |}.
Definition no_stroke : stroke := {| k_color := no_color; k_thickness := 0; k_joins := ST_NONE |}.
Definition color_of (f : fmt_tables) : Z -> color := attr (ft_color f) no_color.
Definition stroke_of (f : fmt_tables) : Z -> stroke := attr (ft_stroke f) no_stroke.
Definition lined (f : fmt_tables) (strike : bool) : Z -> bool :=
  attr (if strike then ft_strike f else ft_under f) false.

(** A stroke is visible if it has any opacity. *)
Definition visible (s : stroke) : bool := SFltb f32_0 (c_a (k_color s)).
(** The announcement of the run, then for each glyph its stroke, if visible, and
    the glyph in the colour of its character. *)
Definition glyph_calls (f : fmt_tables) (p : place) (g : sglyph) : list draw_call :=
  let font := sr_font (pl_of p) in
  let x := (pl_x p + sg_x g)%Q in let y := (pl_y p + sg_y g)%Q in
  (if visible (stroke_of f (sg_char g)) then [DStroke font (sg_id g) x y (stroke_of f (sg_char g))] else [])
  ++ [DGlyph font (sg_id g) x y (color_of f (sg_char g))].
Definition run_calls (f : fmt_tables) (p : place) : list draw_call :=
  DRun (pl_line p) (pl_run p) :: flat_map (glyph_calls f p) (sr_glyphs (pl_of p)).
Definition is_rect (c : draw_call) : bool := match c with DRect _ _ _ _ _ _ => true | _ => false end.
Definition rect_of (strike : bool) (c : draw_call) : bool := match c with DRect k _ _ _ _ _ => Bool.eqb k strike | _ => false end.

(** ** Underlines and strikethroughs *)

(** A span [i, j) of the glyphs of a run and the rectangle drawn for it. *)
Definition rect_at (m : metrics) (p : place) (strike : bool) (i j : nat) (c : color) : draw_call :=
  let X k := nth k (run_xs (pl_of p)) 0%Q in
  DRect strike (pl_x p + X i)%Q (pl_y p + (if strike then me_strike_pos m else me_under_pos m))%Q (X j - X i)%Q
    ((if strike then me_strike_thick m else me_under_thick m) + (1 # 2))%Q c.
Definition nth_char (r : srun) (k : nat) : Z := nth k (run_chars r) 0.

(** The spans follow each other, ... *)
Fixpoint spans_in (lo hi : nat) (spans : list (nat * nat)) : Prop :=
  match spans with
  | [] => (lo <= hi)%nat
  | (i, j) :: rest => (lo <= i <= j)%nat /\ spans_in j hi rest
  end.
(** ... a glyph is in one exactly when its character has the line, ... *)
Definition spans_exact (line : Z -> bool) (r : srun) (spans : list (nat * nat)) : Prop :=
  forall k, (k < run_len r)%nat ->
    (line (nth_char r k) = true <-> exists i j, In (i, j) spans /\ (i <= k < j)%nat).
(** ... and neighbours in a span have the same colour. *)
Definition spans_colored (color : Z -> color) (r : srun) (spans : list (nat * nat)) : Prop :=
  forall i j k, In (i, j) spans -> (i <= k)%nat -> (S k < j)%nat ->
    same_color (color (nth_char r (S k))) (color (nth_char r k)) = true.

(** The rectangles of one kind among the calls of a run: one for each span, in the
    colour of its glyphs. *)
Definition lines_drawn (f : fmt_tables) (m : metrics) (p : place) (strike : bool) (calls : list draw_call) : Prop :=
  exists spans,
    spans_in 0 (run_len (pl_of p)) spans /\ spans_exact (lined f strike) (pl_of p) spans /\
    spans_colored (color_of f) (pl_of p) spans /\
    Forall2 (fun ij c => exists col, draw_eq c (rect_at m p strike (fst ij) (snd ij) col) /\
               ((fst ij < snd ij)%nat -> col = color_of f (nth_char (pl_of p) (snd ij - 1))))
      spans (filter (rect_of strike) calls).

(** No line begins inside the run where the colour changes. *)
Definition steady_run (f : fmt_tables) (strike : bool) (r : srun) : Prop :=
  forall k, (S k < run_len r)%nat -> lined f strike (nth_char r (S k)) = true -> lined f strike (nth_char r k) = false ->
    same_color (color_of f (nth_char r (S k))) (color_of f (nth_char r k)) = true.

(** The characters of the run, and the one the iterator is made at, are in the text. *)
Definition run_in_text (n : Z) (r : srun) : Prop :=
  (if sr_rtl r then sr_end r else sr_start r) < n /\ Forall (fun c => c < n) (run_chars r).
