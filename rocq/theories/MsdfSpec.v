(** What the distance-field atlas has to give.  The first part is its vocabulary. *)
From Coq Require Import QArith.
From Verif Require Import Base FloatModel ColorModel BuilderModel AtlasSpec BitmapModel.
Open Scope Z_scope.

(** An outline as the font engine has it: closed rings, each a start and the pieces
    that follow, in font units. *)
Definition point := (Z * Z)%type.
Inductive piece := Line (p : point) | Conic (c p : point) | Cubic (c1 c2 p : point).
Record ring := { rg_start : point; rg_pieces : list piece }.
Definition outline := list ring.
(** A shape as the distance-field library has it: contours of edges. *)
Inductive edge := Linear (a b : point) | Quadratic (a c b : point) | Cubical (a c1 c2 b : point).
Definition shape := list (list edge).

(** ** What the user relies on: the shape is the outline *)
Definition edge_from (e : edge) : point := match e with Linear a _ | Quadratic a _ _ | Cubical a _ _ _ => a end.
Definition edge_to (e : edge) : point := match e with Linear _ b | Quadratic _ _ b | Cubical _ _ _ b => b end.
Definition piece_to (q : piece) : point := match q with Line p | Conic _ p | Cubic _ _ p => p end.
(** The edge a piece makes from where the pen is. *)
Definition edge_of (a : point) (q : piece) : edge :=
  match q with Line b => Linear a b | Conic c b => Quadratic a c b | Cubic c1 c2 b => Cubical a c1 c2 b end.
(** A straight edge from a point to itself is no edge. *)
Definition visible (e : edge) : bool :=
  match e with Linear a b => negb ((fst a =? fst b) && (snd a =? snd b)) | _ => true end.
Fixpoint trail (a : point) (qs : list piece) : list edge :=
  match qs with [] => [] | q :: qs' => edge_of a q :: trail (piece_to q) qs' end.
Definition ring_edges (r : ring) : list edge := filter visible (trail (rg_start r) (rg_pieces r)).
(** The ring ends where it starts. *)
Definition closed (r : ring) : Prop := last (map piece_to (rg_pieces r)) (rg_start r) = rg_start r.
(** Every edge of the contour starts where the one before it ends, the first where the
    last ends: what the library expects of a contour. *)
Definition well_joined (c : list edge) : Prop :=
  forall i e, nth_error c i = Some e ->
    exists e', nth_error c (S i mod List.length c) = Some e' /\ edge_from e' = edge_to e.

(** ** What the user relies on: the picture is where the glyph is *)
(** The picture of a glyph: its size in pixels, and its upper left corner relative to
    the pen, in pixels at 32 pixels per em.  [fr_x], [fr_y]: the column and row where a
    point of the glyph is, counted from the upper left corner. *)
Record frame := { fr_width : Z; fr_height : Z; fr_left : Q; fr_top : Q; fr_x : Q -> Q; fr_y : Q -> Q }.

(** How a value of the field is stored: three channels between 0 and 1, opaque. *)
Definition clamped (v : f32) : f32 :=
  match SFcompare v f32_0, SFcompare v f32_1 with Some Lt, _ => f32_0 | _, Some Gt => f32_1 | _, _ => v end.
Definition stored (v : f32 * f32 * f32) : outcome Z :=
  let '(r, g, b) := v in to_argb {| c_r := clamped r; c_g := clamped g; c_b := clamped b; c_a := f32_1 |}.
(** A number of the single-precision format: not NaN. *)
Definition number (v : f32) : Prop := valid_binary 24 128 v = true /\ v <> S754_nan.

(** ** What the user relies on: the answers *)
Record field_answer := {
  fa_picture : picture; fa_x : Z; fa_y : Z; fa_w : Z; fa_h : Z;
  fa_width : f32; fa_height : f32; fa_left : f32; fa_top : f32; fa_color : bool
}.
(** A picture: its pixels and where it is relative to the pen. *)
Record field_picture := { fp_bitmap : bitmap; fp_left : f32; fp_top : f32 }.
(** The texture shows the picture with its corner at [x], [y], inside the page. *)
Definition shows_picture (extent : Z) (t : texture) (x y : Z) (b : bitmap) : Prop :=
  0 <= x /\ 0 <= y /\ x + bm_w b <= extent /\ y + bm_h b <= extent /\
  forall dx dy, 0 <= dx < bm_w b -> 0 <= dy < bm_h b -> t (x + dx) (y + dy) = Some (bm_at b (dy * bm_w b + dx)).
(** An answer is right for picture [d], all lengths being changed by [z]. *)
Definition answers_field (extent : Z) (pages : list (texture * bool)) (d : field_picture) (z : f32 -> f32) (an : field_answer) : Prop :=
  let b := fp_bitmap d in
  fa_width an = z (f32_of_Z (bm_w b)) /\ fa_height an = z (f32_of_Z (bm_h b)) /\
  fa_left an = z (fp_left d) /\ fa_top an = z (fp_top d) /\
  (0 < bm_w b -> 0 < bm_h b ->
    exists n t, fa_picture an = OnPage n /\ nth_error pages n = Some (t, false) /\ fa_color an = false /\
      shows_picture extent t (fa_x an) (fa_y an) b /\ fa_w an = bm_w b /\ fa_h an = bm_h b) /\
  (~ (0 < bm_w b /\ 0 < bm_h b) -> fa_picture an = Nothing \/ fa_picture an = NullMember).
(** Glyphs are asked for in the weight and style their face is declared with. *)
Definition unimitated (rq : request) : Prop :=
  sf_weight (rq_font rq) = fh_weight (sf_face (rq_font rq)) /\ sf_style (rq_font rq) = fh_style (sf_face (rq_font rq)).
