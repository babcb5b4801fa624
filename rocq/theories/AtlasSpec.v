(** What a glyph atlas has to give.  The first part is the vocabulary of its interface. *)
From Verif Require Import Base FloatModel ColorModel BuilderModel.
Open Scope Z_scope.

(** A glyph as the font engine draws it: its size, its offset from the pen, the
    format and the bytes of the picture, row by row. *)
Inductive raster_format := R8 | BGRA8 | UNKNOWN.
Record raster := { ra_w : Z; ra_h : Z; ra_x : f32; ra_y : f32; ra_format : raster_format; ra_byte : Z -> Z }.

(** What decides how a face is drawn: the face, the size in pixels, and the slant
    and weight to imitate, if any. *)
Record look := { lk_face : Z; lk_size : Z; lk_slant : option Z; lk_bold : option Z }.

(** A request: a glyph of a font, filled, or stroked with a thickness and join. *)
Record request := { rq_font : ssfont; rq_glyph : Z; rq_stroke : option (Z * Z) }.

(** A texture, by column and row; [None] is a pixel nobody has written. *)
Definition texture := Z -> Z -> option Z.

(** An answer: which page, the rectangle on it in pixels, the size and offset to draw
    at, whether it has colours of its own.  [NullMember] is the address of a member
    of an object that does not exist. *)
Inductive picture := OnPage (n : nat) | Nothing | NullMember.
Record answer := {
  an_picture : picture; an_x : Z; an_y : Z; an_w : Z; an_h : Z;
  an_width : Z; an_height : Z; an_left : f32; an_top : f32; an_color : bool
}.

(** ** What the user relies on *)
(** How a picture looks: grey levels are the opacity of white; colours are stored
    multiplied by their opacity; other formats are blank. *)
Definition shade (r : raster) (x y : Z) : outcome Z :=
  match ra_format r with
  | R8 => Ok (ra_byte r (y * ra_w r + x) * 2 ^ 24 + 255 * 2 ^ 16 + 255 * 2 ^ 8 + 255)
  | BGRA8 =>
      let at_ k := f32_div (f32_of_Z (ra_byte r (4 * (y * ra_w r + x) + k))) f32_255 in
      let a := at_ 3 in
      to_argb {| c_r := f32_div (at_ 2) a; c_g := f32_div (at_ 1) a; c_b := f32_div (at_ 0) a; c_a := a |}
  | UNKNOWN => Ok 0
  end.
(** The texture shows the picture with its corner at [x], [y], inside the page. *)
Definition shows (extent : Z) (t : texture) (x y : Z) (r : raster) : Prop :=
  0 <= x /\ 0 <= y /\ x + ra_w r <= extent /\ y + ra_h r <= extent /\
  forall dx dy, 0 <= dx < ra_w r -> 0 <= dy < ra_h r -> exists v, shade r dx dy = Ok v /\ t (x + dx) (y + dy) = Some v.
(** The picture can be drawn and fits a page. *)
Definition drawable (extent : Z) (r : raster) : Prop :=
  0 <= ra_w r <= extent /\ 0 <= ra_h r <= extent /\ (forall i, 0 <= ra_byte r i < 256) /\
  forall dx dy, 0 <= dx < ra_w r -> 0 <= dy < ra_h r -> exists v, shade r dx dy = Ok v.
(** How a font is to be drawn: an upright (or lighter) source is slanted (emboldened)
    when the font asks for something its source is not. *)
Definition look_of (f : ssfont) (size : Z) : look :=
  {| lk_face := fh_handle (sf_face f); lk_size := size;
     lk_slant := if sf_style f =? fh_style (sf_face f) then None else Some (sf_style f);
     lk_bold := if sf_weight f =? fh_weight (sf_face f) then None else Some (sf_weight f) |}.
(** How far the font lowers its glyphs: subscripts by
    0.2, superscripts by -0.34 of it. *)
Definition lowered (f : ssfont) : f32 :=
  let r02 := S754_finite false 13421773 (-26) in
  let r034 := S754_finite true 11408507 (-25) in
  f32_mul (match sf_syn_sub f, sf_syn_super f with
           | true, false => r02
           | false, true => r034
           | true, true => f32_add r02 r034
           | false, false => f32_0
           end) (f32_of_Z (sf_size f)).
(** The picture a request is for. *)
Definition asked (glyphs : look -> Z -> raster) (strokes : look -> Z -> Z -> Z -> raster) (rq : request) (size : Z) : raster :=
  match rq_stroke rq with
  | None => glyphs (look_of (rq_font rq) size) (rq_glyph rq)
  | Some (t, j) => strokes (look_of (rq_font rq) size) (rq_glyph rq) t j
  end.
(** An answer is right for the picture [r]. *)
Definition answers (extent : Z) (pages : list (texture * bool)) (r : raster) (low : f32) (an : answer) : Prop :=
  an_width an = ra_w r /\ an_height an = ra_h r /\ an_left an = ra_x r /\ an_top an = f32_add (ra_y r) low /\
  (0 < ra_w r -> 0 < ra_h r ->
    exists n t, an_picture an = OnPage n /\ nth_error pages n = Some (t, an_color an) /\
      shows extent t (an_x an) (an_y an) r /\ an_w an = ra_w r /\ an_h an = ra_h r /\
      an_color an = match ra_format r with BGRA8 => true | _ => false end) /\
  (~ (0 < ra_w r /\ 0 < ra_h r) -> an_picture an = Nothing \/ an_picture an = NullMember).
(** Two rectangles with [pad] pixels between them. *)
Definition apart (pad x y w h x' y' w' h' : Z) : Prop :=
  x + w + pad <= x' \/ x' + w' + pad <= x \/ y + h + pad <= y' \/ y' + h' + pad <= y.
(** Every face is declared with one weight and style only. *)
Definition declared_once (rs : list request) : Prop :=
  forall r1 r2, In r1 rs -> In r2 rs -> fh_handle (sf_face (rq_font r1)) = fh_handle (sf_face (rq_font r2)) ->
    fh_weight (sf_face (rq_font r1)) = fh_weight (sf_face (rq_font r2)) /\ fh_style (sf_face (rq_font r1)) = fh_style (sf_face (rq_font r2)).
(** Every face is stroked in one weight and style only. *)
Definition stroked_alike (rs : list request) : Prop :=
  forall r1 r2, In r1 rs -> In r2 rs -> rq_stroke r1 <> None -> rq_stroke r2 <> None ->
    fh_handle (sf_face (rq_font r1)) = fh_handle (sf_face (rq_font r2)) ->
    sf_weight (rq_font r1) = sf_weight (rq_font r2) /\ sf_style (rq_font r1) = sf_style (rq_font r2).
