(** What FreeType's pictures of glyphs are, and what the pages of the atlas have to show of them. *)
From Verif Require Import Base FloatModel BuilderModel AtlasSpec.
Open Scope Z_scope.

(** FreeType's [FT_Pixel_Mode] and [FT_Bitmap]; the buffer is what may be read from its address
    on, nothing if the address is null. *)
Inductive pixel_mode := NoPixels | Mono | Gray | Gray2 | Gray4 | Lcd | LcdV | Bgra.
Record ft_bitmap := { fb_rows : Z; fb_width : Z; fb_pitch : Z; fb_buffer : list Z; fb_mode : pixel_mode }.
(** A glyph slot or a bitmap glyph: its picture, and the distance of its left edge from the pen to
    the right and of its top row from the baseline upward. *)
Record ft_slot := { fs_bitmap : ft_bitmap; fs_left : Z; fs_top : Z }.

(** Bytes of one pixel. *)
Definition pixel_bytes (m : pixel_mode) : Z := match m with Bgra => 4 | _ => 1 end.
(** FreeType's documentation of [pitch]: the distance from a row to the one below it; if it is
    negative the lowest row comes first in the buffer. *)
Definition row_start (b : ft_bitmap) (y : Z) : Z := if 0 <=? fb_pitch b then y * fb_pitch b else (fb_rows b - 1 - y) * - fb_pitch b.
(** Byte [k] of the pixel in column [x] of row [y]. *)
Definition ft_byte (b : ft_bitmap) (x y k : Z) : Z := nth (Z.to_nat (row_start b y + pixel_bytes (fb_mode b) * x + k)) (fb_buffer b) 0.
(** A picture FreeType may give: grey or coloured, all its rows in the buffer. *)
Definition well_formed (b : ft_bitmap) : Prop :=
  (fb_mode b = Gray \/ fb_mode b = Bgra) /\ 0 <= fb_rows b /\ 0 <= fb_width b /\ pixel_bytes (fb_mode b) * fb_width b <= Z.abs (fb_pitch b) /\
  fb_rows b * Z.abs (fb_pitch b) <= Z.of_nat (List.length (fb_buffer b)) /\ Forall (fun z => 0 <= z < 256) (fb_buffer b).
(** Its rows follow each other without a gap, from the top. *)
Definition tight (b : ft_bitmap) : Prop := fb_pitch b = pixel_bytes (fb_mode b) * fb_width b.
(** Coloured pixels are nowhere transparent; their colours are stored multiplied by their opacity. *)
Definition no_holes (b : ft_bitmap) : Prop :=
  fb_mode b = Bgra -> forall x y, 0 <= x < fb_width b -> 0 <= y < fb_rows b ->
    0 < ft_byte b x y 3 /\ forall k, 0 <= k < 3 -> ft_byte b x y k <= ft_byte b x y 3.
Definition fits (extent : Z) (b : ft_bitmap) : Prop := fb_width b <= extent /\ fb_rows b <= extent.

(** [v] of 255 is the part [c] of [a], rounded down; one less is allowed where it needs no rounding. *)
Definition part (v c a : Z) : Prop := 0 <= v <= 255 /\ v * a <= 255 * c <= v * a + a.
(** The value of a texture's pixel (red, green, blue and opacity from the lowest byte on) for a
    pixel of the picture: grey levels are the opacity of white. *)
Definition pixel_shows (b : ft_bitmap) (x y v : Z) : Prop :=
  match fb_mode b with
  | Bgra => exists red green blue, v = ft_byte b x y 3 * 2 ^ 24 + blue * 2 ^ 16 + green * 2 ^ 8 + red /\
      part red (ft_byte b x y 2) (ft_byte b x y 3) /\ part green (ft_byte b x y 1) (ft_byte b x y 3) /\ part blue (ft_byte b x y 0) (ft_byte b x y 3)
  | _ => v = ft_byte b x y 0 * 2 ^ 24 + 255 * 2 ^ 16 + 255 * 2 ^ 8 + 255
  end.
(** An answer is right for the picture [p]. *)
Definition placed (pages : list (texture * bool)) (p : ft_slot) (low : f32) (an : answer) : Prop :=
  let b := fs_bitmap p in
  an_width an = fb_width b /\ an_height an = fb_rows b /\ an_left an = f32_of_Z (fs_left p) /\ an_top an = f32_add (f32_of_Z (- fs_top p)) low /\
  (0 < fb_width b -> 0 < fb_rows b ->
    exists n t, an_picture an = OnPage n /\ nth_error pages n = Some (t, an_color an) /\ (an_color an = true <-> fb_mode b = Bgra) /\
      an_w an = fb_width b /\ an_h an = fb_rows b /\
      forall x y, 0 <= x < fb_width b -> 0 <= y < fb_rows b -> exists v, t (an_x an + x) (an_y an + y) = Some v /\ pixel_shows b x y v).
(** The picture a request is for; [None]: FreeType cannot draw it. *)
Definition ft_asked (pictures : look -> Z -> ft_slot) (strokes : look -> Z -> Z -> Z -> option ft_slot) (rq : request) (size : Z) : option ft_slot :=
  match rq_stroke rq with
  | None => Some (pictures (look_of (rq_font rq) size) (rq_glyph rq))
  | Some (t, j) => strokes (look_of (rq_font rq) size) (rq_glyph rq) t j
  end.
